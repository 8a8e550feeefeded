(** Lemmas for C103, continued: taking everything back. *)
From Coq Require Import Permutation.
From Verif Require Import Base PyNum ScopeModel ToolsModel ToolsSpec ToolsProofs ToolsProofs2 ToolsProofs3 InspModel InspSpec InspProofs ChgModel ChgSpec ChgProofs.
Open Scope string_scope.
Open Scope list_scope.
Open Scope Z_scope.

Section Back.
  Variables (p : pat) (r : repl) (l2 : list answer).
  Definition plain_answers (l : list answer) : Prop := forall a, In a l -> a = Yes \/ a = No \/ a = Unclear.
  (** the same state, but that "revert" is among the answers to come *)
  Definition ahead (s t : val * mode) : Prop := fst s = fst t /\ exists l, plain_answers l /\ snd s = Asking (l ++ Revert :: l2) /\ snd t = Asking l.
  Definition back (f : val * mode -> res (val * mode)) : Prop :=
    (forall root s', f (root, Reverted) = Ok s' -> snd s' = Reverted) /\
    (forall s t s', ahead s t -> f s = Ok s' -> snd s' = Reverted \/ exists t', f t = Ok t' /\ ahead s' t').
  Lemma back_id : back (fun s => Ok s).
  Proof. split; [intros root s' [= <-]; reflexivity|]. intros s t s' A [= <-]. right. eauto. Qed.
  Lemma back_then f g : back f -> back g -> back (fun s => t <- f s ;; g t).
  Proof.
    intros [F1 F2] [G1 G2]. split.
    - intros root s' E. destruct (f (root, Reverted)) as [[x m]|] eqn:Ef; cbn in E; [|discriminate]. apply F1 in Ef. cbn in Ef. subst m. eapply G1, E.
    - intros s t s' A E. destruct (f s) as [[x m]|] eqn:Ef; cbn in E; [|discriminate]. destruct (F2 _ _ _ A Ef) as [H|(t' & H & A')].
      + cbn in H. subst m. left. eapply G1, E.
      + rewrite H. cbn. eapply G2; eassumption.
  Qed.
  Lemma back_runs l : Forall back l -> back (runs l).
  Proof. induction 1 as [|f l H F IH]; cbn; [apply back_id | apply back_then; assumption]. Qed.
  Lemma reply_plain l : plain_answers l ->
    (reply (l ++ Revert :: l2) = Ok (Revert, l2)) \/ exists a l', reply l = Ok (a, l') /\ reply (l ++ Revert :: l2) = Ok (a, l' ++ Revert :: l2) /\ plain_answers l' /\ (a = Yes \/ a = No).
  Proof.
    induction l as [|b l IH]; intros P; cbn; [auto|]. assert (P' : plain_answers l) by (intros a H; apply P; right; exact H).
    destruct (P b (or_introl eq_refl)) as [ -> |[ -> | -> ]]; [right; eauto 10 | right; eauto 10 | apply IH, P'].
  Qed.
  Lemma back_visit a : back (visit p r a).
  Proof.
    split; [intros root s' [= <-]; reflexivity|]. intros [root m] [root' m'] s' (E & l & P & Em & Em') V. cbn in E, Em, Em'. subst root' m m'. unfold visit in *. cbn [fst snd] in *.
    destruct (get root a) as [x|]; cbn [rbind] in *; [|discriminate]. destruct (getmatch p x) as [[mt|]|]; cbn [rbind] in *; [| |discriminate].
    2:{ injection V as <-. right. eexists. split; [reflexivity|]. split; [reflexivity|]. exists l. auto. }
    destruct (replace r (m_groups mt)) as [y|]; cbn [rbind] in *; [|discriminate].
    destruct (reply_plain l P) as [Q|(an & l' & Q1 & Q2 & P' & An)].
    - rewrite Q in V. cbn in V. injection V as <-. left. reflexivity.
    - rewrite Q2 in V. rewrite Q1. cbn [rbind fst snd] in *. right. destruct An as [-> | ->].
      + destruct (assigned root a y) as [root'|]; cbn [rbind] in *; [|discriminate]. injection V as <-. eexists. split; [reflexivity|]. split; [reflexivity|]. exists l'. auto.
      + injection V as <-. eexists. split; [reflexivity|]. split; [reflexivity|]. exists l'. auto.
  Qed.
  Lemma back_through : forall v a, back (through (visit p r) v a).
  Proof.
    induction v as [d F|l F|v Hd Hl] using val_ind2; intros a.
    - rewrite Forall_forall in F. change (back (fun s => t <- runs (map snd (by_key (map (fun kv => (fst kv, through (visit p r) (snd kv) (a ++ [K (fst kv)]))) d))) s ;; visit p r a t)).
      apply back_then; [|apply back_visit]. apply back_runs, Forall_forall. intros f Hf. apply in_map_iff in Hf. destruct Hf as ([k g] & <- & Hk).
      apply (Permutation_in _ (by_key_perm _)) in Hk. apply in_map_iff in Hk. destruct Hk as ([j x] & [= <- <-] & Hk). apply (F _ Hk).
    - change (back (fun s => t <- runs (arr_through (visit p r) a l 0) s ;; visit p r a t)). apply back_then; [|apply back_visit]. apply back_runs. generalize 0. induction F as [|x l H F IH]; intros i; constructor; [apply H | apply IH].
    - assert (E : through (visit p r) v a = (fun s => t <- Ok s ;; visit p r a t)) by (destruct v as [| | | | | |l|d]; try reflexivity; [now destruct (Hl l) | now destruct (Hd d)]).
      rewrite E. apply back_then; [apply back_id | apply back_visit].
  Qed.
End Back.
