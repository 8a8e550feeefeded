(** Searching with a pattern of pfainspector ends without an error, where no a +- b is in it. *)
From Coq Require Import Lia.
From Verif Require Import Base PyNum ScopeModel ToolsModel ToolsSpec ToolsProofs InspModel InspSpec InspProofs.
Open Scope string_scope.
Open Scope list_scope.

(** without a +- b *)
Section Calm.
Fixpoint calm (c : cmd) : Prop :=
  match c with
  | CObject l _ => all_pairs calm l
  | CArray l _ _ => all_of calm l
  | CGroup l => (fix chains l := match l with [] => True | q :: l' => all_of calm q /\ chains l' end) l
  | CApprox _ _ => False
  | _ => True
  end.
End Calm.
Definition answers (p : pat) : Prop := forall v, exists r, getmatch p v = Ok r.
Lemma answers_items : forall l, Forall answers l -> forall w out, (length l <= length w)%nat -> exists r, g_items l w out = Ok r.
Proof.
  induction 1 as [|q l H F IH]; intros w out L; cbn [g_items]; [eauto|]. destruct w as [|x w]; [cbn in L; lia|]. destruct (H x) as [[m|] ->]; cbn [rbind]; [apply IH; cbn in L; lia | eauto].
Qed.
Lemma answers_entries : forall d e, Forall (fun kq => answers (snd kq)) d -> no_key_missing d e = true -> forall out, exists r, g_entries d e out = Ok r.
Proof.
  induction 1 as [|[k q] d H F IH]; intros N out; cbn [g_entries]; [eauto|]. unfold no_key_missing, unmarked in *. cbn [filter fst] in N.
  destruct (String.eqb_spec k "@") as [->|D]; cbn [negb] in N; [apply IH, N|]. cbn [forallb fst] in N. apply andb_prop in N. destruct N as [N1 N2]. unfold has_key in N1.
  destruct (assoc k e) as [x|]; [|discriminate]. cbn [snd] in H. destruct (H x) as [[m|] ->]; cbn [rbind]; [apply IH, N2 | eauto].
Qed.
Lemma answers_every : forall l h, Forall answers l -> forall last, exists r, g_every h l last = Ok r.
Proof. induction 1 as [|q l H F IH]; intros last; cbn [g_every]; [eauto|]. destruct (H h) as [[m|] ->]; cbn [rbind]; [apply IH | eauto]. Qed.
Lemma answers_some : forall l h, Forall answers l -> exists r, g_some h l = Ok r.
Proof. induction 1 as [|q l H F IH]; cbn [g_some]; [eauto|]. destruct (H h) as [[m|] ->]; cbn [rbind]; eauto. Qed.
Lemma answers_and : forall l, Forall answers l -> answers (PAnd l).
Proof. intros l F v. rewrite getmatch_and. apply answers_every, F. Qed.
Lemma answers_range : forall s, answers (range s).
Proof. intros [[[] n]|] v; cbn; unfold found; repeat match goal with |- context [match ?x with _ => _ end] => destruct x end; eauto. Qed.

Definition answered (c : cmd) : Prop := sound c \/ (exists a s t b, c = CBetween a s t b) -> calm c -> forall n p n', regex n c = Ok (p, n') -> answers p.
Lemma answered_list : forall l, Forall answered l -> all_of sound l -> all_of calm l -> forall n ps n', each regex n l = Ok (ps, n') -> Forall answers ps.
Proof.
  induction 1 as [|c l H F IH]; intros S C n ps n' E; [injection E as <- <-; constructor|]. apply each_cons in E. destruct E as (p & n1 & ps' & E1 & E2 & ->).
  destruct S as [S1 S2], C as [C1 C2]. constructor; [eapply H; eauto | eapply IH; eauto].
Qed.
Lemma answered_chains : forall l, Forall (Forall answered) l -> all_chains sound l -> calm (CGroup l) -> forall n ps n', each (each regex) n l = Ok (ps, n') -> Forall (Forall answers) ps.
Proof.
  induction 1 as [|c l H F IH]; intros S C n ps n' E; [injection E as <- <-; constructor|]. apply each_cons in E. destruct E as (p & n1 & ps' & E1 & E2 & ->).
  destruct S as (_ & S1 & S2), C as [C1 C2]. constructor; [eapply answered_list; eauto | eapply IH; eauto].
Qed.
Lemma answered_pairs : forall l, Forall (fun kc => answered (snd kc)) l -> all_pairs sound l -> all_pairs calm l -> forall n ps n', each pair_regex n l = Ok (ps, n') -> Forall (fun kq => answers (snd kq)) ps.
Proof.
  induction 1 as [|[k c] l H F IH]; intros S C n ps n' E; [injection E as <- <-; constructor|]. apply each_cons in E. destruct E as ([k' p] & n1 & ps' & E1 & E2 & ->).
  cbn in E1. destruct (regex n c) as [[q n2]|] eqn:Er; cbn in E1; [|discriminate]. injection E1 as <- <- <-. destruct S as [S1 S2], C as [C1 C2].
  constructor; [eapply H; eauto | eapply IH; eauto].
Qed.
Theorem regex_answered : forall c, answered c.
Proof.
  apply cmd_all.
  - intros c L S C n p n' E. destruct c as [s|s|x| |f g| | |s|a s t b|x e|]; try contradiction; cbn [regex] in E; injection E as <- <-.
    + intros v. destruct (String.eqb s "null"); [|destruct (String.eqb s "true"); [|destruct (String.eqb s "false")]]; cbn; unfold found; eauto.
    + intros v. cbn. unfold found. eauto.
    + intros v. cbn. unfold found. eauto.
    + intros v. cbn. unfold found. eauto.
    + intros v. cbn. unfold found. repeat match goal with |- context [match ?x with _ => _ end] => destruct x end; eauto.
    + apply answers_range.
    + apply answers_and. constructor; [exact (answers_range (Some (reverse s, a)))|]. constructor; [exact (answers_range (Some (upper t, b))) | constructor].
  - intros l e F S C n p n' E. destruct S as [[N S]|(a & s & t & b & X)]; [|discriminate]. cbn [regex calm] in *. change (each _ n l) with (each pair_regex n l) in E.
    destruct (each pair_regex n l) as [[ps n2]|] eqn:Ee; cbn [rbind fst snd] in E; [|discriminate]. pose proof (answered_pairs l F S C n ps n2 Ee) as A.
    unfold dict_of_pairs in E. rewrite dict_of_nodup in E by (cbn; rewrite (pairs_keys l n ps n2 Ee); exact N). cbn [app] in E.
    destruct e; [destruct (has_key "self" ps); [discriminate|]|]; injection E as <- <-; intros v; [rewrite getmatch_min | rewrite getmatch_dict]; destruct v as [| | | | | | |d]; eauto.
    + destruct (no_key_missing ps d) eqn:K; [apply answers_entries; assumption | eauto].
    + destruct (no_key_missing ps d) eqn:K; cbn [andb]; [|eauto]. destruct (no_key_missing d ps); [apply answers_entries; assumption | eauto].
  - intros l b a F S C n p n' E. destruct S as [S|(a0 & s & t & b0 & X)]; [|discriminate]. cbn [regex sound calm] in *. destruct (b && a)%bool; [discriminate|].
    destruct (each regex n l) as [[ps n2]|] eqn:Ee; cbn [rbind fst snd] in E; [|discriminate]. pose proof (answered_list l F S C n ps n2 Ee) as A. injection E as <- <-. intros v.
    destruct b; [|destruct a].
    + destruct v as [| | | | | |w|]; try (cbn; eauto; fail). change (exists r, (if (length w <? length ps)%nat then Ok None else let k := (length w - length ps)%nat in
        r <- g_items ps (skipn k w) (Mt (VArr []) (VArr []) []) ;; Ok (match r with Some m => Some (Mt (VArr (firstn k w ++ list_of (m_orig m))) (VArr (firstn k w ++ list_of (m_mod m))) (m_groups m)) | None => None end)) = Ok r).
      destruct (Nat.ltb_spec (length w) (length ps)); [eauto|]. cbv zeta.
      destruct (answers_items ps A (skipn (length w - length ps) w) (Mt (VArr []) (VArr []) [])) as [r ->]; [rewrite skipn_length; lia|]. cbn [rbind]. eauto.
    + destruct v as [| | | | | |w|]; try (cbn; eauto; fail). change (exists r, (if (length w <? length ps)%nat then Ok None else
        r <- g_items ps w (Mt (VArr []) (VArr []) []) ;; Ok (match r with Some m => let rest := skipn (length ps) w in Some (Mt (VArr (list_of (m_orig m) ++ rest)) (VArr (list_of (m_mod m) ++ rest)) (m_groups m)) | None => None end)) = Ok r).
      destruct (Nat.ltb_spec (length w) (length ps)); [eauto|]. destruct (answers_items ps A w (Mt (VArr []) (VArr []) [])) as [r ->]; [lia|]. cbn [rbind]. eauto.
    + rewrite getmatch_list. destruct v as [| | | | | |w|]; eauto. destruct (Nat.eqb_spec (length ps) (length w)); [|eauto]. apply answers_items; [exact A | lia].
  - intros l F S C n p n' E. destruct S as [S|(a0 & s & t & b0 & X)]; [|discriminate]. cbn [regex] in E. destruct (each (each regex) n l) as [[ps n2]|] eqn:Ee; cbn [rbind fst snd] in E; [|discriminate].
    pose proof (answered_chains l F S C n ps n2 Ee) as A. injection E as <- <-. intros v.
    assert (M : exists q, is_matcher q = true /\ answers q /\ (match ps with [q] => PAnd q | _ => POr (map PAnd ps) end) = q).
    { destruct ps as [|q [|q2 qs]]; (eexists; split; [|split; [|reflexivity]]; [reflexivity|]).
      - intros w. rewrite getmatch_or. cbn. eauto.
      - apply answers_and. inversion A; assumption.
      - intros w. rewrite getmatch_or. apply answers_some. rewrite Forall_map. eapply Forall_impl; [|exact A]. intros q'. apply answers_and. }
    destruct M as (q & Mq & Aq & Eq).
    match goal with |- exists r, getmatch (PGroup ?g ?y) v = Ok r => replace y with q by (rewrite <- Eq; destruct ps as [|? [|? ?]]; reflexivity) end. cbn [getmatch]. rewrite Mq. destruct (Aq v) as [r ->]. cbn [rbind]. eauto.
Qed.
Lemma yields_none : forall p l, (forall v, exists r, getmatch p v = Ok r) -> snd (yields p l) = None.
Proof.
  intros p l A. induction l as [|[i x] l IH]; cbn [yields]; [reflexivity|]. destruct (A x) as [[m|] ->]; [destruct (yields p l); exact IH | exact IH].
Qed.
