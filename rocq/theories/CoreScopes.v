(** Stack discipline: evaluation neither adds nor removes scopes, and variables never disappear from a scope. *)
From Verif Require Import Base ScopeModel CoreModel CoreInv.
Open Scope Z_scope.

Definition sub_frame (f f' : frame) : Prop := forall x, has_key x f = true -> has_key x f' = true.
Definition sub_scopes (ss ss' : scopes) : Prop := Forall2 sub_frame ss ss'.
Definition grows (s s' : st) : Prop := s_scopes s <> [] -> sub_scopes (s_scopes s) (s_scopes s').

Lemma sub_frame_refl f : sub_frame f f.
Proof. intros x. auto. Qed.
Lemma sub_refl ss : sub_scopes ss ss.
Proof. induction ss; constructor; auto using sub_frame_refl. Qed.
Lemma sub_trans a b c : sub_scopes a b -> sub_scopes b c -> sub_scopes a c.
Proof.
  intros H. revert c. induction H as [|x y l l' Hx Hl IH]; intros c H'; inversion H' as [|y' z m m' Hy Hm]; subst; constructor.
  - intros k Hk. apply Hy, Hx, Hk.
  - now apply IH.
Qed.
Lemma has_key_dict_set {A} x k (v : A) d : has_key x (dict_set k v d) = (String.eqb k x || has_key x d)%bool.
Proof.
  unfold has_key. destruct (String.eqb_spec k x) as [->|N]; [now rewrite assoc_set_eq|].
  rewrite assoc_set_neq by congruence. reflexivity.
Qed.
Lemma has_key_frame_let x bs : forall f, has_key x (frame_let bs f) = (existsb (fun b => String.eqb (fst b) x) bs || has_key x f)%bool.
Proof.
  induction bs as [|[k v] bs IH]; intros f; cbn; auto. rewrite IH, has_key_dict_set.
  destruct (String.eqb k x), (existsb _ bs), (has_key x f); reflexivity.
Qed.
Lemma sub_frame_let bs f : sub_frame f (frame_let bs f).
Proof. intros x H. rewrite has_key_frame_let, H. now rewrite Bool.orb_true_r. Qed.
Lemma sub_scope_set d : forall bs ss, sub_scopes ss (snd (scope_set d bs ss)).
Proof.
  induction d as [|d IH]; intros bs ss; [apply sub_refl|].
  destruct ss as [|f rest]; [apply sub_refl|]. cbn [scope_set].
  set (go := fix go (todo : list (string * val)) (f : frame) (rest : scopes) : res unit * scopes := _).
  assert (G : forall todo f rest, sub_scopes (f :: rest) (snd (go todo f rest))).
  { induction todo as [|[x v] todo IHt]; intros f0 r0; cbn; [apply sub_refl|].
    destruct (has_key x f0).
    - eapply sub_trans; [|apply IHt]. constructor; [|apply sub_refl].
      intros y Hy. rewrite has_key_dict_set, Hy. apply Bool.orb_true_r.
    - specialize (IH bs r0). destruct (scope_set d bs r0) as [[u|e] r1]; cbn in *.
      + eapply sub_trans; [|apply IHt]. constructor; auto using sub_frame_refl.
      + constructor; auto using sub_frame_refl. }
  apply G.
Qed.
Lemma sub_length a b : sub_scopes a b -> length a = length b.
Proof. intros H. induction H; cbn; congruence. Qed.
Lemma sub_app a b c : sub_scopes (a ++ b)%list c -> sub_scopes a (firstn (length a) c) /\ sub_scopes b (skipn (length a) c).
Proof.
  revert c. induction a as [|x a IH]; intros c H; cbn in *; [split; [constructor|auto]|].
  inversion H as [|? y ? m Hx Hm]; subst. cbn. destruct (IH _ Hm). split; auto. constructor; auto.
Qed.
Lemma grows_closed : closed grows.
Proof.
  split.
  - intros s _. apply sub_refl.
  - intros s1 s2 s3 H1 H2 N. specialize (H1 N). eapply sub_trans; eauto. apply H2.
    intros Z. rewrite Z in H1. inversion H1. congruence.
  - intros s fs s1 H N. cbn in *. apply (sub_app fs). apply H. destruct fs; cbn; auto. discriminate.
  - intros s fs s1 H N. cbn. apply sub_refl.
  - intros s bs N. cbn. destruct (s_scopes s) as [|f ss]; [congruence|]. cbn. constructor; [apply sub_frame_let|apply sub_refl].
  - intros s bs N. cbn. apply sub_scope_set.
  - intros s c x v H _. apply sub_refl.
  - intros s c x v H _. apply sub_refl.
  - intros s c x v H _. apply sub_refl.
  - intros s c x v H _. apply sub_refl.
  - intros s l _. apply sub_refl.
  - intros s l _. apply sub_refl.
  - intros s _. apply sub_refl.
  - intros s l _. apply sub_refl.
  - intros s l _. apply sub_refl.
Qed.
Lemma grows_eval E n e s r s' : eval E n e s = Done r s' -> grows s s'.
Proof. apply (pres_eval _ grows_closed). Qed.
Lemma grows_exec E n es s r s' : exec E n es s = Done r s' -> grows s s'.
Proof. apply (pres_exec _ grows_closed). Qed.
(** frames come back from a block in the same number *)
Lemma frames_back {A} fs (m : EM A) s v fs' s' : pres grows m -> fs <> [] ->
  in_frames fs m s = Done (Ok (v, fs')) s' -> sub_scopes fs fs'.
Proof.
  intros Hm Hfs H. unfold in_frames in H. destruct (m _) as [[a|e] s1| |] eqn:Em; try discriminate.
  injection H as <- <- <-. apply Hm in Em. apply (sub_app fs (s_scopes s)). apply Em. cbn.
  destruct fs; [congruence|]. discriminate.
Qed.
