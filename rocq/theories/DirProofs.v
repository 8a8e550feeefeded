From Verif Require Import Base DirModel DirSpec.
Open Scope string_scope.
Open Scope list_scope.
Section D.
Variable w : directories.
Variable home : string.
Hypothesis again : open_again w home.
Definition enterable (d : string) : Prop := forall c, chdir w c d = Some d.
Definition sane (s : place) : Prop := enterable (fst s) /\ Forall enterable (snd s).
Lemma run_app l : forall s l', run w s (l ++ l') = (fst (run w s l) ++ fst (run w (snd (run w s l)) l'), snd (run w (snd (run w s l)) l')).
Proof.
  induction l as [|c l IH]; intros s l'; cbn [run app].
  - cbn. now destruct (run w s l').
  - destruct (step w s c) as [r s']. rewrite IH. destruct (run w s' l) as [rs s'']. reflexivity.
Qed.
Lemma step_sane s c : sane s -> sane (snd (step w s c)).
Proof.
  intros [A B]. destruct again as [H1 H2]. destruct c as [x|]; cbn [step].
  - destruct (isdir w (fst s) x); [|now split]. destruct (chdir w (fst s) (expanduser w x)) as [d|] eqn:Q; cbn.
    + split; [intro c; exact (H2 _ _ _ Q c)|now constructor].
    + split; [exact A|now constructor].
  - destruct (snd s) as [|d st] eqn:Q; cbn; [split; [exact A|now rewrite Q]|]. inversion B as [|? ? D F]; subst. rewrite (D (fst s)). cbn. now split.
Qed.
Lemma run_sane l : forall s, sane s -> sane (snd (run w s l)).
Proof.
  induction l as [|c l IH]; intros s N; [exact N|]. cbn [run]. pose proof (step_sane s c N) as P. destruct (step w s c) as [r s']. cbn in P.
  specialize (IH s' P). destruct (run w s' l) as [rs s'']. exact IH.
Qed.
Lemma nested_back l : nested l -> forall s, sane s -> all_ok (fst (run w s l)) -> snd (run w s l) = s.
Proof.
  induction 1 as [|x l l' N IH N' IH']; intros s P A; [reflexivity|]. cbn [run] in *. pose proof (step_sane s (Enter x) P) as P1.
  destruct (step w s (Enter x)) as [r s1] eqn:S1. cbn in P1. rewrite run_app in *. 
  destruct (run w s1 l) as [rs s2] eqn:R1. cbn [fst snd] in *.
  assert (A1 : all_ok rs) by (intros y Y; apply A; right; cbn; apply in_or_app; now left).
  specialize (IH s1 P1). rewrite R1 in IH. cbn in IH. specialize (IH A1). subst s2.
  assert (r = Ok tt) by (apply A; now left). subst r.
  assert (E : s1 = (fst s1, fst s :: snd s)).
  { cbn [step] in S1. destruct (isdir w (fst s) x); [|discriminate]. destruct (chdir w (fst s) (expanduser w x)); inversion S1. reflexivity. }
  cbn [run] in *. assert (B : step w s1 Back = (Ok tt, s)).
  { rewrite E. cbn [step snd fst]. rewrite (proj1 P (fst s1)). now destruct s. }
  rewrite B in *. destruct (run w s l') as [rs' s3] eqn:R2. cbn [fst snd] in *.
  specialize (IH' s P). rewrite R2 in IH'. cbn in IH'. apply IH'. intros y Y. apply A. right. cbn. apply in_or_app. right. now right.
Qed.
Definition bottom (s : place) : string := last (snd s) (fst s).
Lemma last_any {A} (l : list A) x d d' : last (x :: l) d = last (x :: l) d'.
Proof. revert x. induction l as [|y l IH]; intro x; [reflexivity|]. exact (IH y). Qed.
Lemma step_bottom s c : sane s -> bottom (snd (step w s c)) = bottom s.
Proof.
  intros [A B]. destruct s as [d0 st0]. unfold bottom. destruct c as [x|]; cbn [step fst snd] in *.
  - assert (Q : forall d, last (d0 :: st0) d = last st0 d0) by (intro d; destruct st0 as [|y st]; [reflexivity|apply (last_any st y)]).
    destruct (isdir w d0 x); [|reflexivity]. destruct (chdir w d0 (expanduser w x)) as [d|]; cbn [fst snd]; apply Q.
  - destruct st0 as [|d st]; [reflexivity|]. inversion B as [|? ? D F]; subst. rewrite (D d0). cbn [fst snd]. destruct st as [|y st]; [reflexivity|]. apply (last_any st y).
Qed.
Lemma run_bottom l : forall s, sane s -> bottom (snd (run w s l)) = bottom s.
Proof.
  induction l as [|c l IH]; intros s N; [reflexivity|]. cbn [run]. pose proof (step_sane s c N) as P. pose proof (step_bottom s c N) as Q.
  destruct (step w s c) as [r s']. cbn in P, Q. specialize (IH s' P). destruct (run w s' l) as [rs s'']. cbn in *. now rewrite IH.
Qed.
Lemma backs n : forall s, sane s -> length (snd s) = n -> all_ok (fst (run w s (repeat Back n))) /\ snd (run w s (repeat Back n)) = (bottom s, []).
Proof.
  induction n as [|n IH]; intros [d0 st] P L; cbn [snd] in L.
  - destruct st; [|discriminate]. cbn. split; [intros r []|reflexivity].
  - destruct st as [|d st]; [discriminate|]. cbn [repeat run step fst snd]. destruct P as [A B]. cbn in A, B. inversion B as [|? ? D F]; subst. rewrite (D d0).
    assert (P' : sane (d, st)) by now split. destruct (IH (d, st) P') as [X Y]; [cbn in *; lia|]. destruct (run w (d, st) (repeat Back n)) as [rs s2]. cbn [fst snd] in *.
    split; [intros r [R|R]; [now subst|now apply X]|]. rewrite Y. unfold bottom. cbn [fst snd]. destruct st as [|y st]; [reflexivity|]. now rewrite (last_any st y d d0).
Qed.
End D.
Lemma counts w l : forall s, no_oserror (fst (run w s l)) ->
  (length (snd (snd (run w s l))) + obeyed is_back l (fst (run w s l)) = length (snd s) + obeyed is_cd l (fst (run w s l)))%nat.
Proof.
  induction l as [|c l IH]; intros s N; [reflexivity|]. cbn [run] in *. destruct (step w s c) as [r s'] eqn:S0. specialize (IH s').
  destruct (run w s' l) as [rs s''] eqn:R. cbn [fst snd] in *.
  assert (N' : no_oserror rs) by (intro X; apply N; now right). assert (N0 : r <> Raise (PyErr "OSError")) by (intro X; apply N; now left).
  specialize (IH N'). unfold obeyed in *. cbn [combine filter fst snd]. destruct c as [x|]; cbn [step is_cd is_back andb] in *.
  - destruct (isdir w (fst s) x); [|inversion S0; subst; exact IH].
    destruct (chdir w (fst s) (expanduser w x)) as [d|]; inversion S0; subst; [cbn in *; lia|congruence].
  - destruct (snd s) as [|d st] eqn:Q; [inversion S0; subst; rewrite Q in IH; exact IH|].
    destruct (chdir w (fst s) d) as [d'|]; inversion S0; subst; [cbn in *; lia|congruence].
Qed.
