(** Runs: their iterations, their end, and the cost along them. *)
From Coq Require Import Permutation Reals Lra Sorted.
From Verif Require Import Base ScopeModel CartModel CartProofs3 KmeansModel KmeansSpec KmeansProofs KmeansProofs2.
Open Scope list_scope.

(** all lists of [n] numbers less than [k] *)
Fixpoint all_lists (k n : nat) : list (list nat) :=
  match n with O => [[]] | S n' => flat_map (fun i => map (cons i) (all_lists k n')) (seq 0 k) end.
Lemma all_lists_length k n : length (all_lists k n) = (k ^ n)%nat.
Proof.
  induction n as [|n IH]; cbn [all_lists Nat.pow]; auto. rewrite <- IH. set (l := all_lists k n).
  assert (G : forall a m, length (flat_map (fun i => map (cons i) l) (seq a m)) = (m * length l)%nat).
  { intros a m. revert a. induction m as [|m IHm]; intros a; cbn; auto. now rewrite app_length, map_length, IHm. }
  apply G.
Qed.
Lemma all_lists_in k : forall l, Forall (fun i => (i < k)%nat) l -> In l (all_lists k (length l)).
Proof.
  induction 1 as [|i l H _ IH]; cbn; auto. apply in_flat_map. exists i. split; [apply in_seq; lia|]. now apply in_map.
Qed.
Lemma filter_less {B} (p q : B -> bool) (a : B) : forall l, (forall x, p x = true -> q x = true) -> In a l -> p a = false -> q a = true ->
  (length (filter p l) < length (filter q l))%nat.
Proof.
  intros l H. assert (G : forall l, (length (filter p l) <= length (filter q l))%nat).
  { induction l0 as [|x l0 IH]; cbn; auto. destruct (p x) eqn:P; [rewrite (H x P); cbn; lia|]. destruct (q x); cbn; lia. }
  induction l as [|x l IH]; intros I P Q; [destruct I|]. cbn. destruct I as [->|I].
  - rewrite P, Q. cbn. specialize (G l). lia.
  - specialize (IH I P Q). destruct (p x) eqn:Px; [rewrite (H x Px); cbn; lia|]. destruct (q x); cbn; lia.
Qed.

(** *** iterations, for every arithmetic *)
Section Iterations.
  Variable N : arith.
  Lemma optimize_count metric us dim minPoints dataset weights n : forall fuel it cs draws cs' m,
    (it <= n)%nat -> optimize N metric fuel us dim minPoints dataset weights (max_iterations N n) it cs draws = Ok (cs', m) -> m = S n.
  Proof.
    induction fuel as [|fuel IH]; intros it cs draws cs' m L E; cbn [optimize] in E; [discriminate|].
    destruct iterate as [[[cs1 ds] corrs]|e]; cbn [rbind] in E; [|discriminate]. unfold max_iterations at 1 in E.
    destruct (Nat.ltb_spec it n) as [H|H]; [eapply IH; [|exact E]; lia|]. inversion E; subst. f_equal. lia.
  Qed.
End Iterations.

Open Scope R_scope.
Section Runs.
  Variable srt : list R -> list nat.
  Notation N := (RA srt).
  Variable metric : list R -> list R -> R.
  Variable dim : nat.
  Hypothesis order : euclidean_order dim metric.
  Variable us dataset : list (list R).
  Notation drawn := (Forall (fun i => (i < @length (list R) us)%nat)).
  Notation the_cost := (the_cost srt metric dim dataset).
  Notation spent := (spent dim dataset).

  (** the centers of an assignment *)
  Definition means (k : nat) (classes : list nat) : list (list R) := map (fun j => mean_of N dim (chosen classes j dataset)) (seq 0 k).
  Lemma spent_ext classes (cs cs' : list (list R)) : length classes = length dataset -> Forall (fun i => (i < length cs)%nat) classes -> length cs = length cs' ->
    (forall i k, (i < length cs)%nat -> (k < dim)%nat -> at_k k (nth i cs []) = at_k k (nth i cs' [])) -> spent classes cs = spent classes cs'.
  Proof.
    intros L F E H. unfold KmeansProofs2.spent. apply rsum_ext. intros [i x] I. apply in_combine_l in I. rewrite Forall_forall in F. cbn [fst snd].
    unfold dist2. apply rsum_ext. intros k K. apply in_seq in K. rewrite H; auto; lia.
  Qed.
  Lemma step_means minPoints (cs : list (list R)) draws (cs' : list (list R)) ds (corrs : list (option (list R))) : cs <> [] -> drawn draws ->
    iterate N metric us dim minPoints dataset None cs draws = Ok (cs', ds, corrs) -> no_jump corrs ->
    spent (closest_cluster N metric dataset cs) cs' = spent (closest_cluster N metric dataset cs) (means (length cs) (closest_cluster N metric dataset cs)).
  Proof.
    intros NE F E J. destruct (classes_ok srt metric dim order dataset cs NE) as [CL CF]. set (classes := closest_cluster N metric dataset cs) in *.
    destruct (iterate_spec N us metric dim _ _ _ _ _ _ _ F E) as (L & _ & LC & H). fold classes in H.
    change (@length (list R) cs' = @length (list R) cs) in L. change (@length (option (list R)) corrs = @length (list R) cs) in LC.
    apply spent_ext; auto. { now rewrite L. } { unfold means. now rewrite map_length, seq_length. }
    intros i k Li Lk. destruct (nth_correction corrs i J) as (corr & C); [lia|].
    assert (Li' : (i < @length (list R) cs)%nat) by lia.
    specialize (H i Li'). change (stepped N us dim dataset classes i (nth i cs []) (nth i cs' []) (@nth (option (list R)) i corrs None)) in H. rewrite C in H. destruct H as (S & -> & Q). rewrite Q. rewrite mean_step by auto.
    unfold means. rewrite nth_indep with (d' := mean_of N dim (chosen classes 0%nat dataset)) by (rewrite map_length, seq_length; lia).
    rewrite (map_nth (fun j => mean_of N dim (chosen classes j dataset)) (seq 0 (length cs)) 0%nat), seq_nth by lia.
    unfold mean_of. rewrite at_table by auto. unfold mean. rewrite map_length. cbn [div ofn RA]. rewrite sum_is. reflexivity.
  Qed.

  Definition less (v : R) (k : nat) : list (list nat) := filter (fun a => if Rlt_dec (spent a (means k a)) v then true else false) (all_lists k (length dataset)).
  (** a condition that goes on only if no cluster jumped and some correction is not zero *)
  Definition ends (cond : condition N) : Prop := forall it corrs, Forall (fun c => match c with Some x => @length R x = dim | None => True end) corrs -> cond it corrs = true -> no_jump corrs /\ exists i corr, nth i corrs None = Some corr /\ exists k, (k < dim)%nat /\ at_k k corr <> 0.
  Lemma optimize_ends cond minPoints : ends cond -> forall fuel it (cs : list (list R)) draws, cs <> [] -> drawn draws ->
    (length (less (the_cost cs) (length cs)) < fuel)%nat ->
    optimize N metric fuel us dim minPoints dataset None cond it cs draws <> Raise (PyErr "out of fuel").
  Proof.
    intros EN. induction fuel as [|fuel IH]; intros it cs draws NE F L; [lia|]. cbn [optimize].
    destruct (iterate N metric us dim minPoints dataset None cs draws) as [[[cs' ds] corrs]|e] eqn:E; cbn [rbind].
    2: { apply moves_error in E. subst e. intros X. inversion X. }
    destruct (cond it corrs) eqn:C; [|discriminate].
    assert (D : Forall (fun c => match c with Some x => @length R x = dim | None => True end) corrs).
    { destruct (iterate_spec N us metric dim _ _ _ _ _ _ _ F E) as (_ & _ & LC & H). apply Forall_forall. intros c I. destruct (In_nth _ _ None I) as (i & Li & Q).
      change (@length (option (list R)) corrs = @length (list R) cs) in LC. change (i < @length (option (list R)) corrs)%nat in Li. rewrite LC in Li. specialize (H i Li).
      change (stepped N us dim dataset (closest_cluster N metric dataset cs) i (nth i cs []) (nth i cs' []) (@nth (option (list R)) i corrs None)) in H. change (@nth (option (list R)) i corrs None = c) in Q. rewrite Q in H. destruct c as [x|]; auto. destruct H as (_ & -> & _). unfold mean_of. now rewrite map_length, seq_length. }
    destruct (EN _ _ D C) as [J Z].
    destruct (step_spent srt metric dim order us dataset minPoints cs draws cs' ds corrs NE F E J) as [_ S]. specialize (S Z).
    destruct (step_cost srt metric dim order us dataset minPoints cs draws cs' ds corrs NE F E J) as [S' NE'].
    pose proof (step_means minPoints cs draws cs' ds corrs NE F E J) as M.
    destruct (iterate_spec N us metric dim _ _ _ _ _ _ _ F E) as (L' & F' & _). change (@length (list R) cs' = @length (list R) cs) in L'.
    destruct (classes_ok srt metric dim order dataset cs NE) as [CL CF]. set (classes := closest_cluster N metric dataset cs) in *.
    apply IH; auto. rewrite L'.
    assert (G : (length (less (the_cost cs') (length cs)) < length (less (the_cost cs) (length cs)))%nat); [|lia].
    unfold less. apply (filter_less _ _ classes).
    - intros a. destruct Rlt_dec as [A|A]; [|discriminate]. intros _. destruct Rlt_dec as [B|B]; auto; exfalso; lra.
    - rewrite <- CL. now apply all_lists_in.
    - rewrite <- M. destruct Rlt_dec as [A|A]; auto; exfalso; lra.
    - rewrite <- M. destruct Rlt_dec as [A|A]; auto; exfalso; lra.
  Qed.
  Lemma less_bound v k : (length (less v k) <= k ^ length dataset)%nat.
  Proof.
    unfold less. rewrite <- all_lists_length. generalize (all_lists k (length dataset)). induction l as [|x l IH]; cbn; auto. destruct Rlt_dec; cbn; lia.
  Qed.

  (** the cost along a run that stops at jumps *)
  Lemma optimize_cost cond minPoints : (forall it corrs, cond it corrs = true -> no_jump corrs) -> forall fuel it (cs : list (list R)) draws (cs' : list (list R)) m, cs <> [] -> drawn draws ->
    optimize N metric fuel us dim minPoints dataset None cond it cs draws = Ok (cs', m) ->
    exists (cs1 : list (list R)) ds1 ds2 corrs, iterate N metric us dim minPoints dataset None cs1 ds1 = Ok (cs', ds2, corrs) /\ cs1 <> [] /\ drawn ds1 /\ length cs1 = length cs /\
      cond (m - 1)%nat corrs = false /\ (S it <= m)%nat /\ the_cost cs1 <= the_cost cs /\ (no_jump corrs -> the_cost cs' <= the_cost cs).
  Proof.
    intros EN. induction fuel as [|fuel IH]; intros it cs draws cs' m NE F E; cbn [optimize] in E; [discriminate|].
    destruct (iterate N metric us dim minPoints dataset None cs draws) as [[[cs1 ds] corrs]|e] eqn:I; cbn [rbind] in E; [|discriminate].
    destruct (cond it corrs) eqn:C.
    - pose proof (EN _ _ C) as J. destruct (iterate_spec N us metric dim _ _ _ _ _ _ _ F I) as (L' & F' & _). change (@length (list R) cs1 = @length (list R) cs) in L'.
      destruct (step_spent srt metric dim order us dataset minPoints cs draws cs1 ds corrs NE F I J) as [S _].
      destruct (step_cost srt metric dim order us dataset minPoints cs draws cs1 ds corrs NE F I J) as [S' NE'].
      destruct (IH _ _ _ _ _ NE' F' E) as (cs2 & ds1 & ds2 & corrs2 & A1 & A2 & A3 & A4 & A5 & A6 & A7 & A8).
      exists cs2, ds1, ds2, corrs2. repeat split; auto; try congruence; try lia; try lra. intros Q. specialize (A8 Q). lra.
    - inversion E; subst. exists cs, draws, ds, corrs. replace (S it - 1)%nat with it by lia. repeat split; auto; try lra.
      intros J. destruct (step_spent srt metric dim order us dataset minPoints cs draws cs' ds corrs NE F I J) as [S _].
      destruct (step_cost srt metric dim order us dataset minPoints cs draws cs' ds corrs NE F I J) as [S' NE']. lra.
  Qed.
End Runs.
