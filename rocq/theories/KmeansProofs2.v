(** One iteration: which centers change and how; the cost never grows; runs end. *)
From Coq Require Import Permutation Reals Lra Sorted.
From Verif Require Import Base ScopeModel CartModel CartProofs3 KmeansModel KmeansSpec KmeansProofs.
Open Scope list_scope.

(** *** positions, for every arithmetic *)
Section Positions.
  Variable N : arith.
  Lemma set_nth_length j x : forall l, length (set_nth N j x l) = length l.
  Proof. induction j; intros [|y l]; cbn; auto. Qed.
  Lemma set_nth_same j x d : forall l, (j < length l)%nat -> nth j (set_nth N j x l) d = x.
  Proof. induction j; intros [|y l] L; cbn in *; try lia; auto. apply IHj. lia. Qed.
  Lemma set_nth_other j x d : forall l i, i <> j -> nth i (set_nth N j x l) d = nth i l d.
  Proof. induction j; intros [|y l] [|i] NE; cbn; auto; try congruence. Qed.

  Lemma new_cluster_spec us cs : forall draws x ds, Forall (fun i => (i < length us)%nat) draws ->
    new_cluster N us cs draws = Ok (x, ds) -> In x us /\ existsb (fun y => same N y x) cs = false /\ Forall (fun i => (i < length us)%nat) ds.
  Proof.
    induction draws as [|i draws IH]; intros x ds F E; cbn in E; [discriminate|]. inversion F; subst.
    destruct existsb eqn:X; [eauto|]. inversion E; subst. split; [now apply nth_In|auto].
  Qed.
  Lemma new_cluster_error us cs : forall draws e, new_cluster N us cs draws = Raise e -> e = out_of_draws.
  Proof. induction draws as [|i draws IH]; intros e E; cbn in E; [congruence|]. destruct existsb; [eauto|discriminate]. Qed.

  (** what the iteration does to the j-th center *)
  Definition stepped us dim dataset classes (j : nat) (old new : list (num N)) (correction : option (list (num N))) : Prop :=
    match correction with
    | Some corr => let sel := chosen classes j dataset in sel <> [] /\ corr = mean_of N dim (residuals_of N dim old sel) /\ new = plus N dim old corr
    | None => In new us
    end.
  Variable us : list (list (num N)).
  Notation drawn := (Forall (fun i => (i < length us)%nat)).
  Lemma move_spec dim minPoints dataset classes j clusters draws cs ds corr : (j < length clusters)%nat -> drawn draws ->
    move N us dim minPoints dataset None classes j clusters draws = Ok (cs, ds, corr) ->
    length cs = length clusters /\ drawn ds /\ (forall i, i <> j -> nth i cs [] = nth i clusters []) /\
    stepped us dim dataset classes j (nth j clusters []) (nth j cs []) corr.
  Proof.
    intros L F E. unfold move in E. cbn [rbind] in E. set (sel := chosen classes j dataset) in *.
    destruct (match minPoints with None => false | Some m => Nat.ltb (length sel) m end).
    - destruct new_cluster as [[x ds']|e] eqn:C; cbn [rbind fst snd] in E; inversion E; subst.
      destruct (new_cluster_spec _ _ _ _ _ F C) as (I & _ & F'). rewrite set_nth_length. split; auto. split; auto. split; [intros; now apply set_nth_other|].
      cbn. now rewrite set_nth_same.
    - unfold residuals_of in E. rewrite map_length in E. destruct (Nat.eqb_spec (length sel) 0) as [Z|Z].
      + destruct new_cluster as [[x ds']|e] eqn:C; cbn [rbind fst snd] in E; inversion E; subst.
        destruct (new_cluster_spec _ _ _ _ _ F C) as (I & _ & F'). rewrite set_nth_length. split; auto. split; auto. split; [intros; now apply set_nth_other|].
        cbn. now rewrite set_nth_same.
      + inversion E; subst. rewrite set_nth_length. split; auto. split; auto. split; [intros; now apply set_nth_other|].
        cbn. rewrite set_nth_same by auto. split; auto. fold sel. now destruct sel.
  Qed.
  Lemma move_error dim minPoints dataset classes j clusters draws e :
    move N us dim minPoints dataset None classes j clusters draws = Raise e -> e = out_of_draws.
  Proof.
    intros E. unfold move in E. cbn [rbind] in E.
    destruct (match minPoints with None => false | Some m => Nat.ltb _ m end); [|destruct Nat.eqb; [|discriminate]];
      (destruct new_cluster as [[x ds']|e'] eqn:C; cbn [rbind] in E; [discriminate|]; inversion E; subst; eapply new_cluster_error; eauto).
  Qed.
  Lemma moves_spec dim minPoints dataset classes : forall n a clusters draws cs ds corrs, (a + n <= length clusters)%nat -> drawn draws ->
    moves N us dim minPoints dataset None classes (seq a n) clusters draws = Ok (cs, ds, corrs) ->
    length cs = length clusters /\ drawn ds /\ length corrs = n /\
    (forall i, (i < a \/ a + n <= i)%nat -> nth i cs [] = nth i clusters []) /\
    (forall i, (i < n)%nat -> stepped us dim dataset classes (a + i) (nth (a + i) clusters []) (nth (a + i) cs []) (nth i corrs None)).
  Proof.
    induction n as [|n IH]; intros a clusters draws cs ds corrs L F E; cbn [seq moves] in E.
    - inversion E; subst. repeat split; auto. intros; lia.
    - destruct move as [[[cs1 ds1] corr]|e] eqn:M; cbn [rbind] in E; [|discriminate].
      destruct (moves N us dim minPoints dataset None classes (seq (S a) n) cs1 ds1) as [[[cs2 ds2] corrs']|e] eqn:R; cbn [rbind] in E; inversion E; subst.
      assert (Q0 : (a < length clusters)%nat) by lia.
      destruct (move_spec _ _ _ _ _ _ _ _ _ _ Q0 F M) as (L1 & F1 & O1 & S1).
      assert (Q : (S a + n <= length cs1)%nat) by (rewrite L1; lia).
      destruct (IH _ _ _ _ _ _ Q F1 R) as (L2 & F2 & C2 & O2 & S2).
      repeat split; auto; try lia; [cbn; lia| |].
      + intros i Hi. rewrite O2 by lia. apply O1. lia.
      + intros [|i] Hi; cbn [nth].
        * rewrite Nat.add_0_r, O2 by lia. auto.
        * specialize (S2 i ltac:(lia)). rewrite (O1 (S a + i)%nat) in S2 by lia. now rewrite <- !plus_n_Sm, <- plus_Sn_m.
  Qed.
  Lemma moves_error dim minPoints dataset classes : forall js clusters draws e,
    moves N us dim minPoints dataset None classes js clusters draws = Raise e -> e = out_of_draws.
  Proof.
    induction js as [|j js IH]; intros clusters draws e E; cbn [moves] in E; [discriminate|].
    destruct move as [[[cs1 ds1] corr]|e1] eqn:M; cbn [rbind] in E.
    - destruct moves as [[[cs2 ds2] corrs']|e2] eqn:R; cbn [rbind] in E; inversion E; subst. eauto.
    - inversion E; subst. eapply move_error; eauto.
  Qed.
  Lemma iterate_spec metric dim minPoints dataset clusters draws cs ds corrs : drawn draws ->
    iterate N metric us dim minPoints dataset None clusters draws = Ok (cs, ds, corrs) ->
    length cs = length clusters /\ drawn ds /\ length corrs = length clusters /\
    forall i, (i < length clusters)%nat -> stepped us dim dataset (closest_cluster N metric dataset clusters) i (nth i clusters []) (nth i cs []) (nth i corrs None).
  Proof.
    intros F E. unfold iterate in E. assert (Q : (0 + length clusters <= length clusters)%nat) by lia.
    destruct (moves_spec _ _ _ _ _ 0%nat _ _ _ _ _ Q F E) as (A & B & C & _ & D).
    repeat split; auto.
  Qed.
End Positions.

Open Scope R_scope.
Lemma pick_cons {B} b m (x : B) l : pick (b :: m) (x :: l) = if b then x :: pick m l else pick m l.
Proof. reflexivity. Qed.
(** a sum over the points is the sum over the clusters of the sums over their points *)
Lemma rsum_parts {B} (f : nat -> B -> R) k : forall classes (l : list B), length classes = length l -> Forall (fun i => (i < k)%nat) classes ->
  rsum (map (fun ix => f (fst ix) (snd ix)) (combine classes l)) = rsum (map (fun j => rsum (map (f j) (chosen classes j l))) (seq 0 k)).
Proof.
  induction classes as [|i classes IH]; intros [|x l] L F; try discriminate.
  - cbn. now rewrite rsum_zero.
  - inversion F; subst. cbn [combine map rsum fst snd]. rewrite (IH l) by (cbn in L; auto; lia).
    rewrite (rsum_ext (fun j => rsum (map (f j) (chosen (i :: classes) j (x :: l)))) (fun j => (if Nat.eqb i j then f i x else 0) + rsum (map (f j) (chosen classes j l)))).
    2: { intros j _. unfold chosen. cbn [map]. rewrite pick_cons. destruct (Nat.eqb_spec i j) as [->|]; cbn [map rsum]; ring. }
    rewrite rsum_add, rsum_one by auto. reflexivity.
Qed.

Section Descent.
  Variable srt : list R -> list nat.
  Notation N := (RA srt).
  Variable metric : list R -> list R -> R.
  Variable dim : nat.
  Hypothesis order : euclidean_order dim metric.
  Variable us dataset : list (list R).
  Notation near x cs := (argmin N (map (metric x) cs)).
  Definition the_cost (cs : list (list R)) : R := rsum (map (fun x => dist2 dim x (nth (near x cs) cs [])) dataset).
  Lemma cost_is cs v : cs <> [] -> cost dim cs dataset v -> v = the_cost cs.
  Proof.
    intros NE. unfold the_cost. induction 1 as [|x l i v H _ IH]; cbn; auto.
    rewrite (nearest_unique dim x cs _ _ H (closest_nearest srt metric dim order x cs NE)), IH. reflexivity.
  Qed.
  Lemma cost_exists cs : cs <> [] -> cost dim cs dataset (the_cost cs).
  Proof.
    intros NE. unfold the_cost. induction dataset as [|x l IH]; cbn; [constructor|]. constructor; auto. now apply closest_nearest.
  Qed.
  Lemma members_pick cs j (f : list R -> nat) l : (forall x, nearest dim x cs (f x)) -> members dim cs j l (pick (map (fun i => Nat.eqb i j) (map f l)) l).
  Proof.
    intros H. induction l as [|x l IH]; cbn [map pick]; [constructor|]. destruct (Nat.eqb_spec (f x) j) as [<-|D].
    - now constructor.
    - apply members_out; auto. intros H'. apply D. eapply nearest_unique; eauto.
  Qed.
  Lemma members_are (cs : list (list R)) j : cs <> [] -> members dim cs j dataset (chosen (closest_cluster N metric dataset cs) j dataset).
  Proof. intros NE. apply members_pick. intros x. now apply closest_nearest. Qed.
  Lemma members_unique cs j l : forall m m', members dim cs j l m -> members dim cs j l m' -> m = m'.
  Proof.
    induction l as [|x l IH]; intros m m' A B; inversion A; inversion B; subst; auto; try contradiction. f_equal. auto.
  Qed.

  (** the cost of the means of an assignment, points staying assigned *)
  Definition spent (classes : list nat) (cs : list (list R)) : R := rsum (map (fun ix => dist2 dim (snd ix) (nth (fst ix) cs [])) (combine classes dataset)).
  Lemma spent_own (cs : list (list R)) : spent (closest_cluster N metric dataset cs) cs = the_cost cs.
  Proof.
    unfold spent, the_cost, closest_cluster. induction dataset as [|x l IH]; [reflexivity|]. cbn [map combine rsum fst snd]. f_equal. exact IH.
  Qed.
  Lemma spent_any classes cs : cs <> [] -> length classes = length dataset -> Forall (fun i => (i < length cs)%nat) classes -> the_cost cs <= spent classes cs.
  Proof.
    intros NE. unfold spent, the_cost. revert classes. induction dataset as [|x l IH]; intros [|i classes] L F; try discriminate; cbn; [lra|].
    inversion F; subst. destruct (closest_nearest srt metric dim order x cs NE) as [_ H]. destruct (H i) as [Q1 _]; auto.
    specialize (IH classes ltac:(cbn in L; lia) ltac:(auto)). lra.
  Qed.
  Lemma spent_parts classes cs : length classes = length dataset -> Forall (fun i => (i < length cs)%nat) classes ->
    spent classes cs = rsum (map (fun j => spread dim (nth j cs []) (chosen classes j dataset)) (seq 0 (length cs))).
  Proof. intros L F. apply (rsum_parts (fun j x => dist2 dim x (nth j cs []))); auto. Qed.
  Lemma classes_ok (cs : list (list R)) : cs <> [] -> length (closest_cluster N metric dataset cs) = length dataset /\ Forall (fun i => (i < length cs)%nat) (closest_cluster N metric dataset cs).
  Proof.
    intros NE. unfold closest_cluster. split; [apply map_length|]. apply Forall_forall. intros i I. apply in_map_iff in I. destruct I as (x & <- & _).
    exact (proj1 (closest_nearest srt metric dim order x cs NE)).
  Qed.

  Lemma nth_correction {B} (corrs : list (option B)) i : no_jump corrs -> (i < length corrs)%nat -> exists c, nth i corrs None = Some c.
  Proof.
    intros H L. unfold no_jump in H. rewrite Forall_forall in H. specialize (H (nth i corrs None) (nth_In _ _ L)). destruct nth; eauto. congruence.
  Qed.
  (** the assignment stays, the centers become the means *)
  Lemma step_spent minPoints (cs : list (list R)) draws (cs' : list (list R)) ds (corrs : list (option (list R))) : cs <> [] -> Forall (fun i => (i < length us)%nat) draws ->
    iterate N metric us dim minPoints dataset None cs draws = Ok (cs', ds, corrs) -> no_jump corrs ->
    let classes := closest_cluster N metric dataset cs in
    spent classes cs' <= the_cost cs /\
    ((exists i corr, nth i corrs None = Some corr /\ exists k, (k < dim)%nat /\ at_k k corr <> 0) -> spent classes cs' < the_cost cs).
  Proof.
    intros NE F E J classes. destruct (iterate_spec N us metric dim _ _ _ _ _ _ _ F E) as (L & _ & LC & H).
    destruct (classes_ok cs NE) as [CL CF]. fold classes in CL, CF, H.
    change (@length (list R) cs' = @length (list R) cs) in L. change (@length (option (list R)) corrs = @length (list R) cs) in LC.
    change (forall i, (i < @length (list R) cs)%nat -> stepped N us dim dataset classes i (nth i cs []) (nth i cs' []) (nth i corrs None)) in H.
    rewrite <- spent_own. fold classes. rewrite !spent_parts; auto. 2: now rewrite L. rewrite L.
    assert (G : forall j, In j (seq 0 (length cs)) -> exists corr, nth j corrs None = Some corr /\ chosen classes j dataset <> [] /\
      nth j cs' [] = plus N dim (nth j cs []) corr /\
      spread dim (nth j cs []) (chosen classes j dataset) = spread dim (nth j cs' []) (chosen classes j dataset) + INR (length (chosen classes j dataset)) * dist2 dim (nth j cs []) (nth j cs' [])).
    { intros j I. apply in_seq in I. destruct (nth_correction corrs j J ltac:(lia)) as (corr & C). exists corr. split; auto.
      specialize (H j ltac:(lia)). rewrite C in H. destruct H as (S & -> & ->). split; auto. split; auto. now apply spread_step. }
    assert (P : forall j, 0 <= INR (length (chosen classes j dataset)) * dist2 dim (nth j cs []) (nth j cs' [])).
    { intros j. apply Rmult_le_pos; [apply pos_INR|apply dist2_nonneg]. }
    split.
    - apply rsum_le. intros j I. destruct (G j I) as (corr & _ & _ & _ & ->). specialize (P j). lra.
    - intros (i & corr & C & k & Lk & NZ).
      assert (I : In i (seq 0 (length cs))).
      { apply in_seq. destruct (Nat.lt_ge_cases i (length corrs)); [lia|]. rewrite nth_overflow in C by auto. discriminate. }
      apply rsum_lt.
      + intros j Ij. destruct (G j Ij) as (corr' & _ & _ & _ & ->). specialize (P j). lra.
      + exists i. split; auto. destruct (G i I) as (corr' & C' & S & X & ->). rewrite C in C'. inversion C'; subst corr'.
        assert (0 < INR (length (chosen classes i dataset)) * dist2 dim (nth i cs []) (nth i cs' [])); [|lra].
        apply Rmult_lt_0_compat; [apply lt_0_INR; destruct (chosen classes i dataset); [easy|cbn; lia]|].
        destruct (dist2_nonneg dim (nth i cs []) (nth i cs' [])) as [|Z]; auto. exfalso. symmetry in Z.
        pose proof (dist2_zero dim _ _ Z k Lk) as Q. rewrite X in Q. unfold plus in Q. rewrite at_table in Q by auto. cbn [add RA] in Q. rewrite !coord_at in Q.
        apply NZ. change (@Logic.eq R (at_k k (nth i cs [])) (at_k k (nth i cs []) + at_k k corr)) in Q. lra.
  Qed.
  Lemma step_cost minPoints (cs : list (list R)) draws (cs' : list (list R)) ds (corrs : list (option (list R))) : cs <> [] -> Forall (fun i => (i < length us)%nat) draws ->
    iterate N metric us dim minPoints dataset None cs draws = Ok (cs', ds, corrs) -> no_jump corrs ->
    the_cost cs' <= spent (closest_cluster N metric dataset cs) cs' /\ cs' <> [].
  Proof.
    intros NE F E J. destruct (iterate_spec N us metric dim _ _ _ _ _ _ _ F E) as (L & _). change (@length (list R) cs' = @length (list R) cs) in L.
    destruct (classes_ok cs NE) as [CL CF]. assert (NE' : cs' <> []) by (intros ->; destruct cs; [easy|discriminate]).
    split; auto. apply spent_any; auto. now rewrite L.
  Qed.
End Descent.
