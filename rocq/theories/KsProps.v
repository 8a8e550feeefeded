(** * C84: the statistic of stat.test.kolmogorov *)
From Coq Require Import List Bool ZArith QArith Qabs Lia Permutation.
From Verif Require Import KsModel KsSpec KsProofs.
Import ListNotations.

Lemma Zleb_order : total_order Z.leb.
Proof.
  constructor; intros *; rewrite ?Z.leb_le; [lia|]. intros H1 H2. apply Z.leb_le in H1, H2. apply Z.leb_le. lia.
Qed.

(** For samples in which no value occurs twice, the statistic is the largest distance between the empirical distribution
    functions of the samples; it is reached at a value of one of the samples. *)
Theorem C84_statistic_is_distance : forall (T : Type) (leb : T -> T -> bool) (x y : list (option T)) d,
  total_order leb -> no_ties leb (values x) -> no_ties leb (values y) ->
  kolmogorov leb x y = Some (KsStatistic d) -> ks_distance leb (values x) (values y) d.
Proof.
  intros T leb x y d TO N1 N2 K. pose proof (kolmogorov_statistic leb _ _ _ K) as (NX & NY & NE & R).
  set (X := py_sorted leb (values x)) in *. set (Y := py_sorted leb (values y)) in *.
  assert (PX : Permutation (values x) X) by apply sorted_perm.
  assert (PY : Permutation (values y) Y) by apply sorted_perm.
  assert (G : forall t, distance leb (values x) (values y) t = distance leb X Y t).
  { intro t. unfold distance. rewrite (ecdf_perm leb t _ _ PX), (ecdf_perm leb t _ _ PY). auto. }
  pose proof (sorted_srt leb TO (values x)) as SX. pose proof (sorted_srt leb TO (values y)) as SY.
  split.
  - intro t. rewrite G. eapply (gap_bound leb TO X Y); eauto.
    + apply at_start.
    + rewrite Qabs_pos; apply Qle_refl.
    + constructor.
  - destruct (gap_attained leb TO X Y SX SY NX NY _ _ _ _ _ _ _ _ _ _ _ (no_ties_perm leb _ _ PX N1) (no_ties_perm leb _ _ PY N2)
                (at_start leb X Y) R) as [E | (t & _ & E)].
    + exfalso. pose proof (ks_pos leb TO X Y d NX NY NE R) as P. rewrite E in P. discriminate.
    + exists t. rewrite G. auto.
Qed.

Example C84_statistic_example :
  exists d, kolmogorov Z.leb [Some 3; None; Some 1; Some 2]%Z [Some 5; Some 2]%Z = Some (KsStatistic d) /\ (d == 1 # 2)%Q.
Proof. eexists. split; reflexivity. Qed.

(** Whatever the samples, the statistic is never below a distance between the distribution functions. *)
Theorem C84_statistic_bound : forall (T : Type) (leb : T -> T -> bool) (x y : list (option T)) d t,
  total_order leb -> kolmogorov leb x y = Some (KsStatistic d) ->
  (distance leb (values x) (values y) t <= d)%Q.
Proof.
  intros T leb x y d t TO K. pose proof (kolmogorov_statistic leb _ _ _ K) as (NX & NY & NE & R).
  set (X := py_sorted leb (values x)) in *. set (Y := py_sorted leb (values y)) in *.
  unfold distance. rewrite (ecdf_perm leb t _ X (sorted_perm leb _)), (ecdf_perm leb t _ Y (sorted_perm leb _)).
  eapply (gap_bound leb TO X Y); eauto.
  - apply (sorted_srt leb TO).
  - apply (sorted_srt leb TO).
  - apply at_start.
  - rewrite Qabs_pos; apply Qle_refl.
  - constructor.
Qed.

Example C84_bound_example :
  exists d, kolmogorov Z.leb [Some 1; Some 1; Some 2]%Z [Some 1; Some 3]%Z = Some (KsStatistic d) /\ (d == 1 # 2)%Q.
Proof. eexists. split; reflexivity. Qed.

(** With a value that occurs twice in a sample it can be above all of them: the loop compares the distribution functions
    in the middle of a run of equal values. Here the two functions are the same and the statistic is 1/2. *)
Theorem C84_statistic_ties_refuted :
  exists (x y : list (option Z)) d, kolmogorov Z.leb x y = Some (KsStatistic d) /\
    (forall t, distance Z.leb (values x) (values y) t == 0)%Q /\ (d == 1 # 2)%Q.
Proof.
  exists [Some 1%Z; Some 1%Z], [Some 1%Z]. eexists. split; [reflexivity|]. split; [|reflexivity].
  intro t. unfold distance, ecdf, at_most. cbn -[Z.leb]. destruct (1 <=? t)%Z; reflexivity.
Qed.

(** The statistic lies in (0, 1], so the division by it on the way to the probability is never a division by zero. *)
Theorem C84_statistic_range : forall (T : Type) (leb : T -> T -> bool) (x y : list (option T)) d,
  total_order leb -> kolmogorov leb x y = Some (KsStatistic d) -> (0 < d /\ d <= 1)%Q.
Proof.
  intros T leb x y d TO K. pose proof (kolmogorov_statistic leb _ _ _ K) as (NX & NY & NE & R). split.
  - exact (ks_pos leb TO _ _ _ NX NY NE R).
  - eapply (ks_le_1 leb TO); try exact R; auto.
    + apply (sorted_srt leb TO).
    + apply (sorted_srt leb TO).
    + apply at_start.
    + discriminate.
Qed.

Example C84_range_example :
  exists d, kolmogorov Z.leb [Some 1; Some 2]%Z [Some 3; Some 4; Some 5]%Z = Some (KsStatistic d) /\ (d == 1)%Q.
Proof. eexists. split; reflexivity. Qed.

(** The function always gives an answer, and the three kinds of answer divide the inputs: 1.0 for samples of the same
    values, 0.0 when exactly one sample has no values, the statistic otherwise. *)
Theorem C84_answers : forall (T : Type) (leb : T -> T -> bool) (x y : list (option T)),
  total_order leb ->
  (kolmogorov leb x y = Some KsEqual <-> forall t, at_most leb t (values x) = at_most leb t (values y)) /\
  (kolmogorov leb x y = Some KsEmpty <->
     (values x = [] /\ values y <> []) \/ (values x <> [] /\ values y = [])) /\
  (exists r, kolmogorov leb x y = Some r).
Proof.
  intros T leb x y TO. unfold kolmogorov. rewrite !not_nan_values. cbv zeta.
  pose proof (sorted_nil leb (values x)) as ZX. pose proof (sorted_nil leb (values y)) as ZY.
  pose proof (sorted_perm leb (values x)) as PX. pose proof (sorted_perm leb (values y)) as PY.
  pose proof (sorted_srt leb TO (values x)) as SX. pose proof (sorted_srt leb TO (values y)) as SY.
  set (X := py_sorted leb (values x)) in *. set (Y := py_sorted leb (values y)) in *.
  assert (LE : lists_equal leb X Y = true <-> forall t, at_most leb t (values x) = at_most leb t (values y)).
  { split.
    - intros H t. rewrite (at_most_perm leb t _ _ PX), (at_most_perm leb t _ _ PY). apply lists_equal_counts; auto.
    - intro H. apply counts_lists_equal; auto. intro t.
      rewrite <- (at_most_perm leb t _ _ PX), <- (at_most_perm leb t _ _ PY). auto. }
  destruct (lists_equal leb X Y) eqn:E.
  - split; [tauto|]. split; [|eauto]. split; [discriminate|].
    intros [[HX HY]|[HX HY]]; exfalso.
    + apply HY, ZY. apply ZX in HX. rewrite HX in E. destruct Y; [auto|discriminate].
    + apply HX, ZX. apply ZY in HY. rewrite HY in E. destruct X; [auto|discriminate].
  - split.
    + split; [|intro H; apply LE in H; discriminate].
      intro H. exfalso. destruct X as [|a X']; [destruct Y; discriminate|]. destruct Y as [|b Y']; [discriminate|].
      destruct (ks_loop _ _ _ _ _ _ _ _ _ _ _); discriminate.
    + destruct X as [|a X'] eqn:EX.
      * split; [|eauto]. split; auto. intros _. left. split; [apply ZX; auto|]. intro H. apply ZY in H.
        rewrite H in E. discriminate.
      * destruct Y as [|b Y'] eqn:EY.
        -- split; [|eauto]. split; auto. intros _. right. split; [|apply ZY; auto]. intro H. apply ZX in H. discriminate.
        -- split.
           ++ split; [destruct (ks_loop _ _ _ _ _ _ _ _ _ _ _); discriminate|].
              intros [[H _]|[_ H]]; [apply ZX in H | apply ZY in H]; discriminate.
           ++ destruct (ks_loop_total leb TO (length (a :: X') + length (b :: Y')) (length (a :: X')) (length (b :: Y')) 0 0
                         (a :: X') (b :: Y') 0 0 0 (Nat.le_refl _)) as [r R].
              rewrite R. cbn. eauto.
Qed.

Example C84_answers_example :
  kolmogorov Z.leb [Some 1; None; Some 2]%Z [Some 2; Some 1]%Z = Some KsEqual /\
  kolmogorov Z.leb [None; None] [Some 1]%Z = Some KsEmpty.
Proof. split; reflexivity. Qed.

Lemma Forall2_len {A B} (R : A -> B -> Prop) x y : Forall2 R x y -> length x = length y.
Proof. induction 1; cbn; congruence. Qed.

(** The order of the samples, the order of the values in a sample and NaN values make no difference. *)
Theorem C84_symmetric : forall (T : Type) (leb : T -> T -> bool) (x y : list (option T)),
  kolmogorov leb x y = kolmogorov leb y x.
Proof.
  intros T leb x y. unfold kolmogorov. rewrite !not_nan_values. cbv zeta.
  rewrite lists_equal_swap. destruct (lists_equal leb _ _); auto.
  destruct (py_sorted leb (values x)) as [|a X], (py_sorted leb (values y)) as [|b Y]; auto.
  rewrite ks_swap, Nat.add_comm. auto.
Qed.

Theorem C84_order_irrelevant : forall (T : Type) (leb : T -> T -> bool) (x y x' y' : list (option T)),
  total_order leb -> Permutation (values x) (values x') -> Permutation (values y) (values y') ->
  kolmogorov leb x y = kolmogorov leb x' y'.
Proof.
  intros T leb x y x' y' TO P1 P2. unfold kolmogorov. rewrite !not_nan_values. cbv zeta.
  pose proof (sorted_eqv leb TO _ _ P1) as E1. pose proof (sorted_eqv leb TO _ _ P2) as E2.
  rewrite (lists_equal_eqv leb TO _ _ _ _ E1 E2). destruct (lists_equal leb _ _); auto.
  destruct E1 as [|a a' X X' Ea E1]; destruct E2 as [|b b' Y Y' Eb E2]; auto.
  cbn [length]. rewrite <- (Forall2_len _ _ _ E1), <- (Forall2_len _ _ _ E2).
  rewrite (ks_eqv leb TO _ _ _ _ _ (a :: X) (b :: Y) (a' :: X') (b' :: Y')); auto; constructor; auto.
Qed.

Example C84_order_example :
  kolmogorov Z.leb [Some 3; None; Some 1]%Z [Some 2]%Z = kolmogorov Z.leb [Some 1; Some 3]%Z [None; Some 2]%Z /\
  Permutation (values [Some 3; None; Some 1]%Z) (values [Some 1; Some 3]%Z).
Proof. split; [reflexivity|]. cbn. constructor. Qed.

Print Assumptions C84_statistic_is_distance.
Print Assumptions C84_statistic_bound.
Print Assumptions C84_statistic_ties_refuted.
Print Assumptions C84_statistic_range.
Print Assumptions C84_answers.
Print Assumptions C84_symmetric.
Print Assumptions C84_order_irrelevant.
