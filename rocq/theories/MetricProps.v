(** Theorems about lib/metric.py: C57 (binary similarities), C75 (distances with missing values). *)
From Coq Require Import QArith Qabs Lqa.
From Verif Require Import Base Effects ArraySpec ArrayProofs2 StatSpec MetricModel MetricSpec MetricProofs.
Open Scope string_scope.
Open Scope list_scope.
Open Scope Z_scope.

(** * C57: binary similarities *)
(** countPairs counts the positions of each kind; the four kinds partition the positions. *)
Theorem C57_counts : forall x y,
  a00 (countPairs x y) = positions_with x y false false /\ a01 (countPairs x y) = positions_with x y false true /\
  a10 (countPairs x y) = positions_with x y true false /\ a11 (countPairs x y) = positions_with x y true true.
Proof. exact counts. Qed.
Theorem C57_partition : forall x y, length x = length y ->
  a00 (countPairs x y) + a01 (countPairs x y) + a10 (countPairs x y) + a11 (countPairs x y) = Z.of_nat (length x).
Proof. intros x y L. destruct (counts x y) as (-> & -> & -> & ->). apply positions_sum; auto. Qed.
Lemma binary_sym code score x y : (forall p q r s, score (Pairs p q r s) = score (Pairs p r q s)) ->
  binary code score y x = binary code score x y.
Proof.
  intros H. unfold binary. rewrite (Nat.eqb_sym (length x)). rewrite counts_swap. cbn zeta.
  destruct (countPairs x y) as [p q r s]. cbn. rewrite H. auto.
Qed.
Theorem C57_symmetric : forall x y,
  simpleMatching y x = simpleMatching x y /\ jaccard y x = jaccard x y /\ tanimoto y x = tanimoto x y.
Proof.
  intros x y. split; [|split]; apply binary_sym; intros; cbn [a00 a01 a10 a11];
    match goal with |- pfa_div _ (inject_Z ?u) = pfa_div _ (inject_Z ?v) => replace u with v by lia; reflexivity end.
Qed.
Lemma pfa_div_pos a b : (0 < b)%Z -> pfa_div (inject_Z a) (inject_Z b) = Fin (inject_Z a / inject_Z b)%Q.
Proof.
  intros H. unfold pfa_div. destruct (Qeq_bool (inject_Z b) 0) eqn:E; auto.
  apply Qeq_bool_iff in E. unfold Qeq in E. cbn in E. lia.
Qed.
Lemma ratio a b : 0 <= a <= b -> 0 < b -> (0 <= inject_Z a / inject_Z b <= 1)%Q /\ (inject_Z a / inject_Z b == 1 <-> a = b)%Q.
Proof.
  intros [H1 H2] H3.
  assert (P : (0 < inject_Z b)%Q). { change 0%Q with (inject_Z 0). rewrite <- Zlt_Qlt. auto. }
  assert (P1 : (0 <= inject_Z a)%Q). { change 0%Q with (inject_Z 0). rewrite <- Zle_Qle. auto. }
  assert (P2 : (inject_Z a <= inject_Z b)%Q). { rewrite <- Zle_Qle. auto. }
  split. { split; [apply Qle_shift_div_l; lra|apply Qle_shift_div_r; lra]. }
  split.
  - intros E. assert (K : (inject_Z a == inject_Z b)%Q).
    { setoid_replace (inject_Z a) with (inject_Z a / inject_Z b * inject_Z b)%Q by (field; lra). rewrite E. ring. }
    unfold Qeq in K. cbn in K. lia.
  - intros ->. field. lra.
Qed.
(** Scores of vectors of one dimension are between 0 and 1, and 1 exactly for equal vectors; jaccard
    ignores the positions where both are false and is nan when there are no others, simpleMatching and
    tanimoto are nan for empty vectors. *)
Theorem C57_simpleMatching : forall x y, length x = length y ->
  (x = [] -> simpleMatching x y = Ok NaN) /\
  (x <> [] -> exists q, simpleMatching x y = Ok (Fin q) /\ (0 <= q <= 1)%Q /\ ((q == 1)%Q <-> x = y) /\
     (q * inject_Z (Z.of_nat (length x)) == inject_Z (positions_with x y true true + positions_with x y false false))%Q).
Proof.
  intros x y L. unfold simpleMatching, binary. rewrite L, Nat.eqb_refl. cbn [negb].
  destruct (counts x y) as (E0 & E1 & E2 & E3). cbn zeta in *. rewrite E0, E1, E2, E3.
  pose proof (positions_sum x y L) as Sm. pose proof (positions_same x y L) as Same.
  pose proof (positions_nonneg x y false false). pose proof (positions_nonneg x y false true).
  pose proof (positions_nonneg x y true false). pose proof (positions_nonneg x y true true).
  split.
  - intros ->. destruct y; [|discriminate]. reflexivity.
  - intros NE. assert (0 < Z.of_nat (length x)) by (destruct x; [congruence|cbn [length]; lia]).
    replace (positions_with x y true true + positions_with x y true false + positions_with x y false true + positions_with x y false false)
      with (Z.of_nat (length x)) by lia.
    rewrite pfa_div_pos by auto. eexists. split; [reflexivity|].
    destruct (ratio (positions_with x y true true + positions_with x y false false) (Z.of_nat (length x))) as [R1 R2]; try lia.
    split; auto. split.
    + rewrite R2, <- Same. lia.
    + rewrite L. field. intros K. unfold Qeq in K. cbn in K. lia.
Qed.
Theorem C57_jaccard : forall x y, length x = length y ->
  (~ In true (x ++ y) -> jaccard x y = Ok NaN) /\
  (In true (x ++ y) -> exists q, jaccard x y = Ok (Fin q) /\ (0 <= q <= 1)%Q /\ ((q == 1)%Q <-> x = y)).
Proof.
  intros x y L. unfold jaccard, binary. rewrite L, Nat.eqb_refl. cbn [negb].
  destruct (counts x y) as (E0 & E1 & E2 & E3). cbn zeta in *. rewrite E1, E2, E3.
  pose proof (positions_same x y L) as Same.
  pose proof (positions_nonneg x y false true).
  pose proof (positions_nonneg x y true false). pose proof (positions_nonneg x y true true).
  assert (T : In true (x ++ y) <-> 0 < positions_with x y true true + positions_with x y true false + positions_with x y false true).
  { clear -L. revert y L. unfold positions_with. induction x as [|[] x IH]; intros [|[] y] L; try discriminate;
      cbn [combine filter length fst snd Bool.eqb andb app].
    - cbn. lia.
    - split; [lia|intros _; left; auto].
    - split; [lia|intros _; left; auto].
    - split; [lia|intros _; right; apply in_or_app; right; left; auto].
    - injection L as L. rewrite <- IH by auto. cbn. rewrite !in_app_iff. cbn. intuition congruence. }
  split.
  - intros N. assert (positions_with x y true true + positions_with x y true false + positions_with x y false true = 0) as -> by (rewrite T in N; lia).
    assert (positions_with x y true true = 0) as -> by (rewrite T in N; lia). reflexivity.
  - intros Y. apply T in Y. rewrite pfa_div_pos by auto. eexists. split; [reflexivity|].
    destruct (ratio (positions_with x y true true) (positions_with x y true true + positions_with x y true false + positions_with x y false true)) as [R1 R2]; try lia.
    split; auto. rewrite R2, <- Same. lia.
Qed.
Theorem C57_tanimoto : forall x y, length x = length y ->
  (x = [] -> tanimoto x y = Ok NaN) /\
  (x <> [] -> exists q, tanimoto x y = Ok (Fin q) /\ (0 <= q <= 1)%Q /\ ((q == 1)%Q <-> x = y)).
Proof.
  intros x y L. unfold tanimoto, binary. rewrite L, Nat.eqb_refl. cbn [negb].
  destruct (counts x y) as (E0 & E1 & E2 & E3). cbn zeta in *. rewrite E0, E1, E2, E3.
  pose proof (positions_sum x y L) as Sm. pose proof (positions_same x y L) as Same.
  pose proof (positions_nonneg x y false false). pose proof (positions_nonneg x y false true).
  pose proof (positions_nonneg x y true false). pose proof (positions_nonneg x y true true).
  split.
  - intros ->. destruct y; [|discriminate]. reflexivity.
  - intros NE. assert (0 < Z.of_nat (length x)) by (destruct x; [congruence|cbn [length]; lia]).
    rewrite pfa_div_pos by lia. eexists. split; [reflexivity|].
    destruct (ratio (positions_with x y true true + positions_with x y false false) (positions_with x y true true + 2 * (positions_with x y true false + positions_with x y false true) + positions_with x y false false)) as [R1 R2]; try lia.
    split; auto. rewrite R2, <- Same. lia.
Qed.
Theorem C57_errors : forall x y, length x <> length y ->
  simpleMatching x y = Raise (PFAErr 28080) /\ jaccard x y = Raise (PFAErr 28090) /\ tanimoto x y = Raise (PFAErr 28100) /\
  forall c00 c01 c10 c11 d00 d01 d10 d11, binarySimilarity x y c00 c01 c10 c11 d00 d01 d10 d11 = Raise (PFAErr 28110).
Proof.
  intros x y L. unfold simpleMatching, jaccard, tanimoto, binarySimilarity, binary.
  destruct (Nat.eqb_spec (length y) (length x)); [congruence|]. auto.
Qed.
(** The three scores are special cases of binarySimilarity. *)
Theorem C57_general : forall x y, length x = length y ->
  let same r r' := match r, r' with Ok (Fin a), Ok (Fin b) => (a == b)%Q | Ok NaN, Ok NaN => True | _, _ => False end in
  same (binarySimilarity x y 1 0 0 1 1 1 1 1) (simpleMatching x y) /\
  same (binarySimilarity x y 0 0 0 1 0 1 1 1) (jaccard x y) /\
  same (binarySimilarity x y 1 0 0 1 1 2 2 1) (tanimoto x y).
Proof.
  intros x y L. cbn zeta. unfold simpleMatching, jaccard, tanimoto, binarySimilarity, binary.
  rewrite L, Nat.eqb_refl. cbn [negb].
  destruct (counts x y) as (E0 & E1 & E2 & E3). cbn zeta in *. rewrite E0, E1, E2, E3.
  pose proof (positions_nonneg x y false false) as N0. pose proof (positions_nonneg x y false true) as N1.
  pose proof (positions_nonneg x y true false) as N2. pose proof (positions_nonneg x y true true) as N3.
  rewrite ?inject_Z_plus, ?inject_Z_mult, ?inject_Z_plus. change (inject_Z 2) with 2%Q.
  rewrite Zle_Qle in N0, N1, N2, N3. change (inject_Z 0) with 0%Q in *.
  generalize dependent (inject_Z (positions_with x y false false)). generalize dependent (inject_Z (positions_with x y false true)).
  generalize dependent (inject_Z (positions_with x y true false)). generalize dependent (inject_Z (positions_with x y true true)).
  clear. intros d Hd c Hc b Hb a Ha.
  assert (G : forall n n' m m', (n == n')%Q -> (m == m')%Q -> (0 <= n <= m)%Q ->
    match pfa_div n m, pfa_div n' m' with Fin a, Fin b => (a == b)%Q | NaN, NaN => True | _, _ => False end).
  { intros n n' m m' E1 E2 [B1 B2]. unfold pfa_div. destruct (Qeq_bool m 0) eqn:Em.
    - apply Qeq_bool_iff in Em. assert (Em' : (m' == 0)%Q) by lra. apply Qeq_bool_iff in Em'. rewrite Em'.
      rewrite !(proj2 (q_lt_false _ _)) by lra. auto.
    - destruct (Qeq_bool m' 0) eqn:Em'. { exfalso. apply Qeq_bool_iff in Em'. assert (K : (m == 0)%Q) by lra. apply Qeq_bool_iff in K. congruence. }
      rewrite E1, E2. reflexivity. }
  pose proof (G (1 * d + 0 * c + 0 * b + 1 * a) (d + a) (1 * d + 1 * c + 1 * b + 1 * a) (d + c + b + a))%Q as G1.
  pose proof (G (1 * d + 0 * c + 0 * b + 0 * a) d (1 * d + 1 * c + 1 * b + 0 * a) (d + c + b))%Q as G2.
  pose proof (G (1 * d + 0 * c + 0 * b + 1 * a) (d + a) (1 * d + 2 * c + 2 * b + 1 * a) (d + 2 * (c + b) + a))%Q as G3.
  split; [|split].
  - repeat match goal with |- context [pfa_div ?u ?v] => destruct (pfa_div u v) end; apply G1; lra.
  - repeat match goal with |- context [pfa_div ?u ?v] => destruct (pfa_div u v) end; apply G2; lra.
  - repeat match goal with |- context [pfa_div ?u ?v] => destruct (pfa_div u v) end; apply G3; lra.
Qed.
(** binarySimilarity is the quotient of the two weighted counts of pairs. *)
Theorem C57_similarity : forall x y c00 c01 c10 c11 d00 d01 d10 d11, length x = length y ->
  let total k00 k01 k10 k11 :=
    (k00 * inject_Z (positions_with x y false false) + k01 * inject_Z (positions_with x y false true) +
     k10 * inject_Z (positions_with x y true false) + k11 * inject_Z (positions_with x y true true))%Q in
  let n := total c00 c01 c10 c11 in let d := total d00 d01 d10 d11 in
  (~ (d == 0)%Q -> exists q, binarySimilarity x y c00 c01 c10 c11 d00 d01 d10 d11 = Ok (Fin q) /\ (q * d == n)%Q) /\
  ((d == 0)%Q -> exists r, binarySimilarity x y c00 c01 c10 c11 d00 d01 d10 d11 = Ok r /\
     (r = PInf <-> 0 < n)%Q /\ (r = NInf <-> n < 0)%Q /\ (r = NaN <-> n == 0)%Q).
Proof.
  intros x y c00 c01 c10 c11 d00 d01 d10 d11 L. cbn zeta. unfold binarySimilarity, binary. rewrite L, Nat.eqb_refl. cbn [negb].
  destruct (counts x y) as (E0 & E1 & E2 & E3). cbn zeta in *. rewrite E0, E1, E2, E3.
  set (a := inject_Z _). set (b := inject_Z _). set (c := inject_Z _). set (d := inject_Z _).
  unfold pfa_div. split.
  - intros NZ. destruct (Qeq_bool _ 0) eqn:E. { exfalso. apply NZ. apply Qeq_bool_iff in E. rewrite <- E. ring. }
    eexists. split; [reflexivity|]. field. intros K. apply NZ. rewrite <- K. ring.
  - intros Z0. rewrite (proj2 (Qeq_bool_iff _ 0)).
    2: { rewrite <- Z0. ring. }
    eexists. split; [reflexivity|].
    set (m := (c00 * a + c01 * b + c10 * c + c11 * d)%Q). set (n := (c11 * d + c10 * c + c01 * b + c00 * a)%Q).
    assert (M : (n == m)%Q) by (unfold m, n; ring). clearbody m n. rewrite <- M.
    destruct (q_lt 0 n) eqn:P.
    + apply q_lt_iff in P. split; [split; auto|]. split; split; try discriminate; intros; exfalso; lra.
    + apply q_lt_false in P. destruct (q_lt n 0) eqn:P'.
      * apply q_lt_iff in P'. split; [split; [discriminate|intros; exfalso; lra]|]. split; [split; auto|]. split; [discriminate|intros; exfalso; lra].
      * apply q_lt_false in P'. split; [split; [discriminate|intros; exfalso; lra]|]. split; [split; [discriminate|intros; exfalso; lra]|].
        split; auto. intros _. lra.
Qed.
Example C57_example :
  let x := [true; true; false; false; true] in let y := [true; false; false; true; true] in
  countPairs x y = Pairs 1 1 1 2 /\
  match simpleMatching x y, jaccard x y, tanimoto x y with
  | Ok (Fin a), Ok (Fin b), Ok (Fin c) => (a == 3 # 5 /\ b == 1 # 2 /\ c == 3 # 7)%Q | _, _, _ => False end.
Proof. split; [reflexivity|]. vm_compute. repeat split; reflexivity. Qed.
(** equal inputs do not always score 1 *)
Theorem C57_equal_refuted : jaccard [false; false] [false; false] = Ok NaN /\ simpleMatching [] [] = Ok NaN /\ tanimoto [] [] = Ok NaN.
Proof. repeat split. Qed.

(** * C75: distances with missing values *)
(** Given the answers of the similarity function for the pairs present on both sides (called in order),
    the distances are the sum of squares, sum and maximum of the answers, scaled by total weight over the
    weight of those positions; nan if that weight is 0. *)
Section Values.
  Context {S A B : Type} (similarity : A -> B -> M S Q) (x : list (option A)) (y : list (option B)) (mw : option (list Q)).
  Context (s s' : S) (zs : list Q).
  Let w := match mw with Some w => w | None => repeat 1%Q (length x) end.
  Let pw := qsum (present_weights x y w).
  Lemma weights_are : weights x mw = w.
  Proof. unfold weights, w. destruct mw; auto. clear. induction x; cbn; f_equal; auto. Qed.
  Hypothesis (L1 : length y = length x) (L2 : length w = length x).
  Hypothesis H : calls (fun ab => similarity (fst ab) (snd ab)) s (both_present x y) s' zs.
  Theorem C75_squaredEuclidean :
    ((pw == 0)%Q -> squaredEuclidean similarity x y mw s = (Ok NaN, s')) /\
    (~ (pw == 0)%Q -> exists v, squaredEuclidean similarity x y mw s = (Ok (Fin v), s') /\
       (v * pw == qsum (map (fun z => z * z) zs) * qsum w)%Q).
  Proof.
    pose proof (metric_spec similarity 28040 (fun a b => a + b * b)%Q (@Ok ext) x y mw s s' zs) as K.
    rewrite weights_are in K. specialize (K L1 L2 H). cbn zeta in K. destruct K as [K1 K2]. split; auto.
    intros NZ. destruct (K2 NZ) as (v & E & V). exists v. split; auto. unfold pw. rewrite V, fold_square. ring.
  Qed.
  Theorem C75_euclidean :
    ((pw == 0)%Q -> euclidean similarity x y mw s = (Ok NaN, s')) /\
    (~ (pw == 0)%Q -> exists v, (v * pw == qsum (map (fun z => z * z) zs) * qsum w)%Q /\
      ((0 <= v)%Q -> euclidean similarity x y mw s = (Ok (Root v), s')) /\
      ((v < 0)%Q -> euclidean similarity x y mw s = (Raise (PyErr "ValueError"), s'))).
  Proof.
    pose proof (metric_spec similarity 28030 (fun a b => a + b * b)%Q py_sqrt x y mw s s' zs) as K.
    rewrite weights_are in K. specialize (K L1 L2 H). cbn zeta in K. destruct K as [K1 K2]. split; auto.
    intros NZ. destruct (K2 NZ) as (v & E & V). exists v. split. { unfold pw. rewrite V, fold_square. ring. }
    unfold euclidean, inc_square. rewrite E. cbn [py_sqrt]. split; intros Hv.
    - rewrite (proj2 (q_lt_false v 0)) by auto. auto.
    - rewrite (proj2 (q_lt_iff v 0)) by auto. auto.
  Qed.
  Theorem C75_taxicab :
    ((pw == 0)%Q -> taxicab similarity x y mw s = (Ok NaN, s')) /\
    (~ (pw == 0)%Q -> exists v, taxicab similarity x y mw s = (Ok (Fin v), s') /\ (v * pw == qsum zs * qsum w)%Q).
  Proof.
    pose proof (metric_spec similarity 28060 (fun a b => a + b)%Q (@Ok ext) x y mw s s' zs) as K.
    rewrite weights_are in K. specialize (K L1 L2 H). cbn zeta in K. destruct K as [K1 K2]. split; auto.
    intros NZ. destruct (K2 NZ) as (v & E & V). exists v. split; auto. unfold pw. rewrite V, fold_sum. ring.
  Qed.
  Theorem C75_chebyshev : forall powLikeJava,
    ((pw == 0)%Q -> chebyshev similarity x y mw s = (Ok NaN, s')) /\
    (~ (pw == 0)%Q -> exists v m, chebyshev similarity x y mw s = (Ok (Fin v), s') /\ largest zs m /\ (v * pw == m * qsum w)%Q) /\
    minkowski powLikeJava similarity x y PInfinite mw s = chebyshev similarity x y mw s.
  Proof.
    intros powLikeJava.
    pose proof (metric_spec similarity 28050 (fun a b => if q_lt a b then b else a)%Q (@Ok ext) x y mw s s' zs) as K.
    rewrite weights_are in K. specialize (K L1 L2 H). cbn zeta in K. destruct K as [K1 K2]. split; auto. split.
    - intros NZ. destruct (K2 NZ) as (v & E & V). exists v. eexists. split; [exact E|]. split; [apply largest_fold|]. exact V.
    - unfold minkowski, chebyshev, metric_missing. rewrite weights_are, L1, L2, !Nat.eqb_refl. cbn [negb orb].
      unfold bind, ret, lift. fold inc_max. destruct (tally_loop _ _ _ _ _ _ _ _ _) as [[[[t n] d]|e] s1]; auto.
  Qed.
  (** Minkowski distance with a finite exponent p: the p-th powers of the answers are added and scaled, and the p-th root
      is taken of the result, powers being what core.py's powLikeJava gives. *)
  Theorem C75_minkowski : forall powLikeJava p (power : Q -> Q), (0 < p)%Q ->
    (forall z, In z zs -> powLikeJava z p = Ok (power z)) ->
    ((pw == 0)%Q -> minkowski powLikeJava similarity x y (PNum p) mw s = (Ok NaN, s')) /\
    (~ (pw == 0)%Q -> exists v, (v * pw == qsum (map power zs) * qsum w)%Q /\
       minkowski powLikeJava similarity x y (PNum p) mw s =
         (match powLikeJava v (1 / p)%Q with Ok r => Ok (Fin r) | Raise e => Raise e end, s')).
  Proof.
    intros powLikeJava p power P G.
    destruct (tally_spec_on similarity (fun t z => t' <- powLikeJava z p ;; Ok (t + t')%Q) (fun t z => t + power z)%Q
                x y w 0%Q 0%Q 0%Q s s' zs L1 L2) as (n' & d' & E & N & D); auto.
    { intros t z Hz. now rewrite (G z Hz). }
    unfold minkowski. rewrite weights_are, L1, L2, !Nat.eqb_refl. cbn [negb orb].
    destruct (Qle_bool p 0) eqn:Ep. { apply Qle_bool_iff in Ep. exfalso. lra. }
    unfold bind. rewrite E. rewrite Qplus_0_l in N, D. fold pw in D. split.
    - intros Z0. rewrite <- D in Z0. apply Qeq_bool_iff in Z0. rewrite Z0. reflexivity.
    - intros NZ. destruct (Qeq_bool d' 0) eqn:E0. { apply Qeq_bool_iff in E0. exfalso. apply NZ. now rewrite <- D. }
      exists (fold_left (fun t z => t + power z) zs 0 * n' / d')%Q.
      split; [|unfold lift, ret; destruct (powLikeJava _ (1 / p)%Q); reflexivity].
      rewrite <- D in NZ. rewrite <- D, <- N, fold_add. field. auto.
  Qed.
End Values.
(** different lengths are reported before anything is called; a Minkowski parameter that is not positive too *)
Theorem C75_errors : forall S A B pow (similarity : A -> B -> M S Q) x y mw (s : S) p,
  (length y <> length x \/ (exists w, mw = Some w /\ length w <> length x)) ->
  euclidean similarity x y mw s = (Raise (PFAErr 28030), s) /\ squaredEuclidean similarity x y mw s = (Raise (PFAErr 28040), s) /\
  chebyshev similarity x y mw s = (Raise (PFAErr 28050), s) /\ taxicab similarity x y mw s = (Raise (PFAErr 28060), s) /\
  minkowski pow similarity x y p mw s = (Raise (PFAErr 28070), s).
Proof.
  intros S A B pow similarity x y mw s p H.
  assert (H' : length y <> length x \/ length (weights x mw) <> length x).
  { destruct H as [H|(w & -> & H)]; auto. }
  unfold euclidean, squaredEuclidean, chebyshev, taxicab.
  do 4 (split; [apply metric_bad; auto|]).
  unfold minkowski. destruct (Nat.eqb_spec (length y) (length x)), (Nat.eqb_spec (length (weights x mw)) (length x)); cbn; auto.
  destruct H'; contradiction.
Qed.
Theorem C75_minkowski_errors : forall S A B pow (similarity : A -> B -> M S Q) x y (s : S) p, length y = length x ->
  (p = PNan \/ p = PNegInfinite \/ exists q, p = PNum q /\ (q <= 0)%Q) ->
  minkowski pow similarity x y p None s = (Raise (PFAErr 28071), s).
Proof.
  intros S A B pow similarity x y s p L H. unfold minkowski. cbn [weights]. rewrite map_length, L, !Nat.eqb_refl. cbn [negb orb].
  destruct H as [-> | [-> | (q & -> & Hq)]]; auto. rewrite (proj2 (Qle_bool_iff q 0) Hq). auto.
Qed.
(** Symmetric, if the similarity function is. *)
Lemma tally_sym S A B inc (f : A -> B -> M S Q) (g : B -> A -> M S Q) (E : forall a b s, g b a s = f a b s) :
  forall x y w t n d s, tally_loop inc g y x w t n d s = tally_loop inc f x y w t n d s.
Proof.
  induction x as [|[a|] x IH]; intros [|[b|] y] [|c w] t n d s; cbn [tally_loop]; auto.
  unfold bind. rewrite E. destruct (f a b s) as [[z|e] s1]; auto. unfold lift. destruct (inc t z); auto.
Qed.
Theorem C75_symmetric : forall S A B pow (f : A -> B -> M S Q) (g : B -> A -> M S Q) x y mw p (s : S),
  (forall a b s, g b a s = f a b s) -> 
  euclidean g y x mw s = euclidean f x y mw s /\ squaredEuclidean g y x mw s = squaredEuclidean f x y mw s /\
  chebyshev g y x mw s = chebyshev f x y mw s /\ taxicab g y x mw s = taxicab f x y mw s /\
  minkowski pow g y x p mw s = minkowski pow f x y p mw s.
Proof.
  intros S A B pow f g x y mw p s E.
  assert (W : length y = length x -> weights y mw = weights x mw).
  { unfold weights. destruct mw; auto. revert y. clear. induction x; intros [|b y] L; try discriminate; cbn; f_equal; auto. }
  assert (D : (length y = length x -> weights y mw = weights x mw /\ Nat.eqb (length y) (length x) = true) /\
              (length y <> length x -> Nat.eqb (length y) (length x) = false)).
  { split; intros K; [split; auto; apply Nat.eqb_eq; auto|apply Nat.eqb_neq; auto]. }
  assert (G : forall code inc fin, metric_missing code inc fin g y x mw s = metric_missing code inc fin f x y mw s).
  { intros. unfold metric_missing. rewrite (Nat.eqb_sym (length x)).
    destruct (Nat.eq_dec (length y) (length x)) as [L|L].
    - destruct (proj1 D L) as [-> ->]. rewrite L. cbn [negb orb]. destruct (negb _); auto. unfold bind. rewrite (tally_sym _ _ _ inc f g E). auto.
    - rewrite (proj2 D L). auto. }
  unfold euclidean, squaredEuclidean, chebyshev, taxicab. do 4 (split; auto).
  unfold minkowski. rewrite (Nat.eqb_sym (length x)).
  destruct (Nat.eq_dec (length y) (length x)) as [L|L].
  - destruct (proj1 D L) as [-> ->]. rewrite L. cbn [negb orb]. destruct (negb _); auto. destruct p; auto.
    + destruct (Qle_bool p 0); auto. unfold bind. rewrite (tally_sym _ _ _ _ f g E). auto.
    + unfold bind. rewrite (tally_sym _ _ _ _ f g E). auto.
  - rewrite (proj2 D L). auto.
Qed.
(** Without missing values and with a metric as similarity function, taxicab and chebyshev are metrics. *)
Section Metric.
  Context {A : Type} (d : A -> A -> Q).
  Hypothesis (nonneg : forall a b, (0 <= d a b)%Q) (same : forall a, (d a a == 0)%Q)
             (triangle : forall a b c, (d a c <= d a b + d b c)%Q).
  Let sim (a b : A) : M unit Q := ret (d a b).
  Let zs (x y : list A) : list Q := map (fun ab => d (fst ab) (snd ab)) (combine x y).
  Lemma pure_calls x y : calls (fun ab => sim (fst ab) (snd ab)) tt (both_present (map Some x) (map Some y)) tt (zs x y).
  Proof using. rewrite both_all. unfold zs. induction (combine x y); cbn; econstructor; eauto. reflexivity. Qed.
  Lemma qsum_ones n : (qsum (repeat 1 n) == inject_Z (Z.of_nat n))%Q.
  Proof using. induction n; [reflexivity|]. cbn [repeat]. rewrite qsum_cons, IHn, Nat2Z.inj_succ. unfold Z.succ. rewrite inject_Z_plus. change (inject_Z 1) with 1%Q. ring. Qed.
  Lemma ones_pos n : n <> O -> (0 < inject_Z (Z.of_nat n))%Q.
  Proof using. intros. change 0%Q with (inject_Z 0). rewrite <- Zlt_Qlt. lia. Qed.
  Lemma taxicab_plain x y : x <> [] -> length y = length x ->
    exists v, taxicab sim (map Some x) (map Some y) None tt = (Ok (Fin v), tt) /\ (v == qsum (zs x y))%Q.
  Proof using.
    intros NE L. destruct (C75_taxicab sim (map Some x) (map Some y) None tt tt (zs x y)) as [_ K].
    { rewrite !map_length. auto. } { rewrite repeat_length. auto. } { apply pure_calls. }
    rewrite map_length in K. rewrite present_all in K by (rewrite ?repeat_length; auto).
    assert (P : (0 < qsum (repeat 1 (length x)))%Q). { rewrite qsum_ones. apply ones_pos. destruct x; cbn; congruence. }
    destruct K as (v & E & V). { lra. } exists v. split; auto.
    apply (Qmult_inj_r _ _ (qsum (repeat 1%Q (length x)))); auto. lra.
  Qed.
  Lemma chebyshev_plain x y : x <> [] -> length y = length x ->
    exists v m, chebyshev sim (map Some x) (map Some y) None tt = (Ok (Fin v), tt) /\ largest (zs x y) m /\ (v == m)%Q.
  Proof using.
    intros NE L. destruct (C75_chebyshev sim (map Some x) (map Some y) None tt tt (zs x y)) with (powLikeJava := fun _ _ : Q => Ok 0%Q) as (_ & K & _).
    { rewrite !map_length. auto. } { rewrite repeat_length. auto. } { apply pure_calls. }
    rewrite map_length in K. rewrite present_all in K by (rewrite ?repeat_length; auto).
    assert (P : (0 < qsum (repeat 1 (length x)))%Q). { rewrite qsum_ones. apply ones_pos. destruct x; cbn; congruence. }
    destruct K as (v & m & E & La & V). { lra. } exists v, m. split; auto. split; auto.
    apply (Qmult_inj_r _ _ (qsum (repeat 1%Q (length x)))); auto. lra.
  Qed.
  Theorem C75_taxicab_metric : forall x y z, x <> [] -> length y = length x -> length z = length x ->
    exists xx xy yz xz,
      taxicab sim (map Some x) (map Some x) None tt = (Ok (Fin xx), tt) /\ taxicab sim (map Some x) (map Some y) None tt = (Ok (Fin xy), tt) /\
      taxicab sim (map Some y) (map Some z) None tt = (Ok (Fin yz), tt) /\ taxicab sim (map Some x) (map Some z) None tt = (Ok (Fin xz), tt) /\
      (xx == 0 /\ 0 <= xy /\ xz <= xy + yz)%Q.
  Proof using nonneg same triangle.
    intros x y z NE L1 L2. assert (NEy : y <> []) by (destruct x, y; cbn in *; congruence).
    destruct (taxicab_plain x x) as (xx & E1 & V1); auto. destruct (taxicab_plain x y) as (xy & E2 & V2); auto.
    destruct (taxicab_plain y z) as (yz & E3 & V3); auto. { congruence. } destruct (taxicab_plain x z) as (xz & E4 & V4); auto.
    exists xx, xy, yz, xz. do 4 (split; auto). rewrite V1, V2, V3, V4. unfold zs. split; [|split].
    - clear -same. induction x as [|a x IH]; [reflexivity|]. cbn [combine map fst snd]. rewrite qsum_cons, IH, same. reflexivity.
    - apply qsum_nonneg. apply Forall_forall. intros q Hq. apply in_map_iff in Hq. destruct Hq as (ab & <- & _). auto.
    - clear -triangle L1 L2. revert y z L1 L2. induction x as [|a x IH]; intros [|b y] [|c z] L1 L2; try discriminate.
      injection L1 as L1. injection L2 as L2. cbn [combine map fst snd]. rewrite !qsum_cons. specialize (IH y z L1 L2).
      specialize (triangle a b c). lra.
  Qed.
  Theorem C75_chebyshev_metric : forall x y z, x <> [] -> length y = length x -> length z = length x ->
    exists xx xy yz xz,
      chebyshev sim (map Some x) (map Some x) None tt = (Ok (Fin xx), tt) /\ chebyshev sim (map Some x) (map Some y) None tt = (Ok (Fin xy), tt) /\
      chebyshev sim (map Some y) (map Some z) None tt = (Ok (Fin yz), tt) /\ chebyshev sim (map Some x) (map Some z) None tt = (Ok (Fin xz), tt) /\
      (xx == 0 /\ 0 <= xy /\ xz <= xy + yz)%Q.
  Proof using nonneg same triangle.
    intros x y z NE L1 L2. assert (NEy : y <> []) by (destruct x, y; cbn in *; congruence).
    destruct (chebyshev_plain x x) as (xx & m1 & E1 & (A1 & B1 & C1) & V1); auto. destruct (chebyshev_plain x y) as (xy & m2 & E2 & (A2 & B2 & C2) & V2); auto.
    destruct (chebyshev_plain y z) as (yz & m3 & E3 & (A3 & B3 & C3) & V3); auto. { congruence. } destruct (chebyshev_plain x z) as (xz & m4 & E4 & (A4 & B4 & C4) & V4); auto.
    exists xx, xy, yz, xz. do 4 (split; auto). rewrite V1, V2, V3, V4. split; [|split; auto].
    - destruct C1 as [-> | C1]; [reflexivity|]. unfold zs in C1. apply in_map_iff in C1. destruct C1 as ([a b] & <- & Hab).
      cbn. assert (a = b) as ->; [|apply same]. clear -Hab. induction x; cbn in Hab; [destruct Hab|]. destruct Hab as [K|K]; [congruence|auto].
    - destruct C4 as [-> | C4]; [lra|]. unfold zs in *.
      assert (K : exists p q, In p (map (fun ab => d (fst ab) (snd ab)) (combine x y)) /\ In q (map (fun ab => d (fst ab) (snd ab)) (combine y z)) /\ (m4 <= p + q)%Q).
      { clear -triangle L1 L2 C4. revert y z L1 L2 C4. induction x as [|a x IH]; intros [|b y] [|c z] L1 L2 C4; try discriminate; [destruct C4|].
        injection L1 as L1. injection L2 as L2. cbn [combine map fst snd] in *. destruct C4 as [<- | C4].
        - exists (d a b), (d b c). split; [left; auto|]. split; [left; auto|]. auto.
        - destruct (IH y z L1 L2 C4) as (p & q & P1 & P2 & P3). exists p, q. split; [right; auto|]. split; [right; auto|]. auto. }
      destruct K as (p & q & P1 & P2 & P3). specialize (B2 _ P1). specialize (B3 _ P2). lra.
  Qed.
End Metric.
(** With non-negative weights the squared distance is non-negative, and 0 only if all present pairs agree. *)
Theorem C75_zero : forall S A B (similarity : A -> B -> M S Q) x y w (s s' : S) zs v,
  length y = length x -> length w = length x -> Forall (fun z => 0 <= z)%Q w ->
  calls (fun ab => similarity (fst ab) (snd ab)) s (both_present x y) s' zs ->
  squaredEuclidean similarity x y (Some w) s = (Ok (Fin v), s') ->
  (0 <= v)%Q /\ ((v == 0)%Q <-> Forall (fun z => z == 0)%Q zs).
Proof.
  intros S A B similarity x y w s s' zs v L1 L2 F H E.
  destruct (C75_squaredEuclidean similarity x y (Some w) s s' zs L1 L2 H) as [K1 K2].
  destruct (Qeq_dec (qsum (present_weights x y w)) 0) as [Z0|NZ]. { rewrite (K1 Z0) in E. discriminate. }
  destruct (K2 NZ) as (v' & E' & V). rewrite E in E'. inversion E'; subst v'.
  pose proof (qsum_nonneg _ (present_nonneg _ x y w F)) as P1. pose proof (present_le x y w F) as P2.
  pose proof (qsum_nonneg _ (squares_nonneg zs)) as P3.
  assert (P : (0 < qsum (present_weights x y w))%Q) by lra.
  assert (PW : (0 < qsum w)%Q) by lra.
  split.
  - apply (Qmult_le_r _ _ _ P). rewrite V. rewrite Qmult_0_l. apply Qmult_le_0_compat; lra.
  - split.
    + intros Zv. rewrite Zv, Qmult_0_l in V. symmetry in V. apply Qmult_integral in V. destruct V as [V|V]; [|lra].
      pose proof (qsum_zero _ (squares_nonneg zs) V) as G. rewrite Forall_map in G.
      eapply Forall_impl; [|exact G]. intros z Hz. cbn beta in Hz. apply Qmult_integral in Hz. destruct Hz; auto.
    + intros G. assert (Q0 : (qsum (map (fun z => z * z) zs) == 0)%Q).
      { clear -G. induction G as [|z l Hz G IH]; [reflexivity|]. cbn [map]. rewrite qsum_cons, IH, Hz. reflexivity. }
      rewrite Q0, Qmult_0_l in V. apply Qmult_integral in V. destruct V; [auto|lra].
Qed.
Example C75_example :
  let sim (a b : Q) : M Z Q := fun s => (Ok (a - b)%Q, s + 1) in
  let x := [Some 1%Q; None; Some 4%Q] in let y := [Some 3%Q; Some 7%Q; Some 1%Q] in
  calls (fun ab => sim (fst ab) (snd ab)) 0 (both_present x y) 2 [(1 - 3)%Q; (4 - 1)%Q] /\
  match squaredEuclidean sim x y None 0, chebyshev sim x y (Some [1%Q;1%Q;2%Q]) 0, euclidean sim x y None 0 with
  | (Ok (Fin a), 2), (Ok (Fin b), 2), (Ok (Root c), 2) => (a == 39 # 2 /\ b == 4 /\ c == 39 # 2)%Q | _, _, _ => False end.
Proof. cbn zeta. split; [repeat econstructor|]. vm_compute. repeat split; reflexivity. Qed.
(** a vector without present values is at distance nan from itself, not 0 *)
Theorem C75_self_refuted : exists x, squaredEuclidean (S := unit) (fun a b : Q => ret (a - b)%Q) x x None tt = (Ok NaN, tt).
Proof. exists [None; None]. reflexivity. Qed.
(** and negative weights end in a Python ValueError *)
Theorem C75_negative_refuted : exists x y w,
  euclidean (S := unit) (fun a b : Q => ret (a - b)%Q) x y (Some w) tt = (Raise (PyErr "ValueError"), tt).
Proof. exists [Some 1%Q; None], [Some 3%Q; Some 1%Q], [(-1)%Q; 2%Q]. reflexivity. Qed.
(** simpleEuclidean *)
Lemma sum_squares_sym x : forall y, (sum_squares x y == sum_squares y x)%Q.
Proof. induction x as [|a x IH]; intros [|b y]; cbn; try reflexivity. rewrite IH. ring. Qed.
Lemma square_nonneg (q : Q) : (0 <= q * q)%Q.
Proof. nra. Qed.
Lemma sum_squares_nonneg x : forall y, (0 <= sum_squares x y)%Q.
Proof. induction x as [|a x IH]; intros [|b y]; cbn [sum_squares]; try apply Qle_refl. specialize (IH y). pose proof (square_nonneg (a - b)). lra. Qed.
Theorem C75_simpleEuclidean : forall x y,
  (length x <> length y -> simpleEuclidean x y = Raise (PFAErr 28000)) /\
  (length x = length y -> exists q q', simpleEuclidean x y = Ok (Root q) /\ simpleEuclidean y x = Ok (Root q') /\
     (q == qsum (map (fun ab => (fst ab - snd ab) * (fst ab - snd ab)) (combine x y)) /\ q == q' /\ 0 <= q /\
      (q == 0 <-> Forall2 Qeq x y))%Q).
Proof.
  intros x y. unfold simpleEuclidean. split; intros L.
  - destruct (Nat.eqb_spec (length x) (length y)); [congruence|auto].
  - rewrite L, Nat.eqb_refl. cbn [negb py_sqrt].
    rewrite !(proj2 (q_lt_false _ 0)) by apply sum_squares_nonneg. do 2 eexists. do 2 (split; [reflexivity|]).
    split; [|split; [apply sum_squares_sym|split; [apply sum_squares_nonneg|]]].
    + clear L. revert y. induction x as [|a x IH]; intros [|b y]; try reflexivity. cbn [sum_squares combine map fst snd]. rewrite qsum_cons, IH. reflexivity.
    + revert y L. induction x as [|a x IH]; intros [|b y] L; try discriminate; cbn [sum_squares].
      { split; [constructor|reflexivity]. }
      injection L as L. specialize (IH y L). pose proof (sum_squares_nonneg x y). pose proof (square_nonneg (a - b)).
      split.
      * intros K. constructor; [|apply IH; lra]. assert ((a - b) * (a - b) == 0)%Q as K2 by lra. apply Qmult_integral in K2. destruct K2; lra.
      * intros K. inversion K; subst. rewrite (proj2 IH) by auto. rewrite H4. ring.
Qed.
Theorem C75_absDiff : forall x y, (absDiff x y == absDiff y x /\ 0 <= absDiff x y /\ (absDiff x y == 0 <-> x == y))%Q.
Proof.
  intros x y. unfold absDiff. split; [rewrite Qabs_Qminus; reflexivity|]. split; [apply Qabs_nonneg|]. split.
  - intros H. assert (K : (Qabs (x - y) <= 0)%Q) by lra. apply Qabs_Qle_condition in K. lra.
  - intros H. rewrite Qabs_pos; lra.
Qed.

Print Assumptions C57_counts.
Print Assumptions C57_partition.
Print Assumptions C57_symmetric.
Print Assumptions C57_simpleMatching.
Print Assumptions C57_jaccard.
Print Assumptions C57_tanimoto.
Print Assumptions C57_errors.
Print Assumptions C57_general.
Print Assumptions C57_equal_refuted.
Print Assumptions C75_squaredEuclidean.
Print Assumptions C75_euclidean.
Print Assumptions C75_taxicab.
Print Assumptions C75_chebyshev.
Print Assumptions C75_errors.
Print Assumptions C75_minkowski_errors.
Print Assumptions C75_symmetric.
Print Assumptions C75_taxicab_metric.
Print Assumptions C75_chebyshev_metric.
Print Assumptions C75_zero.
Print Assumptions C75_self_refuted.
Print Assumptions C75_negative_refuted.
Print Assumptions C75_simpleEuclidean.
Print Assumptions C75_absDiff.
Print Assumptions C57_similarity.
Print Assumptions C75_minkowski.
