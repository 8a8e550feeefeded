(** Rounding of floats to integers, with the real numbers that the floats stand for (Flocq). *)
From Coq Require Import Reals Lra SpecFloat.
From Flocq Require Import Core.
From Flocq Require Import Relative BinarySingleNaN.
From Verif Require Import Base PyNum PyNumProofs FloatBridge ArithModel CastProps FloatBridge2.
Open Scope R_scope.

Local Notation fmt := (generic_format radix2 (FLT_exp (-1074) 53)).

Lemma rnd_fmt x : fmt x -> rnd x = x.
Proof. intro H. unfold rnd. apply round_generic; [typeclasses eauto|auto]. Qed.

Lemma two_pow n : (0 <= n)%Z -> IZR (2 ^ n) = bpow radix2 n.
Proof. intro H. exact (IZR_Zpower radix2 n H). Qed.

Lemma fmt_scaled (m e : Z) : (Z.abs m <= 2 ^ 53)%Z -> (-1074 <= e)%Z -> fmt (IZR m * bpow radix2 e).
Proof.
  intros M E. destruct (Z.eq_dec (Z.abs m) (2 ^ 53)) as [Q|Q].
  - assert (G : fmt (bpow radix2 (53 + e))) by (apply generic_format_bpow; unfold FLT_exp; lia).
    destruct (Z.abs_eq_or_opp m) as [A|A].
    + replace m with (2 ^ 53)%Z by lia. change (IZR (2 ^ 53)) with (bpow radix2 53). rewrite <- bpow_plus. auto.
    + replace m with (- 2 ^ 53)%Z by lia. change (- 2 ^ 53)%Z with (Z.opp (2 ^ 53)). rewrite opp_IZR.
      change (IZR (2 ^ 53)) with (bpow radix2 53). rewrite Ropp_mult_distr_l_reverse, <- bpow_plus. apply generic_format_opp. auto.
  - change (IZR m * bpow radix2 e) with (F2R (Float radix2 m e)). apply generic_format_FLT.
    exists (Float radix2 m e); auto. cbn. change (Z.pow_pos 2 53) with (2 ^ 53)%Z. lia.
Qed.

Lemma fmt_multiple x k : fmt x -> bpow radix2 k <= Rabs x -> (-1021 <= k)%Z ->
  exists z, x = IZR z * bpow radix2 (k - 52).
Proof.
  intros G B K. rewrite G. unfold F2R. cbn [Fnum Fexp].
  set (e := cexp radix2 (FLT_exp (-1074) 53) x).
  assert (E : (k - 52 <= e)%Z).
  { unfold e, cexp, FLT_exp. assert (k < mag radix2 x)%Z by (apply mag_gt_bpow; auto). lia. }
  exists (Ztrunc (scaled_mantissa radix2 (FLT_exp (-1074) 53) x) * 2 ^ (e - (k - 52)))%Z.
  rewrite mult_IZR, (two_pow (e - (k - 52))) by lia. rewrite Rmult_assoc, <- bpow_plus. f_equal. f_equal. lia.
Qed.

Lemma IZR_bpow_lt a b e : IZR a * bpow radix2 e < IZR b * bpow radix2 e -> (a + 1 <= b)%Z.
Proof.
  intro H. apply Rmult_lt_reg_r in H; [|apply bpow_gt_0]. apply lt_IZR in H. lia.
Qed.
Lemma IZR_bpow_lt' a b e : (a < b)%Z -> IZR a * bpow radix2 e < IZR b * bpow radix2 e.
Proof. intro H. apply Rmult_lt_compat_r; [apply bpow_gt_0|]. apply IZR_lt. auto. Qed.

(** one binary place below a half-integer *)
Lemma half_multiple (h : Z) k : (k <= 51)%Z -> exists z, IZR h / 2 = IZR z * bpow radix2 (k - 52).
Proof.
  intro K. exists (h * 2 ^ (51 - k))%Z. rewrite mult_IZR, (two_pow (51 - k)) by lia.
  rewrite Rmult_assoc, <- bpow_plus. replace (51 - k + (k - 52))%Z with (-1)%Z by lia. change (bpow radix2 (-1)) with (/ 2). auto.
Qed.
Lemma bpow_multiple k : bpow radix2 k = IZR (2 ^ 52) * bpow radix2 (k - 52).
Proof. rewrite (two_pow 52) by lia. rewrite <- bpow_plus. f_equal. lia. Qed.

Lemma binade y : 1 / 2 <= y -> y < IZR (2 ^ 52) -> exists k, (-1 <= k <= 51)%Z /\ bpow radix2 k <= y < bpow radix2 (k + 1).
Proof.
  intros L H. exists (mag radix2 y - 1)%Z. destruct (mag radix2 y) as [m M]. cbn [mag_val].
  assert (P : y <> 0) by lra. specialize (M P). rewrite Rabs_pos_eq in M by lra.
  replace (m - 1 + 1)%Z with m by lia. split; [|auto].
  assert (A : bpow radix2 (-1) < bpow radix2 m) by (change (bpow radix2 (-1)) with (/ 2); lra).
  assert (B : bpow radix2 (m - 1) < bpow radix2 52) by (change (bpow radix2 52) with (IZR (2 ^ 52)); lra).
  apply lt_bpow in A, B. lia.
Qed.

(** ** floor(x + 0.5): rounding x + 1/2 to a float does not take it to the next integer, for |x| < 2^52 and x not the number
    before 1/2 *)
Definition before_half : R := / 2 - bpow radix2 (-54).

Lemma add_half_below x (N : Z) : fmt x -> Rabs x < IZR (2 ^ 52) -> x <> before_half ->
  IZR N - 1 <= x + / 2 < IZR N -> rnd (x + / 2) < IZR N.
Proof.
  intros G B NB [L U].
  assert (Hlast : forall g z, rnd (IZR N - g) = IZR N - g -> 0 < g -> x + / 2 <= IZR N - g -> z = 0%Z -> rnd (x + / 2) < IZR N).
  { intros g _ R P H _. apply Rle_lt_trans with (IZR N - g); [|lra]. rewrite <- R. apply rnd_mono. auto. }
  assert (AB : - IZR (2 ^ 52) < x < IZR (2 ^ 52)) by (apply Rabs_def2 in B; lra).
  assert (NB0 : (N <= 2 ^ 52 + 1)%Z).
  { assert (IZR N < IZR (2 ^ 52 + 2)) by (rewrite plus_IZR; lra). apply lt_IZR in H. lia. }
  destruct (Z.eq_dec N (2 ^ 52 + 1)) as [E0|E0].
  { subst N. rewrite plus_IZR in L.
    assert (exists z, x = IZR z * bpow radix2 (51 - 52)) as [z Z].
    { apply fmt_multiple; auto; [|lia]. rewrite Rabs_pos_eq by lra. change (bpow radix2 51) with (IZR (2 ^ 51)).
      replace (IZR (2 ^ 52)) with (2 * IZR (2 ^ 51)) in * by (rewrite <- mult_IZR; reflexivity).
      assert (1 <= IZR (2 ^ 51)) by (apply IZR_le; lia). lra. }
    change (bpow radix2 (51 - 52)) with (/ 2) in Z.
    assert (A1 : IZR z < IZR (2 * 2 ^ 52)) by (rewrite mult_IZR; lra).
    assert (A2 : IZR (2 * 2 ^ 52 - 1) <= IZR z) by (rewrite minus_IZR, mult_IZR; lra).
    apply lt_IZR in A1. apply le_IZR in A2. assert (z = 2 * 2 ^ 52 - 1)%Z by lia. subst z. clear A1 A2.
    rewrite minus_IZR, mult_IZR in Z.
    replace (x + / 2) with (IZR (2 ^ 52)) by lra. rewrite rnd_int by lia. apply IZR_lt. lia. }
  assert (NB1 : (N <= 2 ^ 52)%Z) by lia.
  assert (NB2 : (- 2 ^ 52 <= N)%Z).
  { assert (IZR (- 2 ^ 52 - 1) < IZR N) by (rewrite minus_IZR, opp_IZR; lra). apply lt_IZR in H. lia. }
  destruct (Z_lt_le_dec N 1) as [C|C]; [|destruct (Z.eq_dec N 1) as [C1|C1]].
  - (* N <= 0 *)
    set (y := (1 - 2 * IZR N) / 2). assert (Y1 : / 2 <= y) by (unfold y; assert (IZR N <= 0) by (apply IZR_le; lia); lra).
    assert (Ya : y < - x) by (unfold y; lra).
    destruct (binade y) as (k & K & P1 & P2); [lra|lra|].
    destruct (fmt_multiple x k G) as [z Z]; [rewrite Rabs_left by lra; lra|lia|].
    destruct (half_multiple (1 - 2 * N) k) as [w W]; [lia|]. rewrite minus_IZR, mult_IZR in W. fold y in W.
    assert (D : (w + 1 <= - z)%Z).
    { apply (IZR_bpow_lt _ _ (k - 52)). rewrite <- W, opp_IZR. rewrite Ropp_mult_distr_l_reverse, <- Z. auto. }
    set (g := bpow radix2 (k - 52)) in *. assert (Gp : 0 < g) by apply bpow_gt_0.
    apply (Hlast g 0%Z); auto.
    + destruct (half_multiple (2 * N) k) as [v V]; [lia|]. fold g in V. rewrite mult_IZR in V.
      replace (2 * IZR N / 2) with (IZR N) in V by lra. rewrite V.
      replace (IZR v * g - g) with (IZR (v - 1) * g) by (rewrite minus_IZR; lra). apply rnd_fmt, fmt_scaled; [|lia].
      assert (VW : y = / 2 - IZR v * g) by (rewrite <- V; unfold y; lra).
      assert (Q1 : - IZR (2 ^ 53) * g < IZR (v - 1) * g).
      { rewrite minus_IZR. assert (bpow radix2 (k + 1) = IZR (2 ^ 53) * g).
        { unfold g. change (IZR (2 ^ 53)) with (bpow radix2 53). rewrite <- bpow_plus. f_equal. lia. }
        assert (g <= / 2) by (unfold g; change (/ 2) with (bpow radix2 (-1)); apply bpow_le; lia). lra. }
      rewrite <- opp_IZR in Q1. apply (IZR_bpow_lt _ _ (k - 52)) in Q1.
      assert (Q2 : IZR v <= 0).
      { apply Rmult_le_reg_r with g; auto. rewrite <- V. rewrite Rmult_0_l. apply IZR_le. lia. }
      apply le_IZR in Q2. lia.
    + apply IZR_le in D. rewrite plus_IZR, opp_IZR in D. apply (Rmult_le_compat_r g) in D; [|lra].
      replace ((IZR w + 1) * g) with (y + g) in D by (rewrite W; lra). replace (- IZR z * g) with (- x) in D by (rewrite Z; lra).
      unfold y in D. lra.
  - (* N = 1 *)
    subst N. apply (Hlast (bpow radix2 (-53)) 0%Z); auto.
    + apply rnd_fmt. replace (IZR 1 - bpow radix2 (-53)) with (IZR (2 ^ 53 - 1) * bpow radix2 (-53)).
      * apply fmt_scaled; lia.
      * rewrite minus_IZR, Rmult_minus_distr_r, Rmult_1_l. f_equal. change (IZR (2 ^ 53)) with (bpow radix2 53).
        rewrite <- bpow_plus. reflexivity.
    + apply bpow_gt_0.
    + assert (E54 : bpow radix2 (-53) = 2 * bpow radix2 (-54)).
      { replace 2 with (bpow radix2 1) by reflexivity. rewrite <- bpow_plus. reflexivity. }
      destruct (Rlt_le_dec x (/ 4)) as [S|S].
      * assert (bpow radix2 (-53) <= / 4) by (change (/ 4) with (bpow radix2 (-2)); apply bpow_le; lia). lra.
      * destruct (fmt_multiple x (-2) G) as [z Z]; [rewrite Rabs_pos_eq by lra; change (bpow radix2 (-2)) with (/ 4); lra|lia|].
        change (-2 - 52)%Z with (-54)%Z in Z.
        assert (Hh : / 2 = IZR (2 ^ 53) * bpow radix2 (-54)).
        { change (IZR (2 ^ 53)) with (bpow radix2 53). rewrite <- bpow_plus. reflexivity. }
        assert (z + 1 <= 2 ^ 53)%Z by (apply (IZR_bpow_lt _ _ (-54)); rewrite <- Z, <- Hh; lra).
        assert (z <> 2 ^ 53 - 1)%Z.
        { intro E. apply NB. unfold before_half. rewrite Z, E, minus_IZR, Hh. lra. }
        assert (Hz : (z + 2 <= 2 ^ 53)%Z) by lia. apply IZR_le in Hz. rewrite plus_IZR in Hz.
        apply (Rmult_le_compat_r (bpow radix2 (-54))) in Hz; [|apply bpow_ge_0]. rewrite <- Hh in Hz. lra.
  - (* N >= 2 *)
    set (y := (2 * IZR N - 1) / 2). assert (Y1 : 3 / 2 <= y) by (assert (2 <= IZR N) by (apply IZR_le; lia); unfold y; lra).
    assert (Yx : x < y) by (unfold y; lra).
    assert (Y2 : y < IZR (2 ^ 52)) by (apply IZR_le in NB1; unfold y; lra).
    destruct (binade y) as (k & K & P1 & P2); [lra|lra|].
    destruct (half_multiple (2 * N - 1) k) as [w W]; [lia|]. rewrite minus_IZR, mult_IZR in W. fold y in W.
    set (g := bpow radix2 (k - 52)) in *. assert (Gp : 0 < g) by apply bpow_gt_0.
    assert (K0 : (0 <= k)%Z).
    { destruct (Z_lt_le_dec k 0); [|lia]. exfalso. assert (bpow radix2 (k + 1) <= bpow radix2 0) by (apply bpow_le; lia).
      change (bpow radix2 0) with 1 in H. lra. }
    assert (Hx : x <= y - g).
    { destruct (Rlt_le_dec x (bpow radix2 k)) as [S|S].
      - assert (Ny : bpow radix2 k <> y).
        { intro E. assert (IZR (2 * N - 1) = IZR (2 * 2 ^ k)).
          { rewrite minus_IZR, !mult_IZR, (two_pow k) by lia. unfold y in E. lra. }
          apply eq_IZR in H. lia. }
        rewrite bpow_multiple in P1, Ny. fold g in P1, Ny. assert (D : (2 ^ 52 + 1 <= w)%Z).
        { apply (IZR_bpow_lt _ _ (k - 52)). fold g. rewrite <- W. lra. }
        apply IZR_le in D. rewrite plus_IZR in D. apply (Rmult_le_compat_r g) in D; [|lra].
        rewrite bpow_multiple in S. fold g in S. rewrite W. lra.
      - assert (1 <= bpow radix2 k) by (change 1 with (bpow radix2 0); apply bpow_le; lia).
        destruct (fmt_multiple x k G) as [z Z]; [rewrite Rabs_pos_eq by lra; auto|lia|]. fold g in Z.
        assert (D : (z + 1 <= w)%Z) by (apply (IZR_bpow_lt _ _ (k - 52)); fold g; rewrite <- W, <- Z; auto).
        apply IZR_le in D. rewrite plus_IZR in D. apply (Rmult_le_compat_r g) in D; [|lra]. rewrite W, Z. fold g. lra. }
    apply (Hlast g 0%Z); auto.
    + destruct (half_multiple (2 * N) k) as [v V]; [lia|]. fold g in V. rewrite mult_IZR in V.
      replace (2 * IZR N / 2) with (IZR N) in V by lra. rewrite V.
      replace (IZR v * g - g) with (IZR (v - 1) * g) by (rewrite minus_IZR; lra). apply rnd_fmt, fmt_scaled; [|lia].
      assert (Eb : bpow radix2 (k + 1) = IZR (2 ^ 53) * g).
      { unfold g. change (IZR (2 ^ 53)) with (bpow radix2 53). rewrite <- bpow_plus. f_equal. lia. }
      (* y < 2^(k+1), so N - 1 < 2^(k+1), hence N <= 2^(k+1) *)
      assert (Q0 : (N <= 2 ^ (k + 1))%Z).
      { assert (IZR (N - 1) < IZR (2 ^ (k + 1))).
        { rewrite minus_IZR, (two_pow (k + 1)) by lia. unfold y in P2. lra. }
        apply lt_IZR in H. lia. }
      assert (Q1 : IZR v <= IZR (2 ^ 53)).
      { apply Rmult_le_reg_r with g; auto. rewrite <- V, <- Eb, <- (two_pow (k + 1)) by lia. apply IZR_le. auto. }
      apply le_IZR in Q1.
      assert (Q2 : 0 < IZR v).
      { apply Rmult_lt_reg_r with g; auto. rewrite <- V, Rmult_0_l. apply IZR_lt. lia. }
      apply lt_IZR in Q2. lia.
    + unfold y in Hx. lra.
Qed.

Lemma round_floor x : fmt x -> Rabs x < IZR (2 ^ 52) -> x <> before_half -> Zfloor (rnd (x + / 2)) = Zfloor (x + / 2).
Proof.
  intros G B N. set (n := Zfloor (x + / 2)). apply Zfloor_imp.
  pose proof (Zfloor_lb (x + / 2)) as L. pose proof (Zfloor_ub (x + / 2)) as U. fold n in L, U.
  assert (AB : - IZR (2 ^ 52) < x < IZR (2 ^ 52)) by (apply Rabs_def2 in B; lra). split.
  - rewrite <- (rnd_int n). { apply rnd_mono. auto. }
    assert (A1 : IZR n < IZR (2 ^ 52 + 1)) by (rewrite plus_IZR; lra).
    assert (A2 : IZR (- 2 ^ 52 - 1) < IZR n) by (rewrite minus_IZR, opp_IZR; lra).
    apply lt_IZR in A1, A2. lia.
  - apply add_half_below; auto. rewrite plus_IZR. lra.
Qed.

(** beyond 2^53 adding 1/2 changes nothing *)
Lemma add_half_big x : fmt x -> IZR (2 ^ 53) < Rabs x -> rnd (x + / 2) = x.
Proof.
  intros G B.
  assert (Near : Rabs (rnd (x + / 2) - (x + / 2)) <= / 2).
  { pose proof (round_N_pt radix2 (FLT_exp (-1074) 53) (fun z => negb (Z.even z)) (x + / 2)) as [_ P].
    specialize (P x G). unfold rnd, ZnearestE. eapply Rle_trans; [exact P|]. replace (x - (x + / 2)) with (- / 2) by lra.
    rewrite Rabs_Ropp, Rabs_pos_eq; lra. }
  assert (Gr : fmt (rnd (x + / 2))) by (unfold rnd; apply generic_format_round; typeclasses eauto).
  set (r := rnd (x + / 2)) in *. apply Rabs_le_inv in Near.
  change (IZR (2 ^ 53)) with (bpow radix2 53) in B.
  destruct (fmt_multiple x 53 G) as [z Z]; [lra|lia|]. change (bpow radix2 (53 - 52)) with 2 in Z.
  assert (Br : bpow radix2 53 <= Rabs r).
  { change (bpow radix2 53) with (IZR (2 ^ 53)) in *.
    (* x is an even integer beyond 2^53, so it is at least 2^53 + 2 away from 0 *)
    destruct (Rle_or_lt 0 x) as [P|P].
    - rewrite Rabs_pos_eq in B by lra. rewrite Rabs_pos_eq; lra.
    - rewrite Rabs_left in B by lra. assert (D : IZR (2 ^ 52) < IZR (- z)).
      { rewrite opp_IZR. change (IZR (2 ^ 53)) with (IZR (2 * 2 ^ 52)) in B. rewrite mult_IZR in B. lra. }
      apply lt_IZR in D. assert (D' : (2 ^ 52 + 1 <= - z)%Z) by lia. apply IZR_le in D'. rewrite plus_IZR, opp_IZR in D'.
      change (IZR (2 ^ 53)) with (IZR (2 * 2 ^ 52)). rewrite mult_IZR. rewrite Rabs_left by lra. lra. }
  destruct (fmt_multiple r 53 Gr) as [w W]; [auto|lia|]. change (bpow radix2 (53 - 52)) with 2 in W.
  assert (A1 : IZR (w - z) < IZR 1) by (rewrite minus_IZR; lra).
  assert (A2 : IZR (-1) < IZR (w - z)) by (rewrite minus_IZR; lra).
  apply lt_IZR in A1, A2. assert (w = z) by lia. subst w. lra.
Qed.

(** ** Conversions *)
Lemma f_of_Z_gen z : Rabs (rnd (IZR z)) < bpow radix2 1024 ->
  fval (f_of_Z z) = rnd (IZR z) /\ is_finite_SF (f_of_Z z) = true.
Proof.
  intros Hlt. unfold f_of_Z, SpecFloat.binary_normalize.
  destruct z as [|p|p].
  - split; [|reflexivity]. unfold rnd, fval. simpl. rewrite round_0; [reflexivity|typeclasses eauto].
  - rewrite br_equiv. pose proof (binary_round_correct 53 1024 _ _ mode_NE false p 0) as B.
    simpl in B. destruct B as [_ B]. rewrite Rlt_bool_true in B.
    + destruct B as [B1 [B2 _]]. split; [|exact B2]. unfold fval. rewrite B1. unfold rnd, F2R; simpl. now rewrite Rmult_1_r.
    + unfold F2R; simpl. rewrite Rmult_1_r. exact Hlt.
  - rewrite br_equiv. pose proof (binary_round_correct 53 1024 _ _ mode_NE true p 0) as B.
    simpl in B. destruct B as [_ B]. rewrite Rlt_bool_true in B.
    + destruct B as [B1 [B2 _]]. split; [|exact B2]. unfold fval. rewrite B1. unfold rnd, F2R; simpl. now rewrite Rmult_1_r.
    + unfold F2R; simpl. rewrite Rmult_1_r. exact Hlt.
Qed.
Lemma f_of_Z_valid z : valid (f_of_Z z).
Proof. apply normalize_valid. Qed.

Lemma py_floor_val f : finite f -> py_floor f = Ok (Zfloor (fval f)).
Proof.
  destruct f as [s|s| |s m e]; try discriminate; intros _.
  - cbn. unfold fval. cbn. rewrite Zfloor_IZR. auto.
  - unfold py_floor, fval, SF2R, F2R. cbn [Fnum Fexp].
    assert (Zs : cond_Zopp s (Zpos m) = zsign s (Zpos m)) by (destruct s; auto). rewrite Zs.
    destruct (0 <=? e)%Z eqn:E.
    + apply Z.leb_le in E. rewrite <- two_pow by auto. rewrite <- mult_IZR, Zfloor_IZR. auto.
    + apply Z.leb_gt in E. f_equal.
      replace (bpow radix2 e) with (/ IZR (2 ^ (- e))).
      * symmetry. apply Zfloor_div. assert (0 < 2 ^ (- e))%Z by (apply Z.pow_pos_nonneg; lia). lia.
      * rewrite two_pow by lia. rewrite <- bpow_opp. f_equal. lia.
Qed.
Lemma py_ceil_val f : finite f -> py_ceil f = Ok (Zceil (fval f)).
Proof.
  destruct f as [s|s| |s m e]; try discriminate; intros Fn.
  - cbn. unfold fval. cbn. rewrite Zceil_IZR. auto.
  - unfold py_ceil, fval, SF2R, F2R. cbn [Fnum Fexp].
    assert (Zs : cond_Zopp s (Zpos m) = zsign s (Zpos m)) by (destruct s; auto). rewrite Zs.
    destruct (0 <=? e)%Z eqn:E.
    + apply Z.leb_le in E. rewrite <- two_pow by auto. rewrite <- mult_IZR, Zceil_IZR. auto.
    + apply Z.leb_gt in E. unfold Zceil. do 2 f_equal.
      replace (bpow radix2 e) with (/ IZR (2 ^ (- e))).
      * rewrite <- Ropp_mult_distr_l_reverse, <- opp_IZR. symmetry. apply Zfloor_div.
        assert (0 < 2 ^ (- e))%Z by (apply Z.pow_pos_nonneg; lia). lia.
      * rewrite two_pow by lia. rewrite <- bpow_opp. f_equal. lia.
Qed.

Lemma big_half x : finite x -> valid x -> Rabs (rnd (fval x + / 2)) < bpow radix2 1024.
Proof.
  intros F V. pose proof (valid_format x V) as G. pose proof (fval_lt_big x F V) as B. unfold big in B.
  destruct (Rle_or_lt (Rabs (fval x)) (IZR (2 ^ 53))) as [L|L].
  - apply Rle_lt_trans with (IZR (2 ^ 54)).
    + unfold rnd. apply abs_round_le_generic; try typeclasses eauto.
      * change (IZR (2 ^ 54)) with (bpow radix2 54). apply generic_format_bpow. unfold FLT_exp. lia.
      * eapply Rle_trans; [apply Rabs_triang|]. rewrite (Rabs_pos_eq (/ 2)) by lra.
        change (IZR (2 ^ 54)) with (IZR (2 * 2 ^ 53)). rewrite mult_IZR. assert (1 <= IZR (2 ^ 53)) by (apply IZR_le; lia). lra.
    + change (IZR (2 ^ 54)) with (bpow radix2 54). apply bpow_lt. lia.
  - rewrite add_half_big; auto.
Qed.
