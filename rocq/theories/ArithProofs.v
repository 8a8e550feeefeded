From Coq Require Import SpecFloat Reals Lra FinFun.
From Flocq Require Import Core BinarySingleNaN.
From Verif Require Import Base PyNum PyNumProofs ArithModel ArithSpec FloatBridge.
Open Scope Z_scope.

Ltac consts := change (2 ^ (32 - 1)) with 2147483648 in *; change (2 ^ (64 - 1)) with 9223372036854775808 in *;
  change (2^31) with 2147483648 in *; change (2^63) with 9223372036854775808 in *;
  unfold INT_MIN_VALUE, INT_MAX_VALUE, LONG_MIN_VALUE, LONG_MAX_VALUE in *.

Lemma num_lt_int a b : num_lt (NI a) (NI b) = (a <? b).
Proof. unfold num_lt, num_cmp. unfold Z.ltb. destruct (a ?= b); reflexivity. Qed.
Lemma num_gt_int a b : num_gt (NI a) (NI b) = (b <? a).
Proof. unfold num_gt, num_cmp. rewrite Z.ltb_compare, (Z.compare_antisym a b). destruct (a ?= b); reflexivity. Qed.
Lemma num_eq_int a b : num_eq (NI a) (NI b) = (a =? b).
Proof. unfold num_eq, num_cmp. unfold Z.eqb. rewrite Z.eqb_compare || idtac.
  destruct (a ?= b) eqn:E.
  - apply Z.compare_eq in E; subst. destruct b; try reflexivity; symmetry; apply Pos.eqb_refl.
  - assert (H : a <> b) by (intros ->; rewrite Z.compare_refl in E; discriminate).
    apply Z.eqb_neq in H. unfold Z.eqb in H. now rewrite H.
  - assert (H : a <> b) by (intros ->; rewrite Z.compare_refl in E; discriminate).
    apply Z.eqb_neq in H. unfold Z.eqb in H. now rewrite H.
Qed.

Lemma check_overflow_int t z c1 c2 : integral t -> Z.abs z < 2 ^ 200 ->
  exact_or_overflow t z c1 c2 (check_overflow t (NI z) c1 c2).
Proof.
  intros [-> | ->] Hz; unfold exact_or_overflow, check_overflow, fits, width;
    rewrite (py_isnan_int z Hz); simpl rbind; rewrite num_lt_int, num_gt_int; consts; simpl orb;
    (split; intros H;
     [ replace (z <? _) with false by (symmetry; apply Z.ltb_ge; lia);
       replace (_ <? z) with false by (symmetry; apply Z.ltb_ge; lia); reflexivity
     | match goal with |- (if ?b then _ else _) = _ => replace b with true; [reflexivity|] end;
       symmetry; apply orb_true_iff; rewrite !Z.ltb_lt; lia ]).
Qed.

Section Fits.
  Variable t : ntype.
  Hypothesis Ht : integral t.
  Lemma fits_bound x : fits (width t) x -> Z.abs x <= 2 ^ 63.
  Proof. destruct Ht as [-> | ->]; unfold fits, width; consts; lia. Qed.

  Lemma plus_spec x y : fits (width t) x -> fits (width t) y ->
    exact_or_overflow t (x + y) 18000 18001 (lib_plus t (NI x) (NI y)).
  Proof.
    intros Hx Hy. apply fits_bound in Hx, Hy.
    apply (check_overflow_int t (x + y)); [assumption|]. lia.
  Qed.
  Lemma minus_spec x y : fits (width t) x -> fits (width t) y ->
    exact_or_overflow t (x - y) 18010 18011 (lib_minus t (NI x) (NI y)).
  Proof.
    intros Hx Hy. apply fits_bound in Hx, Hy.
    apply (check_overflow_int t (x - y)); [assumption|]. lia.
  Qed.
  Lemma times_spec x y : fits (width t) x -> fits (width t) y ->
    exact_or_overflow t (x * y) 18020 18021 (lib_times t (NI x) (NI y)).
  Proof.
    intros Hx Hy. apply fits_bound in Hx, Hy.
    apply (check_overflow_int t (x * y)); [assumption|]. rewrite Z.abs_mul.
    apply Z.le_lt_trans with (2 ^ 63 * 2 ^ 63); [|reflexivity].
    apply Z.mul_le_mono_nonneg; lia.
  Qed.
  Lemma neg_spec x : fits (width t) x ->
    exact_or_overflow t (- x) 18050 18051 (lib_negative t (NI x)).
  Proof. intros Hx. apply fits_bound in Hx. apply (check_overflow_int t (- x)); [assumption|]. lia. Qed.
  Lemma abs_spec x : fits (width t) x ->
    exact_or_overflow t (Z.abs x) 27020 27021 (lib_abs t (NI x)).
  Proof. intros Hx. apply fits_bound in Hx. apply (check_overflow_int t (Z.abs x)); [assumption|]. lia. Qed.

  Lemma modulo_spec x y : fits (width t) x -> fits (width t) y -> y <> 0 ->
    exists r, lib_modulo t (NI x) (NI y) = Ok (NI r) /\
      ((0 < y /\ 0 <= r < y) \/ (y < 0 /\ y < r <= 0)) /\ (exists k, x = k * y + r) /\ fits (width t) r.
  Proof.
    intros Hx Hy Hy0. exists (x mod y). unfold lib_modulo. rewrite num_eq_int.
    replace (y =? 0) with false by (symmetry; now apply Z.eqb_neq). split; [reflexivity|].
    assert (B : (0 < y /\ 0 <= x mod y < y) \/ (y < 0 /\ y < x mod y <= 0)).
    { destruct (Z_lt_ge_dec y 0).
      - right. split; [assumption|]. apply Z.mod_neg_bound. assumption.
      - left. split; [lia|]. apply Z.mod_pos_bound. lia. }
    split; [exact B|]. split.
    - exists (x / y). pose proof (Z.div_mod x y Hy0). lia.
    - unfold fits in *. lia.
  Qed.

  Lemma remainder_eq x y : fits (width t) x -> fits (width t) y -> y <> 0 ->
    lib_remainder t (NI x) (NI y) = Ok (NI (Z.rem x y)).
  Proof.
    intros Hx Hy Hy0. apply fits_bound in Hx, Hy. unfold lib_remainder. rewrite num_eq_int.
    replace (y =? 0) with false by (symmetry; now apply Z.eqb_neq).
    rewrite py_isnan_int, py_isinf_int, py_isinf_int by lia. simpl rbind. simpl andb. cbv iota.
    rewrite !num_lt_int, !num_gt_int. unfold py_sub, py_add, num_op, py_abs.
    assert (Hq : x = y * Z.quot x y + Z.rem x y) by (apply Z.quot_rem'; assumption).
    assert (Hd : x = y * (x / y) + x mod y) by (apply Z.div_mod; assumption).
    assert (Hrb : Z.abs (Z.rem x y) < Z.abs y) by (apply Z.rem_bound_abs; assumption).
    assert (Hrs : 0 <= Z.rem x y * x) by (apply Z.rem_sign_mul; assumption).
    assert (B : (0 < y /\ 0 <= x mod y < y) \/ (y < 0 /\ y < x mod y <= 0)).
    { destruct (Z_lt_ge_dec y 0); [right|left].
      - split; [assumption|]. apply Z.mod_neg_bound. assumption.
      - split; [lia|]. apply Z.mod_pos_bound. lia. }
    set (r := Z.rem x y) in *. set (m := x mod y) in *.
    set (q := Z.quot x y) in *. set (d := x / y) in *.
    assert (E : m - r = y * (q - d)) by nia.
    assert (Hk : q - d = 0 \/ q - d = 1 \/ q - d = -1) by nia.
    assert (Hr0 : (0 < x -> 0 <= r) /\ (x < 0 -> r <= 0) /\ (x = 0 -> r = 0)).
    { repeat split; [nia|nia|]. intros Hx0. unfold r. rewrite Hx0. apply Z.rem_0_l. assumption. }
    assert (E2 : m = r \/ m = r + y \/ m = r - y).
    { destruct Hk as [Hk|[Hk|Hk]]; rewrite Hk in E; lia. }
    clear Hrs E Hk.
    destruct (x <? 0) eqn:X0; destruct (0 <? m) eqn:M0; destruct (0 <? x) eqn:X1; destruct (m <? 0) eqn:M1;
      rewrite ?Z.ltb_lt, ?Z.ltb_ge in *; simpl andb; cbv iota; f_equal; f_equal; lia.
  Qed.
End Fits.

Lemma floordiv_eq x y : Z.abs x < 2 ^ 53 -> y <> 0 -> Z.abs y <= 2 ^ 63 ->
  lib_floordiv (NI x) (NI y) = Ok (Z.quot x y).
Proof.
  intros Hx Hy Hy2. unfold lib_floordiv. rewrite num_eq_int.
  replace (y =? 0) with false by (symmetry; now apply Z.eqb_neq). unfold to_f.
  destruct (py_float_ok y) as (fy & -> & Ey & _); [lia|].
  destruct (py_float_ok x) as (fx & -> & Ex & _); [lia|]. simpl rbind. subst fx fy.
  apply int_div_trunc; try assumption. lia.
Qed.

(** bitwise operators *)
Lemma pattern_land w x y : 0 < w -> pattern w (Z.land x y) = Z.land (pattern w x) (pattern w y).
Proof.
  intros Hw. unfold pattern. rewrite <- !Z.land_ones by lia.
  apply Z.bits_inj'. intros i Hi. rewrite !Z.land_spec. destruct (Z.testbit x i), (Z.testbit y i), (Z.testbit (Z.ones w) i); reflexivity.
Qed.
Lemma pattern_lor w x y : 0 < w -> pattern w (Z.lor x y) = Z.lor (pattern w x) (pattern w y).
Proof.
  intros Hw. unfold pattern. rewrite <- !Z.land_ones by lia.
  apply Z.bits_inj'. intros i Hi. rewrite !Z.land_spec, !Z.lor_spec, !Z.land_spec. destruct (Z.testbit x i), (Z.testbit y i), (Z.testbit (Z.ones w) i); reflexivity.
Qed.
Lemma pattern_lxor w x y : 0 < w -> pattern w (Z.lxor x y) = Z.lxor (pattern w x) (pattern w y).
Proof.
  intros Hw. unfold pattern. rewrite <- !Z.land_ones by lia.
  apply Z.bits_inj'. intros i Hi. rewrite !Z.land_spec, !Z.lxor_spec, !Z.land_spec. destruct (Z.testbit x i), (Z.testbit y i), (Z.testbit (Z.ones w) i); reflexivity.
Qed.
Lemma pattern_lnot w x : 0 < w -> pattern w (Z.lnot x) = 2 ^ w - 1 - pattern w x.
Proof.
  intros Hw. unfold pattern. unfold Z.lnot.
  assert (P : 0 < 2 ^ w) by (apply Z.pow_pos_nonneg; lia).
  pose proof (Z.mod_pos_bound x (2 ^ w) P). pose proof (Z.div_mod x (2 ^ w)).
  symmetry. apply Z.mod_unique with (- (x / 2 ^ w) - 1); lia.
Qed.

(** w-bit range in terms of the sign-extended bits *)
Lemma fits_bits w x : 0 < w -> fits w x <-> (forall i, w - 1 <= i -> Z.testbit x i = (x <? 0)).
Proof.
  intros Hw. assert (P : 0 < 2 ^ (w - 1)) by (apply Z.pow_pos_nonneg; lia).
  assert (POS : forall z, 0 <= z -> z < 2 ^ (w - 1) <-> (forall i, w - 1 <= i -> Z.testbit z i = false)).
  { intros z Hz. split.
    - intros Hl i Hi. destruct (Z.eq_dec z 0) as [->|]; [apply Z.bits_0|].
      apply Z.bits_above_log2; [assumption|]. apply Z.log2_lt_pow2 in Hl; lia.
    - intros Hb. destruct (Z_lt_ge_dec z (2 ^ (w - 1))) as [|G]; [assumption|].
      exfalso. assert (w - 1 <= Z.log2 z) by (apply Z.log2_le_pow2; lia).
      specialize (Hb _ H). rewrite Z.bit_log2 in Hb; [discriminate|lia]. }
  unfold fits. destruct (x <? 0) eqn:E; [apply Z.ltb_lt in E|apply Z.ltb_ge in E].
  - specialize (POS (Z.lnot x)). assert (L : Z.lnot x = - x - 1) by (unfold Z.lnot; lia).
    rewrite L in POS. split.
    + intros H i Hi. assert (H1 : - x - 1 < 2 ^ (w - 1)) by lia.
      apply POS with (i := i) in H1; try lia. rewrite <- L, Z.lnot_spec in H1 by lia.
      destruct (Z.testbit x i); [reflexivity|discriminate].
    + intros H. assert (H1 : - x - 1 < 2 ^ (w - 1)); [|lia].
      apply POS; [lia|]. intros i Hi. rewrite <- L, Z.lnot_spec by lia. now rewrite H.
  - rewrite <- (POS x) by lia. lia.
Qed.

Lemma fits_land w x y : 0 < w -> fits w x -> fits w y -> fits w (Z.land x y).
Proof.
  intros Hw Hx Hy. rewrite fits_bits in * by assumption. intros i Hi.
  rewrite Z.land_spec, Hx, Hy by assumption.
  destruct (x <? 0) eqn:X, (y <? 0) eqn:Y; simpl; symmetry;
    rewrite ?Z.ltb_lt, ?Z.ltb_ge in *; (try now apply Z.land_neg); apply Z.land_nonneg; auto.
Qed.
Lemma fits_lor w x y : 0 < w -> fits w x -> fits w y -> fits w (Z.lor x y).
Proof.
  intros Hw Hx Hy. rewrite fits_bits in * by assumption. intros i Hi.
  rewrite Z.lor_spec, Hx, Hy by assumption.
  destruct (x <? 0) eqn:X, (y <? 0) eqn:Y; simpl; symmetry;
    rewrite ?Z.ltb_lt, ?Z.ltb_ge in *; (try now (apply Z.lor_neg; auto)); apply Z.lor_nonneg; auto.
Qed.
Lemma fits_lnot w x : 0 < w -> fits w x -> fits w (Z.lnot x).
Proof. unfold fits, Z.lnot. lia. Qed.
Lemma fits_lxor w x y : 0 < w -> fits w x -> fits w y -> fits w (Z.lxor x y).
Proof.
  intros Hw Hx Hy. rewrite fits_bits in * by assumption. intros i Hi.
  rewrite Z.lxor_spec, Hx, Hy by assumption.
  destruct (x <? 0) eqn:X, (y <? 0) eqn:Y; simpl; symmetry;
    rewrite ?Z.ltb_lt, ?Z.ltb_ge in *.
  - apply Z.lxor_nonneg. lia.
  - destruct (Z_lt_ge_dec (Z.lxor x y) 0) as [|G]; [assumption|].
    assert (H : 0 <= Z.lxor x y) by lia. apply Z.lxor_nonneg in H. lia.
  - destruct (Z_lt_ge_dec (Z.lxor x y) 0) as [|G]; [assumption|].
    assert (H : 0 <= Z.lxor x y) by lia. apply Z.lxor_nonneg in H. lia.
  - apply Z.lxor_nonneg. lia.
Qed.

(** casts *)
Lemma py_ceil_finite f : is_finite_SF f = true -> exists c, py_ceil f = Ok c.
Proof. destruct f as [| | |s m e]; try discriminate; intros _; simpl; [eauto|]. destruct (0 <=? e); eauto. Qed.

Lemma fdiv_neg_finite x b : - 2 ^ 63 <= x < 0 -> 0 <= b <= 64 ->
  is_finite_SF (fdiv (fneg (f_of_Z x)) (f_of_Z (2 ^ b))) = true.
Proof.
  intros Hx Hb.
  assert (Hb2 : 1 <= 2 ^ b <= 2 ^ 64).
  { split; [apply (Z.pow_le_mono_r 2 0 b); lia|]. apply Z.pow_le_mono_r; lia. }
  destruct (f_of_Z_val x) as [Vx Fx]; [lia|]. destruct (f_of_Z_val (2 ^ b)) as [Vy Fy]; [lia|].
  destruct (f_of_Z x) as [s|s| |sx mx ex] eqn:Ex; try discriminate;
  destruct (f_of_Z (2 ^ b)) as [s'|s'| |sy my ey] eqn:Ey; try discriminate; try reflexivity.
  - exfalso. unfold fval in Vy; simpl in Vy.
    assert (H : (1 <= rnd (IZR (2 ^ b)))%R); [|lra].
    rewrite <- (rnd_int 1) by lia. unfold rnd. apply round_le; try typeclasses eauto. apply IZR_le; lia.
  - exfalso. unfold fval in Vy; simpl in Vy.
    assert (H : (1 <= rnd (IZR (2 ^ b)))%R); [|lra].
    rewrite <- (rnd_int 1) by lia. unfold rnd. apply round_le; try typeclasses eauto. apply IZR_le; lia.
  - change (fneg (S754_finite sx mx ex)) with (S754_finite (negb sx) mx ex).
    apply fdiv_val.
    assert (V : fval (S754_finite (negb sx) mx ex) = (- rnd (IZR x))%R).
    { rewrite <- Vx. unfold fval, SF2R, F2R; simpl. destruct sx; simpl; rewrite ?opp_IZR; try lra.
      - change (IZR (Z.neg mx)) with (IZR (- Z.pos mx)). rewrite opp_IZR. lra.
      - change (IZR (Z.neg mx)) with (IZR (- Z.pos mx)). rewrite opp_IZR. lra. }
    rewrite V, Vy. rewrite <- rnd_opp, <- opp_IZR.
    assert (H1 : (1 <= rnd (IZR (2 ^ b)))%R).
    { rewrite <- (rnd_int 1) by lia. unfold rnd. apply round_le; try typeclasses eauto. apply IZR_le; lia. }
    assert (H2 : (0 <= rnd (IZR (- x)) <= IZR (2 ^ 63))%R).
    { split.
      - replace 0%R with (rnd 0) by (unfold rnd; apply round_0; typeclasses eauto).
        unfold rnd. apply round_le; try typeclasses eauto. apply IZR_le. lia.
      - unfold rnd. apply round_le_generic; try typeclasses eauto.
        + change (IZR (2 ^ 63)) with (bpow radix2 63). apply generic_format_bpow. unfold FLT_exp. lia.
        + apply IZR_le. lia. }
    set (a := rnd (IZR (- x))) in *. set (d := rnd (IZR (2 ^ b))) in *.
    assert (H3 : (0 <= a / d <= IZR (2 ^ 63))%R).
    { split.
      - apply Rmult_le_pos; [lra|]. left. apply Rinv_0_lt_compat. lra.
      - apply Rle_trans with a; [|lra]. rewrite <- (Rmult_1_r a) at 2. unfold Rdiv.
        apply Rmult_le_compat_l; [lra|]. rewrite <- Rinv_1. apply Rinv_le; lra. }
    apply Rle_lt_trans with (bpow radix2 63).
    + unfold rnd. apply abs_round_le_generic; try typeclasses eauto.
      * apply generic_format_bpow. unfold FLT_exp. lia.
      * rewrite Rabs_pos_eq by lra. change (bpow radix2 63) with (IZR (2 ^ 63)). lra.
    + apply bpow_lt. lia.
Qed.

Lemma do_unsigned_eq x bits : fits 64 x -> 0 <= bits <= 64 -> do_unsigned x bits = Ok (x mod 2 ^ bits).
Proof.
  intros Hx Hb. unfold fits in Hx. consts. unfold do_unsigned.
  assert (P : 0 < 2 ^ bits) by (apply Z.pow_pos_nonneg; lia).
  destruct (x <? 0) eqn:E; [apply Z.ltb_lt in E|reflexivity].
  assert (Hb2 : 2 ^ bits <= 2 ^ 64) by (apply Z.pow_le_mono_r; lia).
  destruct (py_float_ok x) as (fx & -> & Ex & _); [lia|].
  destruct (py_float_ok (2 ^ bits)) as (fm & -> & Em & _); [lia|]. simpl rbind. subst fx fm.
  destruct (py_ceil_finite (fdiv (fneg (f_of_Z x)) (f_of_Z (2 ^ bits)))) as [c ->].
  { apply fdiv_neg_finite; [|assumption]. consts. lia. }
  simpl. f_equal. rewrite Z.mul_comm, Z.mod_add; lia.
Qed.

Lemma unsigned_spec x bits : fits 64 x -> 1 <= bits <= 63 -> lib_unsigned x bits = Ok (x mod 2 ^ bits).
Proof.
  intros Hx Hb. unfold lib_unsigned.
  replace ((bits <? 1) || (63 <? bits)) with false by (symmetry; apply orb_false_iff; rewrite !Z.ltb_ge; lia).
  apply do_unsigned_eq; [assumption|lia].
Qed.
Lemma unsigned_bad x bits : ~ (1 <= bits <= 63) -> lib_unsigned x bits = Raise (PFAErr 17010).
Proof.
  intros Hb. unfold lib_unsigned.
  replace ((bits <? 1) || (63 <? bits)) with true; [reflexivity|].
  symmetry; apply orb_true_iff; rewrite !Z.ltb_lt; lia.
Qed.
Lemma signed_spec x bits : fits 64 x -> 2 <= bits <= 64 ->
  exists y, lib_signed x bits = Ok y /\ fits bits y /\ pattern bits y = pattern bits x.
Proof.
  intros Hx Hb. unfold lib_signed.
  replace ((bits <? 2) || (64 <? bits)) with false by (symmetry; apply orb_false_iff; rewrite !Z.ltb_ge; lia).
  rewrite do_unsigned_eq by (assumption || lia). simpl rbind.
  assert (P : 0 < 2 ^ (bits - 1)) by (apply Z.pow_pos_nonneg; lia).
  assert (D : 2 ^ bits = 2 * 2 ^ (bits - 1)).
  { rewrite <- Z.pow_succ_r by lia. f_equal. lia. }
  pose proof (Z.mod_pos_bound x (2 ^ bits)) as B.
  destruct (2 ^ (bits - 1) - 1 <? x mod 2 ^ bits) eqn:E; [apply Z.ltb_lt in E|apply Z.ltb_ge in E].
  - exists (x mod 2 ^ bits - 2 * 2 ^ (bits - 1)). split; [reflexivity|]. split; [unfold fits; lia|].
    unfold pattern. rewrite <- D. replace (x mod 2 ^ bits - 2 ^ bits) with (x mod 2 ^ bits + (-1) * 2 ^ bits) by lia.
    rewrite Z.mod_add by lia. apply Z.mod_mod. lia.
  - exists (x mod 2 ^ bits). split; [reflexivity|]. split; [unfold fits; lia|].
    unfold pattern. apply Z.mod_mod. lia.
Qed.
Lemma signed_bad x bits : ~ (2 <= bits <= 64) -> lib_signed x bits = Raise (PFAErr 17000).
Proof.
  intros Hb. unfold lib_signed.
  replace ((bits <? 2) || (64 <? bits)) with true; [reflexivity|].
  symmetry; apply orb_true_iff; rewrite !Z.ltb_lt; lia.
Qed.

(** fan-out *)
Lemma zrange_nth lo hi i : (i < Z.to_nat (hi - lo))%nat ->
  nth_error (zrange lo hi) i = Some (lo + Z.of_nat i).
Proof.
  intros H. unfold zrange. rewrite nth_error_map.
  rewrite (nth_error_nth' _ 0%nat) by (rewrite seq_length; exact H).
  rewrite seq_nth by exact H. simpl. reflexivity.
Qed.
Lemma zrange_length lo hi : length (zrange lo hi) = Z.to_nat (hi - lo).
Proof. unfold zrange. now rewrite map_length, seq_length. Qed.

Definition hot {A} (one zero : A) (b : bool) : A := if b then one else zero.

Lemma one_hot_map {A B} (one zero : A) (eqb : B -> B -> bool) x (d : list B)
  (Heq : forall a b, eqb a b = true <-> a = b) :
  NoDup d -> forall h,
  match h with Some j => nth_error d j = Some x | None => ~ In x d end ->
  one_hot one zero (length d) h (map (hot one zero) (map (eqb x) d)).
Proof.
  intros Hnd h Hh. split; [now rewrite !map_length|]. intros i Hi.
  rewrite !nth_error_map. destruct (nth_error d i) as [b|] eqn:Eb.
  2:{ apply nth_error_None in Eb. lia. }
  simpl. f_equal. unfold hot. destruct (eqb x b) eqn:E.
  - apply Heq in E; subst b. destruct h as [j|].
    + assert (i = j). { apply (proj1 (NoDup_nth_error d) Hnd); [assumption|congruence]. }
      subst. now rewrite Nat.eqb_refl.
    + exfalso. apply Hh. eapply nth_error_In; eauto.
  - destruct h as [j|]; [|reflexivity]. destruct (Nat.eqb i j) eqn:Eij; [|reflexivity].
    apply Nat.eqb_eq in Eij; subst. assert (b = x) by congruence. subst.
    assert (eqb x x = true) by now apply Heq. congruence.
Qed.

Lemma one_hot_snoc {A} (one zero : A) n h l (last : bool) :
  one_hot one zero n h l ->
  (match h with Some j => (j < n)%nat /\ last = false | None => True end) ->
  one_hot one zero (S n) (if last then Some n else h) (l ++ [hot one zero last]).
Proof.
  intros [Hl Hn] Hh. split; [rewrite app_length, Hl; simpl; lia|].
  intros i Hi. destruct (Nat.eq_dec i n) as [->|Hne].
  - rewrite nth_error_app2 by lia. rewrite Hl, Nat.sub_diag. simpl. f_equal.
    destruct last; simpl; [now rewrite Nat.eqb_refl|].
    destruct h as [j|]; [|reflexivity]. destruct (Nat.eqb n j) eqn:E; [|reflexivity].
    apply Nat.eqb_eq in E. lia.
  - rewrite nth_error_app1 by lia. rewrite Hn by lia. f_equal.
    destruct last; [|reflexivity]. destruct h as [j|]; [destruct Hh; discriminate|].
    destruct (Nat.eqb i n) eqn:E; [apply Nat.eqb_eq in E; lia|reflexivity].
Qed.

Lemma nodupb_spec l : nodupb l = true <-> NoDup l.
Proof.
  induction l as [|x l IH]; simpl; [split; [constructor|reflexivity]|].
  rewrite andb_true_iff, negb_true_iff, IH. split.
  - intros [H1 H2]. constructor; [|assumption]. intros Hin.
    assert (existsb (String.eqb x) l = true) by (apply existsb_exists; exists x; split; [assumption|apply String.eqb_refl]).
    congruence.
  - intros H. inversion H; subst. split; [|assumption].
    destruct (existsb (String.eqb x) l) eqn:E; [|reflexivity].
    apply existsb_exists in E. destruct E as [y [Hy E]]. apply String.eqb_eq in E. now subst.
Qed.

Lemma existsb_In x l : existsb (String.eqb x) l = true <-> In x l.
Proof.
  rewrite existsb_exists. split.
  - intros [y [H E]]. apply String.eqb_eq in E. now subst.
  - intros H. exists x. split; [assumption|apply String.eqb_refl].
Qed.

Lemma map_hot_app {A} (one zero : A) l b :
  map (fun b : bool => if b then one else zero) (l ++ [b]) = map (hot one zero) l ++ [hot one zero b].
Proof. rewrite map_app. reflexivity. Qed.

Lemma fanout_string_spec {A} (one zero : A) code x d o h :
  NoDup d -> match h with Some j => nth_error d j = Some x | None => ~ In x d end ->
  exists l, lib_fanout one zero code (FanString x d o) = Ok l /\
    one_hot one zero (length d + (if o then 1 else 0))
      (match h with Some j => Some j | None => if o then Some (length d) else None end) l.
Proof.
  intros Hnd Hh. unfold lib_fanout. assert (nodupb d = true) as -> by now apply nodupb_spec.
  eexists; split; [reflexivity|]. unfold fanout_string.
  pose proof (one_hot_map one zero String.eqb x d String.eqb_eq Hnd h Hh) as M.
  destruct o.
  - rewrite map_hot_app, Nat.add_1_r.
    assert (In x d <-> h <> None).
    { destruct h as [j|]; [|intuition]. split; [discriminate|]. intros _. eapply nth_error_In; eauto. }
    destruct h as [j|].
    + assert (existsb (String.eqb x) d = true) as -> by (apply existsb_In, H; discriminate).
      apply (one_hot_snoc one zero (length d) (Some j) _ false M). split; [|reflexivity].
      apply nth_error_Some. congruence.
    + assert (existsb (String.eqb x) d = false) as ->.
      { destruct (existsb (String.eqb x) d) eqn:E; [|reflexivity]. apply existsb_In in E. contradiction. }
      apply (one_hot_snoc one zero (length d) None _ true M). exact I.
  - rewrite Nat.add_0_r. destruct h; exact M.
Qed.

Lemma zrange_NoDup lo hi : NoDup (zrange lo hi).
Proof.
  unfold zrange. apply Injective_map_NoDup; [|apply seq_NoDup]. intros a b. lia.
Qed.

Lemma fanout_int_spec {A} (one zero : A) code x lo hi o :
  exists l, lib_fanout one zero code (FanInt x lo hi o) = Ok l /\
    one_hot one zero (Z.to_nat (hi - lo) + (if o then 1 else 0))
      (if (lo <=? x) && (x <? hi) then Some (Z.to_nat (x - lo))
       else if o then Some (Z.to_nat (hi - lo)) else None) l.
Proof.
  eexists; split; [reflexivity|]. unfold fanout_int.
  set (inside := (lo <=? x) && (x <? hi)).
  set (h := if inside then Some (Z.to_nat (x - lo)) else None).
  assert (Hh : match h with Some j => nth_error (zrange lo hi) j = Some x | None => ~ In x (zrange lo hi) end).
  { unfold h. destruct inside eqn:E; unfold inside in E.
    - apply andb_true_iff in E. rewrite Z.leb_le, Z.ltb_lt in E. rewrite zrange_nth by lia. f_equal. lia.
    - intros Hin. unfold zrange in Hin. apply in_map_iff in Hin. destruct Hin as [i [Ei Hi]].
      apply in_seq in Hi. apply andb_false_iff in E. rewrite Z.leb_gt, Z.ltb_ge in E. lia. }
  pose proof (one_hot_map one zero Z.eqb x (zrange lo hi) Z.eqb_eq (zrange_NoDup lo hi) h Hh) as M.
  rewrite zrange_length in M. destruct o.
  - rewrite map_hot_app, Nat.add_1_r. unfold h in M. destruct inside eqn:E; unfold inside in E.
    + apply andb_true_iff in E. rewrite Z.leb_le, Z.ltb_lt in E.
      replace ((x <? lo) || (hi <=? x)) with false by (symmetry; apply orb_false_iff; rewrite Z.ltb_ge, Z.leb_gt; lia).
      apply (one_hot_snoc one zero _ (Some _) _ false M). split; [lia|reflexivity].
    + apply andb_false_iff in E. rewrite Z.leb_gt, Z.ltb_ge in E.
      replace ((x <? lo) || (hi <=? x)) with true by (symmetry; apply orb_true_iff; rewrite Z.ltb_lt, Z.leb_le; lia).
      apply (one_hot_snoc one zero _ None _ true M). exact I.
  - rewrite Nat.add_0_r. unfold h in M. destruct inside; exact M.
Qed.
