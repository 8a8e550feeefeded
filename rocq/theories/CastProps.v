(** Property C66: number casts (lib/cast.py:92-164) against real numbers. *)
From Coq Require Import Reals Lra SpecFloat.
From Flocq Require Import Core.
From Flocq Require Import Relative BinarySingleNaN.
From Verif Require Import Base PyNum PyNumProofs FloatBridge ArithModel.
Open Scope Z_scope.

Definition finite (f : pf) : Prop := is_finite_SF f = true.

(** *** Sums *)
Lemma normalize_val m e s : (Rabs (rnd (F2R (Float radix2 m e))) < bpow radix2 1024)%R ->
  fval (SpecFloat.binary_normalize 53 1024 m e s) = rnd (F2R (Float radix2 m e)) /\ finite (SpecFloat.binary_normalize 53 1024 m e s).
Proof.
  intros H. unfold SpecFloat.binary_normalize. destruct m as [|p|p].
  - split; [|reflexivity]. unfold rnd, fval. rewrite F2R_0. simpl. rewrite round_0; [reflexivity|typeclasses eauto].
  - rewrite br_equiv. pose proof (binary_round_correct 53 1024 _ _ mode_NE false p e) as B. simpl in B. destruct B as [_ B].
    rewrite Rlt_bool_true in B by exact H. destruct B as [B1 [B2 _]]. split; [exact B1|exact B2].
  - rewrite br_equiv. pose proof (binary_round_correct 53 1024 _ _ mode_NE true p e) as B. simpl in B. destruct B as [_ B].
    rewrite Rlt_bool_true in B by exact H. destruct B as [B1 [B2 _]]. split; [exact B1|exact B2].
Qed.
Lemma normalize_overflow m e s : (bpow radix2 1024 <= Rabs (rnd (F2R (Float radix2 m e))))%R ->
  exists t, SpecFloat.binary_normalize 53 1024 m e s = S754_infinity t.
Proof.
  intros H. unfold SpecFloat.binary_normalize. destruct m as [|p|p].
  - exfalso. unfold rnd in H. rewrite F2R_0, round_0, Rabs_R0 in H by typeclasses eauto. pose proof (bpow_gt_0 radix2 1024). lra.
  - rewrite br_equiv. pose proof (binary_round_correct 53 1024 _ _ mode_NE false p e) as B. simpl in B. destruct B as [_ B].
    rewrite Rlt_bool_false in B by exact H. exists false. exact B.
  - rewrite br_equiv. pose proof (binary_round_correct 53 1024 _ _ mode_NE true p e) as B. simpl in B. destruct B as [_ B].
    rewrite Rlt_bool_false in B by exact H. exists true. exact B.
Qed.
Lemma rnd_valid x : valid_binary 53 1024 x = true -> rnd (fval x) = fval x.
Proof.
  intros H. unfold rnd. apply round_generic; [typeclasses eauto|].
  pose proof (generic_format_B2R 53 1024 (SF2B x H)) as G. rewrite B2R_SF2B in G. exact G.
Qed.
Lemma fadd_sum x y : finite x -> finite y -> valid_binary 53 1024 x = true -> valid_binary 53 1024 y = true ->
  (fval (fadd x y) = rnd (fval x + fval y) /\ finite (fadd x y)) \/
  ((bpow radix2 1024 <= Rabs (rnd (fval x + fval y)))%R /\ exists t, fadd x y = S754_infinity t).
Proof.
  intros Fx Fy Vx Vy. destruct x as [sx|sx| |sx mx ex], y as [sy|sy| |sy my ey]; try discriminate.
  - left. unfold fadd, SFadd. assert (R0 : rnd (fval (S754_zero sx) + fval (S754_zero sy)) = 0%R).
    { unfold fval. cbn. rewrite Rplus_0_l. unfold rnd. apply round_0. typeclasses eauto. }
    rewrite R0. destruct (Bool.eqb sx sy); split; reflexivity.
  - left. unfold fadd, SFadd. change (fval (S754_zero sx)) with 0%R. rewrite Rplus_0_l, rnd_valid by exact Vy. split; reflexivity.
  - left. unfold fadd, SFadd. change (fval (S754_zero sy)) with 0%R. rewrite Rplus_0_r, rnd_valid by exact Vx. split; reflexivity.
  - unfold fadd, SFadd. cbv zeta. set (ez := Z.min ex ey).
    assert (E : F2R (Float radix2 (cond_Zopp sx (Zpos (fst (shl_align mx ex ez))) + cond_Zopp sy (Zpos (fst (shl_align my ey ez)))) ez)
                = (fval (S754_finite sx mx ex) + fval (S754_finite sy my ey))%R).
    { pose proof (shl_align_correct' mx ex ez ltac:(lia)) as A. pose proof (shl_align_correct' my ey ez ltac:(lia)) as B.
      destruct (shl_align mx ex ez) as [p e1], (shl_align my ey ez) as [q e2]. destruct A as [A _], B as [B _]. cbn [fst].
      unfold fval, SF2R. unfold F2R in *. cbn [Fnum Fexp] in *. rewrite plus_IZR, Rmult_plus_distr_r. f_equal.
      - destruct sx; cbn [cond_Zopp]; [change (Z.neg p) with (- Z.pos p)%Z; change (Z.neg mx) with (- Z.pos mx)%Z; rewrite !opp_IZR; lra|exact A].
      - destruct sy; cbn [cond_Zopp]; [change (Z.neg q) with (- Z.pos q)%Z; change (Z.neg my) with (- Z.pos my)%Z; rewrite !opp_IZR; lra|exact B]. }
    rewrite <- E.
    destruct (Rlt_le_dec (Rabs (rnd (F2R (Float radix2 (cond_Zopp sx (Zpos (fst (shl_align mx ex ez))) + cond_Zopp sy (Zpos (fst (shl_align my ey ez)))) ez)))) (bpow radix2 1024)) as [L|L].
    + left. now apply normalize_val.
    + right. split; [exact L|now apply normalize_overflow].
Qed.
Lemma py_floor_val f : finite f -> py_floor f = Ok (Zfloor (fval f)).
Proof.
  destruct f as [s|s| |s m e]; try discriminate; intros _.
  - simpl. unfold fval; simpl. now rewrite Zfloor_IZR.
  - unfold py_floor, fval, SF2R. unfold F2R; cbn [Fnum Fexp]. change (cond_Zopp s (Zpos m)) with (zsign s (Zpos m)).
    destruct (0 <=? e) eqn:E; f_equal.
    + apply Z.leb_le in E. rewrite <- IZR_Zpower by assumption. now rewrite <- mult_IZR, Zfloor_IZR.
    + apply Z.leb_gt in E. assert (Hp : bpow radix2 e = (/ IZR (2 ^ (- e)))%R).
      { rewrite <- (Z.opp_involutive e) at 1. rewrite bpow_opp. f_equal. change 2%Z with (radix_val radix2). rewrite IZR_Zpower; [reflexivity|lia]. }
      rewrite Hp. assert (0 < 2 ^ (- e))%Z by (apply Z.pow_pos_nonneg; lia).
      rewrite <- Zfloor_div by lia. reflexivity.
Qed.

(** *** C66 *)
Definition half : pf := S754_finite false 4503599627370496 (-53).
Lemma half_val : fval half = (1 / 2)%R.
Proof. unfold fval, half, SF2R, F2R. cbn [cond_Zopp Fnum Fexp]. change (bpow radix2 (-53)) with (/ IZR (2 ^ 53))%R. rewrite <- (Rmult_1_l (IZR (2^53))) at 1. lra. Qed.
Lemma half_valid : valid_binary 53 1024 half = true.
Proof. reflexivity. Qed.
Lemma rnd_mono x y : (x <= y)%R -> (rnd x <= rnd y)%R.
Proof. intros H. apply round_le; [typeclasses eauto..|exact H]. Qed.
(** The result for a finite number: rounded sum, rounded down, if in range. *)
Lemma cast_integer_val lo hi code f : - 2 ^ 63 <= lo -> hi < 2 ^ 63 -> valid_binary 53 1024 f = true -> finite f ->
  let out := Zfloor (rnd (fval f + 1 / 2)) in
  cast_integer lo hi code (NF f) = if (lo <=? out) && (out <=? hi) then Ok out else Raise (PFAErr code).
Proof.
  intros Hlo Hhi V F out. unfold cast_integer.
  replace (isnan f) with false by (destruct f; try discriminate; reflexivity).
  fold half. destruct (fadd_sum f half F eq_refl V half_valid) as [[E Fi]|[L [t E]]]; rewrite half_val in *.
  - rewrite (py_floor_val _ Fi), E. fold out. reflexivity.
  - rewrite E. cbn [py_floor]. replace ((lo <=? out) && (out <=? hi))%bool with false; [reflexivity|]. symmetry. apply andb_false_iff.
    assert (B : (bpow radix2 1024 = IZR (2 ^ 1024))%R) by reflexivity.
    destruct (Rle_lt_dec 0 (rnd (fval f + 1 / 2))) as [P|P].
    + right. rewrite Rabs_pos_eq in L by exact P. apply Z.leb_gt. apply Z.lt_le_trans with (2 ^ 63); [exact Hhi|].
      apply Z.le_trans with (2 ^ 1024); [now apply Z.pow_le_mono_r|]. apply Zfloor_lub. rewrite <- B. exact L.
    + left. rewrite Rabs_left in L by exact P. apply Z.leb_gt. apply Z.lt_le_trans with (- 2 ^ 63); [|exact Hlo].
      apply lt_IZR. apply Rle_lt_trans with (rnd (fval f + 1 / 2)); [apply Zfloor_lb|].
      apply Rle_lt_trans with (- IZR (2 ^ 1024))%R; [rewrite <- B; lra|]. rewrite <- opp_IZR. apply IZR_lt. reflexivity.
Qed.
Definition casts (cast : num -> res Z) (lo hi code : Z) : Prop :=
  cast = lib_cast_int /\ lo = - 2 ^ 31 /\ hi = 2 ^ 31 - 1 /\ code = 17020 \/
  cast = lib_cast_long /\ lo = - 2 ^ 63 /\ hi = 2 ^ 63 - 1 /\ code = 17030.
Lemma casts_integer cast lo hi code : casts cast lo hi code -> cast = cast_integer lo hi code /\ - 2 ^ 63 <= lo /\ hi < 2 ^ 63.
Proof. intros [(-> & -> & -> & ->)|(-> & -> & -> & ->)]; split; try reflexivity; lia. Qed.
(** Integers are left as they are, or reported if out of range. *)
Theorem C66_integers cast lo hi code z : casts cast lo hi code ->
  cast (NI z) = if (lo <=? z) && (z <=? hi) then Ok z else Raise (PFAErr code).
Proof. intros H. destruct (casts_integer _ _ _ _ H) as (-> & _). reflexivity. Qed.
(** NaN and infinities are reported. *)
Theorem C66_special cast lo hi code f : casts cast lo hi code -> f = S754_nan \/ (exists s, f = S754_infinity s) -> cast (NF f) = Raise (PFAErr code).
Proof. intros H Hf. destruct (casts_integer _ _ _ _ H) as (-> & _). destruct Hf as [->|[[] ->]]; reflexivity. Qed.
(** A number x is rounded to the nearest integer, halves up, whenever x + 0.5 is a floating-point number; the integer is
    returned if it is in range and reported otherwise. *)
Theorem C66_rounds_partial cast lo hi code f : casts cast lo hi code -> valid_binary 53 1024 f = true -> finite f ->
  rnd (fval f + 1 / 2) = (fval f + 1 / 2)%R ->
  exists z, (IZR z - 1 / 2 <= fval f < IZR z + 1 / 2)%R /\
    cast (NF f) = if (lo <=? z) && (z <=? hi) then Ok z else Raise (PFAErr code).
Proof.
  intros H V F E. destruct (casts_integer _ _ _ _ H) as (-> & H1 & H2). exists (Zfloor (rnd (fval f + 1 / 2))).
  split; [|now apply cast_integer_val]. rewrite E. pose proof (Zfloor_lb (fval f + 1 / 2)). pose proof (Zfloor_ub (fval f + 1 / 2)). lra.
Qed.
(** in particular an integral float below 2^52 is converted exactly *)
Theorem C66_exact cast lo hi code f z : casts cast lo hi code -> valid_binary 53 1024 f = true -> finite f ->
  fval f = IZR z -> Z.abs z < 2 ^ 52 -> cast (NF f) = if (lo <=? z) && (z <=? hi) then Ok z else Raise (PFAErr code).
Proof.
  intros H V F Ez Hz. destruct (C66_rounds_partial cast lo hi code f H V F) as (k & K & R).
  - rewrite Ez. unfold rnd. apply round_generic; [typeclasses eauto|]. apply generic_format_FLT.
    exists (Float radix2 (2 * z + 1) (-1)); [|change (Z.abs (2 * z + 1) < 2 ^ 53); lia|change (-1074 <= -1); lia]. unfold F2R. cbn [Fnum Fexp]. rewrite plus_IZR, mult_IZR.
    change (bpow radix2 (-1)) with (/ 2)%R. lra.
  - rewrite R. rewrite Ez in K. replace k with z; [reflexivity|]. destruct K as [K1 K2].
    assert (A : (IZR k < IZR (z + 1))%R) by (rewrite plus_IZR; lra). assert (B : (IZR z < IZR (k + 1))%R) by (rewrite plus_IZR; lra).
    apply lt_IZR in A, B. lia.
Qed.
(** In general, below 2^52 in size, the result is that integer or the next one (because x + 0.5 is rounded). *)
Theorem C66_close cast lo hi code f z : casts cast lo hi code -> valid_binary 53 1024 f = true -> finite f ->
  (Rabs (fval f) <= IZR (2 ^ 52))%R -> cast (NF f) = Ok z ->
  lo <= z <= hi /\ (fval f - 1 / 2 < IZR z <= fval f + 3 / 2)%R.
Proof.
  intros H V F A Hz. destruct (casts_integer _ _ _ _ H) as (-> & H1 & H2). rewrite cast_integer_val in Hz by assumption.
  destruct (lo <=? _) eqn:E1; [|discriminate]. destruct (_ <=? hi) eqn:E2; [|discriminate]. injection Hz as <-.
  apply Z.leb_le in E1, E2. split; [auto|].
  set (k := Zfloor (fval f + 1 / 2)). pose proof (Zfloor_lb (fval f + 1 / 2)) as L. pose proof (Zfloor_ub (fval f + 1 / 2)) as U. fold k in L, U.
  assert (AR : (- IZR (2 ^ 52) <= fval f <= IZR (2 ^ 52))%R) by now apply Rabs_le_inv.
  assert (K : - 2 ^ 53 < k < 2 ^ 53 - 1).
  { split; apply lt_IZR.
    - assert (IZR (- 2 ^ 53) + 2 < - IZR (2 ^ 52))%R by (change (2 ^ 53) with (2 * 2 ^ 52); rewrite opp_IZR, mult_IZR; assert (10 < IZR (2 ^ 52))%R by (apply IZR_lt; reflexivity); lra). lra.
    - rewrite minus_IZR. assert (IZR (2 ^ 52) + 2 < IZR (2 ^ 53) - 1)%R by (change (2 ^ 53) with (2 * 2 ^ 52); rewrite mult_IZR; assert (10 < IZR (2 ^ 52))%R by (apply IZR_lt; reflexivity); lra). lra. }
  pose proof (rnd_mono _ _ L) as L'. rewrite rnd_int in L' by lia.
  assert (U' : (rnd (fval f + 1 / 2) <= IZR (k + 1))%R) by (rewrite <- (rnd_int (k + 1)) by lia; apply rnd_mono; rewrite plus_IZR; lra).
  assert (k <= Zfloor (rnd (fval f + 1 / 2)) <= k + 1).
  { split; [now apply Zfloor_lub|]. apply le_IZR. apply Rle_trans with (2 := U'). apply Zfloor_lb. }
  assert (Q : (IZR k <= IZR (Zfloor (rnd (fval f + 1 / 2))) <= IZR (k + 1))%R) by (split; apply IZR_le; lia). rewrite plus_IZR in Q. lra.
Qed.
(** It can be the wrong one: 0.49999999999999994 is converted to 1 and 4503599627370497.0 to 4503599627370498. *)
Theorem C66_refuted : exists f g,
  valid_binary 53 1024 f = true /\ finite f /\ (0 < fval f < 1 / 2)%R /\ lib_cast_int (NF f) = Ok 1 /\ lib_cast_long (NF f) = Ok 1 /\
  valid_binary 53 1024 g = true /\ finite g /\ fval g = IZR (2 ^ 52 + 1) /\ lib_cast_long (NF g) = Ok (2 ^ 52 + 2).
Proof.
  exists (S754_finite false 9007199254740991 (-54)), (S754_finite false 4503599627370497 0).
  split; [reflexivity|]. split; [reflexivity|]. split.
  { unfold fval, SF2R, F2R. cbn [cond_Zopp Fnum Fexp]. change (bpow radix2 (-54)) with (/ IZR (2 ^ 54))%R.
    assert (P : (0 < IZR (2 ^ 54))%R) by (apply IZR_lt; reflexivity). split.
    - apply Rmult_lt_0_compat; [apply IZR_lt; reflexivity|now apply Rinv_0_lt_compat].
    - apply Rmult_lt_reg_r with (IZR (2 ^ 54)); [exact P|]. rewrite Rmult_assoc, Rinv_l by lra. change (2 ^ 54) with (2 * 9007199254740992). rewrite mult_IZR.
      assert (IZR 9007199254740991 < IZR 9007199254740992)%R by (apply IZR_lt; reflexivity). lra. }
  split; [reflexivity|]. split; [reflexivity|]. split; [reflexivity|]. split; [reflexivity|]. split; [|reflexivity].
  unfold fval, SF2R, F2R. cbn [cond_Zopp Fnum Fexp]. change (bpow radix2 0) with 1%R. rewrite Rmult_1_r. reflexivity.
Qed.
(** cast.float and cast.double (and every promotion of an integer): exact up to 2^53, the nearest float above. *)
Theorem C66_to_double z : Z.abs z < 2 ^ 64 ->
  exists f, py_float z = Ok f /\ finite f /\ fval f = rnd (IZR z) /\ (Z.abs z <= 2 ^ 53 -> fval f = IZR z).
Proof.
  intros H. destruct (f_of_Z_val z) as [V F]; [apply Z.lt_trans with (2 ^ 64); [exact H|reflexivity]|].
  exists (f_of_Z z). unfold py_float. split; [destruct (f_of_Z z); try discriminate F; reflexivity|]. split; [exact F|]. split; [exact V|].
  intros Hz. rewrite V. now apply rnd_int.
Qed.
Example C66_example :
  let f := f_of_Z (-7) in let g := S754_finite false 5629499534213120 (-51) in
  valid_binary 53 1024 f = true /\ finite f /\ lib_cast_int (NF f) = Ok (-7) /\
  valid_binary 53 1024 g = true /\ finite g /\ lib_cast_int (NF g) = Ok 3 /\ rnd (fval g + 1 / 2) = (fval g + 1 / 2)%R /\
  lib_cast_int (NF (f_of_Z (2 ^ 31))) = Raise (PFAErr 17020) /\ lib_cast_long (NF (f_of_Z (2 ^ 31))) = Ok (2 ^ 31).
Proof.
  do 6 (split; [reflexivity|]). split; [|split; reflexivity].
  assert (V : fval (S754_finite false 5629499534213120 (-51)) = (5 / 2)%R).
  { unfold fval, SF2R, F2R. cbn [cond_Zopp Fnum Fexp]. change (bpow radix2 (-51)) with (/ IZR (2 ^ 51))%R.
    change 5629499534213120 with (5 * 2 ^ 50). change (2 ^ 51) with (2 * 2 ^ 50). rewrite !mult_IZR.
    assert (0 < IZR (2 ^ 50))%R by (apply IZR_lt; reflexivity). field. lra. }
  rewrite V. replace (5 / 2 + 1 / 2)%R with (IZR 3) by lra. now apply rnd_int.
Qed.
Print Assumptions C66_integers.
Print Assumptions C66_special.
Print Assumptions C66_rounds_partial.
Print Assumptions C66_exact.
Print Assumptions C66_close.
Print Assumptions C66_refuted.
Print Assumptions C66_to_double.
