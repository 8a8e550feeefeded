(** Real-number meaning of the float operations (uses Flocq, hence the standard library's
    axioms for the reals). *)
From Coq Require Import Reals Lra SpecFloat.
From Flocq Require Import Core.
From Flocq Require Import Relative BinarySingleNaN.
From Verif Require Import Base PyNum PyNumProofs.
Open Scope Z_scope.

Definition rnd : R -> R := round radix2 (FLT_exp (-1074) 53) ZnearestE.
#[global] Instance prec_gt_0_53 : FLX.Prec_gt_0 53. Proof. unfold FLX.Prec_gt_0; lia. Qed.
#[global] Instance prec_lt_emax_53 : Prec_lt_emax 53 1024. Proof. unfold Prec_lt_emax; lia. Qed.

Lemma rne_equiv s m l : round_nearest_even m l = choice_mode mode_NE s m l.
Proof. destruct l as [|c]; [reflexivity|]. destruct c; try reflexivity. now simpl; unfold Round.cond_incr; case Z.even. Qed.

Lemma bra_equiv sx mx ex lx :
  SpecFloat.binary_round_aux 53 1024 sx mx ex lx = binary_round_aux 53 1024 mode_NE sx mx ex lx.
Proof.
  unfold SpecFloat.binary_round_aux, binary_round_aux.
  set (mrse' := shr_fexp _ _ _ _ _). case mrse'; intros mrs' e'; simpl.
  now rewrite (rne_equiv sx).
Qed.

Lemma br_equiv s m e :
  SpecFloat.binary_round 53 1024 s m e = binary_round 53 1024 mode_NE s m e.
Proof.
  unfold SpecFloat.binary_round, binary_round, shl_align_fexp.
  set (mez := shl_align _ _ _); case mez as [mz ez]. apply bra_equiv.
Qed.

Definition fval (f : pf) : R := SF2R radix2 f.

Lemma fdiv_val sx mx ex sy my ey :
  let x := fval (S754_finite sx mx ex) in
  let y := fval (S754_finite sy my ey) in
  (Rabs (rnd (x / y)) < bpow radix2 1024)%R ->
  let z := fdiv (S754_finite sx mx ex) (S754_finite sy my ey) in
  fval z = rnd (x / y) /\ is_finite_SF z = true.
Proof.
  intros x y H z.
  pose proof (Bdiv_correct_aux 53 1024 _ _ mode_NE sx mx ex sy my ey) as B.
  simpl in B. unfold z, fdiv, SFdiv.
  destruct (SFdiv_core_binary 53 1024 (Z.pos mx) ex (Z.pos my) ey) as [[mz ez] lz] eqn:E.
  rewrite bra_equiv.
  destruct B as [_ B].
  rewrite Rlt_bool_true in B.
  - destruct B as [B1 [B2 _]]. split; [exact B1|exact B2].
  - exact H.
Qed.

Lemma f_of_Z_val z : Z.abs z < 2 ^ 200 ->
  fval (f_of_Z z) = rnd (IZR z) /\ is_finite_SF (f_of_Z z) = true.
Proof.
  intros Hz. unfold f_of_Z, SpecFloat.binary_normalize.
  assert (Hlt : (Rabs (rnd (IZR z)) < bpow radix2 1024)%R).
  { apply Rle_lt_trans with (bpow radix2 200).
    - unfold rnd. apply abs_round_le_generic; try typeclasses eauto.
      + apply generic_format_bpow. unfold FLT_exp. lia.
      + rewrite <- abs_IZR. change (bpow radix2 200) with (IZR (2 ^ 200)). apply IZR_le. lia.
    - apply bpow_lt; lia. }
  destruct z as [|p|p].
  - split; [|reflexivity]. unfold rnd, fval. simpl. rewrite round_0; [reflexivity|typeclasses eauto].
  - rewrite br_equiv. pose proof (binary_round_correct 53 1024 _ _ mode_NE false p 0) as B.
    simpl in B. destruct B as [_ B]. rewrite Rlt_bool_true in B.
    + destruct B as [B1 [B2 _]]. split; [|exact B2]. unfold fval. rewrite B1. unfold rnd, F2R; simpl. now rewrite Rmult_1_r.
    + unfold F2R; simpl. rewrite Rmult_1_r. exact Hlt.
  - rewrite br_equiv. pose proof (binary_round_correct 53 1024 _ _ mode_NE true p 0) as B.
    simpl in B. destruct B as [_ B]. rewrite Rlt_bool_true in B.
    + destruct B as [B1 [B2 _]]. split; [|exact B2]. unfold fval. rewrite B1. unfold rnd, F2R; simpl. now rewrite Rmult_1_r.
    + unfold F2R; simpl. rewrite Rmult_1_r. exact Hlt.
Qed.

Lemma rnd_int z : Z.abs z <= 2 ^ 53 -> rnd (IZR z) = IZR z.
Proof.
  intros H. unfold rnd. apply round_generic; [typeclasses eauto|].
  destruct (Z.eq_dec (Z.abs z) (2 ^ 53)) as [E|N].
  - destruct (Z.abs_eq_or_opp z) as [A|A].
    + rewrite <- A, E. change (IZR (2 ^ 53)) with (bpow radix2 53). apply generic_format_bpow. unfold FLT_exp; lia.
    + replace z with (- 2 ^ 53)%Z by lia. rewrite opp_IZR. apply generic_format_opp.
      change (IZR (2 ^ 53)) with (bpow radix2 53). apply generic_format_bpow. unfold FLT_exp; lia.
  - apply generic_format_FLT. exists (Float radix2 z 0); simpl; [unfold F2R; simpl; lra| |lia].
    change (radix2 ^ 53)%Z with (2 ^ 53)%Z || idtac. simpl. lia.
Qed.

Lemma py_int_val f : is_finite_SF f = true -> py_int f = Ok (Ztrunc (fval f)).
Proof.
  destruct f as [s|s| |s m e]; try discriminate; intros _.
  - simpl. unfold fval; simpl. now rewrite Ztrunc_IZR.
  - unfold py_int, fval, SF2R. unfold F2R; cbn [Fnum Fexp].
    destruct (0 <=? e) eqn:E.
    + apply Z.leb_le in E. f_equal.
      change (bpow radix2 e) with (bpow radix2 e). rewrite <- IZR_Zpower by assumption.
      rewrite <- mult_IZR, Ztrunc_IZR. unfold zsign. destruct s; reflexivity.
    + apply Z.leb_gt in E. f_equal.
      assert (Hp : bpow radix2 e = (/ IZR (2 ^ (- e)))%R).
      { rewrite <- (Z.opp_involutive e) at 1. rewrite bpow_opp. f_equal.
        change 2%Z with (radix_val radix2). rewrite IZR_Zpower; [reflexivity|lia]. }
      rewrite Hp.
      assert (H2 : (0 < 2 ^ (- e))%Z) by (apply Z.pow_pos_nonneg; lia).
      unfold zsign. destruct s; simpl cond_Zopp.
      * change (IZR (Z.neg m)) with (IZR (- Z.pos m)). rewrite opp_IZR.
        rewrite <- Ropp_mult_distr_l, Ztrunc_opp. f_equal.
        fold (Rdiv (IZR (Z.pos m)) (IZR (2 ^ (- e)))).
        rewrite Ztrunc_floor. { symmetry. apply Zfloor_div. lia. }
        apply Rmult_le_pos; [apply IZR_le; lia|]. left. apply Rinv_0_lt_compat, IZR_lt; lia.
      * fold (Rdiv (IZR (Z.pos m)) (IZR (2 ^ (- e)))).
        rewrite Ztrunc_floor. { symmetry. apply Zfloor_div. lia. }
        apply Rmult_le_pos; [apply IZR_le; lia|]. left. apply Rinv_0_lt_compat, IZR_lt; lia.
Qed.

(** Rounded quotient of a small non-negative integer by a positive real. *)
Lemma rnd_quot_floor a b (rb : R) :
  0 <= a < 2 ^ 53 -> 1 <= b ->
  (b <= 2 ^ 53 /\ rb = IZR b) \/ (2 ^ 53 < b /\ (IZR (2 ^ 53) <= rb)%R) ->
  (rb <= bpow radix2 200)%R ->
  Zfloor (rnd (IZR a / rb)) = (a / b)%Z.
Proof.
  intros Ha Hb Hrb Hrb2.
  assert (Hrb1 : (1 <= rb)%R).
  { destruct Hrb as [[_ ->]|[_ H]]; [apply IZR_le; lia|]. apply Rle_trans with (2 := H). apply IZR_le. lia. }
  destruct (Z.eq_dec a 0) as [->|Hnz].
  { unfold Rdiv. rewrite Rmult_0_l. unfold rnd. rewrite round_0 by typeclasses eauto.
    rewrite Zdiv_0_l. exact (Zfloor_IZR 0). }
  assert (Hv0 : (0 < IZR a / rb)%R).
  { apply Rmult_lt_0_compat; [apply IZR_lt; lia|apply Rinv_0_lt_compat; lra]. }
  set (v := (IZR a / rb)%R) in *.
  assert (Hrel : (Rabs (rnd v - v) <= / 2 * bpow radix2 (-53 + 1) * Rabs v)%R).
  { unfold rnd. apply (relative_error_N_FLT radix2 (-1074) 53); [lia|].
    rewrite Rabs_pos_eq by lra.
    apply Rle_trans with (bpow radix2 (-200)); [apply bpow_le; lia|].
    change (-200)%Z with (Z.opp 200). rewrite bpow_opp. unfold v. apply Rle_trans with (/ rb)%R.
    - apply Rinv_le; [lra|exact Hrb2].
    - unfold Rdiv. rewrite <- (Rmult_1_l (/ rb)) at 1. apply Rmult_le_compat_r.
      + left. apply Rinv_0_lt_compat. lra.
      + apply IZR_le. lia. }
  rewrite (Rabs_pos_eq v) in Hrel by lra.
  assert (Hbp : (/ 2 * bpow radix2 (-53 + 1) = / IZR (2 ^ 53))%R).
  { change (-53 + 1) with (Z.opp 52). rewrite bpow_opp. change (bpow radix2 52) with (IZR (2 ^ 52)).
    rewrite <- Rinv_mult. f_equal. }
  rewrite Hbp in Hrel.
  assert (Hup : (rnd v <= v + / IZR (2 ^ 53) * v)%R).
  { apply Rabs_le_inv in Hrel. lra. }
  assert (Hlt : (v + / IZR (2 ^ 53) * v < (IZR a + 1) / rb)%R).
  { unfold v. replace (IZR a / rb + / IZR (2 ^ 53) * (IZR a / rb))%R
      with ((IZR a + IZR a / IZR (2 ^ 53)) * / rb)%R by (unfold Rdiv; ring).
    unfold Rdiv at 2. apply Rmult_lt_compat_r; [apply Rinv_0_lt_compat; lra|].
    apply Rplus_lt_compat_l. apply (Rmult_lt_reg_r (IZR (2 ^ 53))); [apply IZR_lt; lia|].
    unfold Rdiv. rewrite Rmult_assoc, Rinv_l, Rmult_1_r, Rmult_1_l by (apply IZR_neq; lia).
    apply IZR_lt. lia. }
  set (q := (a / b)%Z).
  assert (Hq : b * q <= a < b * q + b).
  { unfold q. pose proof (Z.div_mod a b). pose proof (Z.mod_pos_bound a b). lia. }
  assert (Hq0 : 0 <= q) by (apply Z.div_pos; lia).
  assert (Hqa : q <= a) by (apply Z.div_le_upper_bound; nia).
  apply Zfloor_imp. split.
  - rewrite <- (rnd_int q) by lia. unfold rnd. apply round_le; try typeclasses eauto.
    destruct Hrb as [[_ ->]|[Hbig _]].
    + unfold v. apply (Rmult_le_reg_r (IZR b)); [apply IZR_lt; lia|].
      unfold Rdiv. rewrite Rmult_assoc, Rinv_l, Rmult_1_r by (apply IZR_neq; lia).
      rewrite <- mult_IZR. apply IZR_le. lia.
    + assert (q = 0) by (apply Z.div_small; lia). rewrite H. simpl. lra.
  - apply Rle_lt_trans with (1 := Hup). apply Rlt_le_trans with (1 := Hlt).
    destruct Hrb as [[_ ->]|[Hbig Hge]].
    + apply (Rmult_le_reg_r (IZR b)); [apply IZR_lt; lia|].
      unfold Rdiv. rewrite Rmult_assoc, Rinv_l, Rmult_1_r by (apply IZR_neq; lia).
      rewrite <- (plus_IZR a 1), <- mult_IZR. apply IZR_le. lia.
    + assert (q = 0) by (apply Z.div_small; lia). rewrite H. simpl.
      apply (Rmult_le_reg_r rb); [lra|]. unfold Rdiv. rewrite Rmult_assoc, Rinv_l, Rmult_1_r, Rmult_1_l by lra.
      apply Rle_trans with (2 := Hge). rewrite <- (plus_IZR a 1). apply IZR_le. lia.
Qed.

Lemma rnd_opp x : rnd (- x) = (- rnd x)%R.
Proof. unfold rnd. apply round_NE_opp. Qed.

Lemma rnd_sign_div a b rb :
  0 <= a < 2 ^ 53 -> 1 <= b ->
  (b <= 2 ^ 53 /\ rb = IZR b) \/ (2 ^ 53 < b /\ (IZR (2 ^ 53) <= rb)%R) ->
  (rb <= bpow radix2 200)%R ->
  (0 <= rnd (IZR a / rb))%R /\ (rnd (IZR a / rb) < bpow radix2 1024)%R.
Proof.
  intros Ha Hb Hrb Hrb2.
  assert (Hrb1 : (1 <= rb)%R).
  { destruct Hrb as [[_ ->]|[_ H]]; [apply IZR_le; lia|]. apply Rle_trans with (2 := H). apply IZR_le. lia. }
  assert (Hv : (0 <= IZR a / rb)%R).
  { apply Rmult_le_pos; [apply IZR_le; lia|]. left. apply Rinv_0_lt_compat. lra. }
  assert (Hv2 : (IZR a / rb <= IZR a)%R).
  { rewrite <- (Rmult_1_r (IZR a)) at 2. unfold Rdiv. apply Rmult_le_compat_l; [apply IZR_le; lia|].
    rewrite <- Rinv_1. apply Rinv_le; lra. }
  split.
  - replace 0%R with (rnd 0) by (unfold rnd; apply round_0; typeclasses eauto).
    unfold rnd. apply round_le; try typeclasses eauto. exact Hv.
  - apply Rle_lt_trans with (IZR a).
    + apply Rle_trans with (rnd (IZR a)); [|rewrite rnd_int by lia; lra].
      unfold rnd. apply round_le; try typeclasses eauto. exact Hv2.
    + apply Rlt_trans with (IZR (2 ^ 53)); [apply IZR_lt; lia|].
      change (IZR (2 ^ 53)) with (bpow radix2 53). apply bpow_lt. lia.
Qed.

(** [int(x / float(y))] is truncated division as long as |x| < 2^53. *)
Lemma int_div_trunc x y : Z.abs x < 2 ^ 53 -> y <> 0 -> Z.abs y < 2 ^ 199 ->
  py_int (fdiv (f_of_Z x) (f_of_Z y)) = Ok (Z.quot x y).
Proof.
  intros Hx Hy Hy2.
  destruct (f_of_Z_val x) as [Vx Fx]; [lia|]. destruct (f_of_Z_val y) as [Vy Fy]; [lia|].
  rewrite rnd_int in Vx by lia.
  (* magnitude of the rounded divisor *)
  set (b := Z.abs y). set (rb := rnd (IZR b)).
  assert (Hb : 1 <= b) by (unfold b; lia).
  assert (Hrb : (b <= 2 ^ 53 /\ rb = IZR b) \/ (2 ^ 53 < b /\ (IZR (2 ^ 53) <= rb)%R)).
  { destruct (Z_le_gt_dec b (2 ^ 53)) as [L|G].
    - left. split; [exact L|]. apply rnd_int. lia.
    - right. split; [lia|]. unfold rb. rewrite <- (rnd_int (2 ^ 53)) by lia.
      unfold rnd. apply round_le; try typeclasses eauto. apply IZR_le. lia. }
  assert (Hrb2 : (rb <= bpow radix2 200)%R).
  { unfold rb, rnd. apply round_le_generic; try typeclasses eauto.
    - apply generic_format_bpow. unfold FLT_exp. lia.
    - change (bpow radix2 200) with (IZR (2 ^ 200)). apply IZR_le. lia. }
  assert (Ha : 0 <= Z.abs x < 2 ^ 53) by lia.
  pose proof (rnd_quot_floor (Z.abs x) b rb Ha Hb Hrb Hrb2) as Hfl.
  pose proof (rnd_sign_div (Z.abs x) b rb Ha Hb Hrb Hrb2) as [Hnn Hlt].
  assert (Hrb0 : (1 <= rb)%R).
  { destruct Hrb as [[_ ->]|[_ H]]; [apply IZR_le; lia|]. apply Rle_trans with (2 := H). apply IZR_le. lia. }
  (* value of the quotient up to sign *)
  assert (Vy' : fval (f_of_Z y) = (IZR (Z.sgn y) * rb)%R).
  { rewrite Vy. unfold rb, b. destruct (Z.abs_spec y) as [[P E]|[P E]]; rewrite E.
    - rewrite Z.sgn_pos by lia. lra.
    - rewrite Z.sgn_neg by lia. rewrite opp_IZR, rnd_opp. lra. }
  assert (Vx' : fval (f_of_Z x) = (IZR (Z.sgn x) * IZR (Z.abs x))%R).
  { rewrite Vx, <- mult_IZR. f_equal. lia. }
  assert (Hq : Z.quot x y = Z.sgn x * Z.sgn y * (Z.abs x / b)).
  { unfold b. rewrite <- Z.quot_div_nonneg by lia.
    rewrite (Z.quot_div x y) by lia. rewrite Z.quot_div_nonneg by lia. reflexivity. }
  destruct (Z.eq_dec x 0) as [->|Hx0].
  { (* zero dividend *)
    change (f_of_Z 0) with (S754_zero false).
    destruct (f_of_Z y) as [s|s| |s m e] eqn:Ey; try discriminate.
    - exfalso. unfold fval in Vy'; simpl in Vy'. symmetry in Vy'. apply Rmult_integral in Vy'.
      destruct Vy' as [H|H]; [|lra]. apply eq_IZR in H. lia.
    - simpl. now rewrite Z.quot_0_l by lia. }
  destruct (f_of_Z x) as [s|s| |sx mx ex] eqn:Ex; try discriminate.
  { exfalso. unfold fval in Vx; simpl in Vx. apply eq_IZR in Vx. lia. }
  destruct (f_of_Z y) as [s|s| |sy my ey] eqn:Ey; try discriminate.
  { exfalso. unfold fval in Vy'; simpl in Vy'. symmetry in Vy'. apply Rmult_integral in Vy'.
    destruct Vy' as [H|H]; [|lra]. apply eq_IZR in H. lia. }
  pose proof (fdiv_val sx mx ex sy my ey) as D. cbv zeta in D.
  rewrite Vx', Vy' in D.
  assert (Hd : ((IZR (Z.sgn x) * IZR (Z.abs x)) / (IZR (Z.sgn y) * rb)
               = IZR (Z.sgn x * Z.sgn y) * (IZR (Z.abs x) / rb))%R).
  { rewrite mult_IZR. assert (Hsy : Z.sgn y = 1 \/ Z.sgn y = -1) by lia.
    destruct Hsy as [-> | ->]; field; lra. }
  rewrite Hd in D.
  assert (Hs : Z.sgn x * Z.sgn y = 1 \/ Z.sgn x * Z.sgn y = -1) by lia.
  assert (Hr : rnd (IZR (Z.sgn x * Z.sgn y) * (IZR (Z.abs x) / rb))
             = (IZR (Z.sgn x * Z.sgn y) * rnd (IZR (Z.abs x) / rb))%R).
  { destruct Hs as [-> | ->].
    - now rewrite !Rmult_1_l.
    - replace (-1 * (IZR (Z.abs x) / rb))%R with (- (IZR (Z.abs x) / rb))%R by ring.
      rewrite rnd_opp. ring. }
  rewrite Hr in D.
  destruct D as [D1 D2].
  { destruct Hs as [-> | ->].
    - rewrite Rmult_1_l, Rabs_pos_eq by exact Hnn. exact Hlt.
    - replace (-1 * rnd (IZR (Z.abs x) / rb))%R with (- rnd (IZR (Z.abs x) / rb))%R by ring.
      rewrite Rabs_Ropp, Rabs_pos_eq by exact Hnn. exact Hlt. }
  rewrite py_int_val by exact D2. rewrite D1. f_equal. rewrite Hq, <- Hfl.
  destruct Hs as [-> | ->].
  - rewrite Rmult_1_l, Z.mul_1_l. apply Ztrunc_floor. exact Hnn.
  - replace (-1 * rnd (IZR (Z.abs x) / rb))%R with (- rnd (IZR (Z.abs x) / rb))%R by ring.
    rewrite Ztrunc_opp, Ztrunc_floor by exact Hnn. lia.
Qed.
