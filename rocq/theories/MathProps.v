(** * C87: the rounding functions of the m library *)
From Coq Require Import Reals Lra SpecFloat.
From Flocq Require Import Core.
From Flocq Require Import BinarySingleNaN.
From Verif Require Import Base PyNum PyNumProofs FloatBridge ArithModel ArithProofs CastProps FloatBridge2 MathModel RoundProofs MathProofs.
Open Scope R_scope.

(** the specification: what the documentation calls the nearest whole number, a tie going up *)
Definition half_up (x : R) (z : Z) : Prop := IZR z - / 2 <= x < IZR z + / 2.
Definition fits (t : ntype) (z : Z) : Prop :=
  match t with
  | TInt => (-2147483648 <= z <= 2147483647)%Z
  | _ => (-9223372036854775808 <= z <= 9223372036854775807)%Z
  end.

Definition x25 : pf := S754_finite false 5629499534213120 (-51).   (* 2.5 *)
Definition xm25 : pf := S754_finite true 5629499534213120 (-51).   (* -2.5 *)
Definition x35 : pf := S754_finite false 7881299347898368 (-51).   (* 3.5 *)
Definition x1e300 : pf := S754_finite false 6726312016140093 944.

(** m.floor of every finite number is the largest whole number not above it. *)
Theorem C87_floor : forall x, finite x ->
  exists z, m_floor x = Ok (NI z) /\ IZR z <= fval x < IZR z + 1.
Proof.
  intros x F. exists (Zfloor (fval x)). unfold m_floor. rewrite finite_not_special, py_floor_val by auto. cbn [rbind].
  split; auto. split; [apply Zfloor_lb|apply Zfloor_ub].
Qed.
Example C87_floor_ex : finite xm25 /\ m_floor xm25 = Ok (NI (-3)).
Proof. split; reflexivity. Qed.

(** m.ceil of every finite number is the smallest whole number not below it. *)
Theorem C87_ceil : forall x, finite x ->
  exists z, m_ceil x = Ok (NI z) /\ IZR z - 1 < fval x <= IZR z.
Proof.
  intros x F. exists (Zceil (fval x)). unfold m_ceil. rewrite finite_not_special, py_ceil_val by auto. cbn [rbind].
  split; auto. split; [|apply Zceil_ub]. pose proof (Zceil_lb (fval x)). lra.
Qed.
Example C87_ceil_ex : finite xm25 /\ m_ceil xm25 = Ok (NI (-2)).
Proof. split; reflexivity. Qed.

(** m.rint of every finite number is the nearest whole number and, between two, the even one: although it compares two
    rounded differences. *)
Theorem C87_rint : forall x, finite x -> valid x ->
  exists z, m_rint x = Ok (NI z) /\ Rabs (IZR z - fval x) <= / 2 /\
    (Rabs (IZR z - fval x) = / 2 -> Z.even z = true).
Proof. intros x F V. destruct (rint_correct x F V) as (z & E & A & B). exists z. auto. Qed.
Example C87_rint_ex : finite x25 /\ valid x25 /\ m_rint x25 = Ok (NI 2) /\ m_rint x35 = Ok (NI 4) /\ m_rint xm25 = Ok (NI (-2)).
Proof. repeat split; vm_compute; reflexivity. Qed.

(** An infinity or NaN passes through floor, ceil and rint and is refused by round. *)
Theorem C87_special : forall x, ~ finite x ->
  m_floor x = Ok (NF x) /\ m_ceil x = Ok (NF x) /\ m_rint x = Ok (NF x) /\
  m_round TInt x = Raise (PFAErr 27190) /\ m_round TLong x = Raise (PFAErr 27191).
Proof. intros [ | [] | | ] H; try (exfalso; apply H; reflexivity); repeat split; vm_compute; reflexivity. Qed.
Example C87_special_ex : ~ finite finf /\ ~ finite fnan.
Proof. split; discriminate. Qed.

(** the result of round, in range or refused *)
Lemma floor_isnan r : generic_format radix2 (FLT_exp (-1074) 53) r -> Rabs r < bpow radix2 1024 ->
  py_isnan (NI (Zfloor r)) = Ok false.
Proof.
  intros G B. assert (L : Rabs (rnd (IZR (Zfloor r))) < bpow radix2 1024).
  { destruct (Z.eq_dec (Zfloor r) (Zceil r)) as [E|N].
    - pose proof (Zfloor_lb r). pose proof (Zceil_ub r). rewrite <- E in H0. replace (IZR (Zfloor r)) with r by lra.
      rewrite rnd_fmt; auto.
    - pose proof (nonint_small r G N) as S. apply Rabs_def2 in S. pose proof (Zfloor_lb r). pose proof (Zfloor_ub r).
      rewrite rnd_int.
      + rewrite <- abs_IZR. apply Rlt_le_trans with (IZR (2 ^ 53)).
        * apply IZR_lt. assert (A1 : IZR (Zfloor r) < IZR (2 ^ 52)) by lra.
          assert (A2 : IZR (- 2 ^ 52 - 1) < IZR (Zfloor r)) by (rewrite minus_IZR, opp_IZR; lra). apply lt_IZR in A1, A2. lia.
        * change (IZR (2 ^ 53)) with (bpow radix2 53). apply bpow_le. lia.
      + assert (A1 : IZR (Zfloor r) < IZR (2 ^ 52)) by lra.
        assert (A2 : IZR (- 2 ^ 52 - 1) < IZR (Zfloor r)) by (rewrite minus_IZR, opp_IZR; lra). apply lt_IZR in A1, A2. lia. }
  destruct (f_of_Z_gen _ L) as [_ F]. unfold py_isnan. cbn [to_f]. rewrite (py_float_gen _ L). cbn [rbind].
  destruct (f_of_Z (Zfloor r)); auto; discriminate.
Qed.
Lemma m_round_floor x t : finite x -> valid x -> t = TInt \/ t = TLong ->
  (fits t (Zfloor (rnd (fval x + / 2))) -> m_round t x = Ok (Zfloor (rnd (fval x + / 2)))) /\
  (~ fits t (Zfloor (rnd (fval x + / 2))) -> m_round t x = Raise (PFAErr (match t with TInt => 27190 | _ => 27191 end))).
Proof.
  intros F V T. pose proof (big_half x F V) as B.
  assert (Fh : finite f_half) by reflexivity. assert (Vh : valid_binary 53 1024 f_half = true) by reflexivity.
  pose proof (fadd_sum x f_half F Fh V Vh) as S. rewrite half_val in S.
  destruct S as [[E Fa]|[S _]]; [|lra].
  unfold m_round. rewrite finite_not_special, py_floor_val by auto. rewrite E. cbn [rbind].
  set (r := rnd (fval x + / 2)) in *.
  assert (G : generic_format radix2 (FLT_exp (-1074) 53) r) by (unfold r, rnd; apply generic_format_round; typeclasses eauto).
  pose proof (floor_isnan r G B) as N. set (z := Zfloor r) in *.
  destruct T as [-> | ->]; unfold check_overflow; rewrite N, num_lt_int, num_gt_int; cbn [rbind orb fits];
    unfold INT_MIN_VALUE, INT_MAX_VALUE, LONG_MIN_VALUE, LONG_MAX_VALUE; split; intro R.
  - destruct (Z.ltb_spec z (-2147483648)); [lia|]. destruct (Z.ltb_spec 2147483647 z); [lia|]. reflexivity.
  - destruct (Z.ltb_spec z (-2147483648)); [reflexivity|]. destruct (Z.ltb_spec 2147483647 z); [reflexivity|]. lia.
  - destruct (Z.ltb_spec z (-9223372036854775808)); [lia|]. destruct (Z.ltb_spec 9223372036854775807 z); [lia|]. reflexivity.
  - destruct (Z.ltb_spec z (-9223372036854775808)); [reflexivity|]. destruct (Z.ltb_spec 9223372036854775807 z); [reflexivity|]. lia.
Qed.

(** m.round of a finite number of fewer than 52 binary places before the point, the one before 1/2 excepted, is the
    nearest whole number, a tie going up. It is refused exactly if it does not fit into the result type. *)
Theorem C87_round_partial : forall x t, finite x -> valid x -> t = TInt \/ t = TLong ->
  Rabs (fval x) < IZR (2 ^ 52) -> fval x <> before_half ->
  exists z, half_up (fval x) z /\
    (fits t z -> m_round t x = Ok z) /\
    (~ fits t z -> m_round t x = Raise (PFAErr (match t with TInt => 27190 | _ => 27191 end))).
Proof.
  intros x t F V T B N. exists (Zfloor (fval x + / 2)).
  pose proof (m_round_floor x t F V T) as R. rewrite (round_floor (fval x) (fval_fmt x V) B N) in R. split; auto.
  unfold half_up. pose proof (Zfloor_lb (fval x + / 2)). pose proof (Zfloor_ub (fval x + / 2)). lra.
Qed.
Example C87_round_ex : finite xm25 /\ valid xm25 /\ m_round TInt xm25 = Ok (-2)%Z /\ m_round TLong x25 = Ok 3%Z /\
  m_round TInt (S754_finite false 4503599627370496 (-21)) = Raise (PFAErr 27190).
Proof. repeat split; vm_compute; reflexivity. Qed.

(** m.round of a number beyond 2^53, which is whole, is the number, or a refusal. *)
Theorem C87_round_big : forall x t, finite x -> valid x -> t = TInt \/ t = TLong -> IZR (2 ^ 53) < Rabs (fval x) ->
  exists z, fval x = IZR z /\
    (fits t z -> m_round t x = Ok z) /\
    (~ fits t z -> m_round t x = Raise (PFAErr (match t with TInt => 27190 | _ => 27191 end))).
Proof.
  intros x t F V T B. pose proof (fval_fmt x V) as G. exists (Zfloor (fval x)).
  pose proof (m_round_floor x t F V T) as R. rewrite (add_half_big _ G B) in R. split; auto.
  destruct (fmt_multiple (fval x) 52 G) as [z Z]; [|lia|].
  - change (bpow radix2 52) with (IZR (2 ^ 52)). assert (IZR (2 ^ 52) < IZR (2 ^ 53)) by (apply IZR_lt; lia). lra.
  - change (bpow radix2 (52 - 52)) with 1 in Z. rewrite Rmult_1_r in Z. rewrite Z at 2. rewrite Zfloor_IZR. auto.
Qed.
Example C87_round_big_ex : finite x1e300 /\ valid x1e300 /\ m_round TLong x1e300 = Raise (PFAErr 27191) /\
  m_round TLong (S754_finite true 4503599627370497 3) = Ok (- (4503599627370497 * 8))%Z.
Proof. repeat split; vm_compute; reflexivity. Qed.

(** Without the two exceptions the claim fails. 0.49999999999999994, which is below 1/2, is rounded to 1; the whole
    number 2^52 + 1 is rounded to 2^52 + 2 and -(2^52 + 1) to -2^52. *)
Theorem C87_round_refuted :
  (exists x, finite x /\ valid x /\ fval x < / 2 /\ m_round TInt x = Ok 1%Z) /\
  (exists x, finite x /\ valid x /\ fval x = IZR (2 ^ 52 + 1) /\ m_round TLong x = Ok (2 ^ 52 + 2)%Z) /\
  (exists x, finite x /\ valid x /\ fval x = IZR (- (2 ^ 52 + 1)) /\ m_round TLong x = Ok (- 2 ^ 52)%Z).
Proof.
  split; [|split].
  - exists (S754_finite false 9007199254740991 (-54)). do 2 (split; [reflexivity|]). split; [|vm_compute; reflexivity].
    unfold fval, SF2R, F2R. cbn [Fnum Fexp cond_Zopp]. change (/ 2) with (bpow radix2 (53 + -54)).
    rewrite bpow_plus. apply Rmult_lt_compat_r; [apply bpow_gt_0|]. change (bpow radix2 53) with (IZR (2 ^ 53)). apply IZR_lt. reflexivity.
  - exists (S754_finite false 4503599627370497 0). do 2 (split; [reflexivity|]). split; [|vm_compute; reflexivity].
    unfold fval, SF2R, F2R. cbn [Fnum Fexp cond_Zopp]. change (bpow radix2 0) with 1. rewrite Rmult_1_r. reflexivity.
  - exists (S754_finite true 4503599627370497 0). do 2 (split; [reflexivity|]). split; [|vm_compute; reflexivity].
    unfold fval, SF2R, F2R. cbn [Fnum Fexp cond_Zopp]. change (bpow radix2 0) with 1. rewrite Rmult_1_r. reflexivity.
Qed.

(** floor, ceil and rint are declared to return a double; what they return for a finite number is never a float, so that
    code which asks for the attributes of a float, as stat.test.updateChi2 does, fails. *)
Theorem C87_double_refuted : forall x, finite x -> valid x ->
  (forall f, m_floor x <> Ok (NF f)) /\ (forall f, m_ceil x <> Ok (NF f)) /\ (forall f, m_rint x <> Ok (NF f)).
Proof.
  intros x F V. destruct (C87_floor x F) as (a & A & _). destruct (C87_ceil x F) as (b & B & _).
  destruct (C87_rint x F V) as (c & C & _). rewrite A, B, C. repeat split; intros f; discriminate.
Qed.

Lemma sign_cmp s m e : f_cmp_Z (S754_finite s m e) 0 = Some (if s then Lt else Gt).
Proof.
  unfold f_cmp_Z. rewrite Z.mul_0_l. destruct (Z.leb_spec 0 e) as [L|L].
  - pose proof (Z.pow_pos_nonneg 2 e eq_refl L) as P. f_equal. destruct s; cbn [zsign].
    + apply Z.compare_lt_iff. nia.
    + apply Z.compare_gt_iff. nia.
  - destruct s; reflexivity.
Qed.

(** m.signum is the sign of the number and 0 for NaN. *)
Theorem C87_signum : forall x, finite x ->
  (fval x < 0 -> m_signum x = (-1)%Z) /\ (fval x = 0 -> m_signum x = 0%Z) /\ (0 < fval x -> m_signum x = 1%Z).
Proof.
  intros [s|s| |s m e] F; try discriminate.
  - unfold fval; cbn. destruct s; cbn; repeat split; intro; auto; lra.
  - assert (P : 0 < F2R (Float radix2 (Z.pos m) e)) by (apply F2R_gt_0; reflexivity).
    assert (Q : F2R (Float radix2 (Z.neg m) e) < 0) by (apply F2R_lt_0; reflexivity).
    unfold fval, SF2R. destruct s; cbn [cond_Zopp]; change (- Z.pos m)%Z with (Z.neg m).
    + repeat split; intro H; try lra. unfold m_signum, num_eq, num_gt, num_cmp. rewrite sign_cmp. reflexivity.
    + repeat split; intro H; try lra. unfold m_signum, num_eq, num_gt, num_cmp. rewrite sign_cmp. reflexivity.
Qed.
Theorem C87_signum_special : m_signum fnan = 0%Z /\ m_signum finf = 1%Z /\ m_signum fninf = (-1)%Z.
Proof. repeat split. Qed.
Example C87_signum_ex : finite xm25 /\ m_signum xm25 = (-1)%Z /\ m_signum (S754_zero true) = 0%Z.
Proof. repeat split. Qed.

(** A large argument makes m.hypot raise OverflowError although the result, the
    argument itself, is a double. *)
Theorem C87_hypot_refuted : exists x, finite x /\ valid x /\
  forall sqrt, m_hypot sqrt x f0 = Raise (PyErr "OverflowError"%string).
Proof. exists x1e300. repeat split. Qed.

Print Assumptions C87_floor.
Print Assumptions C87_ceil.
Print Assumptions C87_rint.
Print Assumptions C87_special.
Print Assumptions C87_round_partial.
Print Assumptions C87_round_big.
Print Assumptions C87_round_refuted.
Print Assumptions C87_double_refuted.
Print Assumptions C87_signum.
Print Assumptions C87_signum_special.
Print Assumptions C87_hypot_refuted.
