(** Proofs about binary packing: bytes of numbers, and the round trip. *)
From Coq Require Import Ascii.
From Coq Require Import SpecFloat.
From Verif Require Import Base PyNum PyNumProofs PackModel PackSpec.
Open Scope string_scope.
Open Scope list_scope.
Open Scope Z_scope.

(** * Bytes of integers *)

Lemma le_bytes_length n z : length (le_bytes n z) = n.
Proof. revert z. induction n as [|n IH]; intros z; cbn; [reflexivity|]. now rewrite IH. Qed.

Lemma le_bytes_range n z : Forall (fun b => 0 <= b < 256) (le_bytes n z).
Proof. revert z. induction n as [|n IH]; intros z; constructor; [apply Z.mod_pos_bound; lia|apply IH]. Qed.

Lemma pow256 n : 2 ^ (8 * Z.of_nat (S n)) = 256 * 2 ^ (8 * Z.of_nat n).
Proof. replace (8 * Z.of_nat (S n)) with (8 + 8 * Z.of_nat n) by lia. rewrite Z.pow_add_r by lia. reflexivity. Qed.

Lemma le_value_bytes n z : 0 <= z < 2 ^ (8 * Z.of_nat n) -> le_value (le_bytes n z) = z.
Proof.
  revert z. induction n as [|n IH]; intros z H.
  - cbn in *. lia.
  - rewrite pow256 in H. cbn [le_bytes le_value]. rewrite IH.
    + pose proof (Z.div_mod z 256). lia.
    + split; [apply Z.div_pos; lia|]. apply Z.div_lt_upper_bound; lia.
Qed.

Lemma le_value_range l : Forall (fun b => 0 <= b < 256) l -> 0 <= le_value l < 2 ^ (8 * Z.of_nat (length l)).
Proof.
  induction 1 as [|b l Hb _ IH]; [cbn; lia|]. cbn [length]. rewrite pow256. cbn [le_value]. lia.
Qed.

Lemma le_bytes_value l : Forall (fun b => 0 <= b < 256) l -> le_bytes (length l) (le_value l) = l.
Proof.
  induction 1 as [|b l Hb _ IH]; [reflexivity|]. cbn [length le_bytes le_value].
  replace ((b + 256 * le_value l) mod 256) with b.
  - replace ((b + 256 * le_value l) / 256) with (le_value l); [now rewrite IH|].
    apply Z.div_unique with b; lia.
  - apply Z.mod_unique with (le_value l); lia.
Qed.

Lemma put_length little n z : length (put little n z) = n.
Proof. destruct little; cbn; [|rewrite rev_length]; apply le_bytes_length. Qed.
Lemma get_put little n z : 0 <= z < 2 ^ (8 * Z.of_nat n) -> get little (put little n z) = z.
Proof. intros H. destruct little; cbn; [|rewrite rev_involutive]; now apply le_value_bytes. Qed.
Lemma put_get little l : Forall (fun b => 0 <= b < 256) l -> put little (length l) (get little l) = l.
Proof.
  intros H. destruct little; cbn; [now apply le_bytes_value|].
  rewrite <- (rev_length l). rewrite le_bytes_value; [apply rev_involutive|]. now apply Forall_rev.
Qed.
Lemma get_range little l : Forall (fun b => 0 <= b < 256) l -> 0 <= get little l < 2 ^ (8 * Z.of_nat (length l)).
Proof.
  intros H. destruct little; cbn; [now apply le_value_range|].
  rewrite <- (rev_length l). apply le_value_range. now apply Forall_rev.
Qed.
Lemma put_range little n z : Forall (fun b => 0 <= b < 256) (put little n z).
Proof. destruct little; cbn; [|apply Forall_rev]; apply le_bytes_range. Qed.

Lemma pow_half n : (0 < n)%nat -> 2 ^ (8 * Z.of_nat n) = 2 * 2 ^ (8 * Z.of_nat n - 1).
Proof. intros H. rewrite <- Z.pow_succ_r by lia. f_equal. lia. Qed.

Lemma to_signed_mod n z : (0 < n)%nat -> int_range true n z = true -> to_signed n (z mod 2 ^ (8 * Z.of_nat n)) = z.
Proof.
  intros Hn H. unfold int_range in H. apply andb_prop in H as [H1 H2]. apply Z.leb_le in H1. apply Z.ltb_lt in H2.
  unfold to_signed. pose proof (pow_half n Hn) as E. set (h := 2 ^ (8 * Z.of_nat n - 1)) in *. rewrite E.
  assert (0 < h) by (apply Z.pow_pos_nonneg; lia).
  destruct (Z_le_dec 0 z) as [P|P].
  - rewrite Z.mod_small by lia. destruct (Z.ltb_spec z h); lia.
  - replace (z mod (2 * h)) with (z + 2 * h) by (apply Z.mod_unique with (-1); lia).
    destruct (Z.ltb_spec (z + 2 * h) h); lia.
Qed.

Lemma to_signed_range n z : (0 < n)%nat -> 0 <= z < 2 ^ (8 * Z.of_nat n) ->
  int_range true n (to_signed n z) = true /\ to_signed n z mod 2 ^ (8 * Z.of_nat n) = z.
Proof.
  intros Hn H. unfold int_range, to_signed. pose proof (pow_half n Hn) as E. set (h := 2 ^ (8 * Z.of_nat n - 1)) in *. rewrite E in *.
  assert (0 < h) by (apply Z.pow_pos_nonneg; lia).
  destruct (Z.ltb_spec z h).
  - split; [apply andb_true_intro; split; [apply Z.leb_le|apply Z.ltb_lt]; lia|]. apply Z.mod_small; lia.
  - split; [apply andb_true_intro; split; [apply Z.leb_le|apply Z.ltb_lt]; lia|].
    symmetry. apply Z.mod_unique with (-1); lia.
Qed.

(** * Bits of floats *)

Lemma valid_finite prec emax s m e : valid_binary prec emax (S754_finite s m e) = true ->
  Z.max (Zpos (digits2_pos m) + e - prec) (3 - emax - prec) = e /\ e <= emax - prec.
Proof.
  intros H. cbn in H. unfold bounded, canonical_mantissa, fexp, emin in H. apply andb_prop in H as [H1 H2].
  apply Zeq_bool_eq in H1. apply Zle_bool_imp_le in H2. split; assumption.
Qed.

Lemma pos_bounds p : 2 ^ (Zpos (digits2_pos p) - 1) <= Zpos p < 2 ^ Zpos (digits2_pos p).
Proof.
  rewrite digits2_log2. replace (Z.log2 (Zpos p) + 1 - 1) with (Z.log2 (Zpos p)) by lia.
  replace (Z.log2 (Zpos p) + 1) with (Z.succ (Z.log2 (Zpos p))) by lia. apply Z.log2_spec. lia.
Qed.

(** A mantissa field below [2^mw] and an exponent field below [2^ew] can be taken apart again. *)
Lemma split_fields mw ew s be mt (sb := if s : bool then 1 else 0) : 0 < mw -> 0 < ew -> 0 <= be < 2 ^ ew -> 0 <= mt < 2 ^ mw ->
  let z := (sb * 2 ^ ew + be) * 2 ^ mw + mt in
  (1 <=? z / 2 ^ (mw + ew)) = s /\ (z / 2 ^ mw) mod 2 ^ ew = be /\ z mod 2 ^ mw = mt /\ 0 <= z < 2 * 2 ^ (mw + ew).
Proof.
  intros Hm He Hb Ht. cbn zeta. assert (E : 2 ^ (mw + ew) = 2 ^ ew * 2 ^ mw) by (rewrite Z.pow_add_r by lia; lia).
  assert (0 < 2 ^ mw) by (apply Z.pow_pos_nonneg; lia). assert (0 < 2 ^ ew) by (apply Z.pow_pos_nonneg; lia).
  set (M := 2 ^ mw) in *. set (X := 2 ^ ew) in *.
  assert (Hs : 0 <= sb <= 1) by (unfold sb; destruct s; lia).
  assert (Q : ((sb * X + be) * M + mt) / M = sb * X + be).
  { symmetry. apply Z.div_unique with mt; lia. }
  split; [|split; [|split]].
  - rewrite E. replace (((sb * X + be) * M + mt) / (X * M)) with sb.
    + unfold sb. destruct s; reflexivity.
    + apply Z.div_unique with (be * M + mt); [left; nia|]. nia.
  - rewrite Q. symmetry. apply Z.mod_unique with sb; lia.
  - symmetry. apply Z.mod_unique with (sb * X + be); lia.
  - rewrite E. unfold sb. destruct s; nia.
Qed.

Section Floats.
  Variables (mw ew : Z).
  Hypothesis Hmw : 1 < mw.
  Hypothesis Hew : 1 < ew.
  Let prec := mw + 1.
  Let emax := 2 ^ (ew - 1).
  (** The exponent range is larger than the precision, as in all IEEE formats. *)
  Hypothesis Hrange : mw + 3 <= emax.

  Lemma pow_ew : 2 ^ ew = 2 * emax.
  Proof using All. clear -Hew. unfold emax. rewrite <- Z.pow_succ_r by lia. f_equal. lia. Qed.

  Lemma bits_float_bits f : valid_binary prec emax f = true ->
    bits_float mw ew (float_bits mw ew f) = f /\ 0 <= float_bits mw ew f < 2 * 2 ^ (mw + ew).
  Proof using All.
    assert (HM : 0 < 2 ^ mw) by (apply Z.pow_pos_nonneg; lia). pose proof pow_ew as HE.
    assert (HEmax : 2 <= emax).
    { unfold emax. change 2 with (2 ^ 1) at 1. apply Z.pow_le_mono_r; lia. }
    intros V. destruct f as [s|s| |s m e].
    - destruct (split_fields mw ew s 0 0) as (A1 & A2 & A3 & A4); [lia|lia|lia|lia|].
      cbn [float_bits]. rewrite !Z.add_0_r in *. unfold bits_float. rewrite A1, A2, A3. split; [|exact A4].
      destruct (Z.eqb_spec 0 (2 ^ ew - 1)); [lia|]. reflexivity.
    - destruct (split_fields mw ew s (2 ^ ew - 1) 0) as (A1 & A2 & A3 & A4); [lia|lia|lia|lia|].
      cbn [float_bits]. rewrite Z.add_0_r in *. unfold bits_float. rewrite A1, A2, A3. split; [|exact A4].
      rewrite Z.eqb_refl. reflexivity.
    - assert (Hh : 0 < 2 ^ (mw - 1) < 2 ^ mw).
      { split; [apply Z.pow_pos_nonneg; lia|]. apply Z.pow_lt_mono_r; lia. }
      destruct (split_fields mw ew false (2 ^ ew - 1) (2 ^ (mw - 1))) as (A1 & A2 & A3 & A4); [lia|lia|lia|lia|].
      cbn [float_bits]. rewrite Z.mul_0_l, Z.add_0_l in *. unfold bits_float. rewrite A2, A3. split; [|exact A4].
      rewrite Z.eqb_refl. destruct (Z.eqb_spec (2 ^ (mw - 1)) 0); [lia|reflexivity].
    - apply valid_finite in V as [V1 V2]. pose proof (pos_bounds m) as PB. set (d := Zpos (digits2_pos m)) in *.
      assert (Hd : 1 <= d) by (unfold d; lia). cbn [float_bits]. fold emax.
      destruct (Z.ltb_spec (Zpos m) (2 ^ mw)) as [Sm|Sm].
      + rewrite Z.mod_small by lia. destruct (split_fields mw ew s 0 (Zpos m)) as (A1 & A2 & A3 & A4); [lia|lia|lia|lia|].
        unfold bits_float. rewrite A1, A2, A3. split; [|exact A4].
        destruct (Z.eqb_spec 0 (2 ^ ew - 1)); [lia|]. cbn [Z.eqb].
        f_equal. fold emax. assert (d <= mw).
        { destruct (Z_le_gt_dec d mw); [assumption|]. assert (2 ^ mw <= 2 ^ (d - 1)) by (apply Z.pow_le_mono_r; lia). lia. }
        unfold prec in *. lia.
      + assert (mw < d).
        { destruct (Z_le_gt_dec d mw); [|lia]. assert (2 ^ d <= 2 ^ mw) by (apply Z.pow_le_mono_r; lia). lia. }
        assert (d <= prec) by (unfold prec in *; lia).
        assert (Dd : d = prec) by (unfold prec in *; lia). rewrite Dd in PB.
        assert (P2 : 2 ^ prec = 2 * 2 ^ mw) by (unfold prec; rewrite <- Z.pow_succ_r by lia; f_equal; lia).
        assert (Mm : Zpos m mod 2 ^ mw = Zpos m - 2 ^ mw) by (symmetry; apply Z.mod_unique with 1; lia). rewrite Mm.
        assert (Be : 0 < e + (emax - 1) + mw < 2 ^ ew - 1) by (unfold prec in *; lia).
        destruct (split_fields mw ew s (e + (emax - 1) + mw) (Zpos m - 2 ^ mw)) as (A1 & A2 & A3 & A4); [lia|lia|lia|lia|].
        unfold bits_float. rewrite A1, A2, A3. split; [|exact A4].
        destruct (Z.eqb_spec (e + (emax - 1) + mw) (2 ^ ew - 1)); [lia|].
        destruct (Z.eqb_spec (e + (emax - 1) + mw) 0); [lia|].
        replace (Zpos m - 2 ^ mw + 2 ^ mw) with (Zpos m) by lia. f_equal. fold emax. lia.
  Qed.

  Lemma digits_unique p k : 2 ^ (k - 1) <= Zpos p < 2 ^ k -> 0 < k -> Zpos (digits2_pos p) = k.
  Proof.
    clear. intros H Hk. pose proof (pos_bounds p) as B. set (d := Zpos (digits2_pos p)) in *. assert (1 <= d) by (unfold d; lia).
    destruct (Z.lt_trichotomy d k) as [L|[L|L]]; [|exact L|].
    - assert (2 ^ d <= 2 ^ (k - 1)) by (apply Z.pow_le_mono_r; lia). lia.
    - assert (2 ^ k <= 2 ^ (d - 1)) by (apply Z.pow_le_mono_r; lia). lia.
  Qed.

  Lemma bits_float_valid z : 0 <= z < 2 * 2 ^ (mw + ew) -> valid_binary prec emax (bits_float mw ew z) = true.
  Proof using All.
    intros Hz. assert (HM : 0 < 2 ^ mw) by (apply Z.pow_pos_nonneg; lia). pose proof pow_ew as HE.
    assert (HEmax : 2 <= emax).
    { unfold emax. change 2 with (2 ^ 1) at 1. apply Z.pow_le_mono_r; lia. }
    assert (Hmt : 0 <= z mod 2 ^ mw < 2 ^ mw) by (apply Z.mod_pos_bound; lia).
    assert (Hbe : 0 <= (z / 2 ^ mw) mod 2 ^ ew < 2 ^ ew) by (apply Z.mod_pos_bound; lia).
    unfold bits_float. set (s := 1 <=? _). set (be := (z / 2 ^ mw) mod 2 ^ ew) in *. set (mt := z mod 2 ^ mw) in *. clearbody s be mt.
    destruct (Z.eqb_spec be (2 ^ ew - 1)); [destruct (mt =? 0); reflexivity|].
    destruct (Z.eqb_spec be 0).
    - destruct mt as [|p|p]; [reflexivity| |reflexivity].
      cbn [valid_binary]. unfold bounded, canonical_mantissa, fexp, emin. fold emax.
      pose proof (pos_bounds p) as PB. set (d := Zpos (digits2_pos p)) in *. assert (1 <= d) by (unfold d; lia).
      assert (d <= mw).
      { destruct (Z_le_gt_dec d mw); [assumption|]. assert (2 ^ mw <= 2 ^ (d - 1)) by (apply Z.pow_le_mono_r; lia). lia. }
      apply andb_true_intro. unfold prec. split; [apply Zeq_is_eq_bool; lia|apply Z.leb_le; lia].
    - destruct (mt + 2 ^ mw) as [|p|p] eqn:E; [lia| |lia].
      cbn [valid_binary]. unfold bounded, canonical_mantissa, fexp, emin. fold emax.
      assert (D : Zpos (digits2_pos p) = prec).
      { apply digits_unique; [|unfold prec; lia]. unfold prec. rewrite <- E.
        replace (mw + 1 - 1) with mw by lia. replace (mw + 1) with (Z.succ mw) by lia. rewrite Z.pow_succ_r by lia. lia. }
      rewrite D. apply andb_true_intro. unfold prec. split; [apply Zeq_is_eq_bool; lia|apply Z.leb_le; lia].
  Qed.

  (** Bits that are not those of a NaN come back. *)
  Lemma float_bits_bits z : 0 <= z < 2 * 2 ^ (mw + ew) -> bits_float mw ew z <> S754_nan ->
    float_bits mw ew (bits_float mw ew z) = z.
  Proof using All.
    intros Hz. assert (HM : 0 < 2 ^ mw) by (apply Z.pow_pos_nonneg; lia). pose proof pow_ew as HE.
    assert (HX : 0 < 2 ^ ew) by (apply Z.pow_pos_nonneg; lia).
    assert (E : 2 ^ (mw + ew) = 2 ^ ew * 2 ^ mw) by (rewrite Z.pow_add_r by lia; lia).
    pose proof (Z.div_mod z (2 ^ mw)) as D1. pose proof (Z.div_mod (z / 2 ^ mw) (2 ^ ew)) as D2.
    assert (Hmt : 0 <= z mod 2 ^ mw < 2 ^ mw) by (apply Z.mod_pos_bound; lia).
    assert (Hbe : 0 <= (z / 2 ^ mw) mod 2 ^ ew < 2 ^ ew) by (apply Z.mod_pos_bound; lia).
    assert (Q : z / 2 ^ mw / 2 ^ ew = z / 2 ^ (mw + ew)) by (rewrite E, (Z.mul_comm (2 ^ ew)); apply Z.div_div; lia).
    assert (Hq : z / 2 ^ (mw + ew) = if 1 <=? z / 2 ^ (mw + ew) then 1 else 0).
    { assert (0 <= z / 2 ^ (mw + ew)) by (apply Z.div_pos; lia).
      assert (z / 2 ^ (mw + ew) < 2) by (apply Z.div_lt_upper_bound; lia).
      destruct (Z.leb_spec 1 (z / 2 ^ (mw + ew))); lia. }
    unfold bits_float. set (s := 1 <=? _) in *. rewrite Q, Hq in D2.
    set (be := (z / 2 ^ mw) mod 2 ^ ew) in *. set (mt := z mod 2 ^ mw) in *.
    assert (ZZ : z = ((if s then 1 else 0) * 2 ^ ew + be) * 2 ^ mw + mt) by lia.
    clearbody s be mt. clear D1 D2 Q Hq. intros NN.
    destruct (Z.eqb_spec be (2 ^ ew - 1)).
    - destruct (Z.eqb_spec mt 0); [|congruence]. cbn [float_bits]. subst be mt. lia.
    - destruct (Z.eqb_spec be 0).
      + destruct mt as [|p|p]; cbn [float_bits]; subst be; [lia| |lia].
        destruct (Z.ltb_spec (Zpos p) (2 ^ mw)); [|lia]. rewrite Z.mod_small by lia. lia.
      + destruct (mt + 2 ^ mw) as [|p|p] eqn:Ep; [congruence| |congruence].
        cbn [float_bits]. destruct (Z.ltb_spec (Zpos p) (2 ^ mw)); [lia|].
        replace (Zpos p mod 2 ^ mw) with mt by (apply Z.mod_unique with 1; lia). fold emax. rewrite ZZ. f_equal. f_equal. f_equal. lia.
  Qed.
End Floats.

Lemma double_bits f : double f -> bits_float 52 11 (float_bits 52 11 f) = f /\ 0 <= float_bits 52 11 f < 2 ^ 64.
Proof. intros V. apply (bits_float_bits 52 11); [lia|lia|cbn; lia|exact V]. Qed.
Lemma single_bits f : single f -> bits_float 23 8 (float_bits 23 8 f) = f /\ 0 <= float_bits 23 8 f < 2 ^ 32.
Proof. intros V. apply (bits_float_bits 23 8); [lia|lia|cbn; lia|exact V]. Qed.

(** * Single precision values are packed exactly *)

Lemma iter_shr p m : 0 < m ->
  SpecFloat.iter_pos shr_1 p {| shr_m := m * 2 ^ Zpos p; shr_r := false; shr_s := false |}
  = {| shr_m := m; shr_r := false; shr_s := false |}.
Proof.
  assert (S1 : forall m, 0 < m -> shr_1 {| shr_m := 2 * m; shr_r := false; shr_s := false |} = {| shr_m := m; shr_r := false; shr_s := false |}).
  { intros [|q|q] Hq; try lia. reflexivity. }
  revert m. induction p as [p IH|p IH|]; intros m Hm; cbn [SpecFloat.iter_pos].
  - replace (m * 2 ^ Zpos p~1) with (2 * (m * 2 ^ Zpos p * 2 ^ Zpos p)).
    + rewrite S1 by nia. rewrite IH by nia. apply IH; assumption.
    + replace (Zpos p~1) with (1 + Zpos p + Zpos p) by lia. rewrite !Z.pow_add_r by lia. rewrite Z.pow_1_r. ring.
  - replace (m * 2 ^ Zpos p~0) with (m * 2 ^ Zpos p * 2 ^ Zpos p).
    + rewrite IH by nia. apply IH; assumption.
    + replace (Zpos p~0) with (Zpos p + Zpos p) by lia. rewrite Z.pow_add_r by lia. ring.
  - change (2 ^ 1) with 2. rewrite Z.mul_comm. now apply S1.
Qed.

Lemma digits_shift m m' k : 0 <= k -> Zpos m' = Zpos m * 2 ^ k -> Zpos (digits2_pos m') = Zpos (digits2_pos m) + k.
Proof. intros Hk E. rewrite !digits2_log2, E, Z.log2_mul_pow2 by lia. lia. Qed.

Lemma shr_exact m k e : 0 < m -> 0 <= k ->
  shr {| shr_m := m * 2 ^ k; shr_r := false; shr_s := false |} e k = ({| shr_m := m; shr_r := false; shr_s := false |}, e + k).
Proof.
  intros Hm Hk. destruct k as [|p|p]; [|unfold shr; now rewrite iter_shr|lia].
  cbn [shr]. rewrite Z.mul_1_r, Z.add_0_r. reflexivity.
Qed.

Lemma narrow_exact y x : single y -> double x -> same_float y x -> narrow x = Ok y.
Proof.
  intros Hy Hx E. destruct y as [s|s| |s m e]; destruct x as [s'|s'| |s' m' e']; cbn [same_float] in E; try contradiction; subst; try reflexivity.
  destruct E as (<- & Le & E). apply valid_finite in Hy as [Y1 Y2]. apply valid_finite in Hx as [X1 X2].
  pose proof (digits_shift m m' (e - e') ltac:(lia) E) as D.
  cbn [narrow]. unfold binary_round, shl_align.
  assert (F : fexp 24 128 (Zpos (digits2_pos m') + e') = e).
  { unfold fexp, emin. rewrite D. lia. }
  rewrite F. destruct (e - e') as [|k|k] eqn:K; [| |lia].
  - assert (e = e') by lia. subst e'. assert (m' = m) by (rewrite Z.pow_0_r in E; lia). subst m'.
    unfold binary_round_aux, shr_fexp. cbn [Zdigits2]. rewrite F. rewrite Z.sub_diag. cbn [shr fst snd shr_record_of_loc loc_of_shr_record shr_m shr_r shr_s round_nearest_even].
    cbn [Zdigits2]. rewrite F, Z.sub_diag. cbn [shr fst snd shr_record_of_loc shr_m].
    destruct (Z.leb_spec e (128 - 24)) as [_|?]; [reflexivity|lia].
  - unfold binary_round_aux, shr_fexp. cbn [Zdigits2 shr_record_of_loc]. rewrite F, E, K.
    rewrite shr_exact by lia. cbn [fst snd shr_m loc_of_shr_record shr_r shr_s round_nearest_even].
    cbn [Zdigits2 shr_record_of_loc]. replace (e' + Zpos k) with e by lia.
    replace (fexp 24 128 (Zpos (digits2_pos m) + e)) with e by (unfold fexp, emin; lia).
    rewrite Z.sub_diag. cbn [shr fst snd shr_m].
    destruct (Z.leb_spec e (128 - 24)) as [_|?]; [reflexivity|lia].
Qed.

Lemma same_widen y x : single y -> double x -> same_float y x -> widen y = x.
Proof.
  intros Hy Hx E. destruct y as [s|s| |s m e]; destruct x as [s'|s'| |s' m' e']; cbn [same_float] in E; try contradiction; subst; try reflexivity.
  destruct E as (<- & Le & E). apply valid_finite in Hy as [Y1 Y2]. apply valid_finite in Hx as [X1 X2].
  pose proof (digits_shift m m' (e - e') ltac:(lia) E) as D. unfold widen. set (d := Zpos (digits2_pos m)) in *.
  assert (1 <= d) by (unfold d; lia). assert (e - e' = 53 - d) by lia. rewrite <- H0, <- E. f_equal. lia.
Qed.

(** widen gives a double with the same value. *)
Lemma widen_same y : single y -> double (widen y) /\ same_float y (widen y).
Proof.
  intros Hy. destruct y as [s|s| |s m e]; try (split; reflexivity).
  apply valid_finite in Hy as [Y1 Y2]. unfold widen. pose proof (pos_bounds m) as PB. set (d := Zpos (digits2_pos m)) in *.
  assert (Hd : 1 <= d) by (unfold d; lia).
  assert (P : 0 < 2 ^ (53 - d)) by (apply Z.pow_pos_nonneg; lia).
  destruct (Zpos m * 2 ^ (53 - d)) as [|m'|m'] eqn:E; [nia| |nia]. split.
  - unfold double. cbn [valid_binary]. unfold bounded, canonical_mantissa, fexp, emin.
    rewrite (digits_shift m m' (53 - d)) by (try lia; symmetry; exact E). fold d.
    apply andb_true_intro. split; [apply Zeq_is_eq_bool; lia|apply Z.leb_le; lia].
  - cbn [same_float]. split; [reflexivity|]. split; [lia|]. rewrite <- E. f_equal. f_equal. lia.
Qed.

(** * The round trip of one value *)

Definition plain (l : list Z) : bstr := {| b_str := false; b_data := l |}.

Lemma firstn_app_len {A} (l r : list A) : firstn (length l) (l ++ r) = l.
Proof. rewrite firstn_app, Nat.sub_diag, firstn_all. cbn. apply app_nil_r. Qed.
Lemma skipn_app_len {A} (l r : list A) : skipn (length l) (l ++ r) = r.
Proof. rewrite skipn_app, Nat.sub_diag, skipn_all. reflexivity. Qed.

Lemma cut_app l r n : Z.of_nat (length l) = n -> cut (plain (l ++ r)) (Some n) = Done (l, r).
Proof.
  intros <-. unfold cut, plain. cbn [b_data]. rewrite Nat2Z.id, firstn_app_len, skipn_app_len, Z.eqb_refl. reflexivity.
Qed.

Lemma index0_app l r : ~ In 0 l -> index0 (l ++ 0 :: r) = Some (length l).
Proof.
  induction l as [|b l IH]; intros H; [reflexivity|]. cbn [index0 app length].
  destruct (Z.eqb_spec b 0) as [->|N]; [exfalso; apply H; now left|]. rewrite IH; [reflexivity|]. intros X. apply H. now right.
Qed.

Lemma content_norm v l : content v l ->
  let v' := match v with VStr [] => VBytes [] | _ => v end in as_bytes v' = Ok l /\ py_len v' = Ok (Z.of_nat (length l)).
Proof.
  intros [[-> | ->] F]; [split; reflexivity|]. destruct l as [|c l]; [split; reflexivity|]. cbn [as_bytes py_len]. split; [|reflexivity].
  rewrite (proj2 (forallb_forall _ _)); [reflexivity|]. rewrite Forall_forall in F. intros x Hx. apply Z.ltb_lt. now apply F.
Qed.

Lemma in_bits_range u n z : in_bits u (8 * Z.of_nat n) z -> int_range (negb u) n z = true.
Proof.
  unfold in_bits, int_range. destruct u; cbn [negb]; intros [H1 H2]; apply andb_true_intro; split; (apply Z.leb_le || apply Z.ltb_lt); assumption.
Qed.

Lemma int_roundtrip little u n z : (0 < n)%nat -> int_range (negb u) n z = true ->
  pack_int little (negb u) n z = Ok (put little n (z mod 2 ^ (8 * Z.of_nat n)))
  /\ (if negb u then to_signed n (get little (put little n (z mod 2 ^ (8 * Z.of_nat n)))) else get little (put little n (z mod 2 ^ (8 * Z.of_nat n)))) = z.
Proof.
  intros Hn R. unfold pack_int. rewrite R. split; [reflexivity|].
  assert (0 < 2 ^ (8 * Z.of_nat n)) by (apply Z.pow_pos_nonneg; lia).
  rewrite get_put by (apply Z.mod_pos_bound; lia).
  destruct u; cbn [negb] in *; [|now apply to_signed_mod].
  unfold int_range in R. apply andb_prop in R as [R1 R2]. apply Z.leb_le in R1. apply Z.ltb_lt in R2. apply Z.mod_small; lia.
Qed.

Lemma is_int_to_int n z : is_int n z -> to_int (VNum n) = Ok (VNum (NI z)).
Proof.
  unfold to_int. destruct n as [z'|f]; cbn [is_int]; [now intros ->|].
  destruct f as [s|s| |s m e]; try contradiction; [intros ->; reflexivity|].
  unfold py_int. destruct (Z.leb_spec 0 e) as [P|P]; intros H; cbn [rbind]; f_equal; f_equal; f_equal.
  - subst z. destruct s; cbn [zsign]; ring.
  - assert (K : 2 ^ (- e) <> 0) by (apply Z.pow_nonzero; lia).
    destruct s; cbn [zsign] in *.
    + replace (Zpos m) with (- z * 2 ^ (- e)) by lia. rewrite Z.div_mul by assumption. lia.
    + rewrite H. now apply Z.div_mul.
Qed.

(** Every struct code goes through the last branches of pack and unpackOne. *)
Lemma unpackOne_num f l n b (r : list Z) v :
  String.eqb f "raw" = false -> String.eqb f "tonull" = false -> String.eqb f "prefixed" = false ->
  l = Some n -> Z.of_nat (length b) = n -> struct_unpack f b = Ok v ->
  unpackOne (plain (b ++ r)) f l = Done (v, plain r).
Proof.
  intros E1 E2 E3 -> L U. unfold unpackOne. rewrite E1, E2, E3. rewrite (cut_app b r n L). cbn [b_str plain]. rewrite U. reflexivity.
Qed.

Definition good (d : declare) (v : pval) (b : list Z) (w : pval) : Prop :=
  packOne v (fst (declare_str d)) (snd (declare_str d)) = Ok b
  /\ (forall r, unpackOne (plain (b ++ r)) (fst (declare_str d)) (snd (declare_str d)) = Done (w, plain r))
  /\ came_back d v w /\ Z.of_nat (length b) = nbytes d v /\ Forall (fun x => 0 <= x < 256) b.

Lemma good_int d little u n z :
  (0 < n)%nat -> int_range (negb u) n z = true ->
  (d = DByte u /\ n = 1%nat \/ d = DShort little u /\ n = 2%nat \/ d = DInt little u /\ n = 4%nat \/ d = DLong little u /\ n = 8%nat) ->
  exists b, packOne (VNum (NI z)) (fst (declare_str d)) (snd (declare_str d)) = Ok b
  /\ (forall r, unpackOne (plain (b ++ r)) (fst (declare_str d)) (snd (declare_str d)) = Done (VNum (NI z), plain r))
  /\ length b = n /\ Forall (fun x => 0 <= x < 256) b.
Proof.
  intros Hn R D.
  destruct (int_roundtrip (match d with DByte _ => true | _ => little end) u n z Hn R) as [P G].
  exists (put (match d with DByte _ => true | _ => little end) n (z mod 2 ^ (8 * Z.of_nat n))).
  destruct D as [[-> ->]|[[-> ->]|[[-> ->]|[-> ->]]]]; destruct u; try destruct little;
    (split; [exact P|]); (split; [|split; [apply put_length|apply put_range]]); intros r;
    (eapply unpackOne_num; [reflexivity|reflexivity|reflexivity|reflexivity|rewrite put_length; reflexivity|]);
    unfold struct_unpack; cbn [declare_str fst ord_ String.append parse_fmt letter option_map Ascii.eqb Bool.eqb negb] in *;
    rewrite put_length; cbn [Nat.eqb]; f_equal; f_equal; f_equal; exact G.
Qed.

Lemma roundtrip1 d v : fits d v -> exists b w, good d v b w.
Proof.
  destruct d as [| |u|little u|little u|little u|little|little| |k| |]; cbn [fits]; intros H.
  - subst v. exists [0], VNull. repeat split; try reflexivity; try (constructor; [lia|constructor]).
  - destruct H as [b ->]. exists [if b then 1 else 0], (VBool b). split; [destruct b; reflexivity|]. split; [intros r; destruct b; reflexivity|].
    split; [reflexivity|]. split; [reflexivity|]. constructor; [destruct b; lia|constructor].
  - destruct H as (z & -> & B). destruct (good_int (DByte u) true u 1 z) as (b & P1 & P2 & P3 & P4); [lia|now apply (in_bits_range u 1)|now left|].
    exists b, (VNum (NI z)). split; [exact P1|]. split; [exact P2|]. split; [reflexivity|]. split; [cbn; now rewrite P3|exact P4].
  - destruct H as (z & -> & B). destruct (good_int (DShort little u) little u 2 z) as (b & P1 & P2 & P3 & P4); [lia|now apply (in_bits_range u 2)|now right; left|].
    exists b, (VNum (NI z)). split; [exact P1|]. split; [exact P2|]. split; [reflexivity|]. split; [cbn; now rewrite P3|exact P4].
  - destruct H as (z & -> & B). destruct (good_int (DInt little u) little u 4 z) as (b & P1 & P2 & P3 & P4); [lia|now apply (in_bits_range u 4)|now right; right; left|].
    exists b, (VNum (NI z)). split; [exact P1|]. split; [exact P2|]. split; [reflexivity|]. split; [cbn; now rewrite P3|exact P4].
  - destruct u.
    + destruct H as (n & z & -> & I1 & B).
      destruct (good_int (DLong little true) little true 8 z) as (b & P1 & P2 & P3 & P4); [lia|now apply (in_bits_range true 8)|now right; right; right|].
      exists b, (VNum (NI z)). split.
      { assert (Q : forall m, packOne (VNum m) (fst (declare_str (DLong little true))) (snd (declare_str (DLong little true)))
                  = (t <- to_int (VNum m) ;; struct_pack (fst (declare_str (DLong little true))) t)) by (intros m; destruct little; reflexivity).
        rewrite Q in *. rewrite (is_int_to_int n z I1). exact P1. }
      split; [exact P2|]. split; [exists n, z; now split|]. split; [cbn; now rewrite P3|exact P4].
    + destruct H as (z & -> & B). destruct (good_int (DLong little false) little false 8 z) as (b & P1 & P2 & P3 & P4); [lia|now apply (in_bits_range false 8)|now right; right; right|].
      exists b, (VNum (NI z)). split; [exact P1|]. split; [exact P2|]. split; [reflexivity|]. split; [cbn; now rewrite P3|exact P4].
  - destruct H as (n & x & y & -> & T & Dx & Sy & E).
    destruct (single_bits y Sy) as [B1 B2].
    exists (put little 4 (float_bits 23 8 y)), (VNum (NF x)). split.
    { assert (Q : packOne (VNum n) (fst (declare_str (DFloat little))) (snd (declare_str (DFloat little)))
              = (x <- as_double (VNum n) ;; y <- narrow x ;; Ok (put little 4 (float_bits 23 8 y)))) by (destruct little; reflexivity).
      rewrite Q. unfold as_double. rewrite T. cbn [rbind]. rewrite (narrow_exact y x Sy Dx E). reflexivity. }
    split; [|split; [exists n, x; now split|split; [rewrite put_length; reflexivity|apply put_range]]].
    intros r. eapply unpackOne_num; [destruct little; reflexivity|destruct little; reflexivity|destruct little; reflexivity|reflexivity|rewrite put_length; reflexivity|].
    assert (Q : forall l, struct_unpack (fst (declare_str (DFloat little))) l
       = if Nat.eqb (length l) 4 then Ok (VNum (NF (widen (bits_float 23 8 (get little l))))) else struct_error) by (intros l; destruct little; reflexivity).
    rewrite Q, put_length. cbn [Nat.eqb]. rewrite get_put by exact B2. rewrite B1, (same_widen y x Sy Dx E). reflexivity.
  - destruct H as (n & x & -> & T & Dx).
    destruct (double_bits x Dx) as [B1 B2].
    exists (put little 8 (float_bits 52 11 x)), (VNum (NF x)). split.
    { assert (Q : packOne (VNum n) (fst (declare_str (DDouble little))) (snd (declare_str (DDouble little)))
              = (x <- as_double (VNum n) ;; Ok (put little 8 (float_bits 52 11 x)))) by (destruct little; reflexivity).
      rewrite Q. unfold as_double. rewrite T. reflexivity. }
    split; [|split; [exists n, x; now split|split; [rewrite put_length; reflexivity|apply put_range]]].
    intros r. eapply unpackOne_num; [destruct little; reflexivity|destruct little; reflexivity|destruct little; reflexivity|reflexivity|rewrite put_length; reflexivity|].
    assert (Q : forall l, struct_unpack (fst (declare_str (DDouble little))) l
       = if Nat.eqb (length l) 8 then Ok (VNum (NF (bits_float 52 11 (get little l)))) else struct_error) by (intros l; destruct little; reflexivity).
    rewrite Q, put_length. cbn [Nat.eqb]. rewrite get_put by exact B2. rewrite B1. reflexivity.
  - contradiction.
  - destruct H as (l & C & L). pose proof (content_norm v l C) as [N1 N2]. exists l, (VBytes l). split; [|split; [|split; [|split]]].
    + cbn [declare_str fst snd]. unfold packOne. cbn [String.eqb Ascii.eqb Bool.eqb]. rewrite N2. cbn [rbind]. rewrite L, Z.eqb_refl. exact N1.
    + intros r. unfold unpackOne. cbn [declare_str fst snd String.eqb Ascii.eqb Bool.eqb]. rewrite (cut_app l r k L). reflexivity.
    + exists l. now split.
    + cbn [nbytes]. destruct C as [[-> | ->] _]; reflexivity.
    + apply C.
  - destruct H as (l & C & N0). pose proof (content_norm v l C) as [N1 N2]. exists (l ++ [0]), (VBytes l). split; [|split; [|split; [|split]]].
    + cbn [declare_str fst snd]. unfold packOne. cbn [String.eqb Ascii.eqb Bool.eqb]. rewrite N1. reflexivity.
    + intros r. unfold unpackOne. cbn [declare_str fst snd String.eqb Ascii.eqb Bool.eqb b_str plain b_data]. rewrite <- app_assoc. cbn [app].
      rewrite (index0_app l r N0). rewrite firstn_app_len. f_equal. f_equal. unfold plain. f_equal.
      change (0 :: r) with ([0] ++ r). rewrite app_assoc. replace (S (length l)) with (length (l ++ [0])) by (rewrite app_length; cbn; lia).
      apply skipn_app_len.
    + exists l. now split.
    + cbn [nbytes]. rewrite app_length. cbn [length]. destruct C as [[-> | ->] _]; lia.
    + apply Forall_app. split; [apply C|]. constructor; [lia|constructor].
  - destruct H as (l & C & L). pose proof (content_norm v l C) as [N1 N2]. exists (Z.of_nat (length l) :: l), (VBytes l). split; [|split; [|split; [|split]]].
    + cbn [declare_str fst snd]. unfold packOne. cbn [String.eqb Ascii.eqb Bool.eqb]. rewrite N2. cbn [rbind].
      destruct (Z.ltb_spec 255 (Z.of_nat (length l))); [lia|]. rewrite N1. reflexivity.
    + intros r. unfold unpackOne. cbn [declare_str fst snd String.eqb Ascii.eqb Bool.eqb b_str plain b_data app].
      rewrite Nat2Z.id, firstn_app_len, skipn_app_len, Z.eqb_refl. reflexivity.
    + exists l. now split.
    + cbn [nbytes length]. destruct C as [[-> | ->] _]; lia.
    + constructor; [lia|apply C].
Qed.

(** * Whole formats *)

Lemma roundtrip_loop (l : list (string * (pval * declare))) : Forall (fun x => fits (snd (snd x)) (fst (snd x))) l ->
  exists b ws, pack (map snd l) = Ok b
  /\ (forall r, unpack_loop (plain (b ++ r)) (map (fun x => (fst x, snd (snd x))) l) = Done (combine (map fst l) ws, plain r))
  /\ Forall2 (fun x w => came_back (snd (snd x)) (fst (snd x)) w) l ws
  /\ Z.of_nat (length b) = fold_right (fun x a => nbytes (snd (snd x)) (fst (snd x)) + a) 0 l
  /\ Forall (fun x => 0 <= x < 256) b.
Proof.
  induction 1 as [|[s [v d]] l F _ IH].
  - exists [], []. repeat split; try constructor.
  - cbn [fst snd] in F. destruct (roundtrip1 d v F) as (b1 & w & G1 & G2 & G3 & G4 & G5). destruct IH as (b & ws & I1 & I2 & I3 & I4 & I5).
    exists (b1 ++ b), (w :: ws). cbn [map fst snd pack unpack_loop combine fold_right]. split; [|split; [|split; [|split]]].
    + rewrite G1. cbn [rbind]. rewrite I1. reflexivity.
    + intros r. rewrite <- app_assoc, G2, I2. reflexivity.
    + constructor; assumption.
    + rewrite app_length, Nat2Z.inj_add, G4, I4. reflexivity.
    + now apply Forall_app.
Qed.

(** What was read from some bytes is also read from more bytes. *)
Lemma index0_more l r n : index0 l = Some n -> index0 (l ++ r) = Some n.
Proof.
  revert n. induction l as [|b l IH]; intros n; cbn [index0 app]; [discriminate|].
  destruct (b =? 0); [auto|]. destruct (index0 l) as [k|]; cbn [option_map]; [|discriminate].
  rewrite (IH k eq_refl). auto.
Qed.
Lemma index0_lt l n : index0 l = Some n -> (n < length l)%nat.
Proof.
  revert n. induction l as [|b l IH]; intros n; cbn [index0 length]; [discriminate|].
  destruct (b =? 0); [intros H; injection H as <-; lia|]. destruct (index0 l) as [k|]; cbn [option_map]; [|discriminate].
  intros H; injection H as <-. specialize (IH k eq_refl). lia.
Qed.

Lemma firstn_more {A} n (l r : list A) : (n <= length l)%nat -> firstn n (l ++ r) = firstn n l /\ skipn n (l ++ r) = skipn n l ++ r.
Proof.
  intros H. split.
  - rewrite firstn_app. replace (n - length l)%nat with 0%nat by lia. cbn. apply app_nil_r.
  - rewrite skipn_app. replace (n - length l)%nat with 0%nat by lia. reflexivity.
Qed.

Lemma cut_more b l this that r : cut b l = Done (this, that) ->
  cut {| b_str := b_str b; b_data := b_data b ++ r |} l = Done (this, that ++ r) /\ b_data b = this ++ that.
Proof.
  unfold cut. destruct l as [n|]; [|discriminate]. cbn [b_data].
  destruct (Z.eqb_spec (Z.of_nat (length (firstn (Z.to_nat n) (b_data b)))) n) as [E|]; [|discriminate].
  intros H. injection H as <- <-. rewrite firstn_length in E.
  destruct (firstn_more (Z.to_nat n) (b_data b) r) as [F1 F2]; [lia|]. rewrite F1, F2, firstn_length.
  destruct (Z.eqb_spec (Z.of_nat (Nat.min (Z.to_nat n) (length (b_data b)))) n); [|contradiction].
  split; [reflexivity|]. symmetry. apply firstn_skipn.
Qed.

Definition more (b : bstr) (r : list Z) : bstr := {| b_str := b_str b; b_data := b_data b ++ r |}.

Lemma unpackOne_more b f l v b' r : unpackOne b f l = Done (v, b') -> unpackOne (more b r) f l = Done (v, more b' r).
Proof.
  unfold unpackOne. destruct (String.eqb f "raw").
  { destruct (cut b l) as [[this that]| |] eqn:C; [|discriminate|discriminate]. intros H. injection H as <- <-.
    apply (cut_more b l this that r) in C as [C _]. unfold more. rewrite C. reflexivity. }
  destruct (String.eqb f "tonull").
  { cbn [more b_str b_data]. destruct (b_str b); [discriminate|]. destruct (index0 (b_data b)) as [n|] eqn:I0; [|discriminate].
    intros H. injection H as <- <-. rewrite (index0_more _ r _ I0). apply index0_lt in I0.
    destruct (firstn_more n (b_data b) r) as [F1 _]; [lia|]. destruct (firstn_more (S n) (b_data b) r) as [_ F2]; [lia|].
    rewrite F1. unfold more. cbn [b_str b_data]. f_equal. f_equal. f_equal. exact F2. }
  destruct (String.eqb f "prefixed").
  { cbn [more b_str b_data]. destruct (b_data b) as [|len rest]; [discriminate|]. cbn [app].
    destruct (Z.eqb_spec (Z.of_nat (length (firstn (Z.to_nat len) rest))) len) as [E|]; [|discriminate].
    intros H. injection H as <- <-. rewrite firstn_length in E.
    destruct (firstn_more (Z.to_nat len) rest r) as [F1 F2]; [lia|]. rewrite F1, F2, firstn_length.
    destruct (Z.eqb_spec (Z.of_nat (Nat.min (Z.to_nat len) (length rest))) len); [reflexivity|contradiction]. }
  destruct (cut b l) as [[this that]| |] eqn:C; [|discriminate|discriminate].
  apply (cut_more b l this that r) in C as [C _]. unfold more. rewrite C. cbn [b_str].
  destruct (b_str b); [discriminate|]. destruct (struct_unpack f this); [|discriminate]. intros H. injection H as <- <-. reflexivity.
Qed.

Lemma unpack_loop_more fmt : forall b vs b' r, unpack_loop b fmt = Done (vs, b') -> unpack_loop (more b r) fmt = Done (vs, more b' r).
Proof.
  induction fmt as [|[s d] fmt IH]; intros b vs b' r; cbn [unpack_loop]; [intros H; injection H as <- <-; reflexivity|].
  destruct (unpackOne b _ _) as [[v b1]| |] eqn:E; [|discriminate|discriminate]. rewrite (unpackOne_more _ _ _ _ _ r E).
  destruct (unpack_loop b1 fmt) as [[vs1 b2]| |] eqn:L; [|discriminate|discriminate]. rewrite (IH _ _ _ r L).
  intros H. injection H as <- <-. reflexivity.
Qed.

Lemma plain_noerr fmt : forall b e, unpack_loop (plain b) fmt <> Error e.
Proof.
  assert (One : forall b d, (exists v r, unpackOne (plain b) (fst (declare_str d)) (snd (declare_str d)) = Done (v, plain r))
                \/ unpackOne (plain b) (fst (declare_str d)) (snd (declare_str d)) = Misaligned).
  { intros b d.
    assert (Num : forall f n, String.eqb f "raw" = false -> String.eqb f "tonull" = false -> String.eqb f "prefixed" = false ->
       (forall l, Z.of_nat (length l) = n -> exists v, struct_unpack f l = Ok v) ->
       (exists v r, unpackOne (plain b) f (Some n) = Done (v, plain r)) \/ unpackOne (plain b) f (Some n) = Misaligned).
    { intros f n E1 E2 E3 U. unfold unpackOne. rewrite E1, E2, E3. unfold cut. cbn [plain b_data b_str].
      destruct (Z.eqb_spec (Z.of_nat (length (firstn (Z.to_nat n) b))) n) as [E|]; [|now right].
      left. destruct (U _ E) as [v ->]. exists v, (skipn (Z.to_nat n) b). reflexivity. }
    assert (Len : forall (l : list Z) n, Z.of_nat (length l) = Z.of_nat n -> Nat.eqb (length l) n = true)
      by (intros l n E; apply Nat.eqb_eq; lia).
    destruct d as [| |u|little u|little u|little u|little|little| |k| |]; cbn [declare_str fst snd].
    1-8: apply Num; try (destruct u); try (destruct little); try reflexivity; intros l L; unfold struct_unpack;
         cbn [ord_ String.append parse_fmt letter option_map Ascii.eqb Bool.eqb];
         try (eexists; reflexivity);
         first [rewrite (Len l 1%nat L)|rewrite (Len l 2%nat L)|rewrite (Len l 4%nat L)|rewrite (Len l 8%nat L)]; eexists; reflexivity.
    - right. reflexivity.
    - unfold unpackOne. cbn [String.eqb Ascii.eqb Bool.eqb]. unfold cut. cbn [plain b_data b_str].
      destruct (Z.of_nat (length (firstn (Z.to_nat k) b)) =? k); [left|now right]. eexists _, _. reflexivity.
    - unfold unpackOne. cbn [String.eqb Ascii.eqb Bool.eqb plain b_data b_str]. destruct (index0 b); [left|now right]. eexists _, _. reflexivity.
    - unfold unpackOne. cbn [String.eqb Ascii.eqb Bool.eqb plain b_data b_str]. destruct b as [|len rest]; [now right|].
      destruct (Z.of_nat (length (firstn (Z.to_nat len) rest)) =? len); [left|now right]. eexists _, _. reflexivity. }
  induction fmt as [|[s d] fmt IH]; intros b e; cbn [unpack_loop]; [discriminate|].
  destruct (One b d) as [(v & r & ->)| ->]; [|discriminate].
  specialize (IH r). destruct (unpack_loop (plain r) fmt) as [[vs b2]| |e'] eqn:L; try discriminate.
  intros X. injection X as <-. now apply (IH e').
Qed.

(** * From bytes to values and back *)

(** Formats whose bytes are determined by the value read: not padding and not booleans (any non-zero byte is true). *)
Definition exact_format (d : declare) : Prop := match d with DPad | DBoolean => False | _ => True end.
Definition not_nan (w : pval) : Prop := w <> VNum (NF S754_nan).

Lemma put_get_len little n l : Forall (fun b => 0 <= b < 256) l -> length l = n -> put little n (get little l) = l.
Proof. intros F <-. now apply put_get. Qed.

Lemma repack_num d f n b w r :
  declare_str d = (f, Some n) -> 0 <= n ->
  String.eqb f "raw" = false -> String.eqb f "tonull" = false -> String.eqb f "prefixed" = false ->
  (forall l, Forall (fun b => 0 <= b < 256) l -> Z.of_nat (length l) = n -> struct_unpack f l = Ok w -> packOne w f (Some n) = Ok l) ->
  Forall (fun b => 0 <= b < 256) b ->
  unpackOne (plain b) (fst (declare_str d)) (snd (declare_str d)) = Done (w, r) ->
  exists p, packOne w (fst (declare_str d)) (snd (declare_str d)) = Ok p /\ b = p ++ b_data r /\ b_str r = false.
Proof.
  intros -> Hn E1 E2 E3 U F. cbn [fst snd]. unfold unpackOne. rewrite E1, E2, E3.
  destruct (cut (plain b) (Some n)) as [[this that]| |] eqn:C; [|discriminate|discriminate].
  pose proof (cut_more _ _ _ _ [] C) as [_ B]. cbn [plain b_data b_str] in *.
  unfold cut in C. cbn [b_data plain] in C. destruct (Z.eqb_spec (Z.of_nat (length (firstn (Z.to_nat n) b))) n) as [L|]; [|discriminate].
  injection C as <- <-. rewrite B in F. apply Forall_app in F as [F1 F2].
  destruct (struct_unpack f (firstn (Z.to_nat n) b)) as [w'|] eqn:S1; [|discriminate]. intros H. injection H as <- <-.
  exists (firstn (Z.to_nat n) b). split; [|split; [exact B|reflexivity]]. now apply U.
Qed.

Lemma pack_unpack_int little u n l : (0 < n)%nat -> Forall (fun b => 0 <= b < 256) l -> length l = n ->
  pack_int little (negb u) n (if negb u then to_signed n (get little l) else get little l) = Ok l.
Proof.
  intros Hn F L. pose proof (get_range little l F) as R. rewrite L in R. unfold pack_int. destruct u; cbn [negb].
  - replace (int_range false n (get little l)) with true.
    + rewrite Z.mod_small by lia. now rewrite put_get_len.
    + symmetry. unfold int_range. apply andb_true_intro. split; [apply Z.leb_le|apply Z.ltb_lt]; lia.
  - destruct (to_signed_range n (get little l) Hn R) as [T1 T2]. rewrite T1, T2. now rewrite put_get_len.
Qed.

Lemma repack1 d b w r : exact_format d -> not_nan w -> Forall (fun b => 0 <= b < 256) b ->
  unpackOne (plain b) (fst (declare_str d)) (snd (declare_str d)) = Done (w, r) ->
  exists p, packOne w (fst (declare_str d)) (snd (declare_str d)) = Ok p /\ b = p ++ b_data r /\ b_str r = false.
Proof.
  assert (Len : forall (l : list Z) n, Z.of_nat (length l) = Z.of_nat n -> length l = n) by (intros; lia).
  destruct d as [| |u|little u|little u|little u|little|little| |k| |]; intros X NN F; try contradiction.
  - destruct u; (eapply repack_num; [reflexivity|lia|reflexivity|reflexivity|reflexivity| |exact F]); intros l Fl L U;
      unfold struct_unpack in U; cbn [parse_fmt letter option_map] in U; rewrite (Len l 1%nat L) in U; cbn [Nat.eqb] in U;
      injection U as <-; [apply (pack_unpack_int true true 1)|apply (pack_unpack_int true false 1)]; try lia; assumption.
  - destruct u, little; (eapply repack_num; [reflexivity|lia|reflexivity|reflexivity|reflexivity| |exact F]); intros l Fl L U;
      unfold struct_unpack in U; cbn [parse_fmt letter option_map ord_ String.append Ascii.eqb Bool.eqb] in U; rewrite (Len l 2%nat L) in U; cbn [Nat.eqb] in U;
      injection U as <-; [apply (pack_unpack_int true true 2)|apply (pack_unpack_int false true 2)|apply (pack_unpack_int true false 2)|apply (pack_unpack_int false false 2)]; try lia; assumption.
  - destruct u, little; (eapply repack_num; [reflexivity|lia|reflexivity|reflexivity|reflexivity| |exact F]); intros l Fl L U;
      unfold struct_unpack in U; cbn [parse_fmt letter option_map ord_ String.append Ascii.eqb Bool.eqb] in U; rewrite (Len l 4%nat L) in U; cbn [Nat.eqb] in U;
      injection U as <-; [apply (pack_unpack_int true true 4)|apply (pack_unpack_int false true 4)|apply (pack_unpack_int true false 4)|apply (pack_unpack_int false false 4)]; try lia; assumption.
  - destruct u, little; (eapply repack_num; [reflexivity|lia|reflexivity|reflexivity|reflexivity| |exact F]); intros l Fl L U;
      unfold struct_unpack in U; cbn [parse_fmt letter option_map ord_ String.append Ascii.eqb Bool.eqb] in U; rewrite (Len l 8%nat L) in U; cbn [Nat.eqb] in U;
      injection U as <-; [apply (pack_unpack_int true true 8)|apply (pack_unpack_int false true 8)|apply (pack_unpack_int true false 8)|apply (pack_unpack_int false false 8)]; try lia; assumption.
  - eapply repack_num; [reflexivity|lia|destruct little; reflexivity|destruct little; reflexivity|destruct little; reflexivity| |exact F].
    intros l Fl L U.
    assert (Q : struct_unpack (ord_ little "f") l
       = if Nat.eqb (length l) 4 then Ok (VNum (NF (widen (bits_float 23 8 (get little l))))) else struct_error) by (destruct little; reflexivity).
    rewrite Q, (Len l 4%nat L) in U. cbn [Nat.eqb] in U. injection U as <-.
    assert (Q2 : forall x, packOne (VNum (NF x)) (ord_ little "f") (Some 4)
              = (y <- narrow x ;; Ok (put little 4 (float_bits 23 8 y)))) by (intros x; destruct little; reflexivity).
    rewrite Q2. pose proof (get_range little l Fl) as R. rewrite (Len l 4%nat L) in R.
    set (z := get little l) in *.
    assert (S1 : single (bits_float 23 8 z)) by (apply (bits_float_valid 23 8); [lia|lia|cbn; lia|exact R]).
    destruct (widen_same _ S1) as [W1 W2]. rewrite (narrow_exact _ _ S1 W1 W2). cbn [rbind].
    rewrite (float_bits_bits 23 8); [|lia|lia|cbn; lia|exact R|].
    + f_equal. apply put_get_len; [exact Fl|]. now apply Len.
    + intros E. apply NN. rewrite E. reflexivity.
  - eapply repack_num; [reflexivity|lia|destruct little; reflexivity|destruct little; reflexivity|destruct little; reflexivity| |exact F].
    intros l Fl L U.
    assert (Q : struct_unpack (ord_ little "d") l
       = if Nat.eqb (length l) 8 then Ok (VNum (NF (bits_float 52 11 (get little l)))) else struct_error) by (destruct little; reflexivity).
    rewrite Q, (Len l 8%nat L) in U. cbn [Nat.eqb] in U. injection U as <-.
    assert (Q2 : forall x, packOne (VNum (NF x)) (ord_ little "d") (Some 8) = Ok (put little 8 (float_bits 52 11 x))) by (intros x; destruct little; reflexivity).
    rewrite Q2. pose proof (get_range little l Fl) as R. rewrite (Len l 8%nat L) in R.
    set (z := get little l) in *.
    rewrite (float_bits_bits 52 11); [|lia|lia|cbn; lia|exact R|].
    + f_equal. apply put_get_len; [exact Fl|]. now apply Len.
    + intros E. apply NN. rewrite E. reflexivity.
  - discriminate.
  - unfold unpackOne, packOne. cbn [declare_str fst snd String.eqb Ascii.eqb Bool.eqb].
    destruct (cut (plain b) (Some k)) as [[this that]| |] eqn:C; [|discriminate|discriminate].
    pose proof (cut_more _ _ _ _ [] C) as [_ B]. cbn [plain b_data b_str] in *.
    unfold cut in C. cbn [b_data plain] in C. destruct (Z.eqb_spec (Z.of_nat (length (firstn (Z.to_nat k) b))) k) as [L|]; [|discriminate].
    injection C as <- <-. intros H. injection H as <- <-. cbn [bval py_len rbind as_bytes]. rewrite L, Z.eqb_refl. cbn [negb].
    eexists. split; [reflexivity|]. split; [exact B|reflexivity].
  - unfold unpackOne, packOne. cbn [declare_str fst snd String.eqb Ascii.eqb Bool.eqb plain b_str b_data].
    destruct (index0 b) as [n|] eqn:I0; [|discriminate]. intros H. injection H as <- <-. cbn [as_bytes rbind].
    eexists. split; [reflexivity|]. split; [|reflexivity]. cbn [b_data].
    clear -I0. revert n I0. induction b as [|x b IH]; cbn [index0]; intros n I0; [discriminate|].
    destruct (Z.eqb_spec x 0) as [->|].
    + injection I0 as <-. reflexivity.
    + destruct (index0 b) as [k|]; [|discriminate]. injection I0 as <-. cbn [firstn skipn app].
      rewrite (IH k eq_refl) at 1. reflexivity.
  - unfold unpackOne, packOne. cbn [declare_str fst snd String.eqb Ascii.eqb Bool.eqb plain b_str b_data].
    destruct b as [|len rest]; [discriminate|].
    destruct (Z.eqb_spec (Z.of_nat (length (firstn (Z.to_nat len) rest))) len) as [L|]; [|discriminate].
    intros H. injection H as <- <-. cbn [bval py_len rbind as_bytes]. rewrite L.
    inversion F; subst. destruct (Z.ltb_spec 255 len); [lia|].
    eexists. split; [reflexivity|]. split; [|reflexivity]. cbn [b_data app]. f_equal. symmetry. apply firstn_skipn.
Qed.

Lemma repack_loop fmt : forall b vs r, Forall (fun x => exact_format (snd x)) fmt -> Forall (fun x => not_nan (snd x)) vs ->
  Forall (fun b => 0 <= b < 256) b -> unpack_loop (plain b) fmt = Done (vs, r) ->
  exists p, pack (combine (map snd vs) (map snd fmt)) = Ok p /\ b = p ++ b_data r /\ b_str r = false /\ map fst vs = map fst fmt.
Proof.
  induction fmt as [|[s d] fmt IH]; intros b vs r X NN F; cbn [unpack_loop].
  - intros H. injection H as <- <-. exists []. repeat split.
  - destruct (unpackOne (plain b) _ _) as [[v b1]| |] eqn:E; [|discriminate|discriminate].
    destruct (unpack_loop b1 fmt) as [[vs1 b2]| |] eqn:L; [|discriminate|discriminate].
    intros H. injection H as <- <-. inversion X; subst. inversion NN; subst. cbn [snd fst] in *.
    destruct (repack1 d b v b1) as (p & P1 & P2 & P3); [assumption|assumption|assumption|exact E|].
    destruct b1 as [s1 l1]. cbn [b_str b_data] in *. subst s1. rewrite P2 in F. apply Forall_app in F as [F1 F2].
    destruct (IH l1 vs1 b2) as (q & Q1 & Q2 & Q3 & Q4); [assumption|assumption|exact F2|exact L|].
    exists (p ++ q). cbn [map combine pack fst snd]. rewrite P1. cbn [rbind]. rewrite Q1. cbn [rbind].
    split; [reflexivity|]. split; [rewrite P2, Q2; apply app_assoc|]. split; [exact Q3|]. now rewrite Q4.
Qed.
