(** Facts about the Python number model that need no real numbers. *)
From Coq Require Import SpecFloat.
From Verif Require Import Base PyNum.
Open Scope Z_scope.

Lemma digits2_log2 p : Zpos (digits2_pos p) = Z.log2 (Zpos p) + 1.
Proof.
  induction p as [p IH|p IH|]; cbn [digits2_pos]; [| |reflexivity].
  - rewrite Pos2Z.inj_succ, IH. change (Zpos p~1) with (2 * Zpos p + 1).
    rewrite Z.log2_succ_double by lia. lia.
  - rewrite Pos2Z.inj_succ, IH. change (Zpos p~0) with (2 * Zpos p).
    rewrite Z.log2_double by lia. lia.
Qed.

Lemma Zdigits2_mono m M : 0 <= m <= M -> Zdigits2 m <= Zdigits2 M.
Proof.
  intros H. destruct m as [|m|m]; [|destruct M as [|M|M]; try lia|lia].
  - destruct M; simpl; lia.
  - cbn [Zdigits2]. rewrite !digits2_log2. pose proof (Z.log2_le_mono (Zpos m) (Zpos M)). lia.
Qed.

Lemma Zdigits2_le m k : 0 <= m < 2 ^ k -> 0 <= k -> Zdigits2 m <= k.
Proof.
  intros [H0 H1] Hk. destruct m as [|m|m]; cbn [Zdigits2]; [lia| |lia].
  rewrite digits2_log2. apply Z.log2_lt_pow2 in H1; lia.
Qed.

Definition shr_inv (M : Z) (r : shr_record) := 0 <= shr_m r <= M.

Lemma shr_1_inv M r : shr_inv M r -> shr_inv M (shr_1 r).
Proof.
  unfold shr_inv. destruct r as [m a b]; cbn.
  destruct m as [|[p|p|]|[p|p|]]; cbn; lia.
Qed.

Lemma iter_pos_inv {A} (P : A -> Prop) f :
  (forall x, P x -> P (f x)) -> forall n x, P x -> P (SpecFloat.iter_pos f n x).
Proof. intros Hf n; induction n; simpl; auto. Qed.

Lemma shr_inv_keeps M r e n : shr_inv M r -> shr_inv M (fst (shr r e n)).
Proof.
  intros H. destruct n; simpl; auto. apply (iter_pos_inv (shr_inv M)); auto using shr_1_inv.
Qed.

Lemma shr_exp r e n : snd (shr r e n) <= Z.max e (e + n).
Proof. destruct n; simpl; lia. Qed.

Lemma shr_record_of_loc_m m l : shr_m (shr_record_of_loc m l) = m.
Proof. destruct l as [|[]]; reflexivity. Qed.

Lemma round_ne_bounds m l : 0 <= m -> 0 <= round_nearest_even m l <= m + 1.
Proof. intros; destruct l as [|[]]; simpl; try lia. destruct (Z.even m); lia. Qed.

(** A rounding whose mantissa and exponent are moderate neither overflows nor is NaN. *)
Lemma binary_round_aux_finite sx m e l D :
  0 < m -> Zdigits2 m <= D -> D <= 300 -> -300 <= e <= 300 ->
  match binary_round_aux 53 1024 sx m e l with
  | S754_zero _ => True | S754_finite s _ _ => s = sx | _ => False end.
Proof.
  intros Hm HD HD2 He. unfold binary_round_aux, shr_fexp.
  set (n1 := fexp 53 1024 (Zdigits2 m + e) - e).
  pose proof (shr_inv_keeps m (shr_record_of_loc m l) e n1) as I1.
  pose proof (shr_exp (shr_record_of_loc m l) e n1) as E1.
  destruct (shr (shr_record_of_loc m l) e n1) as [r1 e1]. simpl in I1, E1.
  assert (I1' : shr_inv m r1) by (apply I1; unfold shr_inv; rewrite shr_record_of_loc_m; lia).
  clear I1. unfold shr_inv in I1'.
  set (m1 := round_nearest_even (shr_m r1) (loc_of_shr_record r1)).
  assert (Hm1 : 0 <= m1 <= m + 1) by (unfold m1; pose proof (round_ne_bounds (shr_m r1) (loc_of_shr_record r1)); lia).
  assert (Hd1 : Zdigits2 m1 <= Zdigits2 m + 1).
  { destruct (Z.eq_dec m1 0) as [->|]; [destruct m; simpl; lia|].
    apply Zdigits2_le; [|destruct m; simpl; lia].
    destruct m as [|m|m]; try lia. cbn [Zdigits2]. rewrite digits2_log2.
    pose proof (Z.log2_spec (Zpos m)). rewrite <- Z.add_assoc, Z.pow_add_r; try lia; [|apply Z.log2_nonneg].
    change (2 ^ (1 + 1)) with 4. unfold Z.succ in H. rewrite Z.pow_add_r in H; try lia; try apply Z.log2_nonneg. }
  set (n2 := fexp 53 1024 (Zdigits2 m1 + e1) - e1).
  pose proof (shr_inv_keeps m1 (shr_record_of_loc m1 loc_Exact) e1 n2) as I2.
  pose proof (shr_exp (shr_record_of_loc m1 loc_Exact) e1 n2) as E2.
  destruct (shr (shr_record_of_loc m1 loc_Exact) e1 n2) as [r2 e2]. simpl in I2, E2.
  assert (I2' : shr_inv m1 r2) by (apply I2; unfold shr_inv; simpl; lia).
  unfold shr_inv in I2'.
  destruct (shr_m r2) as [|p|p] eqn:Er; [exact I| |lia].
  assert (He2 : e2 <= 1024 - 53).
  { unfold n1, n2, fexp, emin in *. lia. }
  apply Z.leb_le in He2. unfold Z.leb in He2. unfold Zle_bool, Z.leb. rewrite He2. reflexivity.
Qed.

Lemma shift_pos_log2 d m : Z.log2 (Zpos (shift_pos d m)) = Z.log2 (Zpos m) + Zpos d.
Proof.
  unfold shift_pos. rewrite <- Pos2Z.inj_mul || idtac.
  assert (H : Zpos (Pos.iter xO m d) = Zpos m * 2 ^ Zpos d).
  { induction d using Pos.peano_ind.
    - simpl. lia.
    - rewrite Pos.iter_succ, Pos2Z.inj_succ, Z.pow_succ_r by lia.
      change (Zpos (Pos.iter xO m d)~0) with (2 * Zpos (Pos.iter xO m d)). rewrite IHd. lia. }
  rewrite H. rewrite Z.log2_mul_pow2; lia.
Qed.

Lemma binary_round_finite sx m e :
  Z.log2 (Zpos m) < 200 -> -100 <= e <= 100 ->
  match binary_round 53 1024 sx m e with
  | S754_zero _ => True | S754_finite s _ _ => s = sx | _ => False end.
Proof.
  intros Hm He. unfold binary_round, shl_align.
  pose proof (Z.log2_nonneg (Zpos m)) as Hl.
  set (e' := fexp 53 1024 (Zpos (digits2_pos m) + e)).
  assert (He' : e' = Z.log2 (Zpos m) + 1 + e - 53).
  { unfold e', fexp, emin. rewrite digits2_log2. lia. }
  destruct (e' - e) as [|d|d] eqn:Ed.
  - apply (binary_round_aux_finite sx (Zpos m) e loc_Exact 300); try lia. cbn [Zdigits2]. rewrite digits2_log2. lia.
  - apply (binary_round_aux_finite sx (Zpos m) e loc_Exact 300); try lia. cbn [Zdigits2]. rewrite digits2_log2. lia.
  - apply (binary_round_aux_finite sx (Zpos (shift_pos d m)) e' loc_Exact 300); try lia.
    cbn [Zdigits2]. rewrite digits2_log2, shift_pos_log2. lia.
Qed.

Lemma f_of_Z_finite z : Z.abs z < 2 ^ 200 ->
  match f_of_Z z with S754_zero _ | S754_finite _ _ _ => True | _ => False end.
Proof.
  intros H. unfold f_of_Z, binary_normalize. destruct z as [|p|p]; [exact I| |].
  - pose proof (binary_round_finite false p 0) as F.
    destruct (binary_round 53 1024 false p 0); try exact I; apply F; try lia; apply Z.log2_lt_pow2; lia.
  - pose proof (binary_round_finite true p 0) as F.
    destruct (binary_round 53 1024 true p 0); try exact I; apply F; try lia; apply Z.log2_lt_pow2; lia.
Qed.

Lemma py_float_ok z : Z.abs z < 2 ^ 200 ->
  exists f, py_float z = Ok f /\ f_of_Z z = f /\ isnan f = false /\ isinf f = false.
Proof.
  intros H. pose proof (f_of_Z_finite z H) as F. unfold py_float.
  destruct (f_of_Z z) eqn:E; try contradiction; eexists; split; try reflexivity; split; auto.
Qed.

Lemma py_isnan_int z : Z.abs z < 2 ^ 200 -> py_isnan (NI z) = Ok false.
Proof.
  intros H. unfold py_isnan; simpl. destruct (py_float_ok z H) as (f & -> & _ & Hn & _).
  simpl. now rewrite Hn.
Qed.
Lemma py_isinf_int z : Z.abs z < 2 ^ 200 -> py_isinf (NI z) = Ok false.
Proof.
  intros H. unfold py_isinf; simpl. destruct (py_float_ok z H) as (f & -> & _ & _ & Hn).
  simpl. now rewrite Hn.
Qed.
