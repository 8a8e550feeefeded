(** Theorems on integer arithmetic, bitwise operators, three-valued logic and casts:
    properties C21-C26, C61, C62. *)
From Coq Require Import SpecFloat.
From Verif Require Import Base PyNum PyNumProofs ArithModel ArithSpec ArithProofs ArithProofs2.
Open Scope Z_scope.

(** * C21: exact or overflow *)
Theorem C21_plus : forall t x y, integral t -> fits (width t) x -> fits (width t) y ->
  exact_or_overflow t (x + y) 18000 18001 (lib_plus t (NI x) (NI y)).
Proof. intros t x y Ht. exact (plus_spec t Ht x y). Qed.
Theorem C21_minus : forall t x y, integral t -> fits (width t) x -> fits (width t) y ->
  exact_or_overflow t (x - y) 18010 18011 (lib_minus t (NI x) (NI y)).
Proof. intros t x y Ht. exact (minus_spec t Ht x y). Qed.
Theorem C21_times : forall t x y, integral t -> fits (width t) x -> fits (width t) y ->
  exact_or_overflow t (x * y) 18020 18021 (lib_times t (NI x) (NI y)).
Proof. intros t x y Ht. exact (times_spec t Ht x y). Qed.
Theorem C21_negative : forall t x, integral t -> fits (width t) x ->
  exact_or_overflow t (- x) 18050 18051 (lib_negative t (NI x)).
Proof. intros t x Ht. exact (neg_spec t Ht x). Qed.
Theorem C21_abs : forall t x, integral t -> fits (width t) x ->
  exact_or_overflow t (Z.abs x) 27020 27021 (lib_abs t (NI x)).
Proof. intros t x Ht. exact (abs_spec t Ht x). Qed.

Example C21_ex1 : lib_plus TInt (NI 2147483647) (NI 1) = Raise (PFAErr 18000)
  /\ lib_plus TLong (NI 2147483647) (NI 1) = Ok (NI 2147483648)
  /\ lib_times TLong (NI 4294967296) (NI (-2147483648)) = Ok (NI (-9223372036854775808))
  /\ lib_negative TInt (NI (-2147483648)) = Raise (PFAErr 18050)
  /\ lib_abs TLong (NI (-9223372036854775808)) = Raise (PFAErr 27021)
  /\ lib_minus TInt (NI (-2147483648)) (NI 1) = Raise (PFAErr 18010).
Proof. vm_compute. repeat split. Qed.
Example C21_ex1_fits : fits (width TInt) 2147483647 /\ fits (width TInt) 1.
Proof. unfold fits; simpl; lia. Qed.

(** * C22: division and remainder *)
Theorem C22_modulo : forall t x y, integral t -> fits (width t) x -> fits (width t) y -> y <> 0 ->
  exists r, lib_modulo t (NI x) (NI y) = Ok (NI r) /\
    ((0 < y /\ 0 <= r < y) \/ (y < 0 /\ y < r <= 0)) /\ (exists k, x = k * y + r) /\ fits (width t) r.
Proof. intros t x y _. exact (modulo_spec t x y). Qed.

Theorem C22_remainder : forall t x y, integral t -> fits (width t) x -> fits (width t) y -> y <> 0 ->
  exists r, lib_remainder t (NI x) (NI y) = Ok (NI r) /\
    Z.abs r < Z.abs y /\ 0 <= r * x /\ (exists k, x = k * y + r) /\ fits (width t) r.
Proof.
  intros t x y Ht Hx Hy Hy0. exists (Z.rem x y). rewrite remainder_eq by assumption.
  pose proof (Z.rem_bound_abs x y Hy0). pose proof (Z.rem_sign_mul x y Hy0).
  split; [reflexivity|]. split; [assumption|]. split; [assumption|]. split.
  - exists (Z.quot x y). pose proof (Z.quot_rem' x y). lia.
  - unfold fits in *. lia.
Qed.

Theorem C22_zero_divisor : forall t x, integral t ->
  lib_floordiv (NI x) (NI 0) = Raise (PFAErr 18040) /\
  lib_modulo t (NI x) (NI 0) = Raise (PFAErr 18060) /\
  lib_remainder t (NI x) (NI 0) = Raise (PFAErr 18070).
Proof. intros t x [-> | ->]; repeat split; reflexivity. Qed.

(** Missing from the full statement: dividends of magnitude 2^53 or more, and the range check of
    the quotient (both fail, see C22_floordiv_refuted and C22_quotient_range_refuted). *)
Theorem C22_floordiv_partial : forall t x y, integral t ->
  fits (width t) x -> fits (width t) y -> y <> 0 -> Z.abs x < 2 ^ 53 ->
  exists q r, lib_floordiv (NI x) (NI y) = Ok q /\ lib_remainder t (NI x) (NI y) = Ok (NI r) /\
    q * y + r = x /\ Z.abs r < Z.abs y /\ 0 <= r * x.
Proof.
  intros t x y Ht Hx Hy Hy0 Hs. exists (Z.quot x y), (Z.rem x y).
  split; [apply floordiv_eq; try assumption; eapply fits_bound; eauto|].
  split; [now apply remainder_eq|].
  pose proof (Z.quot_rem' x y). pose proof (Z.rem_bound_abs x y Hy0). pose proof (Z.rem_sign_mul x y Hy0). lia.
Qed.

(** All int (32-bit) operands are covered by the theorem above, apart from the range of the quotient. *)
Theorem C22_floordiv_int : forall x y, fits 32 x -> fits 32 y -> y <> 0 ->
  exists q r, lib_floordiv (NI x) (NI y) = Ok q /\ lib_remainder TInt (NI x) (NI y) = Ok (NI r) /\
    q * y + r = x /\ Z.abs r < Z.abs y /\ 0 <= r * x /\ (fits 32 q \/ (x = - 2 ^ 31 /\ y = -1)).
Proof.
  intros x y Hx Hy Hy0. unfold fits in Hx, Hy. change (2 ^ (32 - 1)) with 2147483648 in *.
  destruct (C22_floordiv_partial TInt x y) as (q & r & H1 & H2 & H3 & H4 & H5);
    try (left; reflexivity); try assumption; try (unfold fits; simpl; lia); try lia.
  exists q, r. do 5 (split; [assumption|]).
  unfold fits. change (2 ^ (32 - 1)) with 2147483648.
  destruct (Z.eq_dec y (-1)) as [->|]; [lia|]. destruct (Z.eq_dec y 1) as [->|]; [lia|]. left.
  assert (2 <= Z.abs y) by lia. nia.
Qed.

Theorem C22_floordiv_refuted : exists x y q r, fits 64 x /\ fits 64 y /\ y <> 0 /\
  lib_floordiv (NI x) (NI y) = Ok q /\ lib_remainder TLong (NI x) (NI y) = Ok (NI r) /\ q * y + r <> x.
Proof.
  exists 9007199254740993, 1, 9007199254740992, 0. unfold fits. simpl (2 ^ (64 - 1)).
  repeat split; try lia; vm_compute; congruence.
Qed.
Theorem C22_quotient_range_refuted :
  (exists x y q, fits 32 x /\ fits 32 y /\ lib_floordiv (NI x) (NI y) = Ok q /\ ~ fits 32 q) /\
  (exists x y q, fits 64 x /\ fits 64 y /\ lib_floordiv (NI x) (NI y) = Ok q /\ ~ fits 64 q).
Proof.
  split.
  - exists (-2147483648), (-1), 2147483648. unfold fits. simpl (2 ^ (32 - 1)).
    split; [lia|]. split; [lia|]. split; [vm_compute; reflexivity|lia].
  - exists 9223372036854775807, 1, 9223372036854775808. unfold fits. simpl (2 ^ (64 - 1)).
    split; [lia|]. split; [lia|]. split; [vm_compute; reflexivity|lia].
Qed.

Example C22_ex : lib_modulo TInt (NI (-7)) (NI 3) = Ok (NI 2) /\ lib_modulo TInt (NI 7) (NI (-3)) = Ok (NI (-2))
  /\ lib_remainder TInt (NI (-7)) (NI 3) = Ok (NI (-1)) /\ lib_floordiv (NI (-7)) (NI 3) = Ok (-2)
  /\ lib_remainder TInt (NI 7) (NI (-3)) = Ok (NI 1).
Proof. vm_compute. repeat split. Qed.

(** * C23: bitwise operators *)
Theorem C23_and : forall t x y, integral t -> fits (width t) x -> fits (width t) y ->
  fits (width t) (lib_bitand x y) /\
  pattern (width t) (lib_bitand x y) = Z.land (pattern (width t) x) (pattern (width t) y).
Proof. intros t x y Ht Hx Hy. assert (0 < width t) by (destruct t; simpl; lia). split; [now apply fits_land|now apply pattern_land]. Qed.
Theorem C23_or : forall t x y, integral t -> fits (width t) x -> fits (width t) y ->
  fits (width t) (lib_bitor x y) /\
  pattern (width t) (lib_bitor x y) = Z.lor (pattern (width t) x) (pattern (width t) y).
Proof. intros t x y Ht Hx Hy. assert (0 < width t) by (destruct t; simpl; lia). split; [now apply fits_lor|now apply pattern_lor]. Qed.
Theorem C23_xor : forall t x y, integral t -> fits (width t) x -> fits (width t) y ->
  fits (width t) (lib_bitxor x y) /\
  pattern (width t) (lib_bitxor x y) = Z.lxor (pattern (width t) x) (pattern (width t) y).
Proof. intros t x y Ht Hx Hy. assert (0 < width t) by (destruct t; simpl; lia). split; [now apply fits_lxor|now apply pattern_lxor]. Qed.
Theorem C23_not : forall t x, integral t -> fits (width t) x ->
  fits (width t) (lib_bitnot x) /\
  pattern (width t) (lib_bitnot x) = 2 ^ width t - 1 - pattern (width t) x.
Proof. intros t x Ht Hx. assert (0 < width t) by (destruct t; simpl; lia). split; [now apply fits_lnot|now apply pattern_lnot]. Qed.
Example C23_ex : lib_bitand (-4) 2147483647 = 2147483644 /\ lib_bitxor (-1) 5 = -6 /\ lib_bitor (-8) 3 = -5
  /\ lib_bitnot (-2147483648) = 2147483647 /\ fits (width TInt) (-4) /\ fits (width TInt) 2147483647.
Proof. unfold fits; simpl (2 ^ (width TInt - 1)). repeat split; try reflexivity; lia. Qed.

(** * C24: three-valued logic *)
Theorem C24_kleene_and : forall S (x y : kval) (s : S),
  exists v, lib_kand S (pure x) (pure y) s = (Ok v, s) /\ k_val v = k_and (k_val x) (k_val y)
            /\ (forall b, v <> KBare b).
Proof. intros S [[]|[]|] [[]|[]|] s; simpl; eexists; (split; [reflexivity|split; [reflexivity|discriminate]]). Qed.
Theorem C24_kleene_or : forall S (x y : kval) (s : S),
  exists v, lib_kor S (pure x) (pure y) s = (Ok v, s) /\ k_val v = k_or (k_val x) (k_val y)
            /\ (forall b, v <> KBare b).
Proof. intros S [[]|[]|] [[]|[]|] s; simpl; eexists; (split; [reflexivity|split; [reflexivity|discriminate]]). Qed.
Theorem C24_kleene_not : forall x, k_val (lib_knot x) = k_not (k_val x) /\ (forall b, lib_knot x <> KBare b).
Proof. intros [[]|[]|]; simpl; (split; [reflexivity|discriminate]). Qed.
(** the specification has the laws a user expects *)
Theorem C24_spec_laws : forall a b c,
  k_and a b = k_and b a /\ k_or a b = k_or b a /\
  k_and a (k_and b c) = k_and (k_and a b) c /\ k_or a (k_or b c) = k_or (k_or a b) c /\
  k_not (k_and a b) = k_or (k_not a) (k_not b) /\ k_not (k_or a b) = k_and (k_not a) (k_not b) /\
  (forall p q, k_and (Some p) (Some q) = Some (p && q)) /\ (forall p q, k_or (Some p) (Some q) = Some (p || q)).
Proof. intros [[]|] [[]|] [[]|]; repeat split; intros [] []; reflexivity. Qed.
(** right operands are evaluated exactly when the left one does not settle the result *)
Theorem C24_short_circuit : forall S (x y : comp S bool) s b s1,
  x s = (Ok b, s1) ->
  (lib_and S x y s = if b then y s1 else (Ok false, s1)) /\
  (lib_or S x y s = if b then (Ok true, s1) else y s1).
Proof. intros S x y s b s1 H. unfold lib_and, lib_or. rewrite H. destruct b; split; reflexivity. Qed.
Theorem C24_kleene_short_circuit : forall S (x y : comp S kval) s v s1,
  x s = (Ok v, s1) ->
  (k_val v = Some false -> lib_kand S x y s = (Ok (KTag false), s1)) /\
  (k_val v = Some true -> lib_kor S x y s = (Ok (KTag true), s1)) /\
  (k_val v <> Some false -> snd (lib_kand S x y s) = snd (y s1)) /\
  (k_val v <> Some true -> snd (lib_kor S x y s) = snd (y s1)).
Proof.
  intros S x y s v s1 H. unfold lib_kand, lib_kor. rewrite H.
  destruct (y s1) as [[w|e] s2]; destruct v as [[]|[]|]; simpl; repeat split; try congruence; intros _;
    repeat match goal with |- context[if ?b then _ else _] => destruct b end; reflexivity.
Qed.
Theorem C24_left_exception : forall S (x y : comp S bool) s e s1,
  x s = (Raise e, s1) -> lib_and S x y s = (Raise e, s1) /\ lib_or S x y s = (Raise e, s1).
Proof. intros S x y s e s1 H. unfold lib_and, lib_or. rewrite H. split; reflexivity. Qed.
Example C24_ex : lib_kand nat (fun s => (Ok (KTag false), s + 1)%nat) (fun s => (Raise TimeoutErr, s + 10)%nat) 0%nat = (Ok (KTag false), 1%nat)
  /\ lib_kor nat (pure KNull) (fun s => (Ok (KBare true), s + 10)%nat) 0%nat = (Ok (KTag true), 10%nat)
  /\ lib_kand nat (pure KNull) (pure (KTag true)) 0%nat = (Ok KNull, 0%nat).
Proof. repeat split. Qed.

(** * C25: bit truncation *)
Theorem C25_unsigned : forall x bits, fits 64 x ->
  (1 <= bits <= 63 -> lib_unsigned x bits = Ok (x mod 2 ^ bits)) /\
  (~ (1 <= bits <= 63) -> lib_unsigned x bits = Raise (PFAErr 17010)).
Proof. intros x bits Hx; split; [now apply unsigned_spec|apply unsigned_bad]. Qed.
Theorem C25_signed : forall x bits, fits 64 x ->
  (2 <= bits <= 64 -> exists y, lib_signed x bits = Ok y /\ fits bits y /\ pattern bits y = pattern bits x) /\
  (~ (2 <= bits <= 64) -> lib_signed x bits = Raise (PFAErr 17000)).
Proof. intros x bits Hx; split; [now apply signed_spec|apply signed_bad]. Qed.
(** the two's complement value of a bit pattern is unique, so the previous theorem determines the result *)
Theorem C25_signed_unique : forall bits y z, 0 < bits -> fits bits y -> fits bits z ->
  pattern bits y = pattern bits z -> y = z.
Proof.
  intros bits y z Hb Hy Hz H. unfold fits, pattern in *.
  assert (D : 2 ^ bits = 2 * 2 ^ (bits - 1)) by (rewrite <- Z.pow_succ_r by lia; f_equal; lia).
  assert (P : 0 < 2 ^ (bits - 1)) by (apply Z.pow_pos_nonneg; lia).
  pose proof (Z.div_mod y (2 ^ bits)). pose proof (Z.div_mod z (2 ^ bits)).
  assert (E : y / 2 ^ bits = z / 2 ^ bits \/ y / 2 ^ bits <> z / 2 ^ bits) by lia. nia.
Qed.
Example C25_ex : lib_signed 255 8 = Ok (-1) /\ lib_signed (-9223372036854775808) 64 = Ok (-9223372036854775808)
  /\ lib_unsigned (-1) 63 = Ok 9223372036854775807 /\ lib_unsigned (-1) 64 = Raise (PFAErr 17010)
  /\ lib_signed (-9007199254740993) 60 = Ok (-9007199254740993).
Proof. vm_compute. repeat split. Qed.

(** * C26: one-hot *)
Theorem C26_string : forall A (one zero : A) code x d o h,
  NoDup d -> match h with Some j => nth_error d j = Some x | None => ~ In x d end ->
  exists l, lib_fanout one zero code (FanString x d o) = Ok l /\
    one_hot one zero (length d + (if o then 1 else 0))
      (match h with Some j => Some j | None => if o then Some (length d) else None end) l.
Proof. intros A one zero. exact (fanout_string_spec one zero). Qed.
Theorem C26_string_dup : forall A (one zero : A) code x d o,
  ~ NoDup d -> lib_fanout one zero code (FanString x d o) = Raise (PFAErr code).
Proof.
  intros A one zero code x d o H. unfold lib_fanout.
  destruct (nodupb d) eqn:E; [apply nodupb_spec in E; contradiction|reflexivity].
Qed.
Theorem C26_enum : forall A (one zero : A) code x ss j,
  NoDup ss -> nth_error ss j = Some x ->
  exists l, lib_fanout one zero code (FanEnum x ss) = Ok l /\ one_hot one zero (length ss) (Some j) l.
Proof.
  intros A one zero code x ss j Hnd Hj. eexists; split; [reflexivity|].
  exact (one_hot_map one zero String.eqb x ss String.eqb_eq Hnd (Some j) Hj).
Qed.
Theorem C26_int : forall A (one zero : A) code x lo hi o,
  exists l, lib_fanout one zero code (FanInt x lo hi o) = Ok l /\
    one_hot one zero (Z.to_nat (hi - lo) + (if o then 1 else 0))
      (if (lo <=? x) && (x <? hi) then Some (Z.to_nat (x - lo))
       else if o then Some (Z.to_nat (hi - lo)) else None) l.
Proof. intros A one zero. exact (fanout_int_spec one zero). Qed.
Example C26_ex : lib_fanout 1 0 17070 (FanInt 7 5 9 true) = Ok [0; 0; 1; 0; 0]
  /\ lib_fanout 1 0 17070 (FanInt 9 5 9 true) = Ok [0; 0; 0; 0; 1]
  /\ lib_fanout true false 17060 (FanString "b" ["a"; "b"]%string true) = Ok [false; true; false]
  /\ lib_fanout true false 17060 (FanString "c" ["a"; "b"]%string true) = Ok [false; false; true].
Proof. repeat split. Qed.

(** * C61: m.copysign does not check for overflow *)
Theorem C61_copysign_partial : forall t mag sign, integral t -> fits (width t) mag -> fits (width t) sign ->
  lib_copysign (NI mag) (NI sign) = Ok (NI (if sign <? 0 then - Z.abs mag else Z.abs mag)) /\
  (mag <> - 2 ^ (width t - 1) -> fits (width t) (if sign <? 0 then - Z.abs mag else Z.abs mag)).
Proof.
  intros t mag sign Ht Hm Hs. unfold lib_copysign. rewrite num_lt_int. split.
  - destruct (sign <? 0); unfold py_abs, py_mul, num_op; do 2 f_equal; lia.
  - intros Hn. unfold fits in *. destruct (sign <? 0); lia.
Qed.
Theorem C61_copysign_refuted : exists mag sign out, fits 32 mag /\ fits 32 sign /\
  lib_copysign (NI mag) (NI sign) = Ok (NI out) /\ ~ fits 32 out.
Proof.
  exists (-2147483648), 1, 2147483648. unfold fits. simpl (2 ^ (32 - 1)).
  split; [lia|]. split; [lia|]. split; [reflexivity|lia].
Qed.

(** * C62: "**" on integers *)
(** Whatever the C library's pow returns, an integer power either lies in the range of the type or
    the documented overflow is raised; no other error escapes. *)
Theorem C62_pow_range_partial : forall c_pow t x y, integral t -> fits (width t) x -> fits (width t) y ->
  (exists z, lib_pow_int c_pow t x y = Ok (NI z) /\ fits (width t) z) \/
  lib_pow_int c_pow t x y = Raise (PFAErr (match t with TInt => 18080 | _ => 18081 end)).
Proof. exact ArithProofs2.pow_range. Qed.
(** No C library can make it exact: 3 ** 39 fits a long but is not representable as a double. *)
Theorem C62_pow_exact_refuted : forall c_pow,
  (forall a b r, c_pow a b = Some r -> valid_binary 53 1024 r = true) ->
  fits 64 (3 ^ 39) /\ lib_pow_int c_pow TLong 3 39 <> Ok (NI (3 ^ 39)).
Proof. exact ArithProofs2.pow_inexact. Qed.

Print Assumptions C21_times.
Print Assumptions C22_modulo.
Print Assumptions C22_remainder.
Print Assumptions C22_floordiv_partial.
Print Assumptions C22_floordiv_refuted.
Print Assumptions C23_xor.
Print Assumptions C24_kleene_and.
Print Assumptions C24_kleene_short_circuit.
Print Assumptions C25_unsigned.
Print Assumptions C25_signed.
Print Assumptions C26_string.
Print Assumptions C26_int.
Print Assumptions C62_pow_range_partial.
Print Assumptions C62_pow_exact_refuted.
