(** * C66 and C87, exactly: what casting to an integer and m.round give, for every finite number *)
From Coq Require Import Reals Lra SpecFloat.
From Flocq Require Import Core.
From Verif Require Import Base PyNum FloatBridge ArithModel CastProps FloatBridge2 MathModel RoundProofs MathProofs HalfProofs MathProps.

(** cast.int and cast.long of a finite number give the nearest integer, a half going up, with exactly these exceptions:
    the number before 1/2 gives 1, and an odd whole number n with 2^52 <= |n| <= 2^53 gives n + 1. The integer is
    returned if it is in range and reported otherwise. *)
Theorem C66_every_number cast lo hi code f : casts cast lo hi code -> valid f -> finite f ->
  exists z, plus_half_floor (fval f) z /\
    cast (NF f) = if ((lo <=? z) && (z <=? hi))%Z%bool then Ok z else Raise (PFAErr code).
Proof.
  intros H V F. destruct (casts_integer _ _ _ _ H) as (-> & H1 & H2).
  exists (Zfloor (rnd (fval f + / 2))). split; [apply floor_half, fval_fmt; auto|].
  replace (/ 2)%R with (1 / 2)%R by lra. now apply cast_integer_val.
Qed.
Example C66_every_number_ex : casts lib_cast_long (- 2 ^ 63) (2 ^ 63 - 1) 17030 /\ valid x25 /\ finite x25 /\ lib_cast_long (NF x25) = Ok 3%Z.
Proof. split; [right; auto|]. repeat split; vm_compute; reflexivity. Qed.

(** The same for m.round. *)
Theorem C87_round_every_number : forall x t, finite x -> valid x -> t = TInt \/ t = TLong ->
  exists z, plus_half_floor (fval x) z /\
    (fits t z -> m_round t x = Ok z) /\
    (~ fits t z -> m_round t x = Raise (PFAErr (match t with TInt => 27190 | _ => 27191 end))).
Proof.
  intros x t F V T. exists (Zfloor (rnd (fval x + / 2))). split; [apply floor_half, fval_fmt; auto|].
  apply m_round_floor; auto.
Qed.
Example C87_round_every_number_ex : finite x25 /\ valid x25 /\ m_round TLong x25 = Ok 3%Z.
Proof. repeat split; vm_compute; reflexivity. Qed.
Lemma before_half_small : ~ (IZR (2 ^ 52) <= Rabs before_half <= IZR (2 ^ 53))%R.
Proof.
  intros [L _].
    assert (S : (0 < bpow radix2 (-54) < / 2)%R) by (split; [apply bpow_gt_0|]; change (/ 2)%R with (bpow radix2 (-1)); apply bpow_lt; lia).
    assert (Ten : (10 < IZR (2 ^ 52))%R) by (apply IZR_lt; reflexivity).
    unfold before_half in L. rewrite Rabs_pos_eq in L; lra.
Qed.
(** The specification leaves one result. *)
Theorem C87_round_one_result : forall x z z', plus_half_floor x z -> plus_half_floor x z' -> z = z'.
Proof.
  intros x z z' [A1 A2 A3|A1 A2|n A1 A2 A3 A4] [B1 B2 B3|B1 B2|m B1 B2 B3 B4]; subst; try contradiction; auto.
  - assert (P : (IZR z < IZR (z' + 1))%R) by (rewrite plus_IZR; lra).
    assert (Q : (IZR z' < IZR (z + 1))%R) by (rewrite plus_IZR; lra). apply lt_IZR in P, Q. lia.
  - rewrite (A2 m eq_refl B2) in B3. discriminate.
  - exfalso. apply before_half_small. congruence.
  - rewrite (B2 n eq_refl A2) in A3. discriminate.
  - exfalso. apply before_half_small. congruence.
  - apply eq_IZR in B1. congruence.
Qed.

Print Assumptions C66_every_number.
Print Assumptions C87_round_every_number.
Print Assumptions C87_round_one_result.
