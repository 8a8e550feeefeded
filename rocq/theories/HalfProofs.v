(** floor(x + 0.5) in binary64, for every x: where it is the nearest whole number and what it is elsewhere *)
From Coq Require Import Reals Lra SpecFloat.
From Flocq Require Import Core.
From Verif Require Import Base FloatBridge CastProps FloatBridge2 RoundProofs MathProofs.
Open Scope R_scope.

Local Notation fmt := (generic_format radix2 (FLT_exp (-1074) 53)).

(** rounding a number of known exponent *)
Lemma rnd_scaled y (k : Z) : (-1022 <= k)%Z -> bpow radix2 k <= Rabs y < bpow radix2 (k + 1) ->
  rnd y = IZR (ZnearestE (y * bpow radix2 (52 - k))) * bpow radix2 (k - 52).
Proof.
  intros K [L U]. unfold rnd, round, F2R. cbn [Fnum Fexp]. unfold scaled_mantissa, cexp.
  assert (M : mag radix2 y = (k + 1)%Z :> Z) by (apply mag_unique; replace (k + 1 - 1)%Z with k by lia; auto).
  rewrite M. replace (FLT_exp (-1074) 53 (k + 1)) with (k - 52)%Z by (unfold FLT_exp; lia).
  replace (- (k - 52))%Z with (52 - k)%Z by lia. reflexivity.
Qed.
(** a tie goes to the even one *)
Lemma nearest_tie n : ZnearestE (IZR n + / 2) = if Z.even n then n else (n + 1)%Z.
Proof.
  assert (Fl : Zfloor (IZR n + / 2) = n) by (apply Zfloor_imp; rewrite plus_IZR; lra).
  assert (Ce : Zceil (IZR n + / 2) = (n + 1)%Z) by (apply Zceil_imp; rewrite !minus_IZR, !plus_IZR; lra).
  unfold Znearest. rewrite Fl, Ce. replace (IZR n + / 2 - IZR n) with (/ 2) by lra.
  rewrite Rcompare_Eq by auto. destruct (Z.even n); auto.
Qed.

Lemma before_half_up : rnd (before_half + / 2) = 1.
Proof.
  assert (E : before_half + / 2 = (IZR (2 ^ 53 - 1) + / 2) * bpow radix2 (-53)).
  { unfold before_half. rewrite minus_IZR, (two_pow 53) by lia.
    replace ((bpow radix2 53 - 1 + / 2) * bpow radix2 (-53)) with (bpow radix2 53 * bpow radix2 (-53) - / 2 * bpow radix2 (-53)) by lra.
    rewrite <- bpow_plus. change (/ 2) with (bpow radix2 (-1)) at 3. rewrite <- bpow_plus. change (53 + -53)%Z with 0%Z. change (-1 + -53)%Z with (-54)%Z.
    change (bpow radix2 0) with 1. lra. }
  rewrite (rnd_scaled _ (-1)); [|lia|].
  - change (52 - -1)%Z with 53%Z. rewrite E, Rmult_assoc, <- bpow_plus. change (-53 + 53)%Z with 0%Z. change (bpow radix2 0) with 1. rewrite Rmult_1_r.
    rewrite nearest_tie. change (Z.even (2 ^ 53 - 1)) with false. cbn iota. change (2 ^ 53 - 1 + 1)%Z with (2 ^ 53)%Z.
    rewrite (two_pow 53) by lia. rewrite <- bpow_plus. reflexivity.
  - assert (S : 0 < bpow radix2 (-54) < / 2) by (split; [apply bpow_gt_0|]; change (/ 2) with (bpow radix2 (-1)); apply bpow_lt; lia).
    unfold before_half. change (bpow radix2 (-1)) with (/ 2). change (bpow radix2 (-1 + 1)) with 1. rewrite Rabs_pos_eq; lra.
Qed.

Lemma middle_up x : fmt x -> IZR (2 ^ 52) <= Rabs x <= IZR (2 ^ 53) ->
  exists n, x = IZR n /\ Zfloor (rnd (x + / 2)) = if Z.even n then n else (n + 1)%Z.
Proof.
  intros G [L U]. destruct (fmt_multiple x 52 G) as [n N]; [exact L|lia|].
  change (bpow radix2 (52 - 52)) with 1 in N. rewrite Rmult_1_r in N. exists n. split; auto.
  rewrite N in L, U |- *. rewrite <- abs_IZR in L, U. apply le_IZR in L, U.
  assert (Two : IZR (2 ^ 53) = 2 * IZR (2 ^ 52)) by (change (2 ^ 53)%Z with (2 * 2 ^ 52)%Z; apply mult_IZR).
  assert (Ten : 10 < IZR (2 ^ 52)) by (apply IZR_lt; reflexivity).
  destruct (Z.eq_dec n (2 ^ 53)) as [E|E1]; [|destruct (Z.eq_dec n (- 2 ^ 52)) as [E|E2]].
  - rewrite E. change (Z.even (2 ^ 53)) with true. cbn iota.
    rewrite (rnd_scaled _ 53); [|lia|].
    + assert (Zn : ZnearestE ((IZR (2 ^ 53) + / 2) * bpow radix2 (52 - 53)) = (2 ^ 52)%Z).
      { change (bpow radix2 (52 - 53)) with (/ 2). apply Znearest_imp. rewrite Rabs_pos_eq; lra. }
      rewrite Zn. change (bpow radix2 (53 - 52)) with 2. rewrite Rmult_comm, <- Two, Zfloor_IZR. reflexivity.
    + rewrite Rabs_pos_eq by lra. change (bpow radix2 53) with (IZR (2 ^ 53)). change (bpow radix2 (53 + 1)) with (IZR (2 * 2 ^ 53)).
      rewrite mult_IZR. lra.
  - rewrite E. change (Z.even (- 2 ^ 52)) with true. cbn iota.
    rewrite rnd_fmt; [apply Zfloor_imp; rewrite plus_IZR; lra|].
    replace (IZR (- 2 ^ 52) + / 2) with (IZR (- 2 ^ 53 + 1) * bpow radix2 (-1)).
    + apply fmt_scaled; lia.
    + rewrite plus_IZR, !opp_IZR, Two. change (bpow radix2 (-1)) with (/ 2). lra.
  - rewrite (rnd_scaled _ 52); [|lia|].
    + change (52 - 52)%Z with 0%Z. change (bpow radix2 0) with 1. rewrite !Rmult_1_r, nearest_tie, Zfloor_IZR. reflexivity.
    + change (bpow radix2 52) with (IZR (2 ^ 52)). change (bpow radix2 (52 + 1)) with (IZR (2 ^ 53)).
      destruct (Z_le_gt_dec 0 n) as [P|P].
      * assert (A : IZR (2 ^ 52) <= IZR n) by (apply IZR_le; lia). assert (B : IZR n + 1 <= IZR (2 ^ 53)) by (rewrite <- plus_IZR; apply IZR_le; lia).
        rewrite Rabs_pos_eq; lra.
      * assert (A : IZR n + 1 <= - IZR (2 ^ 52)) by (rewrite <- plus_IZR, <- opp_IZR; apply IZR_le; lia).
        assert (B : - IZR (2 ^ 53) <= IZR n) by (rewrite <- opp_IZR; apply IZR_le; lia).
        rewrite Rabs_left; lra.
Qed.

(** what floor(x + 0.5) is *)
Inductive plus_half_floor (x : R) (z : Z) : Prop :=
| PhfNearest : x <> before_half -> (forall n, x = IZR n -> IZR (2 ^ 52) <= Rabs x <= IZR (2 ^ 53) -> Z.even n = true) ->
    IZR z - / 2 <= x < IZR z + / 2 -> plus_half_floor x z
| PhfBeforeHalf : x = before_half -> z = 1%Z -> plus_half_floor x z
| PhfOdd n : x = IZR n -> IZR (2 ^ 52) <= Rabs x <= IZR (2 ^ 53) -> Z.even n = false -> z = (n + 1)%Z -> plus_half_floor x z.

Lemma floor_half x : fmt x -> plus_half_floor x (Zfloor (rnd (x + / 2))).
Proof.
  intro G. destruct (Req_EM_T x before_half) as [->|NB].
  { apply PhfBeforeHalf; auto. rewrite before_half_up. apply (Zfloor_IZR 1). }
  destruct (Rlt_le_dec (Rabs x) (IZR (2 ^ 52))) as [L|L].
  { apply PhfNearest; auto; [intros; lra|]. rewrite round_floor by auto.
    pose proof (Zfloor_lb (x + / 2)). pose proof (Zfloor_ub (x + / 2)). lra. }
  destruct (Rlt_le_dec (IZR (2 ^ 53)) (Rabs x)) as [H|H].
  { apply PhfNearest; auto; [intros; lra|]. rewrite add_half_big by auto.
    destruct (fmt_multiple x 52 G) as [z Z]; [exact L|lia|].
    change (bpow radix2 (52 - 52)) with 1 in Z. rewrite Rmult_1_r in Z. rewrite Z, Zfloor_IZR. lra. }
  destruct (middle_up x G) as (n & N & F); [lra|]. rewrite F. destruct (Z.even n) eqn:Ev.
  - apply PhfNearest; auto; [|lra]. intros m M _. rewrite N in M. apply eq_IZR in M. congruence.
  - apply (PhfOdd x _ n); auto.
Qed.
