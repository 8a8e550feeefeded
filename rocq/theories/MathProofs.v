From Coq Require Import Reals Lra SpecFloat.
From Flocq Require Import Core.
From Flocq Require Import Relative BinarySingleNaN.
From Verif Require Import Base PyNum PyNumProofs FloatBridge ArithModel CastProps FloatBridge2 MathModel RoundProofs.
Open Scope R_scope.

Local Notation fmt := (generic_format radix2 (FLT_exp (-1074) 53)).

Lemma half_val : fval f_half = / 2.
Proof.
  unfold fval, f_half, SF2R, F2R. cbn [Fnum Fexp cond_Zopp]. change (IZR 4503599627370496) with (bpow radix2 52).
  rewrite <- bpow_plus. reflexivity.
Qed.
Lemma finite_not_special x : finite x -> inf_or_nan x = false.
Proof. destruct x; auto; discriminate. Qed.

Lemma frac_fmt x : fmt x -> 0 <= x -> fmt (x - IZR (Zfloor x)).
Proof.
  intros G P. apply FLT_format_generic in G; [|reflexivity]. destruct G as [[m e] E B1 B2]. cbn [Fnum Fexp] in *.
  unfold F2R in E. cbn [Fnum Fexp] in E. change (Z.pow_pos radix2 53) with (2 ^ 53)%Z in B1. change (radix2 ^ 53)%Z with (2 ^ 53)%Z in B1.
  assert (M : (0 <= m)%Z).
  { apply le_IZR. apply Rmult_le_reg_r with (bpow radix2 e); [apply bpow_gt_0|]. rewrite <- E. lra. }
  destruct (Z_lt_le_dec e 0) as [Le|Le].
  - assert (Q : (0 < 2 ^ (- e))%Z) by (apply Z.pow_pos_nonneg; lia).
    assert (Ei : bpow radix2 e = / IZR (2 ^ (- e))).
    { rewrite two_pow by lia. rewrite <- bpow_opp. f_equal. lia. }
    assert (Fl : Zfloor x = (m / 2 ^ (- e))%Z) by (rewrite E, Ei; apply Zfloor_div; lia).
    rewrite Fl. replace (x - IZR (m / 2 ^ (- e))) with (IZR (m mod 2 ^ (- e)) * bpow radix2 e).
    + apply fmt_scaled; auto. pose proof (Z.mod_pos_bound m _ Q). pose proof (Z.mod_le m _ M Q). lia.
    + rewrite Z.mod_eq, minus_IZR, mult_IZR by lia. rewrite Rmult_minus_distr_r, <- E, Ei. field.
      apply not_0_IZR. lia.
  - assert (Ix : x = IZR (m * 2 ^ e)) by (rewrite mult_IZR, two_pow by auto; auto).
    rewrite Ix, Zfloor_IZR, Rminus_diag_eq by auto. apply generic_format_0.
Qed.

Lemma fval_fmt x : valid x -> fmt (fval x).
Proof. apply valid_format. Qed.

Lemma Zceil_floor_int x z : x = IZR z -> Zceil x = z /\ Zfloor x = z.
Proof. intros ->. rewrite Zceil_IZR, Zfloor_IZR. auto. Qed.

Lemma py_float_gen z : Rabs (rnd (IZR z)) < bpow radix2 1024 -> py_float z = Ok (f_of_Z z).
Proof.
  intro H. destruct (f_of_Z_gen z H) as [_ F]. unfold py_float. destruct (f_of_Z z); auto; discriminate.
Qed.

(** the two differences of rint *)
Lemma sub_int x z : finite x -> valid x -> rnd (IZR z) = IZR z -> Rabs (IZR z) < bpow radix2 1024 ->
  Rabs (IZR z - fval x) <= 1 ->
  exists a b, py_sub (NI z) (NF x) = Ok (NF a) /\ py_sub (NF x) (NI z) = Ok (NF b) /\
    finite a /\ valid a /\ fval a = rnd (IZR z - fval x) /\
    finite b /\ valid b /\ fval b = rnd (fval x - IZR z).
Proof.
  intros F V R B D. assert (R1 : rnd 1 = 1) by (apply (rnd_int 1); lia).
  assert (L : Rabs (rnd (IZR z)) < bpow radix2 1024) by (rewrite R; auto).
  destruct (f_of_Z_gen z L) as [Vz Fz]. rewrite R in Vz. pose proof (f_of_Z_valid z) as Wz.
  assert (One : 1 < big) by (unfold big; change 1 with (bpow radix2 0); apply bpow_lt; lia).
  assert (Small : forall u, Rabs u <= 1 -> Rabs (rnd u) <= 1).
  { intros u U. apply Rabs_le. apply Rabs_le_inv in U. apply (rnd_between u (-1) 1); auto.
    change (-1) with (- (1)). rewrite rnd_opp, R1. auto. }
  exists (fsub (f_of_Z z) x), (fsub x (f_of_Z z)).
  unfold py_sub, num_op. cbn [to_f]. rewrite (py_float_gen z L). cbn [rbind].
  split; auto. split; auto.
  destruct (fsub_diff (f_of_Z z) x Fz F Wz V) as [[E1 E2]|[E1 _]].
  2: { rewrite Vz in E1. apply Small in D. lra. }
  destruct (fsub_diff x (f_of_Z z) F Fz V Wz) as [[E3 E4]|[E3 _]].
  2: { rewrite Vz in E3. rewrite Rabs_minus_sym in D. apply Small in D. lra. }
  rewrite Vz in E1, E3. repeat split; auto; apply fsub_valid; auto.
Qed.

Lemma nonint_small x : fmt x -> (Zfloor x <> Zceil x) -> Rabs x < IZR (2 ^ 52).
Proof.
  intros G N. destruct (Rlt_le_dec (Rabs x) (IZR (2 ^ 52))) as [L|L]; auto. exfalso. apply N.
  destruct (fmt_multiple x 52 G) as [z Z]; [exact L|lia|]. change (bpow radix2 (52 - 52)) with 1 in Z. rewrite Rmult_1_r in Z.
  destruct (Zceil_floor_int x z Z). congruence.
Qed.

Definition nearest_even (x : R) (z : Z) : Prop :=
  Rabs (IZR z - x) <= / 2 /\ (Rabs (IZR z - x) = / 2 -> Z.even z = true).

Lemma even_mod z : (z mod 2 =? 0)%Z = Z.even z.
Proof. rewrite Zmod_even. destruct (Z.even z); auto. Qed.

Lemma rint_correct x : finite x -> valid x -> exists z, m_rint x = Ok (NI z) /\ nearest_even (fval x) z.
Proof.
  intros F V. pose proof (fval_fmt x V) as G. pose proof (fval_lt_big x F V) as B. unfold big in B.
  unfold m_rint. rewrite finite_not_special, py_ceil_val, py_floor_val by auto. cbn [rbind].
  set (X := fval x) in *. set (up := Zceil X). set (down := Zfloor X).
  assert (HL : rnd (/ 2) = / 2).
  { apply rnd_fmt. change (/ 2) with (bpow radix2 (-1)). apply generic_format_bpow. unfold FLT_exp. lia. }
  destruct (Z.eq_dec down up) as [I|I].
  - assert (E : X = IZR up).
    { pose proof (Zfloor_lb X). pose proof (Zceil_ub X). fold up in H0. fold down in H. rewrite I in H. lra. }
    rewrite I. destruct (sub_int x up F V) as (a & b & -> & Eb & Fa & Wa & Va & Fb & Wb & Vb).
    + apply rnd_fmt. rewrite <- E. auto.
    + rewrite <- E. auto.
    + fold X. rewrite E, Rminus_diag_eq, Rabs_R0 by auto. lra.
    + rewrite Eb. cbn [rbind]. fold X in Va, Vb. rewrite E, Rminus_diag_eq, rnd0 in Va, Vb by auto.
      exists up. split.
      * do 2 f_equal. destruct (num_lt (NF a) (NF b)); auto. destruct (num_gt (NF a) (NF b)); auto.
        destruct (up mod 2 =? 0)%Z; auto.
      * split; rewrite E, Rminus_diag_eq, Rabs_R0 by auto; lra.
  - assert (UD : (up = down + 1)%Z) by (apply Zceil_floor_neq; intro E; apply I; unfold down, up in *; rewrite <- E, Zceil_IZR, Zfloor_IZR; auto).
    pose proof (nonint_small X G I) as S. apply Rabs_def2 in S.
    pose proof (Zfloor_lb X) as L. pose proof (Zfloor_ub X) as U. fold down in L, U.
    assert (L' : IZR down <> X).
    { intro E. apply I. unfold down, up. rewrite <- E at 2. rewrite Zceil_IZR. auto. }
    assert (Upv : IZR up = IZR down + 1) by (rewrite UD, plus_IZR; auto).
    assert (Bd : (- 2 ^ 52 - 1 <= down /\ down <= 2 ^ 52)%Z).
    { assert (A1 : IZR down < IZR (2 ^ 52)) by lra. assert (A2 : IZR (- 2 ^ 52 - 1) < IZR down) by (rewrite minus_IZR, opp_IZR; lra).
      apply lt_IZR in A1, A2. lia. }
    assert (RI : forall z, (Z.abs z <= 2 ^ 53)%Z -> rnd (IZR z) = IZR z /\ Rabs (IZR z) < bpow radix2 1024).
    { intros z Hz. split; [apply rnd_int; auto|]. rewrite <- abs_IZR. apply Rle_lt_trans with (IZR (2 ^ 53)); [apply IZR_le; auto|].
      change (IZR (2 ^ 53)) with (bpow radix2 53). apply bpow_lt. lia. }
    destruct (RI up) as [Ru Bu]; [lia|]. destruct (RI down) as [Rd Bd']; [lia|].
    destruct (sub_int x up F V Ru Bu) as (a & _ & Ea & _ & Fa & Wa & Va & _ & _ & _).
    { fold X. rewrite Rabs_pos_eq; lra. }
    destruct (sub_int x down F V Rd Bd') as (_ & b & _ & Eb & _ & _ & _ & Fb & Wb & Vb).
    { fold X. rewrite Rabs_left; lra. }
    rewrite Ea, Eb. cbn [rbind]. fold X in Va, Vb. set (f := X - IZR down) in *.
    replace (IZR up - X) with (1 - f) in Va by (unfold f; lra).
    assert (Ff : 0 < f < 1) by (unfold f; lra).
    (* one of the two differences is exact *)
    assert (Ex : rnd f = f \/ rnd (1 - f) = 1 - f).
    { destruct (Rle_or_lt 0 X) as [P|P].
      - left. apply rnd_fmt. apply frac_fmt; auto.
      - right. apply rnd_fmt. replace (1 - f) with (- X - IZR (Zfloor (- X))).
        + apply frac_fmt; [apply generic_format_opp; auto|lra].
        + assert (Zf : Zfloor (- X) = (- up)%Z) by (unfold up, Zceil; lia). rewrite Zf, opp_IZR. unfold f. lra. }
    assert (H1 : 1 - / 2 = / 2) by lra.
    pose proof (flt_val a b Fa Fb Wa Wb) as Lab. pose proof (flt_val b a Fb Fa Wb Wa) as Lba. rewrite Va, Vb in Lab, Lba.
    assert (Gt : num_gt (NF a) (NF b) = num_lt (NF b) (NF a)).
    { destruct (num_gt (NF a) (NF b)) eqn:E1, (num_lt (NF b) (NF a)) eqn:E2; auto; exfalso.
      - unfold num_gt, num_lt in *. cbn [num_cmp] in *.
        pose proof (Bcompare_swap 53 1024 (SF2B a Wa) (SF2B b Wb)) as Sw. unfold Bcompare in Sw. rewrite !B2SF_SF2B in Sw.
        rewrite Sw in E2. destruct (SFcompare a b) as [[]|]; discriminate.
      - unfold num_gt, num_lt in *. cbn [num_cmp] in *.
        pose proof (Bcompare_swap 53 1024 (SF2B a Wa) (SF2B b Wb)) as Sw. unfold Bcompare in Sw. rewrite !B2SF_SF2B in Sw.
        rewrite Sw in E2. destruct (SFcompare a b) as [[]|]; discriminate. }
    rewrite Gt, even_mod.
    destruct (Rtotal_order f (/ 2)) as [C|[C|C]].
    + (* down *)
      assert (M1 : rnd f <= / 2) by (rewrite <- HL; apply rnd_mono; lra).
      assert (M2 : / 2 <= rnd (1 - f)) by (rewrite <- HL; apply rnd_mono; lra).
      assert (Lt : rnd f < rnd (1 - f)) by (destruct Ex as [Ex|Ex]; rewrite Ex in *; lra).
      assert (N1 : num_lt (NF a) (NF b) = false).
      { destruct (num_lt (NF a) (NF b)); auto. exfalso. assert (rnd (1 - f) < rnd f) by (apply Lab; auto). lra. }
      rewrite N1, (proj2 Lba Lt). exists down. split; auto. split.
      * rewrite Rabs_left; unfold f in *; lra.
      * rewrite Rabs_left by (unfold f in *; lra). unfold f in *. intro. lra.
    + assert (N1 : num_lt (NF a) (NF b) = false).
      { destruct (num_lt (NF a) (NF b)); auto. exfalso. assert (rnd (1 - f) < rnd f) by (apply Lab; auto). rewrite C, H1 in H. lra. }
      assert (N2 : num_lt (NF b) (NF a) = false).
      { destruct (num_lt (NF b) (NF a)); auto. exfalso. assert (rnd f < rnd (1 - f)) by (apply Lba; auto). rewrite C, H1 in H. lra. }
      rewrite N1, N2. destruct (Z.even up) eqn:Ev.
      * exists up. split; auto. split; auto. rewrite Rabs_pos_eq; unfold f in *; lra.
      * exists down. split; auto. split; [rewrite Rabs_left; unfold f in *; lra|]. intros _.
        rewrite UD, Z.even_add in Ev. destruct (Z.even down); auto; discriminate.
    + assert (M1 : / 2 <= rnd f) by (rewrite <- HL; apply rnd_mono; lra).
      assert (M2 : rnd (1 - f) <= / 2) by (rewrite <- HL; apply rnd_mono; lra).
      assert (Lt : rnd (1 - f) < rnd f) by (destruct Ex as [Ex|Ex]; rewrite Ex in *; lra).
      rewrite (proj2 Lab Lt). exists up. split; auto. split.
      * rewrite Rabs_pos_eq; unfold f in *; lra.
      * rewrite Rabs_pos_eq by (unfold f in *; lra). unfold f in *. intro. lra.
Qed.
