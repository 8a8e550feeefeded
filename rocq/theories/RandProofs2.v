(** Random doubles, against real numbers. *)
From Coq Require Import SpecFloat Reals Lra.
From Flocq Require Import Core.
From Flocq Require Import Relative BinarySingleNaN Plus_error.
From Verif Require Import Base PyNum Effects ArrayModel FloatBridge CastProps FloatBridge2 RandModel RandSpec RandProofs.
Open Scope string_scope.
Open Scope list_scope.
Open Scope Z_scope.

Notation fexp := (FLT_exp (-1074) 53).
Notation predf := (Core.Ulp.pred radix2 fexp).

Lemma unit_val k : 0 <= k < 2 ^ 53 -> (fval (unit_of k) = IZR k * bpow radix2 (-53))%R /\ finite (unit_of k) /\ valid (unit_of k) /\
  (0 <= fval (unit_of k) <= 1 - bpow radix2 (-53))%R.
Proof.
  intros H. assert (E : rnd (F2R (Float radix2 k (-53))) = F2R (Float radix2 k (-53))).
  { unfold rnd. apply round_generic; [typeclasses eauto|]. apply generic_format_FLT. exists (Float radix2 k (-53)); cbn [Fnum Fexp]; auto; [|lia]. change (radix2 ^ 53)%Z with (2 ^ 53)%Z. lia. }
  assert (B : (F2R (Float radix2 k (-53)) = IZR k * bpow radix2 (-53))%R) by reflexivity.
  assert (B2 : (0 <= IZR k * bpow radix2 (-53) <= 1 - bpow radix2 (-53))%R).
  { change (bpow radix2 (-53)) with (/ IZR (2 ^ 53))%R. assert (P : (0 < / IZR (2 ^ 53))%R) by (apply Rinv_0_lt_compat, IZR_lt; lia).
    split; [apply Rmult_le_pos; [apply IZR_le; lia|lra]|]. assert (K : (IZR k <= IZR (2 ^ 53) - 1)%R) by (rewrite <- minus_IZR; apply IZR_le; lia).
    apply Rmult_le_compat_r with (r := (/ IZR (2 ^ 53))%R) in K; [|lra]. rewrite Rmult_minus_distr_r, Rinv_r in K by (apply IZR_neq; lia). lra. }
  destruct (normalize_val k (-53) false) as [N1 N2].
  { rewrite E, B. rewrite Rabs_pos_eq by lra. apply Rle_lt_trans with 1%R; [|change 1%R with (bpow radix2 0); apply bpow_lt; lia]. pose proof (bpow_gt_0 radix2 (-53)). lra. }
  rewrite E in N1. unfold unit_of. rewrite N1. split; [exact B|]. split; [exact N2|]. split; [apply normalize_valid|]. rewrite B. exact B2.
Qed.

Lemma rnd_format x : generic_format radix2 fexp x -> rnd x = x.
Proof. intros. unfold rnd. apply round_generic; auto. typeclasses eauto. Qed.
Lemma scaled_below D t : generic_format radix2 fexp D -> (0 < D)%R -> (0 <= t <= 1 - bpow radix2 (-53))%R ->
  (bpow radix2 (-1022) <= predf D)%R -> (rnd (D * t) <= predf D)%R.
Proof.
  intros G P T N. apply Rle_trans with (rnd (D * (1 - bpow radix2 (-53)))); [apply rnd_mono, Rmult_le_compat_l; lra|].
  unfold rnd. apply round_N_le_midp; try typeclasses eauto; [apply generic_format_pred; auto; typeclasses eauto|].
  rewrite succ_pred by (auto; typeclasses eauto).
  pose proof (pred_plus_ulp radix2 fexp D P G) as U. assert (H0 : (0 < predf D)%R) by (pose proof (bpow_gt_0 radix2 (-1022)); lra).
  assert (L : (ulp radix2 fexp (predf D) <= Rabs (predf D) * bpow radix2 (1 - 53))%R).
  { apply ulp_FLT_le. rewrite Rabs_pos_eq by lra. exact N. }
  rewrite Rabs_pos_eq in L by lra. pose proof (pred_lt_id radix2 fexp D) as PL.
  assert (S : (bpow radix2 (1 - 53) = 2 * bpow radix2 (-53))%R).
  { change (1 - 53) with (1 + -53). rewrite bpow_plus. reflexivity. }
  rewrite S in L. assert (PD : (predf D < D)%R) by (apply PL; lra). pose proof (bpow_gt_0 radix2 (-53)) as BP.
  assert ((predf D * (2 * bpow radix2 (-53)) < D * (2 * bpow radix2 (-53)))%R) by (apply Rmult_lt_compat_r; lra). lra.
Qed.
(** a + (b - a) * t stays between a and b *)
Lemma step_between a b t : generic_format radix2 fexp a -> generic_format radix2 fexp b -> (a < b)%R -> (0 <= t <= 1 - bpow radix2 (-53))%R ->
  (0 <= rnd (rnd (b - a) * t) <= b - a)%R /\ (a <= rnd (a + rnd (rnd (b - a) * t)) <= b)%R.
Proof.
  intros Ga Gb L T. set (D := rnd (b - a)). pose proof (bpow_gt_0 radix2 (-53)) as BP.
  assert (GD : generic_format radix2 fexp D) by (unfold D, rnd; apply generic_format_round; typeclasses eauto).
  assert (D0 : (0 <= D)%R) by (apply rnd_nonneg; lra).
  assert (P : (0 <= rnd (D * t) <= b - a)%R).
  { split; [apply rnd_nonneg, Rmult_le_pos; lra|]. destruct (Rle_or_lt (bpow radix2 (-1022)) (predf D)) as [N|N].
    - assert (DP : (0 < D)%R). { destruct D0 as [D0|D0]; auto. exfalso. rewrite <- D0 in N. rewrite pred_0 in N by typeclasses eauto. pose proof (bpow_gt_0 radix2 (-1022)). pose proof (ulp_ge_0 radix2 fexp 0). lra. }
      apply Rle_trans with (predf D); [apply scaled_below; auto|]. apply rnd_pred. auto.
    - assert (E : D = (b - a)%R).
      { apply rnd_format. unfold Rminus. apply FLT_format_plus_small; auto; [typeclasses eauto|apply generic_format_opp; auto|].
        fold (b - a)%R. rewrite Rabs_pos_eq by lra.
        assert (DB : (D <= bpow radix2 (-1022))%R).
        { destruct (Rle_or_lt D (bpow radix2 (-1022))) as [K|K]; auto. exfalso.
          assert ((bpow radix2 (-1022) <= predf D)%R); [|lra]. apply pred_ge_gt; auto; try typeclasses eauto. apply generic_format_bpow. unfold FLT_exp. lia. }
        destruct (Rle_or_lt (b - a) (bpow radix2 (53 + -1074))) as [K|K]; auto. exfalso.
        assert ((bpow radix2 (53 + -1074) <= D)%R). { unfold D, rnd. apply round_ge_generic; try typeclasses eauto; [apply generic_format_bpow; unfold FLT_exp; lia|lra]. }
        assert ((bpow radix2 (-1022) < bpow radix2 (53 + -1074))%R) by (apply bpow_lt; lia). lra. }
      rewrite E. rewrite <- E at 2. unfold D. apply rnd_mono. apply Rle_trans with ((b - a) * 1)%R; [apply Rmult_le_compat_l; lra|lra]. }
  split; auto. split; [rewrite <- (rnd_format a Ga) at 1|rewrite <- (rnd_format b Gb)]; apply rnd_mono; lra.
Qed.

(** random.uniform on floats *)
Lemma uniform_val a b k : valid a -> valid b -> finite a -> finite b -> (fval a < fval b)%R -> finite (fsub b a) -> 0 <= k < 2 ^ 53 ->
  let x := fadd a (fmul (fsub b a) (unit_of k)) in
  valid x /\ finite x /\ (fval a <= fval x <= fval b)%R /\ fval x = rnd (fval a + rnd (rnd (fval b - fval a) * fval (unit_of k))).
Proof.
  intros Va Vb Fa Fb L FD K x. destruct (unit_val k K) as (_ & Fu & Vu & Bu).
  pose proof (valid_format _ Va) as Ga. pose proof (valid_format _ Vb) as Gb. destruct (step_between _ _ _ Ga Gb L Bu) as [P Q].
  pose proof (fval_lt_big _ Fa Va) as Ba. pose proof (fval_lt_big _ Fb Vb) as Bb.
  pose proof (fsub_valid b a Vb Va) as Vd. destruct (fsub_diff b a Fb Fa Vb Va) as [[Ed _]|[_ [t Et]]]; [|exfalso; unfold finite in FD; rewrite Et in FD; discriminate].
  pose proof (fmul_valid _ _ Vd Vu) as Vm. pose proof (fval_lt_big _ FD Vd) as Bd. rewrite Ed in Bd.
  assert (Nd : (0 <= rnd (fval b - fval a))%R) by (apply rnd_nonneg; lra).
  pose proof (bpow_gt_0 radix2 (-53)) as BP.
  assert (Md : (rnd (rnd (fval b - fval a) * fval (unit_of k)) <= rnd (fval b - fval a))%R).
  { rewrite <- (rnd_format (rnd (fval b - fval a))) at 2 by (unfold rnd; apply generic_format_round; typeclasses eauto). apply rnd_mono.
    apply Rle_trans with (rnd (fval b - fval a) * 1)%R; [apply Rmult_le_compat_l; lra|lra]. }
  destruct (fmul_prod _ _ FD Fu Vd Vu) as [[Em Fm]|[Om _]].
  2: { exfalso. rewrite Ed in Om. rewrite (Rabs_pos_eq (rnd (_ * _))) in Om by lra. rewrite Rabs_pos_eq in Bd by auto. lra. }
  rewrite Ed in Em. destruct (fadd_sum a _ Fa Fm Va Vm) as [[Ex Fx]|[Ox _]].
  - split; [apply fadd_valid; auto|]. split; [exact Fx|]. unfold x. rewrite Ex, Em. split; auto.
  - exfalso. rewrite Em in Ox. assert ((Rabs (rnd (fval a + rnd (rnd (fval b - fval a) * fval (unit_of k)))) < big)%R); [|unfold big in *; lra].
    apply Rabs_def1; apply Rabs_def2 in Ba; apply Rabs_def2 in Bb; lra.
Qed.

(** ** Histograms *)
Definition nonneg (x : pf) : Prop := match x with S754_zero _ | S754_infinity false | S754_finite false _ _ => True | _ => False end.
Lemma normalize_nonneg p e s : nonneg (SpecFloat.binary_normalize 53 1024 (Z.pos p) e s).
Proof.
  unfold SpecFloat.binary_normalize. rewrite br_equiv. pose proof (binary_round_correct 53 1024 _ _ mode_NE false p e) as B. cbv zeta in B. destruct B as [V B].
  destruct (Rlt_bool _ _).
  - destruct B as (_ & Fz & Sz). destruct (binary_round 53 1024 mode_NE false p e) as [z|z| |z m e']; try discriminate; cbn in *; auto. rewrite Sz. auto.
  - rewrite B. cbn. auto.
Qed.
Lemma fadd_nonneg x y : nonneg x -> nonneg y -> nonneg (fadd x y).
Proof.
  destruct x as [sx|[]| |[] mx ex], y as [sy|[]| |[] my ey]; cbn [nonneg]; try contradiction; intros _ _; unfold fadd, SFadd; cbn [nonneg]; auto.
  - destruct (Bool.eqb sx sy); cbn; auto.
  - exact I.
  - apply normalize_nonneg.
Qed.
Lemma nonneg_val x : nonneg x -> (0 <= fval x)%R.
Proof. destruct x as [s|s| |[] m e]; cbn [nonneg]; try contradiction; intros; unfold fval, SF2R; try lra. apply F2R_ge_0. cbn. lia. Qed.
Lemma weight_nonneg x : isnan x || isinf x = false -> num_lt (NF x) (NI 0) = false -> nonneg x /\ finite x.
Proof.
  destruct x as [s|s| |[] m e]; cbn; try discriminate; intros _ H; split; auto; try reflexivity. exfalso. unfold num_lt, num_cmp, f_cmp_Z in H. destruct (0 <=? e) eqn:E.
  - cbn [zsign] in H. apply Z.leb_le in E. assert (0 < 2 ^ e) by (apply Z.pow_pos_nonneg; lia). destruct (Z.compare_spec (- Z.pos m * 2 ^ e) 0); try discriminate; nia.
  - rewrite Z.mul_0_l in H. cbn [zsign] in H. destruct (Z.compare_spec (- Z.pos m) 0); try discriminate; lia.
Qed.
(** the sums: each is the one before plus the weight *)
Inductive sums_of : pf -> list pf -> list pf -> Prop :=
| so_nil acc : sums_of acc [] []
| so_cons acc x l r : nonneg x -> finite x -> sums_of (fadd acc x) l r -> sums_of acc (x :: l) (fadd acc x :: r).
Lemma cumulative_sums : forall l acc r, cumulative acc l = Ok r -> sums_of acc l r.
Proof.
  induction l as [|x l IH]; intros acc r H; cbn [cumulative] in H; [injection H as <-; constructor|].
  destruct (isnan x || isinf x) eqn:E1; [discriminate|]. destruct (num_lt (NF x) (NI 0)) eqn:E2; [discriminate|].
  destruct (cumulative (fadd acc x) l) as [r'|] eqn:E; [|discriminate]. cbn in H. injection H as <-. destruct (weight_nonneg _ E1 E2). constructor; auto.
Qed.
Lemma sums_length acc l r : sums_of acc l r -> length r = length l.
Proof. induction 1; cbn; auto. Qed.
Lemma sums_nonneg acc l r : sums_of acc l r -> nonneg acc -> valid acc -> Forall valid l -> Forall (fun y => nonneg y /\ valid y) r.
Proof.
  induction 1; intros N V FV; constructor; inversion FV; subst.
  - split; [apply fadd_nonneg|apply fadd_valid]; auto.
  - apply IHsums_of; auto; [apply fadd_nonneg|apply fadd_valid]; auto.
Qed.
Lemma lt_add_zero p y s : num_lt (NF p) (NF (fadd y (S754_zero s))) = num_lt (NF p) (NF y).
Proof. destruct y as [sy|sy| |sy m e]; auto. unfold fadd, SFadd. destruct (Bool.eqb sy s); destruct p as [| | |[] ? ?]; auto. Qed.
Lemma above_weight position : forall l acc r i k, sums_of acc l r -> num_lt (NF position) (NF acc) = false -> above position i r = Some k ->
  exists n x, k = i - 1 + Z.of_nat n /\ nth_error l n = Some x /\ num_lt (NF f0) (NF x) = true.
Proof.
  intros l acc r i k H. revert i k. induction H as [|acc x l r N Fx H IH]; intros i k L A; cbn [above] in A; [discriminate|].
  destruct (num_lt (NF position) (NF (fadd acc x))) eqn:E.
  - injection A as <-. exists 0%nat, x. split; [lia|]. split; auto. destruct x as [s|[]| |[] m e]; try contradiction; try discriminate; auto. rewrite lt_add_zero in E. congruence.
  - destruct (IH _ _ eq_refl A) as (n & y & -> & E2 & E3). exists (Datatypes.S n), y. split; [lia|]. split; auto.
Qed.
Lemma above_found position : forall r i, (exists y, In y r /\ num_lt (NF position) (NF y) = true) -> exists k, above position i r = Some k.
Proof.
  induction r as [|y r IH]; intros i (z & I & L); [contradiction|]. cbn [above]. destruct (num_lt (NF position) (NF y)) eqn:E; [eexists; eauto|]. destruct I as [-> |I]; [congruence|]. apply IH. eauto.
Qed.
(** where the drawn position is *)
Lemma f0_valid : valid f0 /\ finite f0 /\ fval f0 = 0%R.
Proof. repeat split. Qed.
Lemma fsub_f0 x : nonneg x -> fsub x f0 = x \/ (exists s, x = S754_zero s /\ exists s', fsub x f0 = S754_zero s').
Proof. destruct x as [s|[]| |[] m e]; cbn [nonneg]; try contradiction; intros _; auto. right. exists s. split; auto. unfold fsub, SFsub, f0. destruct (Bool.eqb s (negb false)); eexists; reflexivity. Qed.
Lemma position_neg_absurd mu eu t : (0 <= fval (S754_finite true mu eu) <= t)%R -> False.
Proof.
  intros [H _]. unfold fval, SF2R in H. pose proof (F2R_lt_0 radix2 (Float radix2 (cond_Zopp true (Z.pos mu)) eu)) as G. cbn [Fnum cond_Zopp] in G.
  specialize (G ltac:(lia)). cbn [cond_Zopp] in H. lra.
Qed.
Lemma position_not_negative total k : nonneg total -> valid total -> 0 <= k < 2 ^ 53 ->
  num_lt (NF (fadd f0 (fmul (fsub total f0) (unit_of k)))) (NF f0) = false.
Proof.
  intros N V K. destruct (unit_val k K) as (Eu & Fu & Vu & Bu). destruct total as [s|[]| |[] m e]; cbn [nonneg] in N; try contradiction.
  - replace (fsub (S754_zero s) f0) with (S754_zero s) by (destruct s; reflexivity). destruct (unit_of k) as [su|su| |su mu eu]; try discriminate; unfold fmul, SFmul, fadd, SFadd, f0; destruct (Bool.eqb false _); reflexivity.
  - replace (fsub (S754_infinity false) f0) with (S754_infinity false) by reflexivity. destruct (unit_of k) as [su|su| |su mu eu] eqn:U; try discriminate; cbn; auto. destruct su; auto. exfalso.
    apply position_neg_absurd in Bu. contradiction.
  - set (t := S754_finite false m e) in *. assert (Ft : finite t) by reflexivity. assert (Pt : (0 < fval t)%R) by (unfold fval, SF2R; apply F2R_gt_0; cbn; lia).
    destruct f0_valid as (V0 & F0' & E0). assert (FD : finite (fsub t f0)) by reflexivity.
    destruct (uniform_val f0 t k V0 V F0' Ft) as (Vx & Fx & Bx & _); auto; try (rewrite E0; lra).
    destruct (num_lt (NF (fadd f0 (fmul (fsub t f0) (unit_of k)))) (NF f0)) eqn:E; auto. apply flt_val in E; auto. lra.
Qed.
Lemma position_below total k : valid total -> finite total -> (bpow radix2 (-1022) < fval total)%R -> 0 <= k < 2 ^ 53 ->
  num_lt (NF (fadd f0 (fmul (fsub total f0) (unit_of k)))) (NF total) = true.
Proof.
  intros V Ft T K. destruct (unit_val k K) as (Eu & Fu & Vu & Bu). destruct f0_valid as (V0 & F0' & E0). pose proof (bpow_gt_0 radix2 (-1022)) as BP.
  assert (FD : finite (fsub total f0)). { destruct total as [s|[]| |[] m e]; try discriminate; try reflexivity. destruct s; reflexivity. }
  destruct (uniform_val f0 total k V0 V F0' Ft) as (Vx & Fx & _ & Ex); auto; [rewrite E0; lra|].
  apply flt_val; auto. rewrite Ex, E0, Rplus_0_l, Rminus_0_r. pose proof (valid_format _ V) as G. rewrite (rnd_format (fval total) G).
  assert (PN : (bpow radix2 (-1022) <= predf (fval total))%R). { apply pred_ge_gt; auto; try typeclasses eauto. apply generic_format_bpow. unfold FLT_exp. lia. }
  rewrite rnd_format by (unfold rnd; apply generic_format_round; typeclasses eauto).
  apply Rle_lt_trans with (predf (fval total)); [apply scaled_below; auto; lra|]. apply pred_lt_id. lra.
Qed.
