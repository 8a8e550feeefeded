(** Real-number meaning of float sums, differences, products and comparisons of valid floats (uses Flocq, hence the
    standard library's axioms for the reals). *)
From Coq Require Import Reals Lra SpecFloat.
From Flocq Require Import Core.
From Flocq Require Import Relative BinarySingleNaN.
From Verif Require Import Base PyNum PyNumProofs FloatBridge ArithModel CastProps.
Open Scope Z_scope.

Definition valid (f : pf) : Prop := valid_binary 53 1024 f = true.
Definition big : R := bpow radix2 1024.

Lemma normalize_valid m e s : valid (SpecFloat.binary_normalize 53 1024 m e s).
Proof.
  unfold valid, SpecFloat.binary_normalize. destruct m as [|p|p]; [reflexivity| |]; rewrite br_equiv.
  - exact (proj1 (binary_round_correct 53 1024 _ _ mode_NE false p e)).
  - exact (proj1 (binary_round_correct 53 1024 _ _ mode_NE true p e)).
Qed.
Lemma fneg_valid x : valid x -> valid (fneg x).
Proof. destruct x; auto. Qed.
Lemma fneg_val x : fval (fneg x) = (- fval x)%R.
Proof. destruct x as [s|s| |s m e]; unfold fval, fneg, SFopp, SF2R; try lra. rewrite <- F2R_Zopp. f_equal. f_equal. destruct s; auto. Qed.
Lemma fneg_finite x : finite x -> finite (fneg x).
Proof. destruct x; auto. Qed.
Lemma fadd_valid x y : valid x -> valid y -> valid (fadd x y).
Proof.
  intros Vx Vy. destruct x as [sx|sx| |sx mx ex], y as [sy|sy| |sy my ey]; cbn [fadd SFadd]; auto; unfold fadd, SFadd; try (destruct (Bool.eqb sx sy); auto; reflexivity).
  apply normalize_valid.
Qed.
Lemma fsub_fadd x y : fsub x y = fadd x (fneg y).
Proof.
  destruct x as [sx|sx| |sx mx ex], y as [sy|sy| |sy my ey]; auto. unfold fsub, fadd, fneg, SFsub, SFadd, SFopp. cbv zeta. f_equal. destruct sy; auto.
Qed.
Lemma fsub_valid x y : valid x -> valid y -> valid (fsub x y).
Proof. intros. rewrite fsub_fadd. apply fadd_valid; auto. apply fneg_valid. auto. Qed.
Lemma fsub_diff x y : finite x -> finite y -> valid x -> valid y ->
  (fval (fsub x y) = rnd (fval x - fval y) /\ finite (fsub x y)) \/
  ((big <= Rabs (rnd (fval x - fval y)))%R /\ exists t, fsub x y = S754_infinity t).
Proof.
  intros. rewrite fsub_fadd. unfold Rminus. rewrite <- fneg_val. apply fadd_sum; auto; [apply fneg_finite|apply fneg_valid]; auto.
Qed.
Lemma fmul_valid x y : valid x -> valid y -> valid (fmul x y).
Proof.
  intros Vx Vy. destruct x as [sx|sx| |sx mx ex], y as [sy|sy| |sy my ey]; auto.
  unfold fmul, SFmul. rewrite bra_equiv. exact (proj1 (Bmult_correct_aux 53 1024 _ _ mode_NE sx mx ex Vx sy my ey Vy)).
Qed.
Lemma fmul_prod x y : finite x -> finite y -> valid x -> valid y ->
  (fval (fmul x y) = rnd (fval x * fval y) /\ finite (fmul x y)) \/
  ((big <= Rabs (rnd (fval x * fval y)))%R /\ exists t, fmul x y = S754_infinity t).
Proof.
  intros Fx Fy Vx Vy. assert (R0 : rnd 0 = 0%R) by (unfold rnd; apply round_0; typeclasses eauto).
  destruct x as [sx|sx| |sx mx ex], y as [sy|sy| |sy my ey]; try discriminate.
  - left. change (fval (S754_zero sx)) with 0%R. rewrite Rmult_0_l, R0. split; reflexivity.
  - left. change (fval (S754_zero sx)) with 0%R. rewrite Rmult_0_l, R0. split; reflexivity.
  - left. change (fval (S754_zero sy)) with 0%R. rewrite Rmult_0_r, R0. split; reflexivity.
  - unfold fmul, SFmul. rewrite bra_equiv. pose proof (proj2 (Bmult_correct_aux 53 1024 _ _ mode_NE sx mx ex Vx sy my ey Vy)) as B. cbv zeta in B.
    change (round radix2 (SpecFloat.fexp 53 1024) (round_mode mode_NE)) with rnd in B.
    change (F2R (Float radix2 (cond_Zopp sx (Zpos mx)) ex)) with (fval (S754_finite sx mx ex)) in B.
    change (F2R (Float radix2 (cond_Zopp sy (Zpos my)) ey)) with (fval (S754_finite sy my ey)) in B.
    destruct (Rlt_bool_spec (Rabs (rnd (fval (S754_finite sx mx ex) * fval (S754_finite sy my ey)))) (bpow radix2 1024)) as [L|L].
    + left. destruct B as [B1 [B2 _]]. split; [exact B1|exact B2].
    + right. split; [exact L|]. rewrite B. eexists. reflexivity.
Qed.
(** comparisons *)
Lemma flt_val x y : finite x -> finite y -> valid x -> valid y -> num_lt (NF x) (NF y) = true <-> (fval x < fval y)%R.
Proof.
  intros Fx Fy Vx Vy. unfold num_lt, num_cmp. pose proof (Bcompare_correct 53 1024 (SF2B x Vx) (SF2B y Vy)) as B.
  rewrite !is_finite_SF2B, !B2R_SF2B in B. specialize (B Fx Fy). unfold Bcompare in B. rewrite !B2SF_SF2B in B. rewrite B.
  fold (fval x) (fval y). destruct (Rcompare_spec (fval x) (fval y)); split; intros; auto; try discriminate; lra.
Qed.
Lemma fle_val x y : finite x -> finite y -> valid x -> valid y -> num_le (NF x) (NF y) = true <-> (fval x <= fval y)%R.
Proof.
  intros Fx Fy Vx Vy. unfold num_le, num_cmp. pose proof (Bcompare_correct 53 1024 (SF2B x Vx) (SF2B y Vy)) as B.
  rewrite !is_finite_SF2B, !B2R_SF2B in B. specialize (B Fx Fy). unfold Bcompare in B. rewrite !B2SF_SF2B in B. rewrite B.
  fold (fval x) (fval y). destruct (Rcompare_spec (fval x) (fval y)); split; intros; auto; try discriminate; lra.
Qed.
Lemma feq_val x y : finite x -> finite y -> valid x -> valid y -> num_eq (NF x) (NF y) = true <-> fval x = fval y.
Proof.
  intros Fx Fy Vx Vy. unfold num_eq, num_cmp. pose proof (Bcompare_correct 53 1024 (SF2B x Vx) (SF2B y Vy)) as B.
  rewrite !is_finite_SF2B, !B2R_SF2B in B. specialize (B Fx Fy). unfold Bcompare in B. rewrite !B2SF_SF2B in B. rewrite B.
  fold (fval x) (fval y). destruct (Rcompare_spec (fval x) (fval y)); split; intros; auto; try discriminate; lra.
Qed.
Lemma valid_format x : valid x -> generic_format radix2 (FLT_exp (-1074) 53) (fval x).
Proof. intros H. pose proof (generic_format_B2R 53 1024 (SF2B x H)) as G. rewrite B2R_SF2B in G. exact G. Qed.
Lemma fval_lt_big x : finite x -> valid x -> (Rabs (fval x) < big)%R.
Proof. intros F V. pose proof (abs_B2R_lt_emax 53 1024 (SF2B x V)) as G. rewrite B2R_SF2B in G. exact G. Qed.
Lemma rnd0 : rnd 0 = 0%R.
Proof. unfold rnd; apply round_0; typeclasses eauto. Qed.
Lemma rnd_nonneg x : (0 <= x)%R -> (0 <= rnd x)%R.
Proof. intros. rewrite <- rnd0. apply rnd_mono. auto. Qed.
Lemma rnd_between x lo hi : rnd lo = lo -> rnd hi = hi -> (lo <= x <= hi)%R -> (lo <= rnd x <= hi)%R.
Proof. intros L H [A B]. split; [rewrite <- L|rewrite <- H]; apply rnd_mono; auto. Qed.
(** the machine numbers around a rounded value *)
Lemma rnd_pred x : (0 < rnd x)%R -> (Core.Ulp.pred radix2 (FLT_exp (-1074) 53) (rnd x) <= x)%R.
Proof.
  intros H. destruct (Rle_or_lt (Core.Ulp.pred radix2 (FLT_exp (-1074) 53) (rnd x)) x) as [L|L]; auto. exfalso.
  assert (G : generic_format radix2 (FLT_exp (-1074) 53) (rnd x)) by (unfold rnd; apply generic_format_round; typeclasses eauto).
  assert (K : (rnd x <= Core.Ulp.pred radix2 (FLT_exp (-1074) 53) (rnd x))%R).
  { unfold rnd at 1. apply round_le_generic; try typeclasses eauto; [|lra]. apply generic_format_pred; try typeclasses eauto. auto. }
  pose proof (pred_lt_id radix2 (FLT_exp (-1074) 53) (rnd x)). lra.
Qed.
