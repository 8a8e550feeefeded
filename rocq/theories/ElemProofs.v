From Coq Require Import Reals Lra Lia.
From Verif Require Import Base ElemModel ElemSpec.
Open Scope R_scope.

Lemma abs_out : forall r, 1 < Rabs r -> ~ (-1 <= r <= 1).
Proof. intros r H [A B]. assert (Rabs r <= 1) by (apply Rabs_le; lra). lra. Qed.
Lemma abs_in : forall r, ~ 1 < Rabs r -> -1 <= r <= 1.
Proof. intros r H. unfold Rabs in H. destruct (Rcase_abs r); lra. Qed.
Ltac triv := eexists; split; [reflexivity | reflexivity].
Ltac val := intros _; eexists; split; [reflexivity|].
Ltac none := intros Hn; exfalso; apply Hn; cbn; unfold everywhere; try exact I; try lra.

Lemma acos_total : total m_acos spec_acos.
Proof.
  intros [|[]|r]; unfold m_acos; cbn; try triv.
  destruct (Rlt_dec 1 (Rabs r)) as [H|H]; cbn; eexists; (split; [reflexivity|]); split.
  - intros A. destruct (abs_out r H A).
  - reflexivity.
  - val. split; [apply acos_bound | apply cos_acos; apply abs_in; exact H].
  - intros N. destruct (N (abs_in r H)).
Qed.
Lemma asin_total : total m_asin spec_asin.
Proof.
  intros [|[]|r]; unfold m_asin; cbn; try triv.
  destruct (Rlt_dec 1 (Rabs r)) as [H|H]; cbn; eexists; (split; [reflexivity|]); split.
  - intros A. destruct (abs_out r H A).
  - reflexivity.
  - val. split; [apply asin_bound | apply sin_asin; apply abs_in; exact H].
  - intros N. destruct (N (abs_in r H)).
Qed.
Lemma atan_total : total m_atan spec_atan.
Proof.
  intros [|[]|r]; unfold m_atan; cbn; try triv. eexists; split; [reflexivity|]; split.
  - val. split; [apply atan_bound | apply tan_atan].
  - none.
Qed.
Lemma cos_total : total m_cos spec_cos.
Proof. intros [|[]|r]; unfold m_cos; cbn; try triv. eexists; split; [reflexivity|]; split; [val; reflexivity | none]. Qed.
Lemma sin_total : total m_sin spec_sin.
Proof. intros [|[]|r]; unfold m_sin; cbn; try triv. eexists; split; [reflexivity|]; split; [val; reflexivity | none]. Qed.
Lemma tan_total : total m_tan spec_tan.
Proof.
  intros [|[]|r]; unfold m_tan; cbn; try triv. eexists; split; [reflexivity|]; split.
  - intros H; cbn in H. eexists; split; [reflexivity|]. cbn. unfold tan. field. exact H.
  - intros _; exact I.
Qed.
Lemma tanh_total : total m_tanh spec_tanh.
Proof.
  intros [|[]|r]; unfold m_tanh; cbn; try triv. eexists; split; [reflexivity|]; split.
  - val. cbn. unfold tanh, sinh, cosh. pose proof (exp_pos r). pose proof (exp_pos (- r)). field. lra.
  - none.
Qed.
Lemma sqrt_total : total m_sqrt spec_sqrt.
Proof.
  intros [|[]|r]; unfold m_sqrt; cbn; try triv.
  destruct (Rlt_dec r 0) as [H|H]; cbn; eexists; (split; [reflexivity|]); split; cbn.
  - intros A. lra.
  - reflexivity.
  - val. split; [apply sqrt_pos | apply sqrt_sqrt; lra].
  - intros A. lra.
Qed.

Lemma ln_total : total m_ln spec_ln.
Proof.
  intros [|[]|r]; unfold m_ln, math_log, math_log_of; cbn; try triv.
  destruct (Rlt_dec r 0); [|destruct (Req_EM_T r 0); [|destruct (Rlt_dec 0 r); [|lra]]]; eexists; (split; [reflexivity|]); split; cbn; try lra.
  - intros _; split; [lra | reflexivity].
  - intros _; split; [reflexivity | lra].
  - val. replace (ln r / 1) with (ln r) by field. apply exp_ln; assumption.
Qed.
Lemma logb_total : forall b, 1 < b -> forall x, exists y,
  (if dlt x 0 then Ok NaN else if deq x 0 then Ok minus_inf else math_log_of (ln b) x) = Ok y /\ conforms (spec_log b) x y.
Proof.
  intros b Hb [|[]|r]; unfold math_log_of; cbn; try triv.
  destruct (Rlt_dec r 0); [|destruct (Req_EM_T r 0); [|destruct (Rlt_dec 0 r); [|lra]]]; eexists; (split; [reflexivity|]); split; cbn; try lra.
  - intros _; split; [lra | reflexivity].
  - intros _; split; [reflexivity | lra].
  - val. unfold Rpower. replace (ln r / ln b * ln b) with (ln r); [apply exp_ln; assumption|]. field.
    assert (0 < ln b) by (rewrite <- ln_1; apply ln_increasing; lra). lra.
Qed.
Lemma log10_total : total m_log10 (spec_log 10).
Proof. intros x. apply (logb_total 10); lra. Qed.
Lemma log_total : forall base, (2 <= base)%Z -> total (fun x => m_log x base) (spec_log (IZR base)).
Proof.
  intros base Hb x. unfold m_log. rewrite (proj2 (Z.leb_gt base 0)) by lia. rewrite (proj2 (Z.eqb_neq base 1)) by lia.
  destruct (isnan x) eqn:E; [destruct x; try discriminate; triv|]. apply logb_total. apply (IZR_lt 1). lia.
Qed.
Lemma log1_total : total (fun x => m_log x 1) spec_log1.
Proof.
  intros [|[]|r]; unfold m_log; cbn; try triv.
  destruct (Rlt_dec r 0); [|destruct (Req_EM_T r 0); [|destruct (Rlt_dec r 1); [|destruct (Req_EM_T r 1); [|destruct (Rlt_dec 1 r); [|lra]]]]];
    eexists; (split; [reflexivity|]); split; cbn; try tauto; intros _; repeat split; intros; try reflexivity; lra.
Qed.
Lemma log_raises : forall base, (base <= 0)%Z -> forall x, m_log x base = Raise (PFAErr 27170).
Proof. intros base H x. unfold m_log. rewrite (proj2 (Z.leb_le base 0) H). reflexivity. Qed.
Lemma ln1p_total : total m_ln1p spec_ln1p.
Proof.
  intros [|[]|r]; unfold m_ln1p, math_log, math_log_of; cbn; try triv.
  destruct (Rlt_dec r (-1)); [|destruct (Req_EM_T r (-1)); [|destruct (Rlt_dec 0 (1 + r)); [|lra]]]; eexists; (split; [reflexivity|]); split; cbn; try lra.
  - intros _; split; [lra | reflexivity].
  - intros _; split; [reflexivity | lra].
  - val. replace (ln (1 + r) / 1) with (ln (1 + r)) by field. apply exp_ln; assumption.
Qed.

(** Sizes of exponentials. *)
Lemma exp_nat : forall n, exp (INR n) = exp 1 ^ n.
Proof. induction n as [|n IH]; [apply exp_0|]. rewrite S_INR, exp_plus, IH. cbn. ring. Qed.
Lemma largest_lt : largest < 2 ^ 1024.
Proof. unfold largest. rewrite pow_IZR. apply IZR_lt. vm_compute. reflexivity. Qed.
Lemma exp_mono : forall a b, a <= b -> exp a <= exp b.
Proof. intros a b [H|H]; [left; apply exp_increasing; exact H | rewrite H; right; reflexivity]. Qed.
Lemma exp_big : forall n r, INR n <= r -> 2 ^ n <= exp r.
Proof.
  intros n r H. apply Rle_trans with (exp (INR n)); [|apply exp_mono; exact H]. rewrite exp_nat. apply pow_incr.
  pose proof (exp_ineq1_le 1). lra.
Qed.
Lemma exp_small : forall r, r <= 600 -> exp r < largest.
Proof.
  intros r H. apply Rle_lt_trans with (exp (INR 600)); [apply exp_mono; rewrite INR_IZR_INZ; exact H|].
  rewrite exp_nat. apply Rle_lt_trans with (3 ^ 600); [apply pow_incr; split; [left; apply exp_pos | apply exp_le_3]|].
  unfold largest. rewrite pow_IZR. apply IZR_lt. vm_compute. reflexivity.
Qed.
Lemma ranged_ok : forall v, Rabs v <= largest -> ranged v = Ok (Fin v).
Proof. intros v H. unfold ranged. destruct (Rlt_dec largest (Rabs v)); [lra | reflexivity]. Qed.
Lemma ranged_out : forall v, largest < Rabs v -> ranged v = Raise (PyErr "OverflowError").
Proof. intros v H. unfold ranged. destruct (Rlt_dec largest (Rabs v)); [reflexivity | lra]. Qed.
Lemma both_small : forall r, Rabs r < 600 -> 0 < exp r < largest /\ 0 < exp (- r) < largest.
Proof.
  intros r H. apply Rabs_def2 in H. repeat split; try apply exp_pos; apply exp_small; lra.
Qed.
Lemma exp_below : total_below 600 m_exp spec_exp.
Proof.
  intros [|[]|r] H; unfold m_exp; cbn; try triv. destruct (both_small r (H r eq_refl)) as [[A B] _].
  rewrite ranged_ok by (rewrite Rabs_pos_eq; lra). eexists; split; [reflexivity|]; split; [val; reflexivity | none].
Qed.
Lemma expm1_below : total_below 600 m_expm1 spec_expm1.
Proof.
  intros [|[]|r] H; unfold m_expm1; cbn; try triv.
  - eexists; split; [reflexivity|]. cbn. f_equal. lra.
  - destruct (both_small r (H r eq_refl)) as [[A B] _].
    rewrite ranged_ok by (rewrite Rabs_pos_eq; lra). eexists; split; [reflexivity|]; split; [val; cbn; lra | none].
Qed.
Lemma cosh_below : total_below 600 m_cosh spec_cosh.
Proof.
  intros [|[]|r] H; unfold m_cosh; cbn; try triv. destruct (both_small r (H r eq_refl)) as [[A B] [C D]].
  rewrite ranged_ok by (unfold cosh; apply Rabs_le; lra). eexists; split; [reflexivity|]; split; [val; reflexivity | none].
Qed.
Lemma sinh_below : total_below 600 m_sinh spec_sinh.
Proof.
  intros [|[]|r] H; unfold m_sinh; cbn; try triv. destruct (both_small r (H r eq_refl)) as [[A B] [C D]].
  rewrite ranged_ok by (unfold sinh; apply Rabs_le; lra). eexists; split; [reflexivity|]; split; [val; reflexivity | none].
Qed.
Lemma exp_over : forall r, 1024 <= r -> m_exp (Fin r) = Raise (PyErr "OverflowError") /\ m_expm1 (Fin r) = Raise (PyErr "OverflowError").
Proof.
  intros r H. assert (E : ranged (exp r) = Raise (PyErr "OverflowError")).
  { apply ranged_out. pose proof (exp_big 1024 r). rewrite INR_IZR_INZ in H0. specialize (H0 H). pose proof largest_lt. rewrite Rabs_pos_eq; lra. }
  unfold m_exp, m_expm1, math_exp. rewrite E. split; reflexivity.
Qed.
Lemma hyper_over : forall r, 1026 <= Rabs r -> m_cosh (Fin r) = Raise (PyErr "OverflowError") /\ m_sinh (Fin r) = Raise (PyErr "OverflowError").
Proof.
  assert (P : forall r, 1026 <= r -> 2 * largest + 1 < exp r /\ exp (- r) <= 1).
  { intros r H. pose proof (exp_big 1026 r) as G. rewrite INR_IZR_INZ in G. specialize (G H). pose proof largest_lt as L.
    replace (2 ^ 1026) with (4 * 2 ^ 1024) in G by (change 1026%nat with (2 + 1024)%nat; rewrite pow_add; ring).
    assert (1 <= 2 ^ 1024) by (apply pow_R1_Rle; lra). split; [lra|]. rewrite <- exp_0. apply exp_mono. lra. }
  assert (LP : 0 < largest) by (unfold largest; apply IZR_lt; vm_compute; reflexivity).
  intros r H. unfold m_cosh, m_sinh, math_cosh, math_sinh, cosh, sinh.
  unfold Rabs in H. destruct (Rcase_abs r) as [N|N].
  - destruct (P (- r) H) as [A B]. rewrite Ropp_involutive in B. pose proof (exp_pos r).
    split; apply ranged_out; [rewrite Rabs_pos_eq by lra | rewrite Rabs_left by lra]; lra.
  - destruct (P r H) as [A B]. pose proof (exp_pos (- r)).
    split; apply ranged_out; rewrite Rabs_pos_eq by lra; lra.
Qed.

(** Doubles next to one. *)
Lemma gap_above_one : forall d, double d -> 1 < d -> 1 + / 2 ^ 52 <= d.
Proof.
  intros d (m & e & [Hm He] & E) H. destruct (Z_lt_le_dec e (-52)) as [L|G].
  - exfalso. assert (P : powerRZ 2 e <= / 2 ^ 53).
    { replace (/ 2 ^ 53) with (powerRZ 2 (-53)) by (cbn; reflexivity).
      replace (powerRZ 2 (-53)) with (powerRZ 2 e * powerRZ 2 (-53 - e)) by (rewrite <- powerRZ_add by lra; f_equal; lia).
      rewrite <- (Rmult_1_r (powerRZ 2 e)) at 1. apply Rmult_le_compat_l; [apply powerRZ_le; lra|].
      rewrite <- (Z2Nat.id (-53 - e)) by lia. rewrite <- pow_powerRZ. apply pow_R1_Rle. lra. }
    assert (Q : IZR m < 2 ^ 53) by (rewrite pow_IZR; apply IZR_lt; change (2 ^ Z.of_nat 53)%Z with (2 ^ 53)%Z; lia).
    assert (0 < powerRZ 2 e) by (apply powerRZ_lt; lra).
    assert (0 < 2 ^ 53) by (apply pow_lt; lra).
    assert (d < 1); [|lra]. rewrite E. apply Rlt_le_trans with (2 ^ 53 * powerRZ 2 e); [apply Rmult_lt_compat_r; assumption|].
    apply Rle_trans with (2 ^ 53 * / 2 ^ 53); [apply Rmult_le_compat_l; lra | right; field; lra].
  - assert (T : d * 2 ^ 52 = IZR (m * 2 ^ (e + 52))).
    { rewrite mult_IZR. rewrite E, Rmult_assoc. f_equal. rewrite <- (Z2Nat.id (e + 52)) by lia. rewrite <- pow_IZR.
      rewrite pow_powerRZ, (pow_powerRZ 2 (Z.to_nat _)). rewrite <- powerRZ_add by lra. f_equal. lia. }
    assert (P : 0 < 2 ^ 52) by (apply pow_lt; lra).
    assert (U : IZR (2 ^ 52) < IZR (m * 2 ^ (e + 52))).
    { rewrite <- T. replace (IZR (2 ^ 52)) with (1 * 2 ^ 52) by (rewrite Rmult_1_l, pow_IZR; reflexivity). apply Rmult_lt_compat_r; assumption. }
    apply lt_IZR in U. assert (V : IZR (2 ^ 52 + 1) <= IZR (m * 2 ^ (e + 52))) by (apply IZR_le; lia).
    rewrite <- T, plus_IZR in V. replace (IZR (2 ^ 52)) with (2 ^ 52) in V by (rewrite pow_IZR; reflexivity).
    apply Rmult_le_reg_r with (2 ^ 52); [exact P|]. rewrite Rmult_plus_distr_r, Rinv_l by lra. lra.
Qed.
Lemma one_double : double 1.
Proof. exists 1%Z, 0%Z. split; [lia|]. cbn. ring. Qed.
Lemma half_gap : / 2 ^ 53 = / 2 ^ 52 / 2.
Proof. cbn. field. Qed.
Lemma nearest_one : forall x, 0 < x < / 2 ^ 53 -> forall v, nearest v (1 + x) <-> v = 1.
Proof.
  intros x [A B] v. rewrite half_gap in B. split.
  - intros [D N]. specialize (N 1 one_double). replace (1 - (1 + x)) with (- x) in N by ring. rewrite Rabs_Ropp, (Rabs_pos_eq x) in N by lra.
    destruct (Rlt_le_dec 1 v) as [G|G].
    + apply gap_above_one in G; [|exact D]. rewrite Rabs_pos_eq in N by lra. lra.
    + rewrite Rabs_left1 in N by lra. lra.
  - intros ->. split; [apply one_double|]. intros d D. replace (1 - (1 + x)) with (- x) by ring. rewrite Rabs_Ropp, (Rabs_pos_eq x) by lra.
    destruct (Rlt_le_dec 1 d) as [G|G].
    + apply gap_above_one in G; [|exact D]. rewrite Rabs_pos_eq by lra. lra.
    + rewrite Rabs_left1 by lra. lra.
Qed.
Lemma exp_near : forall r, 0 < r < / 2 ^ 54 -> 0 < exp r - 1 < / 2 ^ 53.
Proof.
  intros r [A B]. replace (/ 2 ^ 54) with (/ 2 ^ 53 / 2) in B by (cbn; field).
  assert (S1 : 0 < / 2 ^ 53 < 1) by (split; [apply Rinv_0_lt_compat, pow_lt; lra | rewrite <- Rinv_1; apply Rinv_lt_contravar; [rewrite Rmult_1_l; apply pow_lt; lra | apply Rlt_pow_R1; [lra | lia]]]).
  pose proof (exp_ineq1 r ltac:(lra)). split; [lra|].
  pose proof (exp_ineq1_le (- r)) as N. rewrite exp_Ropp in N. pose proof (exp_pos r) as P.
  assert (M : (1 - r) * exp r <= 1).
  { replace 1 with (/ exp r * exp r) at 2 by (field; lra). apply Rmult_le_compat_r; lra. }
  set (h := / 2 ^ 53) in *.
  destruct (Rlt_le_dec (exp r) (1 + h)) as [K|K]; [lra|]. exfalso.
  assert ((1 - r) * (1 + h) <= 1) by (apply Rle_trans with ((1 - r) * exp r); [apply Rmult_le_compat_l; lra | exact M]).
  nra.
Qed.
