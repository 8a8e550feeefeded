(** C91: the continuous distributions. *)
From Coq Require Import Reals Lra Lia.
From Verif Require Import Base DistModel DistProps ContModel ContSpec ErfProofs.
Open Scope R_scope.

Lemma onto_distribution F : (forall x y, x <= y -> F x <= F y) -> (forall x, 0 <= F x <= 1) ->
  (forall p, 0 < p < 1 -> exists q, F q = p) -> distribution_function F.
Proof.
  intros M B O. split; [exact M|]. split.
  - intros eps He. destruct (O (Rmin (eps / 2) (1 / 2))) as [q Hq].
    { split; [apply Rmin_glb_lt; lra|]. pose proof (Rmin_r (eps / 2) (1 / 2)). lra. }
    exists q. intros x Hx. pose proof (M x q ltac:(lra)). pose proof (B x). pose proof (Rmin_l (eps / 2) (1 / 2)).
    rewrite Rabs_pos_eq; lra.
  - intros eps He. destruct (O (1 - Rmin (eps / 2) (1 / 2))) as [q Hq].
    { pose proof (Rmin_r (eps / 2) (1 / 2)). assert (0 < Rmin (eps / 2) (1 / 2)) by (apply Rmin_glb_lt; lra). lra. }
    exists q. intros x Hx. pose proof (M q x ltac:(lra)). pose proof (B x). pose proof (Rmin_l (eps / 2) (1 / 2)).
    rewrite Rabs_left1; lra.
Qed.
Lemma strict_quantile F p q : F q = p -> (forall y, y < q -> F y < p) -> quantile F p q.
Proof. intros E L. split; [lra|]. intros y Hy. destruct (Rle_or_lt q y); [assumption|]. specialize (L y H). lra. Qed.
(** Two functions that agree around a point have the same slope there *)
Lemma slope_near F G x l r : 0 < r -> (forall y, Rabs (y - x) < r -> F y = G y) -> derivable_pt_lim G x l -> derivable_pt_lim F x l.
Proof.
  intros Hr E D eps He. destruct (D eps He) as [d Hd].
  assert (0 < Rmin d r) as Hm by (apply Rmin_glb_lt; [apply cond_pos|exact Hr]).
  exists (mkposreal _ Hm). cbn. intros h Hh Hs. rewrite (E (x + h)), (E x).
  - apply Hd; [exact Hh|]. pose proof (Rmin_l d r). lra.
  - rewrite Rminus_diag_eq; [rewrite Rabs_R0; exact Hr|reflexivity].
  - replace (x + h - x) with h by lra. pose proof (Rmin_r d r). lra.
Qed.
Lemma slope_right F G x c l : c < x -> (forall y, c < y -> F y = G y) -> derivable_pt_lim G x l -> derivable_pt_lim F x l.
Proof.
  intros Hc E. apply slope_near with (r := x - c); [lra|]. intros y Hy. apply E. unfold Rabs in Hy. destruct (Rcase_abs (y - x)); lra.
Qed.
Lemma slope_left F G x c l : x < c -> (forall y, y < c -> F y = G y) -> derivable_pt_lim G x l -> derivable_pt_lim F x l.
Proof.
  intros Hc E. apply slope_near with (r := c - x); [lra|]. intros y Hy. apply E. unfold Rabs in Hy. destruct (Rcase_abs (y - x)); lra.
Qed.
Lemma slope_eq F x l l' : derivable_pt_lim F x l -> l = l' -> derivable_pt_lim F x l'.
Proof. intros H <-. exact H. Qed.
Lemma slope_affine a b x : derivable_pt_lim (fun y => (y - a) / b) x (1 / b).
Proof.
  apply derivable_pt_lim_div_scal. apply slope_eq with (l := 1 - 0); [|lra].
  apply (derivable_pt_lim_minus id (fct_cte a)); [apply derivable_pt_lim_id|apply derivable_pt_lim_const].
Qed.

(** *** Uniform *)
Theorem C91_uniform : forall mi ma, mi < ma -> exists F f,
  (forall x, uniformCDF x mi ma = Ok (F x) /\ uniformPDF x mi ma = Ok (f x)) /\
  distribution_function F /\ (forall x, x <> mi -> x <> ma -> density_at f F x) /\
  (forall x y, mi <= x <= ma -> mi <= y <= ma -> F y - F x = (y - x) / (ma - mi)) /\
  (forall p, 0 < p <= 1 -> exists q, uniformQF p mi ma = Ok (Fin q) /\ F q = p /\ quantile F p q) /\
  uniformQF 0 mi ma = Ok (Fin mi).
Proof.
  intros mi ma Hm.
  set (F := fun x => if rlt x mi then 0 else if rlt ma x then 1 else (x - mi) / (ma - mi)).
  set (f := fun x => if rlt x mi || rlt ma x then 0 else 1 / (ma - mi)).
  assert (forall x, x < mi -> F x = 0) as F0 by (intros; unfold F; rewrite rlt_t; auto).
  assert (forall x, ma < x -> F x = 1) as F1 by (intros; unfold F; rewrite rlt_f, rlt_t by lra; auto).
  assert (forall x, mi <= x <= ma -> F x = (x - mi) / (ma - mi)) as FM by (intros; unfold F; rewrite !rlt_f by lra; auto).
  assert (0 < / (ma - mi)) as Hi by (apply Rinv_0_lt_compat; lra).
  assert (forall x, mi <= x <= ma -> 0 <= F x <= 1) as FB.
  { intros x Hx. rewrite FM by exact Hx. unfold Rdiv. split; [apply Rmult_le_pos; lra|].
    rewrite <- (Rinv_r (ma - mi)) by lra. apply Rmult_le_compat_r; lra. }
  assert (forall p, 0 <= p <= 1 -> mi <= mi + p * (ma - mi) <= ma) as QB.
  { intros p Hp. assert (0 <= p * (ma - mi)) by (apply Rmult_le_pos; lra).
    assert (p * (ma - mi) <= 1 * (ma - mi)) by (apply Rmult_le_compat_r; lra). lra. }
  assert (forall p, 0 <= p <= 1 -> F (mi + p * (ma - mi)) = p) as FQ.
  { intros p Hp. rewrite FM by (apply QB; exact Hp). field. lra. }
  assert (forall x y, x <= y -> F x <= F y) as FI.
  { intros x y Hxy. destruct (Rlt_or_le x mi) as [A|A]; [rewrite (F0 x A)|].
    - destruct (Rlt_or_le y mi); [rewrite F0 by assumption; lra|]. destruct (Rlt_or_le ma y); [rewrite F1 by assumption; lra|].
      apply FB; lra.
    - destruct (Rlt_or_le ma y); [rewrite (F1 y) by assumption|].
      + destruct (Rlt_or_le ma x); [rewrite F1 by assumption; lra|apply FB; lra].
      + rewrite !FM by lra. unfold Rdiv. apply Rmult_le_compat_r; lra. }
  exists F, f. split; [|split; [|split; [|split; [|split]]]].
  - intros x. unfold uniformCDF, uniformPDF, F, f. rewrite !rle_f by lra.
    destruct (rlt x mi), (rlt ma x); cbn; auto.
  - apply onto_distribution; [exact FI| |].
    + intros x. destruct (Rlt_or_le x mi); [rewrite F0 by assumption; lra|]. destruct (Rlt_or_le ma x); [rewrite F1 by assumption; lra|].
      apply FB; lra.
    + intros p Hp. exists (mi + p * (ma - mi)). apply FQ. lra.
  - intros x H1 H2. unfold density_at, f. destruct (Rlt_or_le x mi) as [A|A]; [|destruct (Rlt_or_le ma x) as [B|B]].
    + rewrite rlt_t by exact A. cbn. apply slope_left with (G := fct_cte 0) (c := mi); [exact A|exact F0|apply derivable_pt_lim_const].
    + rewrite (rlt_f x mi), rlt_t by lra. cbn. apply slope_right with (G := fct_cte 1) (c := ma); [exact B|exact F1|apply derivable_pt_lim_const].
    + rewrite !rlt_f by lra. cbn. apply slope_near with (G := fun y => (y - mi) / (ma - mi)) (r := Rmin (x - mi) (ma - x)).
      * apply Rmin_glb_lt; lra.
      * intros y Hy. apply FM. pose proof (Rmin_l (x - mi) (ma - x)). pose proof (Rmin_r (x - mi) (ma - x)).
        unfold Rabs in Hy. destruct (Rcase_abs (y - x)); lra.
      * apply slope_affine.
  - intros x y Hx Hy. rewrite !FM by assumption. field. lra.
  - intros p Hp. exists (mi + p * (ma - mi)). split; [|split; [apply FQ; lra|]].
    + unfold uniformQF. rewrite rle_f, !rle_t, (rlt_t 0 p) by lra. reflexivity.
    + apply strict_quantile; [apply FQ; lra|]. intros y Hy. pose proof (QB p ltac:(lra)).
      destruct (Rlt_or_le y mi); [rewrite F0 by assumption; lra|]. apply Rlt_le_trans with (F (mi + p * (ma - mi))); [|rewrite FQ; lra]. rewrite !FM by lra.
      unfold Rdiv. apply Rmult_lt_compat_r; lra.
  - unfold uniformQF. rewrite rle_f, !rle_t, (rlt_t 0 1), orb_true_r by lra. cbn. do 2 f_equal. lra.
Qed.
Example C91_uniform_case : uniformQF (1 / 4) 2 10 = Ok (Fin 4) /\ uniformCDF 4 2 10 = Ok (1 / 4).
Proof.
  unfold uniformQF, uniformCDF. rewrite !(rle_f 10 2), !rle_t, (rlt_t 0 (1 / 4)), (rlt_f 4 2), (rlt_f 10 4) by lra. cbn. split; [do 2 f_equal|f_equal]; lra.
Qed.

(** *** Exponential *)
Theorem C91_exponential : forall rate, 0 < rate -> exists F f,
  (forall x, exponentialCDF x rate = Ok (F x) /\ exponentialPDF x rate = Ok (f x)) /\
  distribution_function F /\ (forall x, x <> 0 -> density_at f F x) /\ f 0 = rate /\
  (forall x y, 0 <= x -> 0 <= y -> 1 - F (x + y) = (1 - F x) * (1 - F y)) /\
  (forall p, 0 < p < 1 -> exists q, exponentialQF p rate = Ok (Fin q) /\ F q = p /\ quantile F p q) /\
  exponentialQF 0 rate = Ok (Fin 0) /\ exponentialQF 1 rate = Ok PInf /\ (forall x, F x < 1).
Proof.
  intros rate Hr.
  set (F := fun x => if rle x 0 then 0 else 1 - exp (- rate * x)).
  set (f := fun x => if rlt x 0 then 0 else if req x 0 then rate else rate * exp (- rate * x)).
  assert (forall x, x < 0 -> F x = 0) as F0 by (intros; unfold F; rewrite rle_t by lra; auto).
  assert (forall x, 0 <= x -> F x = 1 - exp (- rate * x)) as FM.
  { intros x [H | <-]; unfold F; [rewrite rle_f by lra; reflexivity|]. rewrite rle_t, Rmult_0_r, exp_0 by lra. lra. }
  assert (forall x y, 0 <= x -> x < y -> F x < F y) as FS.
  { intros x y Hx Hy. rewrite !FM by lra. assert (rate * x < rate * y) by (apply Rmult_lt_compat_l; lra).
    pose proof (exp_increasing (- rate * y) (- rate * x) ltac:(lra)). lra. }
  assert (F 0 = 0) as FZ by (unfold F; rewrite rle_t by lra; reflexivity).
  assert (forall x, 0 <= F x < 1) as FB.
  { intros x. destruct (Rlt_or_le x 0); [rewrite F0 by assumption; lra|]. split.
    - destruct H as [H | <-]; [|lra]. pose proof (FS 0 x ltac:(lra) H). lra.
    - rewrite FM by assumption. pose proof (exp_pos (- rate * x)). lra. }
  assert (forall p, 0 <= p < 1 -> 0 <= - ln (1 - p) / rate /\ F (- ln (1 - p) / rate) = p) as FQ.
  { intros p Hp. assert (ln (1 - p) <= 0).
    { destruct Hp as [[H | <-] H1]; [|replace (1 - 0) with 1 by lra; rewrite ln_1; lra].
      pose proof (ln_increasing (1 - p) 1 ltac:(lra) ltac:(lra)). rewrite ln_1 in H0. lra. }
    assert (0 <= - ln (1 - p) / rate) as H0.
    { unfold Rdiv. apply Rmult_le_pos; [lra|]. apply Rlt_le, Rinv_0_lt_compat. exact Hr. }
    split; [exact H0|]. rewrite FM by exact H0. replace (- rate * (- ln (1 - p) / rate)) with (ln (1 - p)) by (field; lra).
    rewrite exp_ln by lra. lra. }
  exists F, f. split; [|split; [|split; [|split; [|split; [|split; [|split; [|split]]]]]]].
  - intros x. unfold exponentialCDF, exponentialPDF, F, f. rewrite !rlt_f, !req_f by lra. cbn. split.
    + unfold rle, req. destruct (Req_EM_T x 0), (Rle_dec x 0); auto. lra.
    + destruct (rlt x 0), (req x 0); auto.
  - apply onto_distribution.
    + intros x y [Hy | <-]; [|lra]. destruct (Rlt_or_le x 0); [rewrite (F0 x) by assumption; apply FB|]. apply Rlt_le, FS; lra.
    + intros x. pose proof (FB x). lra.
    + intros p Hp. exists (- ln (1 - p) / rate). apply FQ. lra.
  - intros x Hx. unfold density_at, f. destruct (Rlt_or_le x 0) as [A|A].
    + rewrite rlt_t by exact A. apply slope_left with (G := fct_cte 0) (c := 0); [exact A|exact F0|apply derivable_pt_lim_const].
    + rewrite rlt_f, req_f by lra.
      apply slope_right with (G := (fct_cte 1 - comp exp (mult_real_fct (- rate) id))%F) (c := 0); [lra| |].
      * intros y Hy. rewrite FM by lra. reflexivity.
      * apply slope_eq with (l := 0 - exp (- rate * x) * (- rate * 1)); [|lra].
        apply derivable_pt_lim_minus; [apply derivable_pt_lim_const|]. apply derivable_pt_lim_comp.
        -- apply derivable_pt_lim_scal, derivable_pt_lim_id.
        -- apply derivable_pt_lim_exp.
  - unfold f. rewrite rlt_f, req_t by lra. reflexivity.
  - intros x y Hx Hy. rewrite !FM by lra. replace (- rate * (x + y)) with (- rate * x + - rate * y) by lra. rewrite exp_plus. lra.
  - intros p Hp. exists (- ln (1 - p) / rate). destruct (FQ p ltac:(lra)) as [Q0 Q1]. split; [|split; [exact Q1|]].
    + unfold exponentialQF. rewrite rlt_f, !rle_t, !req_f by lra. reflexivity.
    + apply strict_quantile; [exact Q1|]. intros y Hy.
      destruct (Rlt_or_le y 0); [rewrite F0 by assumption; lra|]. pose proof (FS y _ H Hy). lra.
  - unfold exponentialQF. rewrite rlt_f, !rle_t, (req_f rate 0), (req_f 0 1), (req_t 0 0) by lra. reflexivity.
  - unfold exponentialQF. rewrite rlt_f, !rle_t, (req_f rate 0), (req_t 1 1) by lra. reflexivity.
  - intros x. apply FB.
Qed.
Example C91_exponential_case : exponentialQF (1 / 2) 2 = Ok (Fin (ln 2 / 2)) /\ exponentialCDF (ln 2 / 2) 2 = Ok (1 / 2).
Proof.
  assert (0 < ln 2) by (rewrite <- ln_1; apply ln_increasing; lra).
  unfold exponentialQF, exponentialCDF. rewrite !rlt_f, !(req_f 2 0), !rle_t, (req_f (1 / 2) 1), (req_f (1 / 2) 0), (req_f (ln 2 / 2) 0), rle_f by lra.
  cbn. split.
  - do 2 f_equal. replace (1 - 1 / 2) with (/ 2) by lra. rewrite ln_Rinv by lra. lra.
  - f_equal. replace (- (2) * (ln 2 / 2)) with (- ln 2) by lra. rewrite exp_Ropp, exp_ln by lra. lra.
Qed.
(** With rate 0 the three functions are defined, but do not make a distribution *)
Theorem C91_exponential_refuted : (forall x, exponentialCDF x 0 = Ok 0 /\ exponentialPDF x 0 = Ok 0) /\ ~ distribution_function (fun _ => 0).
Proof.
  split.
  - intros x. unfold exponentialCDF, exponentialPDF. rewrite !rlt_f, (req_t 0 0) by lra. auto.
  - intros [_ [_ H]]. destruct (H 1 ltac:(lra)) as [M HM]. specialize (HM (M + 1) ltac:(lra)). rewrite Rabs_left in HM; lra.
Qed.

(** *** Cauchy *)
Lemma PI_pos : 0 < PI. Proof. exact PI_RGT_0. Qed.
Theorem C91_cauchy : forall loc s, 0 < s -> exists F f,
  (forall x, cauchyCDF x loc s = Ok (F x) /\ cauchyPDF x loc s = Ok (f x)) /\
  distribution_function F /\ (forall x, density_at f F x) /\
  F loc = 1 / 2 /\ F (loc + s) = 3 / 4 /\ (forall x, F (loc + x) + F (loc - x) = 1) /\
  (forall x, f x = f loc / (1 + ((x - loc) / s) ^ 2)) /\
  (forall p, 0 < p < 1 -> exists q, cauchyQF p loc s = Ok (Fin q) /\ F q = p /\ quantile F p q) /\
  cauchyQF 0 loc s = Ok NInf /\ cauchyQF 1 loc s = Ok PInf /\ (forall x, 0 < F x < 1).
Proof.
  intros loc s Hs. pose proof PI_pos as HP.
  set (F := fun x => 1 / 2 + atan ((x - loc) / s) * (1 / PI)).
  set (f := fun x => 1 / (PI * s) * (1 / (1 + ((x - loc) / s) ^ 2))).
  assert (forall x, F x = (PI / 2 + atan ((x - loc) / s)) / PI) as FE by (intros; unfold F; field; lra).
  assert (0 < / PI) as HiP by (apply Rinv_0_lt_compat; lra).
  assert (0 < / s) as His by (apply Rinv_0_lt_compat; lra).
  assert (forall x y, x < y -> F x < F y) as FS.
  { intros x y H. assert ((x - loc) / s < (y - loc) / s) as H1 by (unfold Rdiv; apply Rmult_lt_compat_r; lra).
    pose proof (atan_increasing _ _ H1). rewrite !FE. unfold Rdiv at 1 3. apply Rmult_lt_compat_r; lra. }
  assert (forall x, 0 < F x < 1) as FB.
  { intros x. rewrite FE. pose proof (atan_bound ((x - loc) / s)). split.
    - unfold Rdiv at 1. apply Rmult_lt_0_compat; lra.
    - apply Rlt_le_trans with (PI / PI); [unfold Rdiv at 1 3; apply Rmult_lt_compat_r; lra|]. unfold Rdiv. rewrite Rinv_r by lra. lra. }
  assert (forall p, 0 < p < 1 -> F (loc + s * tan (PI * (p - 1 / 2))) = p) as FQ.
  { intros p Hp. rewrite FE. replace ((loc + s * tan (PI * (p - 1 / 2)) - loc) / s) with (tan (PI * (p - 1 / 2))) by (field; lra).
    rewrite atan_tan.
    - field. lra.
    - assert (PI * p < PI * 1) by (apply Rmult_lt_compat_l; lra). assert (0 < PI * p) by (apply Rmult_lt_0_compat; lra). lra. }
  exists F, f. split; [|split; [|split; [|split; [|split; [|split; [|split; [|split; [|split; [|split]]]]]]]]].
  - intros x. unfold cauchyCDF, cauchyPDF. rewrite !rle_f by lra. auto.
  - apply onto_distribution.
    + intros x y [H | <-]; [|lra]. apply Rlt_le, FS, H.
    + intros x. pose proof (FB x). lra.
    + intros p Hp. exists (loc + s * tan (PI * (p - 1 / 2))). apply FQ. exact Hp.
  - intros x. unfold density_at, f, F.
    assert (0 <= ((x - loc) / s) ^ 2) as HQ by (apply pow2_ge_0).
    apply slope_eq with (l := 0 + / (1 + ((x - loc) / s) ^ 2) * (1 / s) * (1 / PI)); [|field; split; [|split]; try lra].
    + apply (derivable_pt_lim_plus (fct_cte (1 / 2)) (fun y => atan ((y - loc) / s) * (1 / PI))); [apply derivable_pt_lim_const|].
      apply slope_eq with (l := (1 / PI) * (/ (1 + ((x - loc) / s) ^ 2) * (1 / s))); [|ring].
      apply slope_near with (G := mult_real_fct (1 / PI) (comp atan (fun y => (y - loc) / s))) (r := 1); [lra| |].
      * intros y _. unfold mult_real_fct, comp. ring.
      * apply derivable_pt_lim_scal, derivable_pt_lim_comp; [apply slope_affine|apply derivable_pt_lim_atan].
    + assert (0 < s * s) by (apply Rmult_lt_0_compat; lra).
      replace (s ^ 2 + (x - loc) ^ 2) with (s * s + (x - loc) ^ 2) by ring. pose proof (pow2_ge_0 (x - loc)). lra.
  - unfold F. replace ((loc - loc) / s) with 0 by (field; lra). rewrite atan_0. lra.
  - rewrite FE. replace ((loc + s - loc) / s) with 1 by (field; lra). rewrite atan_1. field. lra.
  - intros x. unfold F. replace ((loc - x - loc) / s) with (- ((loc + x - loc) / s)) by (field; lra). rewrite atan_opp. lra.
  - intros x. unfold f. replace ((loc - loc) / s) with 0 by (field; lra). assert (0 <= ((x - loc) / s) ^ 2) as HQ by (apply pow2_ge_0).
    rewrite pow_i by lia. unfold Rdiv. rewrite Rplus_0_r, Rinv_1. ring.
  - intros p Hp. exists (loc + s * tan (PI * (p - 1 / 2))). split; [|split; [apply FQ; exact Hp|]].
    + unfold cauchyQF. rewrite rle_f, !rle_t, !req_f by lra. reflexivity.
    + apply strict_quantile; [apply FQ; exact Hp|]. intros y Hy. pose proof (FS _ _ Hy) as H. rewrite FQ in H by exact Hp. exact H.
  - unfold cauchyQF. rewrite rle_f, !rle_t, req_f, req_t by lra. reflexivity.
  - unfold cauchyQF. rewrite rle_f, !rle_t, req_t by lra. reflexivity.
  - exact FB.
Qed.
Example C91_cauchy_case : cauchyQF (3 / 4) 1 2 = Ok (Fin 3) /\ cauchyCDF 3 1 2 = Ok (3 / 4).
Proof.
  unfold cauchyQF, cauchyCDF, atan2. rewrite !(rle_f 2 0), !rle_t, !req_f by lra. cbn. split.
  - do 2 f_equal. replace (PI * (3 / 4 - 1 / 2)) with (PI / 4) by lra. rewrite tan_PI4. lra.
  - f_equal. replace ((3 - 1) / 2) with 1 by lra. rewrite atan_1. field. pose proof PI_pos. lra.
Qed.

(** *** Weibull *)
Lemma rpow_pos b e : 0 < b -> rpow b e = Rpower b e. Proof. intros. unfold rpow. rewrite req_f by lra. reflexivity. Qed.
Lemma rpow_0 e : rpow 0 e = 0. Proof. unfold rpow. rewrite req_t; reflexivity. Qed.
Lemma Rpower_pos b e : 0 < Rpower b e. Proof. apply exp_pos. Qed.
Lemma Rpower_lt b c e : 0 < e -> 0 < b < c -> Rpower b e < Rpower c e.
Proof. intros He [H0 H1]. apply exp_increasing. apply Rmult_lt_compat_l; [exact He|]. apply ln_increasing; assumption. Qed.
Theorem C91_weibull : forall a b, 0 < a -> 0 < b -> exists F f,
  (forall x, weibullCDF x a b = Ok (F x)) /\ (forall x, x <> 0 -> weibullPDF x a b = Ok (Fin (f x))) /\
  distribution_function F /\ (forall x, x <> 0 -> density_at f F x) /\
  F 0 = 0 /\ (forall x, 0 < x -> exponentialCDF (Rpower (x / b) a) 1 = Ok (F x)) /\
  (forall p, 0 < p < 1 -> exists q, weibullQF p a b = Ok (Fin q) /\ F q = p /\ quantile F p q) /\
  weibullQF 0 a b = Ok (Fin 0) /\ weibullQF 1 a b = Ok PInf /\ (forall x, F x < 1).
Proof.
  intros a b Ha Hb.
  set (F := fun x => if rlt x 0 then 0 else 1 - exp (- rpow (x / b) a)).
  set (f := fun x => if rle 0 x then a / b * rpow (x / b) (a - 1) * exp (- rpow (x / b) a) else 0).
  assert (0 < / b) as Hib by (apply Rinv_0_lt_compat; lra).
  assert (0 < / a) as Hia by (apply Rinv_0_lt_compat; lra).
  assert (forall x, 0 < x -> 0 < x / b) as Hd by (intros; unfold Rdiv; apply Rmult_lt_0_compat; lra).
  assert (F 0 = 0) as FZ.
  { unfold F. rewrite rlt_f by lra. replace (0 / b) with 0 by (field; lra). rewrite rpow_0, Ropp_0, exp_0. lra. }
  assert (forall x, x <= 0 -> F x = 0) as F0.
  { intros x [H | ->]; [|exact FZ]. unfold F. rewrite rlt_t by exact H. reflexivity. }
  assert (forall x, 0 < x -> F x = 1 - exp (- Rpower (x / b) a)) as FM.
  { intros x H. unfold F. rewrite rlt_f, rpow_pos by (try apply Hd; lra). reflexivity. }
  assert (forall x, 0 < x -> 0 < F x < 1) as FP.
  { intros x H. rewrite FM by exact H. pose proof (exp_pos (- Rpower (x / b) a)). pose proof (Rpower_pos (x / b) a).
    pose proof (exp_increasing (- Rpower (x / b) a) 0 ltac:(lra)) as E. rewrite exp_0 in E. lra. }
  assert (forall x y, 0 <= x -> x < y -> F x < F y) as FS.
  { intros x y [Hx | <-] Hy; [|rewrite FZ; apply FP; exact Hy]. rewrite !FM by lra.
    assert (x / b < y / b) by (unfold Rdiv; apply Rmult_lt_compat_r; lra).
    pose proof (Rpower_lt (x / b) (y / b) a Ha (conj (Hd x Hx) H)).
    pose proof (exp_increasing (- Rpower (y / b) a) (- Rpower (x / b) a) ltac:(lra)). lra. }
  assert (forall x, 0 <= F x < 1) as FB.
  { intros x. destruct (Rle_or_lt x 0); [rewrite F0 by assumption; lra|]. pose proof (FP x H). lra. }
  assert (forall p, 0 < p < 1 -> 0 < b * rpow (- ln (1 - p)) (1 / a) /\ F (b * rpow (- ln (1 - p)) (1 / a)) = p) as FQ.
  { intros p Hp. assert (ln (1 - p) < 0) as HL.
    { pose proof (ln_increasing (1 - p) 1 ltac:(lra) ltac:(lra)). rewrite ln_1 in H. lra. }
    rewrite rpow_pos by lra. pose proof (Rpower_pos (- ln (1 - p)) (1 / a)) as HR.
    assert (0 < b * Rpower (- ln (1 - p)) (1 / a)) as H0 by (apply Rmult_lt_0_compat; lra).
    split; [exact H0|]. rewrite FM by exact H0.
    replace (b * Rpower (- ln (1 - p)) (1 / a) / b) with (Rpower (- ln (1 - p)) (1 / a)) by (field; lra).
    rewrite Rpower_mult. replace (1 / a * a) with 1 by (field; lra). rewrite Rpower_1 by lra. rewrite Ropp_involutive, exp_ln by lra. lra. }
  exists F, f. split; [|split; [|split; [|split; [|split; [|split; [|split; [|split; [|split]]]]]]]].
  - intros x. unfold weibullCDF, F. rewrite !rle_f by lra. cbn. destruct (rlt x 0); reflexivity.
  - intros x Hx. unfold weibullPDF, f. rewrite (rle_f a 0), (rle_f b 0) by lra. cbn. rewrite req_f by exact Hx. destruct (rle 0 x); reflexivity.
  - apply onto_distribution.
    + intros x y [Hy | <-]; [|lra]. destruct (Rlt_or_le x 0); [rewrite (F0 x) by lra; apply FB|]. apply Rlt_le, FS; lra.
    + intros x. pose proof (FB x). lra.
    + intros p Hp. eexists. apply (FQ p Hp).
  - intros x Hx. unfold density_at, f. destruct (Rlt_or_le x 0) as [A|A].
    + rewrite rle_f by exact A. apply slope_left with (G := fct_cte 0) (c := 0); [exact A|intros; apply F0; lra|apply derivable_pt_lim_const].
    + rewrite rle_t by exact A. assert (0 < x) as HX by lra. rewrite !rpow_pos by (apply Hd; exact HX).
      apply slope_right with (G := (fct_cte 1 - comp exp (- comp (fun z => Rpower z a) (fun y => ((y - 0) / b)%R)))%F) (c := 0); [exact HX| |].
      * intros y Hy. rewrite FM by lra. unfold minus_fct, comp, opp_fct, fct_cte. rewrite Rminus_0_r. reflexivity.
      * apply slope_eq with (l := 0 - exp (- Rpower ((x - 0) / b) a) * - (a * Rpower ((x - 0) / b) (a - 1) * (1 / b))).
        -- apply derivable_pt_lim_minus; [apply derivable_pt_lim_const|]. apply derivable_pt_lim_comp.
           ++ apply derivable_pt_lim_opp. apply derivable_pt_lim_comp; [apply slope_affine|].
              apply derivable_pt_lim_power. rewrite Rminus_0_r. apply Hd, HX.
           ++ apply derivable_pt_lim_exp.
        -- rewrite Rminus_0_r. field. lra.
  - exact FZ.
  - intros x Hx. unfold exponentialCDF. pose proof (Rpower_pos (x / b) a). rewrite rlt_f, !req_f, rle_f by lra. cbn.
    rewrite FM by exact Hx. do 4 f_equal. lra.
  - intros p Hp. destruct (FQ p Hp) as [Q0 Q1]. eexists. split; [|split; [exact Q1|]].
    + unfold weibullQF. rewrite (rle_f a 0), (rle_f b 0), !rle_t, req_f by lra. reflexivity.
    + apply strict_quantile; [exact Q1|]. intros y Hy. destruct (Rlt_or_le y 0); [rewrite F0 by lra; lra|].
      pose proof (FS y _ H Hy). lra.
  - unfold weibullQF. rewrite (rle_f a 0), (rle_f b 0), !rle_t, req_f by lra. cbn. rewrite Rminus_0_r, ln_1, Ropp_0, rpow_0. do 2 f_equal. lra.
  - unfold weibullQF. rewrite (rle_f a 0), (rle_f b 0), !rle_t, req_t by lra. reflexivity.
  - intros x. apply FB.
Qed.
Example C91_weibull_case : weibullCDF 3 2 3 = Ok (1 - exp (-1)).
Proof.
  unfold weibullCDF. rewrite !rle_f, rlt_f by lra. cbn. replace (3 / 3) with 1 by lra. rewrite rpow_pos by lra.
  unfold Rpower. rewrite ln_1, Rmult_0_r, exp_0. reflexivity.
Qed.
(** At 0: with shape 1 the density of the exponential distribution, with a larger shape 0, with a smaller one not a number *)
Theorem C91_weibull_zero : forall a b, 0 < b -> (weibullPDF 0 1 b = Ok (Fin (1 / b)) /\ exponentialPDF 0 (1 / b) = Ok (1 / b)) /\
  (1 < a -> weibullPDF 0 a b = Ok (Fin 0)) /\ (0 < a < 1 -> weibullPDF 0 a b = Ok NaN).
Proof.
  intros a b Hb. assert (0 < 1 / b) by (unfold Rdiv; rewrite Rmult_1_l; apply Rinv_0_lt_compat; exact Hb). repeat split; intros.
  - unfold weibullPDF. rewrite (rle_f 1 0), (rle_f b 0), rle_t, (req_t 0 0), (rlt_f 1 1), (req_t 1 1) by lra. reflexivity.
  - unfold exponentialPDF. rewrite !rlt_f, (req_f (1 / b)), req_t by lra. reflexivity.
  - unfold weibullPDF. rewrite (rle_f a 0), (rle_f b 0), rle_t, (req_t 0 0), (rlt_f a 1), (req_f a 1) by lra. reflexivity.
  - unfold weibullPDF. rewrite (rle_f a 0), (rle_f b 0), rle_t, (req_t 0 0), (rlt_t a 1) by lra. reflexivity.
Qed.

(** *** Gaussian *)
(** math.erf is taken to be a function with the slope and the limits of the error function. There is one such function, and only one. *)
Theorem C91_erf : exists erf, error_function erf /\ forall erf', error_function erf' -> forall x, erf' x = erf x.
Proof. exists the_erf. split; [exact erf_exists|exact erf_unique]. Qed.
Lemma erf_increasing erf : error_function erf -> forall x y, x < y -> erf x < erf y.
Proof.
  intros [D _] x y H. assert (forall z, derivable_pt erf z) as d by (intros z; eexists; apply D).
  destruct (MVT_cor1 erf x y d H) as [c [E _]].
  assert (derive_pt erf c (d c) = 2 / sqrt PI * exp (- c ^ 2)) as E2 by (apply derive_pt_eq_0, D).
  rewrite E2 in E. pose proof (exp_pos (- c ^ 2)). pose proof (sqrt_lt_R0 PI PI_pos). assert (0 < / sqrt PI) by (apply Rinv_0_lt_compat; lra).
  assert (0 < 2 / sqrt PI * exp (- c ^ 2) * (y - x)).
  { apply Rmult_lt_0_compat; [|lra]. apply Rmult_lt_0_compat; [|lra]. unfold Rdiv. apply Rmult_lt_0_compat; lra. }
  lra.
Qed.
Lemma erf_bounds erf : error_function erf -> forall x, -1 < erf x < 1.
Proof.
  intros E x. pose proof (erf_increasing erf E) as I. destruct E as [_ [L U]]. split.
  - destruct (Rlt_or_le (-1) (erf x)) as [H|H]; [exact H|]. pose proof (I (x - 1) x ltac:(lra)) as H1.
    destruct (L (-1 - erf (x - 1)) ltac:(lra)) as [M HM].
    pose proof (Rmin_l (M - 1) (x - 2)). pose proof (Rmin_r (M - 1) (x - 2)).
    specialize (HM (Rmin (M - 1) (x - 2)) ltac:(lra)). pose proof (I (Rmin (M - 1) (x - 2)) (x - 1) ltac:(lra)).
    rewrite Rabs_left in HM; lra.
  - destruct (Rlt_or_le (erf x) 1) as [H|H]; [exact H|]. pose proof (I x (x + 1) ltac:(lra)) as H1.
    destruct (U (erf (x + 1) - 1) ltac:(lra)) as [M HM].
    pose proof (Rmax_l (M + 1) (x + 2)). pose proof (Rmax_r (M + 1) (x + 2)).
    specialize (HM (Rmax (M + 1) (x + 2)) ltac:(lra)). pose proof (I (x + 1) (Rmax (M + 1) (x + 2)) ltac:(lra)).
    rewrite Rabs_pos_eq in HM; lra.
Qed.
Lemma sqrt2_pos : 0 < sqrt 2. Proof. apply sqrt_lt_R0. lra. Qed.
Lemma gauss_cdf_eq erf mu sigma x : 0 < sigma -> gauss_CDF erf mu sigma x = 1 / 2 * (1 + erf ((x - mu) / (sigma * sqrt 2))).
Proof. intros. unfold gauss_CDF. rewrite !req_f by lra. reflexivity. Qed.
Lemma gauss_slope erf mu sigma x : error_function erf -> 0 < sigma ->
  derivable_pt_lim (gauss_CDF erf mu sigma) x (gaussian_density mu sigma x).
Proof.
  intros [D _] Hs. pose proof sqrt2_pos as H2. pose proof (sqrt_lt_R0 PI PI_pos) as HP.
  assert (0 < sigma * sqrt 2) as Hc by (apply Rmult_lt_0_compat; lra).
  apply slope_near with (G := mult_real_fct (1 / 2) (fct_cte 1 + comp erf (fun y => ((y - mu) / (sigma * sqrt 2))%R))%F) (r := 1); [lra| |].
  - intros y _. apply gauss_cdf_eq. exact Hs.
  - apply slope_eq with (l := 1 / 2 * (0 + 2 / sqrt PI * exp (- ((x - mu) / (sigma * sqrt 2)) ^ 2) * (1 / (sigma * sqrt 2)))).
    + apply derivable_pt_lim_scal, derivable_pt_lim_plus; [apply derivable_pt_lim_const|].
      apply derivable_pt_lim_comp; [apply slope_affine|apply D].
    + unfold gaussian_density. replace (((x - mu) / (sigma * sqrt 2)) ^ 2) with (((x - mu) / sigma) ^ 2 / 2).
      * rewrite sqrt_mult by (pose proof PI_pos; lra). field. repeat split; lra.
      * assert (sqrt 2 ^ 2 = 2) as E2 by (rewrite <- Rsqr_pow2; apply Rsqr_sqrt; lra).
        unfold Rdiv. rewrite !Rpow_mult_distr. rewrite Rinv_mult by lra. rewrite Rpow_mult_distr.
        rewrite (pow_inv (sqrt 2)), E2. ring.
Qed.
Lemma gauss_distribution erf mu sigma : error_function erf -> 0 < sigma -> distribution_function (gauss_CDF erf mu sigma) /\
  (forall x y, x < y -> gauss_CDF erf mu sigma x < gauss_CDF erf mu sigma y) /\ (forall x, 0 < gauss_CDF erf mu sigma x < 1).
Proof.
  intros E Hs. pose proof sqrt2_pos as H2. assert (0 < sigma * sqrt 2) as Hc by (apply Rmult_lt_0_compat; lra).
  assert (forall x y, x < y -> gauss_CDF erf mu sigma x < gauss_CDF erf mu sigma y) as I.
  { intros x y H. rewrite !gauss_cdf_eq by exact Hs.
    assert ((x - mu) / (sigma * sqrt 2) < (y - mu) / (sigma * sqrt 2)) as H1.
    { unfold Rdiv. apply Rmult_lt_compat_r; [apply Rinv_0_lt_compat; exact Hc|lra]. }
    pose proof (erf_increasing erf E _ _ H1). lra. }
  split; [|split; [exact I|]].
  - split; [|split].
    + intros x y [H | ->]; [|lra]. apply Rlt_le, I, H.
    + intros eps He. destruct E as [_ [L _]]. destruct (L eps He) as [M HM]. exists (mu + M * (sigma * sqrt 2)). intros x Hx.
      assert ((x - mu) / (sigma * sqrt 2) < M) as H.
      { apply Rmult_lt_reg_r with (sigma * sqrt 2); [exact Hc|]. unfold Rdiv. rewrite Rmult_assoc, Rinv_l by lra. lra. }
      specialize (HM _ H). rewrite gauss_cdf_eq by exact Hs. unfold Rabs in *.
      destruct (Rcase_abs (erf _ - -1)), (Rcase_abs (1 / 2 * _ - 0)); lra.
    + intros eps He. destruct E as [_ [_ U]]. destruct (U eps He) as [M HM]. exists (mu + M * (sigma * sqrt 2)). intros x Hx.
      assert (M < (x - mu) / (sigma * sqrt 2)) as H.
      { apply Rmult_lt_reg_r with (sigma * sqrt 2); [exact Hc|]. unfold Rdiv. rewrite Rmult_assoc, Rinv_l by lra. lra. }
      specialize (HM _ H). rewrite gauss_cdf_eq by exact Hs. unfold Rabs in *.
      destruct (Rcase_abs (erf _ - 1)), (Rcase_abs (1 / 2 * _ - 1)); lra.
  - intros x. rewrite gauss_cdf_eq by exact Hs. pose proof (erf_bounds erf E ((x - mu) / (sigma * sqrt 2))). lra.
Qed.
Theorem C91_gaussian : forall erf mu sigma, error_function erf -> 0 < sigma -> exists F,
  (forall x, gaussianCDF erf x mu sigma = Ok (F x)) /\ distribution_function F /\ (forall x, 0 < F x < 1) /\
  (forall x, density_at (gaussian_density mu sigma) F x) /\
  (forall x, exists l, gaussianLL x mu sigma = Ok (Fin l) /\ exp l = gaussian_density mu sigma x).
Proof.
  intros erf mu sigma E Hs. destruct (gauss_distribution erf mu sigma E Hs) as [D [_ B]].
  exists (gauss_CDF erf mu sigma). split; [|split; [exact D|split; [exact B|split]]].
  - intros x. unfold gaussianCDF. rewrite rlt_f, req_f by lra. reflexivity.
  - intros x. apply gauss_slope; assumption.
  - intros x. unfold gaussianLL. rewrite rlt_f, req_f by lra. unfold gauss_LL. rewrite !req_f by lra. eexists. split; [reflexivity|].
    pose proof PI_pos. assert (0 < sigma * sqrt (2 * PI)) as Hp by (apply Rmult_lt_0_compat; [lra|apply sqrt_lt_R0; lra]).
    unfold Rminus at 1. rewrite exp_plus, exp_Ropp, exp_ln by exact Hp. unfold gaussian_density, Rdiv at 2. f_equal. f_equal.
    field. lra.
Qed.
Example C91_gaussian_case : gaussianCDF the_erf 5 5 2 = Ok (1 / 2) /\ distribution_function (gauss_CDF the_erf 5 2).
Proof.
  split; [|apply gauss_distribution; [exact erf_exists|lra]]. unfold gaussianCDF. rewrite rlt_f, req_f by lra. f_equal.
  rewrite gauss_cdf_eq by lra. unfold the_erf. replace ((5 - 5) / (2 * sqrt 2)) with 0 by (field; pose proof sqrt2_pos; lra). rewrite P_0. lra.
Qed.
(** With a deviation of 0 all the weight is at the mean *)
Theorem C91_gaussian_point : forall erf mu, exists F, (forall x, gaussianCDF erf x mu 0 = Ok (F x)) /\ distribution_function F /\
  (forall x, (x < mu -> F x = 0) /\ (mu <= x -> F x = 1)) /\
  (forall p, 0 < p < 1 -> gaussianQF p mu 0 = Ok (Fin mu) /\ quantile F p mu) /\
  (forall x, x <> mu -> gaussianLL x mu 0 = Ok NInf) /\ gaussianLL mu mu 0 = Ok PInf.
Proof.
  intros erf mu. set (F := fun x => if rlt x mu then 0 else 1).
  assert (forall x, x < mu -> F x = 0) as F0 by (intros; unfold F; rewrite rlt_t; auto).
  assert (forall x, mu <= x -> F x = 1) as F1 by (intros; unfold F; rewrite rlt_f; auto).
  exists F. split; [|split; [|split; [|split; [|split]]]].
  - intros x. unfold gaussianCDF, F. rewrite (rlt_f 0 0), req_t by lra. destruct (rlt x mu); reflexivity.
  - split; [|split].
    + intros x y H. destruct (Rlt_or_le x mu), (Rlt_or_le y mu); rewrite ?(F0 x), ?(F0 y), ?(F1 x), ?(F1 y) by assumption; lra.
    + intros eps He. exists mu. intros x Hx. rewrite F0 by exact Hx. rewrite Rminus_0_r, Rabs_R0. exact He.
    + intros eps He. exists mu. intros x Hx. rewrite F1 by lra. rewrite Rminus_diag_eq, Rabs_R0 by reflexivity. exact He.
  - intros x. split; [apply F0|apply F1].
  - intros p Hp. split.
    + unfold gaussianQF. rewrite rlt_f, !rle_t, (req_f p 1), (req_f p 0), req_t by lra. reflexivity.
    + split; [rewrite F1; lra|]. intros y Hy. destruct (Rlt_or_le y mu); [rewrite F0 in Hy by assumption; lra|assumption].
  - intros x Hx. unfold gaussianLL. rewrite rlt_f, req_t, req_f by (auto; lra). reflexivity.
  - unfold gaussianLL. rewrite rlt_f, !req_t by lra. reflexivity.
Qed.
(** ... and the quantile at 1 is the mean too, but the function returns infinity *)
Theorem C91_gaussian_point_refuted : forall erf mu, exists F, (forall x, gaussianCDF erf x mu 0 = Ok (F x)) /\
  quantile F 1 mu /\ gaussianQF 1 mu 0 = Ok PInf.
Proof.
  intros erf mu. destruct (C91_gaussian_point erf mu) as [F [H1 [_ [H2 _]]]]. exists F. split; [exact H1|split].
  - split; [destruct (H2 mu) as [_ H]; rewrite H; lra|]. intros y Hy. destruct (Rlt_or_le y mu) as [A|A]; [|exact A].
    destruct (H2 y) as [H _]. rewrite (H A) in Hy. lra.
  - unfold gaussianQF. rewrite rlt_f, !rle_t, (req_t 1 1) by lra. reflexivity.
Qed.
(** The quantile is an approximation whose accuracy is not proved here; what is proved: it is placed and scaled by the two parameters,
    symmetric about the mean, and infinite only at 0 and 1. Missing: it is within some bound of the quantile. *)
Theorem C91_gaussian_qf_partial : forall p, 0 < p < 1 -> exists z,
  (forall mu sigma, 0 <= sigma -> gaussianQF p mu sigma = Ok (Fin (mu + sigma * z))) /\
  (p <> 1 / 2 -> forall mu sigma, 0 <= sigma -> gaussianQF (1 - p) mu sigma = Ok (Fin (mu - sigma * z))) /\
  (forall mu sigma, 0 <= sigma -> gaussianQF 0 mu sigma = Ok NInf /\ gaussianQF 1 mu sigma = Ok PInf).
Proof.
  intros p Hp.
  set (z := if rlt (1 / 2) p then gauss_g (sqrt (-2 * ln (1 - p))) else - gauss_g (sqrt (-2 * ln p))).
  exists z. split; [|split].
  - intros mu sigma Hs. unfold gaussianQF. rewrite rlt_f, !rle_t, !req_f by lra. cbn.
    unfold req. destruct (Req_EM_T sigma 0) as [-> | Hn]; [do 2 f_equal; lra|]. unfold gauss_QF. rewrite !req_f by (auto; lra).
    unfold z. destruct (rlt (1 / 2) p); do 2 f_equal; lra.
  - intros Hh mu sigma Hs. unfold gaussianQF. rewrite rlt_f, !rle_t, !req_f by lra. cbn.
    unfold req. destruct (Req_EM_T sigma 0) as [-> | Hn]; [do 2 f_equal; lra|]. unfold gauss_QF. rewrite !req_f by (auto; lra).
    unfold z. destruct (Rlt_or_le (1 / 2) p) as [A|A].
    + rewrite (rlt_t (1 / 2) p), rlt_f by lra. do 2 f_equal. lra.
    + rewrite (rlt_f (1 / 2) p), rlt_t by lra. replace (1 - (1 - p)) with p by lra. do 2 f_equal. lra.
  - intros mu sigma Hs. unfold gaussianQF. rewrite rlt_f, !rle_t, (req_t 0 0), (req_t 1 1), (req_f 0 1) by lra. auto.
Qed.
(** A record of mean and variance gives what the mean and the square root of the variance give *)
Theorem C91_gaussian_record : forall erf x p mu sigma, 0 <= sigma ->
  with_record 13000 (gaussianLL x) mu (sigma * sigma) = gaussianLL x mu sigma /\
  with_record 13010 (gaussianCDF erf x) mu (sigma * sigma) = gaussianCDF erf x mu sigma /\
  with_record 13020 (gaussianQF p) mu (sigma * sigma) = gaussianQF p mu sigma.
Proof.
  intros erf x p mu sigma Hs. assert (0 <= sigma * sigma) by (apply Rmult_le_pos; exact Hs).
  unfold with_record. rewrite rlt_f, sqrt_square by assumption. auto.
Qed.

(** *** Lognormal *)
Lemma log_pos erf mu sigma x : 0 < x -> log_CDF erf mu sigma x = gauss_CDF erf 0 1 ((ln x - mu) / sigma).
Proof. intros. unfold log_CDF. rewrite rle_f by lra. reflexivity. Qed.
Lemma log_gauss erf mu sigma x : 0 < sigma -> gauss_CDF erf 0 1 ((x - mu) / sigma) = gauss_CDF erf mu sigma x.
Proof. intros. pose proof sqrt2_pos. rewrite !gauss_cdf_eq by lra. do 3 f_equal. field. split; lra. Qed.
Lemma log_facts erf mu sigma : error_function erf -> 0 < sigma ->
  (forall x, x <= 0 -> log_CDF erf mu sigma x = 0) /\
  (forall x, 0 < log_CDF erf mu sigma x -> 0 < x) /\
  (forall x, 0 <= log_CDF erf mu sigma x < 1) /\
  (forall x y, x <= y -> log_CDF erf mu sigma x <= log_CDF erf mu sigma y) /\
  distribution_function (log_CDF erf mu sigma).
Proof.
  intros E Hs. destruct (gauss_distribution erf mu sigma E Hs) as [[GM [GL GU]] [GI GB]].
  assert (forall x, x <= 0 -> log_CDF erf mu sigma x = 0) as F0 by (intros; unfold log_CDF; rewrite rle_t; auto).
  assert (forall x, 0 < x -> log_CDF erf mu sigma x = gauss_CDF erf mu sigma (ln x)) as FM.
  { intros x Hx. rewrite log_pos, log_gauss by assumption. reflexivity. }
  assert (forall x, 0 <= log_CDF erf mu sigma x < 1) as FB.
  { intros x. destruct (Rle_or_lt x 0); [rewrite F0 by assumption; lra|]. rewrite FM by assumption. pose proof (GB (ln x)). lra. }
  assert (forall x y, x <= y -> log_CDF erf mu sigma x <= log_CDF erf mu sigma y) as FI.
  { intros x y H. destruct (Rle_or_lt x 0); [rewrite F0 by assumption; apply FB|]. rewrite !FM by lra. apply GM.
    destruct H as [H | ->]; [|lra]. apply Rlt_le, ln_increasing; assumption. }
  repeat split; try assumption; try apply FB.
  - intros x H. destruct (Rle_or_lt x 0); [rewrite F0 in H by assumption; lra|assumption].
  - intros eps He. exists 0. intros x Hx. rewrite F0, Rminus_0_r, Rabs_R0 by lra. exact He.
  - intros eps He. destruct (GU eps He) as [M HM]. exists (exp M). intros x Hx. pose proof (exp_pos M).
    rewrite FM by lra. apply HM. rewrite <- (ln_exp M). apply ln_increasing; assumption.
Qed.
Theorem C91_lognormal : forall erf mu sigma, error_function erf -> 0 < sigma -> exists F f,
  (forall x, lognormalCDF erf x mu sigma = Ok (F x) /\ lognormalPDF x mu sigma = Ok (f x)) /\
  distribution_function F /\ (forall x, x <> 0 -> density_at f F x) /\
  (forall x, x <= 0 -> F x = 0) /\ (forall x, gaussianCDF erf x mu sigma = Ok (F (exp x))).
Proof.
  intros erf mu sigma E Hs. destruct (log_facts erf mu sigma E Hs) as [F0 [_ [FB [FI FD]]]].
  set (f := fun x => if rle x 0 then 0 else 1 / (x * sigma * sqrt (2 * PI)) * exp (- ((ln x - mu) ^ 2 / (2 * sigma ^ 2)))).
  exists (log_CDF erf mu sigma), f. split; [|split; [|split; [|split]]].
  - intros x. unfold lognormalCDF, lognormalPDF, f. rewrite !(rle_f sigma 0) by lra. split; [reflexivity|]. destruct (rle x 0); reflexivity.
  - exact FD.
  - intros x Hx. unfold density_at, f. destruct (Rle_or_lt x 0) as [A|A].
    + rewrite rle_t by exact A. apply slope_left with (G := fct_cte 0) (c := 0); [lra|intros; apply F0; lra|apply derivable_pt_lim_const].
    + rewrite rle_f by exact A. apply slope_right with (G := comp (gauss_CDF erf mu sigma) ln) (c := 0); [exact A| |].
      * intros y Hy. rewrite log_pos, log_gauss by assumption. reflexivity.
      * apply slope_eq with (l := gaussian_density mu sigma (ln x) * / x).
        -- apply derivable_pt_lim_comp; [apply derivable_pt_lim_ln; exact A|apply gauss_slope; assumption].
        -- unfold gaussian_density. replace (((ln x - mu) / sigma) ^ 2 / 2) with ((ln x - mu) ^ 2 / (2 * sigma ^ 2)) by (field; lra).
           pose proof PI_pos. assert (0 < sqrt (2 * PI)) by (apply sqrt_lt_R0; lra). field. repeat split; lra.
  - exact F0.
  - intros x. pose proof (exp_pos x). rewrite log_pos, log_gauss, ln_exp by assumption. unfold gaussianCDF. rewrite rlt_f, req_f by lra. reflexivity.
Qed.
Example C91_lognormal_case : lognormalCDF the_erf 1 0 1 = Ok (1 / 2).
Proof.
  unfold lognormalCDF. rewrite rle_f by lra. f_equal. rewrite log_pos, log_gauss, gauss_cdf_eq by lra. unfold the_erf.
  rewrite ln_1. replace ((0 - 0) / (1 * sqrt 2)) with 0 by (field; pose proof sqrt2_pos; lra). rewrite P_0. lra.
Qed.
(** The search for the quantile *)
Lemma bisect_sound cdf p : forall fuel low high q, bisect cdf p fuel low high = Some q -> Rabs (cdf q - p) <= 1 / 100000000.
Proof.
  induction fuel as [|fuel IH]; intros low high q; [discriminate|]. cbn [bisect].
  destruct (rlt 0 (cdf ((low + high) / 2) - p)), (rlt (1 / 100000000) (Rabs (cdf ((low + high) / 2) - p))) eqn:Q; try apply IH;
    intros H; injection H as <-; unfold rlt in Q; destruct (Rlt_dec (1 / 100000000) (Rabs (cdf ((low + high) / 2) - p))) in Q; try discriminate; lra.
Qed.
Lemma bisect_ends cdf p delta : 0 < delta -> (forall fuel low high, low < high -> (high - low) / 2 ^ fuel < delta ->
  cdf low <= p <= cdf high ->
  (forall x y, low <= x <= high -> low <= y <= high -> Rabs (x - y) < delta -> Rabs (cdf x - cdf y) <= 1 / 100000000) ->
  exists q, bisect cdf p (S fuel) low high = Some q).
Proof.
  intros Hd. induction fuel as [|fuel IH]; intros low high Hl Hw Hp Hc.
  - set (mid := (low + high) / 2). assert (low < mid < high) as Hm by (unfold mid; lra).
    cbn [bisect]. fold mid. assert (Rabs (cdf mid - p) <= 1 / 100000000) as Q.
    { cbn in Hw. unfold Rdiv in Hw. rewrite Rinv_1 in Hw.
      pose proof (Hc mid low ltac:(lra) ltac:(lra) ltac:(rewrite Rabs_pos_eq; lra)) as L.
      pose proof (Hc high mid ltac:(lra) ltac:(lra) ltac:(rewrite Rabs_pos_eq; lra)) as U.
      unfold Rabs in *. destruct (Rcase_abs (cdf mid - cdf low)), (Rcase_abs (cdf high - cdf mid)), (Rcase_abs (cdf mid - p)); lra. }
    destruct (rlt 0 (cdf mid - p)); rewrite (rlt_f (1 / 100000000)) by exact Q; eauto.
  - set (mid := (low + high) / 2). assert (low < mid < high) as Hm by (unfold mid; lra).
    assert (0 < 2 ^ fuel) as H2 by (apply pow_lt; lra).
    assert (forall w, w = (high - low) / 2 -> w / 2 ^ fuel < delta) as Hh.
    { intros w ->. replace ((high - low) / 2 / 2 ^ fuel) with ((high - low) / 2 ^ S fuel); [exact Hw|]. cbn. field. lra. }
    remember (S fuel) as n. cbn [bisect]. fold mid. subst n.
    destruct (Rlt_or_le 0 (cdf mid - p)) as [A|A]; [rewrite (rlt_t 0) by exact A|rewrite (rlt_f 0) by exact A].
    + destruct (rlt (1 / 100000000) (Rabs (cdf mid - p))); [|eauto].
      apply IH; [lra|apply Hh; unfold mid; lra|lra|]. intros x y Hx Hy. apply Hc; lra.
    + destruct (rlt (1 / 100000000) (Rabs (cdf mid - p))); [|eauto].
      apply IH; [lra|apply Hh; unfold mid; lra|lra|]. intros x y Hx Hy. apply Hc; lra.
Qed.
Lemma bisect_more cdf p : forall fuel k low high q, bisect cdf p fuel low high = Some q -> bisect cdf p (fuel + k) low high = Some q.
Proof.
  induction fuel as [|fuel IH]; intros k low high q; [discriminate|]. cbn [bisect Nat.add].
  destruct (rlt 0 (cdf ((low + high) / 2) - p)), (rlt (1 / 100000000) (Rabs (cdf ((low + high) / 2) - p))); auto.
Qed.
Lemma grow_ends cdf p : forall n high, 0 < high -> ~ cdf (high * 2 ^ n) < p -> exists h, high <= h /\ ~ cdf h < p /\
  forall k, grow cdf p (S n + k) high = Some h.
Proof.
  induction n as [|n IH]; intros high Hh Hn.
  - cbn in Hn. rewrite Rmult_1_r in Hn. exists high. split; [lra|split; [exact Hn|]]. intros k. cbn. rewrite rlt_f by lra. reflexivity.
  - destruct (Rlt_or_le (cdf high) p) as [A|A].
    + destruct (IH (high * 2) ltac:(lra)) as [h [H1 [H2 H3]]].
      { replace (high * 2 * 2 ^ n) with (high * 2 ^ S n) by (cbn; ring). exact Hn. }
      exists h. split; [lra|split; [exact H2|]]. intros k. change (S (S n) + k)%nat with (S (S n + k)). cbn [grow].
      rewrite rlt_t by exact A. apply H3.
    + exists high. split; [lra|split; [lra|]]. intros k. cbn [grow Nat.add]. rewrite rlt_f by exact A. reflexivity.
Qed.
Theorem C91_lognormal_qf : forall erf mu sigma p, error_function erf -> 0 < sigma -> 0 < p < 1 ->
  (exists enough q, forall fuel, (enough <= fuel)%nat -> lognormalQF erf fuel p mu sigma = Some (Ok (Fin q))) /\
  (forall fuel r, lognormalQF erf fuel p mu sigma = Some r -> exists q c, r = Ok (Fin q) /\
     lognormalCDF erf q mu sigma = Ok c /\ Rabs (c - p) <= 1 / 100000000) /\
  (forall fuel, lognormalQF erf fuel 0 mu sigma = Some (Ok (Fin 0)) /\ lognormalQF erf fuel 1 mu sigma = Some (Ok PInf)).
Proof.
  intros erf mu sigma p E Hs Hp. destruct (log_facts erf mu sigma E Hs) as [F0 [FP [FB [FI [_ [_ FU]]]]]].
  set (F := log_CDF erf mu sigma) in *.
  assert (forall fuel q, 0 < q < 1 -> lognormalQF erf fuel q mu sigma = match grow F q fuel 1 with None => None
    | Some high => match bisect F q fuel 0 high with None => None | Some mid => Some (Ok (Fin mid)) end end) as U.
  { intros fuel q Hq. unfold lognormalQF. rewrite (rle_f sigma 0), !rle_t, !req_f by lra. reflexivity. }
  split; [|split].
  - destruct (FU (1 - p) ltac:(lra)) as [M HM].
    destruct (Pow_x_infinity 2 ltac:(rewrite Rabs_pos_eq; lra) (M + 1)) as [n Hn]. specialize (Hn n (le_n n)).
    assert (0 < 2 ^ n) as H2 by (apply pow_lt; lra). rewrite Rabs_pos_eq in Hn by lra.
    destruct (grow_ends F p n 1 ltac:(lra)) as [h [Hh [Hhp Hg]]].
    { rewrite Rmult_1_l. specialize (HM (2 ^ n) ltac:(lra)). unfold Rabs in HM. destruct (Rcase_abs (F (2 ^ n) - 1)); lra. }
    (* a modulus of continuity on [0, h] *)
    assert (exists delta, 0 < delta /\ forall x y, 0 <= x <= h -> 0 <= y <= h -> Rabs (x - y) < delta -> Rabs (F x - F y) <= 1 / 100000000) as [delta [Hd Hc]].
    { assert (forall x, 0 <= x <= h -> continuity_pt F x) as C.
      { intros x [[Hx | <-] _].
        - apply derivable_continuous_pt. eexists.
          apply slope_right with (G := comp (gauss_CDF erf mu sigma) ln) (c := 0); [exact Hx| |].
          + intros y Hy. unfold F. rewrite log_pos, log_gauss by assumption. reflexivity.
          + apply derivable_pt_lim_comp; [apply derivable_pt_lim_ln; exact Hx|apply gauss_slope; assumption].
        - destruct (gauss_distribution erf mu sigma E Hs) as [[_ [GL _]] [_ GB]].
          intros eps He. destruct (GL eps He) as [m Hm]. exists (exp m). split; [apply exp_pos|].
          intros x [_ Hx]. cbn in *. unfold R_dist in *. rewrite (F0 0), Rminus_0_r by lra. rewrite Rminus_0_r in Hx.
          destruct (Rle_or_lt x 0) as [A|A]; [rewrite F0, Rabs_R0 by exact A; exact He|].
          unfold F. rewrite log_pos, log_gauss by assumption. rewrite <- (Rminus_0_r (gauss_CDF _ _ _ _)). apply Hm.
          rewrite Rabs_pos_eq in Hx by lra. rewrite <- (ln_exp m). apply ln_increasing; assumption. }
      assert (0 < 1 / 100000000) as Hpos by lra.
      destruct (Heine_cor2 C (mkposreal _ Hpos)) as [delta Hc]. exists delta. split; [apply cond_pos|].
      intros x y Hx Hy Hxy. apply Rlt_le. apply (Hc x y Hx Hy Hxy). }
    destruct (Pow_x_infinity 2 ltac:(rewrite Rabs_pos_eq; lra) (h / delta + 1)) as [m Hm]. specialize (Hm m (le_n m)).
    assert (0 < 2 ^ m) as H3 by (apply pow_lt; lra). rewrite Rabs_pos_eq in Hm by lra.
    destruct (bisect_ends F p delta Hd m 0 h ltac:(lra)) as [q Hq].
    + apply Rmult_lt_reg_r with (2 ^ m); [exact H3|]. unfold Rdiv. rewrite Rmult_assoc, Rinv_l, Rmult_1_r by lra.
      apply Rlt_le_trans with (delta * (h / delta + 1)).
      * replace (delta * (h / delta + 1)) with (h + delta) by (field; lra). lra.
      * apply Rmult_le_compat_l; lra.
    + rewrite F0 by lra. lra.
    + exact Hc.
    + exists (S n + S m)%nat, q. intros fuel Hf. rewrite U by lra.
      replace fuel with (S n + (fuel - S n))%nat at 1 by lia. rewrite Hg.
      replace fuel with (S m + (fuel - S m))%nat by lia. rewrite (bisect_more _ _ _ _ _ _ _ Hq). reflexivity.
  - intros fuel r. rewrite U by exact Hp. destruct (grow F p fuel 1) as [h|]; [|discriminate].
    destruct (bisect F p fuel 0 h) as [q|] eqn:Q; [|discriminate]. intros H. injection H as <-. exists q, (F q).
    split; [reflexivity|split; [|exact (bisect_sound _ _ _ _ _ _ Q)]].
    unfold lognormalCDF. rewrite rle_f by lra. reflexivity.
  - intros fuel. unfold lognormalQF. rewrite !(rle_f sigma 0), !rle_t, (req_t 1 1), (req_f 0 1), (req_t 0 0) by lra. auto.
Qed.
Example C91_lognormal_qf_case : exists enough q c, (forall fuel, (enough <= fuel)%nat -> lognormalQF the_erf fuel (1 / 3) 0 1 = Some (Ok (Fin q))) /\
  lognormalCDF the_erf q 0 1 = Ok c /\ Rabs (c - 1 / 3) <= 1 / 100000000.
Proof.
  destruct (C91_lognormal_qf the_erf 0 1 (1 / 3) erf_exists ltac:(lra) ltac:(lra)) as [[n [q H]] [S _]].
  destruct (S n _ (H n (le_n n))) as [q' [c [E [A B]]]]. injection E as <-. exists n, q, c. auto.
Qed.

(** *** Refusals *)
Theorem C91_refused : forall erf fuel x p mu sigma mi ma a b rate,
  (sigma < 0 -> gaussianLL x mu sigma = Raise (PFAErr 13000) /\ gaussianCDF erf x mu sigma = Raise (PFAErr 13010) /\ gaussianQF p mu sigma = Raise (PFAErr 13020) /\
     with_record 13000 (gaussianLL x) mu sigma = Raise (PFAErr 13000) /\ with_record 13010 (gaussianCDF erf x) mu sigma = Raise (PFAErr 13010) /\
     with_record 13020 (gaussianQF p) mu sigma = Raise (PFAErr 13020)) /\
  (rate < 0 -> exponentialPDF x rate = Raise (PFAErr 13030) /\ exponentialCDF x rate = Raise (PFAErr 13040) /\ exponentialQF p rate = Raise (PFAErr 13050)) /\
  (sigma <= 0 -> cauchyPDF x mu sigma = Raise (PFAErr 13180) /\ cauchyCDF x mu sigma = Raise (PFAErr 13190) /\ cauchyQF p mu sigma = Raise (PFAErr 13200)) /\
  (sigma <= 0 -> lognormalPDF x mu sigma = Raise (PFAErr 13240) /\ lognormalCDF erf x mu sigma = Raise (PFAErr 13250) /\
     lognormalQF erf fuel p mu sigma = Some (Raise (PFAErr 13260))) /\
  (ma <= mi -> uniformPDF x mi ma = Raise (PFAErr 13330) /\ uniformCDF x mi ma = Raise (PFAErr 13340) /\ uniformQF p mi ma = Raise (PFAErr 13350)) /\
  (a <= 0 \/ b <= 0 -> weibullPDF x a b = Raise (PFAErr 13420) /\ weibullCDF x a b = Raise (PFAErr 13430) /\ weibullQF p a b = Raise (PFAErr 13440)) /\
  (p < 0 \/ 1 < p -> (0 <= sigma -> gaussianQF p mu sigma = Raise (PFAErr 13021)) /\ (0 <= rate -> exponentialQF p rate = Raise (PFAErr 13051)) /\
     (0 < sigma -> cauchyQF p mu sigma = Raise (PFAErr 13201) /\ lognormalQF erf fuel p mu sigma = Some (Raise (PFAErr 13261))) /\
     (mi < ma -> uniformQF p mi ma = Raise (PFAErr 13351)) /\ (0 < a -> 0 < b -> weibullQF p a b = Raise (PFAErr 13441))).
Proof.
  intros. split; [|split; [|split; [|split; [|split; [|split]]]]].
  - intros H. unfold gaussianLL, gaussianCDF, gaussianQF, with_record. rewrite !rlt_t by exact H. auto 8.
  - intros H. unfold exponentialPDF, exponentialCDF, exponentialQF. rewrite !rlt_t by exact H. auto.
  - intros H. unfold cauchyPDF, cauchyCDF, cauchyQF. rewrite !(rle_t sigma 0) by exact H. auto.
  - intros H. unfold lognormalPDF, lognormalCDF, lognormalQF. rewrite !(rle_t sigma 0) by exact H. auto.
  - intros H. unfold uniformPDF, uniformCDF, uniformQF. rewrite !(rle_t ma mi) by exact H. auto.
  - intros H. assert (rle a 0 || rle b 0 = true) as E by (destruct H; rewrite (rle_t _ 0 H), ?orb_true_r; reflexivity).
    unfold weibullPDF, weibullCDF, weibullQF. rewrite E. auto.
  - intros H. assert (negb (rle 0 p && rle p 1) = true) as E.
    { destruct H; [rewrite (rle_f 0 p) by assumption|rewrite (rle_f p 1), andb_false_r by assumption]; reflexivity. }
    unfold gaussianQF, exponentialQF, cauchyQF, lognormalQF, uniformQF, weibullQF. rewrite E. repeat split; intros.
    + rewrite rlt_f by assumption. reflexivity.
    + rewrite rlt_f by assumption. reflexivity.
    + rewrite rle_f by assumption. reflexivity.
    + rewrite rle_f by assumption. reflexivity.
    + rewrite rle_f by assumption. reflexivity.
    + rewrite !rle_f by assumption. reflexivity.
Qed.
Print Assumptions C91_uniform.
Print Assumptions C91_exponential.
Print Assumptions C91_exponential_refuted.
Print Assumptions C91_cauchy.
Print Assumptions C91_weibull.
Print Assumptions C91_weibull_zero.
Print Assumptions C91_erf.
Print Assumptions C91_gaussian.
Print Assumptions C91_gaussian_point.
Print Assumptions C91_gaussian_point_refuted.
Print Assumptions C91_gaussian_qf_partial.
Print Assumptions C91_gaussian_record.
Print Assumptions C91_lognormal.
Print Assumptions C91_lognormal_qf.
Print Assumptions C91_refused.
