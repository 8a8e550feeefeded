(** The error function exists: the hypothesis of C91 about math.erf is met by a function, and by one only. *)
From Coq Require Import Reals Lra Lia.
From Verif Require Import ContSpec.
Open Scope R_scope.

Lemma lim_eq F x l l' : derivable_pt_lim F x l -> l = l' -> derivable_pt_lim F x l'.
Proof. intros H <-. exact H. Qed.
Lemma lim_ext F G x l : (forall y, F y = G y) -> derivable_pt_lim G x l -> derivable_pt_lim F x l.
Proof. intros E D eps He. destruct (D eps He) as [d Hd]. exists d. intros h H1 H2. rewrite !E. apply Hd; assumption. Qed.

(** A primitive on [0, 1] of a continuous function *)
Definition prim (f : R -> R) (C : forall x, 0 <= x <= 1 -> continuity_pt f x) : R -> R :=
  primitive Rle_0_1 (FTC_P1 Rle_0_1 C).
Lemma prim_slope f C x : 0 <= x <= 1 -> derivable_pt_lim (prim f C) x (f x).
Proof. intros H. apply RiemannInt_P28. exact H. Qed.
(** What is between two bounds has an integral between them *)
Lemma mean f F m M : (forall x, 0 <= x <= 1 -> derivable_pt_lim F x (f x)) -> (forall x, 0 <= x <= 1 -> m <= f x <= M) -> m <= F 1 - F 0 <= M.
Proof. intros D B. destruct (MVT_cor2 F f 0 1 ltac:(lra) D) as [c [E Hc]]. rewrite E. specialize (B c ltac:(lra)). lra. Qed.
(** Differentiation under the integral *)
Lemma under (f D : R -> R -> R) (F : R -> R -> R) (K : R -> R) (t L : R) :
  (forall s x, 0 <= x <= 1 -> derivable_pt_lim (F s) x (f s x)) ->
  (forall x, 0 <= x <= 1 -> derivable_pt_lim K x (D t x)) ->
  (forall s x, 0 <= x <= 1 -> derivable_pt_lim (fun s => f s x) s (D s x)) ->
  (forall s x, 0 <= x <= 1 -> Rabs (s - t) <= 1 -> Rabs (D s x - D t x) <= L * Rabs (s - t)) ->
  derivable_pt_lim (fun s => F s 1 - F s 0) t (K 1 - K 0).
Proof.
  intros HF HK HD HL eps He.
  assert (0 <= L) as L0.
  { specialize (HL (t + 1) 0 ltac:(lra)). replace (t + 1 - t) with 1 in HL by lra. rewrite Rabs_R1 in HL. specialize (HL (Rle_refl 1)).
    pose proof (Rabs_pos (D (t + 1) 0 - D t 0)). lra. }
  assert (0 < Rmin 1 (eps / (L + 1))) as Hm.
  { apply Rmin_glb_lt; [lra|]. unfold Rdiv. apply Rmult_lt_0_compat; [exact He|]. apply Rinv_0_lt_compat. lra. }
  exists (mkposreal _ Hm). cbn. intros h Hh Hs. pose proof (Rmin_l 1 (eps / (L + 1))). pose proof (Rmin_r 1 (eps / (L + 1))).
  assert (forall x, 0 <= x <= 1 -> Rabs (f (t + h) x - f t x - h * D t x) <= L * Rabs h * Rabs h) as B.
  { intros x Hx.
    assert (exists c, f (t + h) x - f t x = D c x * h /\ Rabs (c - t) <= Rabs h) as [c [E Hc]].
    { destruct (Rlt_or_le 0 h).
      - destruct (MVT_cor2 (fun s => f s x) (fun s => D s x) t (t + h) ltac:(lra) (fun c _ => HD c x Hx)) as [c [E Hc]].
        exists c. split; [rewrite E; f_equal; lra|]. rewrite !Rabs_pos_eq; lra.
      - destruct (MVT_cor2 (fun s => f s x) (fun s => D s x) (t + h) t ltac:(lra) (fun c _ => HD c x Hx)) as [c [E Hc]].
        exists c. split; [replace (D c x * h) with (- (D c x * (t - (t + h)))) by ring; rewrite <- E; ring|]. rewrite !Rabs_left1; lra. }
    rewrite E. replace (D c x * h - h * D t x) with ((D c x - D t x) * h) by ring. rewrite Rabs_mult.
    apply Rmult_le_compat_r; [apply Rabs_pos|]. apply Rle_trans with (L * Rabs (c - t)); [apply HL; [exact Hx|lra]|].
    apply Rmult_le_compat_l; assumption. }
  assert (Rabs (F (t + h) 1 - F (t + h) 0 - (F t 1 - F t 0) - h * (K 1 - K 0)) <= L * Rabs h * Rabs h) as Q.
  { pose proof (mean (fun x => f (t + h) x - f t x - h * D t x) (fun x => F (t + h) x - F t x - h * K x) (- (L * Rabs h * Rabs h)) (L * Rabs h * Rabs h)) as Q.
    cbn beta in Q. apply Rabs_le. 
    replace (F (t + h) 1 - F (t + h) 0 - (F t 1 - F t 0) - h * (K 1 - K 0)) with (F (t + h) 1 - F t 1 - h * K 1 - (F (t + h) 0 - F t 0 - h * K 0)) by ring.
    apply Q.
    - intros x Hx. apply (derivable_pt_lim_minus (minus_fct (F (t + h)) (F t)) (mult_real_fct h K)).
      + apply derivable_pt_lim_minus; apply HF; exact Hx.
      + apply derivable_pt_lim_scal, HK, Hx.
    - intros x Hx. specialize (B x Hx). unfold Rabs at 1 in B. destruct (Rcase_abs (f (t + h) x - f t x - h * D t x)); lra. }
  replace ((F (t + h) 1 - F (t + h) 0 - (F t 1 - F t 0)) / h - (K 1 - K 0)) with
    ((F (t + h) 1 - F (t + h) 0 - (F t 1 - F t 0) - h * (K 1 - K 0)) * / h) by (field; exact Hh).
  assert (0 < Rabs h) as Hp by (apply Rabs_pos_lt; exact Hh).
  rewrite Rabs_mult, Rabs_inv. apply Rle_lt_trans with (L * Rabs h * Rabs h * / Rabs h).
  - apply Rmult_le_compat_r; [apply Rlt_le, Rinv_0_lt_compat; exact Hp|exact Q].
  - rewrite Rmult_assoc, Rinv_r, Rmult_1_r by lra.
    apply Rle_lt_trans with ((L + 1) * Rabs h - Rabs h); [lra|].
    assert ((L + 1) * Rabs h < (L + 1) * (eps / (L + 1))) by (apply Rmult_lt_compat_l; lra).
    replace ((L + 1) * (eps / (L + 1))) with eps in H1 by (field; lra). lra.
Qed.

(** The slope of exp (- k s^2) *)
Lemma bell k s : derivable_pt_lim (fun s => exp (- (k * (s * s)))) s (- (2 * k * s) * exp (- (k * (s * s)))).
Proof.
  apply lim_eq with (l := exp (- (k * (s * s))) * - (k * (1 * s + s * 1))); [|ring].
  apply (derivable_pt_lim_comp (- mult_real_fct k (id * id))%F exp).
  - apply derivable_pt_lim_opp, derivable_pt_lim_scal. apply (derivable_pt_lim_mult id id); apply derivable_pt_lim_id.
  - apply derivable_pt_lim_exp.
Qed.
Lemma slope_poly c0 c1 c2 s : derivable_pt_lim (fun s => c0 + c1 * s + c2 * (s * s)) s (c1 + 2 * c2 * s).
Proof.
  apply lim_eq with (l := (0 + c1 * 1) + c2 * (1 * s + s * 1)); [|ring].
  apply (derivable_pt_lim_plus (fct_cte c0 + mult_real_fct c1 id)%F (mult_real_fct c2 (id * id)%F)).
  - apply derivable_pt_lim_plus; [apply derivable_pt_lim_const|apply derivable_pt_lim_scal, derivable_pt_lim_id].
  - apply derivable_pt_lim_scal. apply (derivable_pt_lim_mult id id); apply derivable_pt_lim_id.
Qed.
(** The slope of a polynomial of degree two times the bell *)
Lemma poly_bell c0 c1 c2 k s : derivable_pt_lim (fun s => (c0 + c1 * s + c2 * (s * s)) * exp (- (k * (s * s)))) s
  ((c1 + 2 * c2 * s - 2 * k * s * (c0 + c1 * s + c2 * (s * s))) * exp (- (k * (s * s)))).
Proof.
  eapply lim_eq; [apply (derivable_pt_lim_mult (fun s => c0 + c1 * s + c2 * (s * s)) (fun s => exp (- (k * (s * s)))));
    [apply slope_poly|apply bell]|]. ring.
Qed.
Lemma bell_bounds k s : 0 <= k -> 0 < exp (- (k * (s * s))) <= 1.
Proof.
  intros H. split; [apply exp_pos|]. rewrite <- exp_0. pose proof (Rle_0_sqr s) as Q. unfold Rsqr in Q.
  assert (0 <= k * (s * s)) as [P | P] by (apply Rmult_le_pos; assumption).
  - apply Rlt_le, exp_increasing. lra.
  - rewrite <- P. rewrite Ropp_0. lra.
Qed.
(** ... which is bounded around a point, so the function satisfies a Lipschitz condition there *)
Lemma lipschitz (g g' : R -> R) t B : (forall s, derivable_pt_lim g s (g' s)) -> (forall s, Rabs (s - t) <= 1 -> Rabs (g' s) <= B) ->
  forall s, Rabs (s - t) <= 1 -> Rabs (g s - g t) <= B * Rabs (s - t).
Proof.
  intros D HB s Hs. assert (exists c, g s - g t = g' c * (s - t) /\ Rabs (c - t) <= 1) as [c [E Hc]].
  { destruct (Rtotal_order s t) as [H | [-> | H]].
    - destruct (MVT_cor2 g g' s t H (fun c _ => D c)) as [c [E Hc]]. exists c. split; [lra|].
      rewrite Rabs_left in *; lra.
    - exists t. rewrite !Rminus_diag_eq, Rabs_R0 by reflexivity. split; lra.
    - destruct (MVT_cor2 g g' t s H (fun c _ => D c)) as [c [E Hc]]. exists c. split; [lra|].
      rewrite Rabs_pos_eq in *; lra. }
  rewrite E, Rabs_mult. apply Rmult_le_compat_r; [apply Rabs_pos|]. apply HB, Hc.
Qed.
Lemma near_abs s t : Rabs (s - t) <= 1 -> Rabs s <= Rabs t + 1.
Proof. intros H. pose proof (Rabs_triang (s - t) t). replace (s - t + t) with s in H0 by lra. lra. Qed.
Lemma abs_mult_le a b A B : Rabs a <= A -> Rabs b <= B -> Rabs (a * b) <= A * B.
Proof. intros. rewrite Rabs_mult. apply Rmult_le_compat; try apply Rabs_pos; assumption. Qed.
Lemma abs_plus_le a b A B : Rabs a <= A -> Rabs b <= B -> Rabs (a + b) <= A + B.
Proof. intros. pose proof (Rabs_triang a b). lra. Qed.
Lemma abs_minus_le a b A B : Rabs a <= A -> Rabs b <= B -> Rabs (a - b) <= A + B.
Proof. intros. unfold Rminus. apply abs_plus_le; [assumption|]. rewrite Rabs_Ropp. assumption. Qed.
(** The slope above, for coefficients of at most C *)
Lemma poly_bell_bound c0 c1 c2 k C M s : 0 <= k <= C -> Rabs c0 <= C -> Rabs c1 <= C -> Rabs c2 <= C -> Rabs s <= M ->
  Rabs ((c1 + 2 * c2 * s - 2 * k * s * (c0 + c1 * s + c2 * (s * s))) * exp (- (k * (s * s)))) <=
  (C + 2 * C * M + 2 * C * M * (C + C * M + C * (M * M))) * 1.
Proof.
  intros Hk H0 H1 H2 HM. assert (Rabs 2 <= 2) as A2 by (rewrite Rabs_pos_eq; lra). assert (Rabs k <= C) as AK by (rewrite Rabs_pos_eq; lra).
  apply abs_mult_le.
  - apply abs_minus_le; [apply abs_plus_le; [assumption|]|]; repeat first [assumption | apply abs_mult_le | apply abs_plus_le].
  - pose proof (bell_bounds k s ltac:(lra)). rewrite Rabs_pos_eq; lra.
Qed.
Lemma sq_bounds x : 0 <= x <= 1 -> 0 <= x * x <= 1.
Proof. intros H. split; [apply Rmult_le_pos; lra|]. replace 1 with (1 * 1) by lra. apply Rmult_le_compat; lra. Qed.

(** The primitive of exp (- t^2): P t = the integral over x in [0, 1] of t exp (- t^2 x^2) *)
Definition pf_ (t x : R) : R := t * exp (- (t * t * (x * x))).
Lemma pf_cont t x : continuity_pt (pf_ t) x.
Proof.
  apply derivable_continuous_pt. eexists. apply (derivable_pt_lim_scal (fun x => exp (- (t * t * (x * x)))) t). apply bell.
Qed.
Definition Pt (t : R) : R -> R := prim (pf_ t) (fun x _ => pf_cont t x).
Definition P (t : R) : R := Pt t 1 - Pt t 0.
Lemma P_slope t : derivable_pt_lim P t (exp (- (t * t))).
Proof.
  set (M := Rabs t + 1).
  apply lim_eq with (l := 1 * exp (- (t * t * (1 * 1))) - 0 * exp (- (t * t * (0 * 0)))).
  2: { rewrite Rmult_0_l, Rminus_0_r, Rmult_1_l, !Rmult_1_r. reflexivity. }
  apply (under pf_ (fun s x => (1 + 0 * s - 2 * (x * x) * (s * s)) * exp (- (x * x * (s * s)))) Pt
           (fun x => x * exp (- (t * t * (x * x)))) t ((2 + 2 * 2 * M + 2 * 2 * M * (2 + 2 * M + 2 * (M * M))) * 1)).
  - intros s x Hx. apply prim_slope, Hx.
  - intros x _. apply lim_ext with (G := fun x => (0 + 1 * x + 0 * (x * x)) * exp (- (t * t * (x * x)))); [intros; ring|].
    eapply lim_eq; [apply poly_bell|]. rewrite (Rmult_comm (t * t) (x * x)). ring.
  - intros s x _. apply lim_ext with (G := fun s => (0 + 1 * s + 0 * (s * s)) * exp (- (x * x * (s * s)))).
    { intros y. unfold pf_. rewrite (Rmult_comm (y * y) (x * x)). ring. }
    eapply lim_eq; [apply poly_bell|]. ring.
  - intros s x Hx Hs. pose proof (sq_bounds x Hx) as Q.
    apply (lipschitz (fun s => (1 + 0 * s - 2 * (x * x) * (s * s)) * exp (- (x * x * (s * s))))
      (fun s => (0 + 2 * (- (2 * (x * x))) * s - 2 * (x * x) * s * (1 + 0 * s + - (2 * (x * x)) * (s * s))) * exp (- (x * x * (s * s))))); [| |exact Hs].
    + intros z. apply lim_ext with (G := fun s => (1 + 0 * s + - (2 * (x * x)) * (s * s)) * exp (- (x * x * (s * s)))); [intros; ring|].
      apply poly_bell.
    + intros z Hz. apply poly_bell_bound; try lra; try (apply near_abs; exact Hz).
      * rewrite Rabs_R1. lra.
      * rewrite Rabs_R0. lra.
      * rewrite Rabs_Ropp, Rabs_pos_eq; lra.
Qed.

(** H t = the integral over x in [0, 1] of exp (- t^2 (1 + x^2)) / (1 + x^2) *)
Definition hf (t x : R) : R := exp (- (t * t)) * (exp (- (t * t * (x * x))) * / (1 + x * x)).
Lemma den x : 1 <= 1 + x * x. Proof. pose proof (Rle_0_sqr x) as Q. unfold Rsqr in Q. lra. Qed.
Lemma hf_cont t x : continuity_pt (hf t) x.
Proof.
  apply (continuity_pt_scal (fun x => exp (- (t * t * (x * x))) * / (1 + x * x))).
  apply (continuity_pt_mult (fun x => exp (- (t * t * (x * x)))) (fun x => / (1 + x * x))).
  - apply derivable_continuous_pt. eexists. apply bell.
  - apply (continuity_pt_inv (fun x => 1 + x * x)); [|pose proof (den x); lra].
    apply derivable_continuous_pt. eexists. apply lim_ext with (G := fun x => 1 + 0 * x + 1 * (x * x)); [intros; ring|apply slope_poly].
Qed.
Definition Ht (t : R) : R -> R := prim (hf t) (fun x _ => hf_cont t x).
Definition H (t : R) : R := Ht t 1 - Ht t 0.
Lemma hf_bell t x : hf t x = / (1 + x * x) * exp (- ((1 + x * x) * (t * t))).
Proof. unfold hf. replace (- ((1 + x * x) * (t * t))) with (- (t * t) + - (t * t * (x * x))) by ring. rewrite exp_plus. ring. Qed.
Lemma H_slope t : derivable_pt_lim H t (- (2 * exp (- (t * t)) * P t)).
Proof.
  set (M := Rabs t + 1).
  apply lim_eq with (l := - (2 * exp (- (t * t))) * Pt t 1 - - (2 * exp (- (t * t))) * Pt t 0); [|unfold P; ring].
  apply (under hf (fun s x => (0 + - (2) * s + 0 * (s * s)) * exp (- ((1 + x * x) * (s * s)))) Ht
           (fun x => - (2 * exp (- (t * t))) * Pt t x) t ((2 + 2 * 2 * M + 2 * 2 * M * (2 + 2 * M + 2 * (M * M))) * 1)).
  - intros s x Hx. apply prim_slope, Hx.
  - intros x Hx. eapply lim_eq; [apply (derivable_pt_lim_scal (Pt t)); apply prim_slope, Hx|].
    unfold pf_. replace (- ((1 + x * x) * (t * t))) with (- (t * t) + - (t * t * (x * x))) by ring. rewrite exp_plus. ring.
  - intros s x _. pose proof (den x). apply lim_ext with (G := fun s => (/ (1 + x * x) + 0 * s + 0 * (s * s)) * exp (- ((1 + x * x) * (s * s)))).
    { intros y. rewrite hf_bell. ring. }
    eapply lim_eq; [apply poly_bell|]. field. lra.
  - intros s x Hx Hs. pose proof (sq_bounds x Hx) as Q.
    eapply (lipschitz (fun s => (0 + - (2) * s + 0 * (s * s)) * exp (- ((1 + x * x) * (s * s))))); [| |exact Hs].
    + intros z. apply poly_bell.
    + intros z Hz. apply poly_bell_bound; try lra; try (apply near_abs; exact Hz).
      * rewrite Rabs_R0. lra.
      * rewrite Rabs_Ropp, Rabs_pos_eq; lra.
      * rewrite Rabs_R0. lra.
Qed.
Lemma zero_slope F : (forall x, derivable_pt_lim F x 0) -> forall x, F x = F 0.
Proof.
  intros D x. destruct (Rtotal_order x 0) as [L | [-> | L]]; [| reflexivity |].
  - destruct (MVT_cor2 F (fun _ => 0) x 0 L (fun c _ => D c)) as [c [E _]]. lra.
  - destruct (MVT_cor2 F (fun _ => 0) 0 x L (fun c _ => D c)) as [c [E _]]. lra.
Qed.
Lemma P_0 : P 0 = 0.
Proof.
  unfold P. pose proof (mean (pf_ 0) (Pt 0) 0 0 (fun x Hx => prim_slope _ _ x Hx)). destruct H0; [|lra].
  intros x _. unfold pf_. rewrite Rmult_0_l. lra.
Qed.
Lemma P_odd t : P (- t) = - P t.
Proof.
  assert (P (- t) + P t = P (- 0) + P 0) as Z.
  { apply (zero_slope (fun t => P (- t) + P t)). intros x. eapply lim_eq.
    - apply (derivable_pt_lim_plus (comp P (- id)%F) P); [|apply P_slope].
      apply derivable_pt_lim_comp; [apply derivable_pt_lim_opp, derivable_pt_lim_id|apply P_slope].
    - unfold opp_fct, id. replace (- x * - x) with (x * x) by ring. ring. }
  rewrite Ropp_0, P_0 in Z. lra.
Qed.
Lemma H_0 : H 0 = PI / 4.
Proof.
  pose proof (mean (fun x => hf 0 x - / (1 + x ^ 2)) (fun x => Ht 0 x - atan x) 0 0) as [L U].
  - intros x Hx. apply derivable_pt_lim_minus; [apply prim_slope, Hx|apply derivable_pt_lim_atan].
  - intros x _. unfold hf. rewrite !Rmult_0_l, Ropp_0, exp_0. replace (x ^ 2) with (x * x) by ring. lra.
  - unfold H. rewrite atan_0, atan_1 in L, U. lra.
Qed.
Lemma P_square t : P t * P t = PI / 4 - H t.
Proof.
  assert (P t * P t + H t = P 0 * P 0 + H 0) as Z.
  { apply (zero_slope (fun t => P t * P t + H t)). intros x. eapply lim_eq.
    - apply (derivable_pt_lim_plus (P * P)%F H); [apply derivable_pt_lim_mult; apply P_slope|apply H_slope].
    - ring. }
  rewrite P_0, H_0 in Z. lra.
Qed.
Lemma H_bounds t : 0 <= H t <= exp (- (t * t)).
Proof.
  unfold H. apply (mean (hf t)); [intros; apply prim_slope; assumption|]. intros x _. unfold hf.
  pose proof (exp_pos (- (t * t))). pose proof (bell_bounds (t * t) x ltac:(pose proof (Rle_0_sqr t); assumption)) as [B1 B2].
  pose proof (den x). assert (0 < / (1 + x * x) <= 1) as [D1 D2].
  { split; [apply Rinv_0_lt_compat; lra|]. rewrite <- Rinv_1. apply Rinv_le_contravar; lra. }
  assert (0 <= exp (- (t * t * (x * x))) * / (1 + x * x) <= 1) as [C1 C2].
  { split; [apply Rmult_le_pos; lra|]. apply Rle_trans with (1 * 1); [apply Rmult_le_compat; lra|lra]. }
  split; [apply Rmult_le_pos; lra|]. rewrite <- (Rmult_1_r (exp (- (t * t)))) at 2. apply Rmult_le_compat_l; lra.
Qed.
Lemma P_pos t : 0 < t -> 0 < P t.
Proof.
  intros Ht. destruct (MVT_cor2 P (fun t => exp (- (t * t))) 0 t Ht (fun c _ => P_slope c)) as [c [E _]]. rewrite P_0 in E.
  assert (0 < exp (- (c * c)) * (t - 0)) by (apply Rmult_lt_0_compat; [apply exp_pos|lra]). lra.
Qed.
(** P t tends to sqrt PI / 2 *)
Lemma P_limit : tends_up P (sqrt PI / 2).
Proof.
  pose proof PI_RGT_0 as HP. assert (0 < sqrt PI) as Hs by (apply sqrt_lt_R0; exact HP).
  assert ((sqrt PI / 2) * (sqrt PI / 2) = PI / 4) as E.
  { replace (sqrt PI / 2 * (sqrt PI / 2)) with (sqrt PI * sqrt PI / 4) by field. rewrite sqrt_sqrt by lra. reflexivity. }
  intros eps He. assert (0 < eps * (sqrt PI / 2)) as Hq by (apply Rmult_lt_0_compat; lra).
  exists (Rmax 1 (- ln (eps * (sqrt PI / 2)))). intros t Ht.
  pose proof (Rmax_l 1 (- ln (eps * (sqrt PI / 2)))). pose proof (Rmax_r 1 (- ln (eps * (sqrt PI / 2)))).
  pose proof (P_pos t ltac:(lra)). pose proof (P_square t) as Q. pose proof (H_bounds t) as [B0 B1].
  assert (exp (- (t * t)) < eps * (sqrt PI / 2)) as B2.
  { rewrite <- (exp_ln (eps * (sqrt PI / 2))) by exact Hq. apply exp_increasing.
    assert (t * 1 < t * t) by (apply Rmult_lt_compat_l; lra). lra. }
  assert ((sqrt PI / 2 - P t) * (sqrt PI / 2 + P t) = H t) as Q2 by (rewrite <- (Rmult_1_r (H t)); lra).
  assert (0 <= sqrt PI / 2 - P t) as G0.
  { destruct (Rle_or_lt 0 (sqrt PI / 2 - P t)); [assumption|].
    assert ((sqrt PI / 2 - P t) * (sqrt PI / 2 + P t) < 0 * (sqrt PI / 2 + P t)) by (apply Rmult_lt_compat_r; lra). lra. }
  rewrite Rabs_left1 by lra. apply Rmult_lt_reg_r with (sqrt PI / 2); [lra|].
  apply Rle_lt_trans with (H t); [|lra]. rewrite <- Q2. replace (- (P t - sqrt PI / 2)) with (sqrt PI / 2 - P t) by lra. apply Rmult_le_compat_l; lra.
Qed.

Definition the_erf (x : R) : R := 2 / sqrt PI * P x.
Theorem erf_exists : error_function the_erf.
Proof.
  pose proof PI_RGT_0 as HP. assert (0 < sqrt PI) as Hs by (apply sqrt_lt_R0; exact HP).
  assert (0 < / sqrt PI) as Hi by (apply Rinv_0_lt_compat; exact Hs).
  assert (tends_up the_erf 1) as U.
  { intros eps He. destruct (P_limit (eps * (sqrt PI / 2))) as [M HM]; [apply Rmult_lt_0_compat; lra|]. exists M. intros x Hx.
    specialize (HM x Hx). unfold the_erf. replace (2 / sqrt PI * P x - 1) with (2 / sqrt PI * (P x - sqrt PI / 2)) by (field; lra).
    rewrite Rabs_mult, (Rabs_pos_eq (2 / sqrt PI)) by (unfold Rdiv; apply Rmult_le_pos; lra).
    apply Rlt_le_trans with (2 / sqrt PI * (eps * (sqrt PI / 2))).
    - apply Rmult_lt_compat_l; [unfold Rdiv; apply Rmult_lt_0_compat; lra|exact HM].
    - apply Req_le. field. lra. }
  split; [|split; [|exact U]].
  - intros x. unfold the_erf. replace (- x ^ 2) with (- (x * x)) by ring. apply (derivable_pt_lim_scal P). apply P_slope.
  - intros eps He. destruct (U eps He) as [M HM]. exists (- M). intros x Hx. specialize (HM (- x) ltac:(lra)).
    unfold the_erf in *. rewrite P_odd in HM. replace (2 / sqrt PI * P x - -1) with (- (2 / sqrt PI * - P x - 1)) by ring.
    rewrite Rabs_Ropp. exact HM.
Qed.
Theorem erf_unique : forall erf, error_function erf -> forall x, erf x = the_erf x.
Proof.
  intros erf [D [_ U]] x. destruct erf_exists as [D' [_ U']].
  assert (forall y, erf y - the_erf y = erf 0 - the_erf 0) as Z.
  { apply (zero_slope (fun x => erf x - the_erf x)). intros y. eapply lim_eq; [apply derivable_pt_lim_minus; [apply D|apply D']|]. ring. }
  assert (erf 0 - the_erf 0 = 0) as E.
  { destruct (Req_dec (erf 0 - the_erf 0) 0) as [E|E]; [exact E|]. exfalso.
    assert (0 < Rabs (erf 0 - the_erf 0)) as A by (apply Rabs_pos_lt; exact E).
    destruct (U (Rabs (erf 0 - the_erf 0) / 2) ltac:(lra)) as [M1 H1], (U' (Rabs (erf 0 - the_erf 0) / 2) ltac:(lra)) as [M2 H2].
    pose proof (Rmax_l M1 M2). pose proof (Rmax_r M1 M2). specialize (H1 (Rmax M1 M2 + 1) ltac:(lra)). specialize (H2 (Rmax M1 M2 + 1) ltac:(lra)).
    pose proof (Z (Rmax M1 M2 + 1)) as Q. rewrite <- Q in A, H1, H2.
    set (a := erf (Rmax M1 M2 + 1)) in *. set (b := the_erf (Rmax M1 M2 + 1)) in *.
    pose proof (Rabs_triang (a - 1) (- (b - 1))) as T. rewrite Rabs_Ropp in T. replace (a - 1 + - (b - 1)) with (a - b) in T by ring. lra. }
  specialize (Z x). lra.
Qed.
