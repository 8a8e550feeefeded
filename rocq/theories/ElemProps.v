(** C100: the elementary functions of the m library. *)
From Coq Require Import Reals Lra Lia.
From Verif Require Import Base ElemModel ElemSpec ElemProofs.
Open Scope R_scope.

(** For every double, finite or not, acos, asin, atan, cos, sin, tan, tanh and sqrt return: the value that the equation of the function singles out where there is one, NaN elsewhere. *)
Theorem C100_functions :
  total m_acos spec_acos /\ total m_asin spec_asin /\ total m_atan spec_atan /\ total m_cos spec_cos /\ total m_sin spec_sin /\
  total m_tan spec_tan /\ total m_tanh spec_tanh /\ total m_sqrt spec_sqrt.
Proof. exact (conj acos_total (conj asin_total (conj atan_total (conj cos_total (conj sin_total (conj tan_total (conj tanh_total sqrt_total))))))). Qed.
Example C100_functions_example : (exists y, m_acos (Fin 2) = Ok y /\ y = NaN) /\ (exists v, m_sqrt (Fin 9) = Ok (Fin v) /\ v = 3) /\ m_cos plus_inf = Ok NaN.
Proof.
  destruct C100_functions as (A & _ & _ & _ & _ & _ & _ & Q). split; [|split; [|reflexivity]].
  - destruct (A (Fin 2)) as (y & E & C). exists y. split; [exact E|]. apply C. cbn. lra.
  - destruct (Q (Fin 9)) as (y & E & C & _). destruct C as (v & -> & P & S1); [cbn; lra|]. exists v. split; [exact E|]. cbn in P, S1.
    assert (Z1 : (v - 3) * (v + 3) = 0) by lra. apply Rmult_integral in Z1. lra.
Qed.

(** The logarithms never raise for a base of at least one: minus infinity at the end of the domain, NaN below it, and the exponent sought inside. *)
Theorem C100_logarithms :
  total m_ln spec_ln /\ total m_log10 (spec_log 10) /\ total m_ln1p spec_ln1p /\ (forall base, (2 <= base)%Z -> total (fun x => m_log x base) (spec_log (IZR base))) /\
  total (fun x => m_log x 1) spec_log1.
Proof. exact (conj ln_total (conj log10_total (conj ln1p_total (conj log_total log1_total)))). Qed.
(** Any other base is refused with 27170, whatever the argument. *)
Theorem C100_log_base : forall x base, m_log x base = Raise (PFAErr 27170) <-> (base <= 0)%Z.
Proof.
  intros x base. split; [|intros H; apply log_raises; exact H].
  intros E. destruct (Z_le_gt_dec base 0) as [L|G]; [exact L|]. exfalso.
  destruct (Z.eq_dec base 1) as [->|N]; [destruct (log1_total x) as (y & F & _) | destruct (log_total base ltac:(lia) x) as (y & F & _)]; cbn beta in F; rewrite E in F; discriminate.
Qed.
Example C100_logarithms_example : (exists v, m_log (Fin 8) 2 = Ok (Fin v) /\ Rpower 2 v = 8) /\ m_ln (Fin 0) = Ok minus_inf /\ m_log NaN 0 = Raise (PFAErr 27170).
Proof.
  destruct C100_logarithms as (L & _ & _ & B & _). split; [|split].
  - destruct (B 2%Z ltac:(lia) (Fin 8)) as (y & E & C & _). destruct C as (v & -> & P); [cbn; lra|]. exists v. split; assumption.
  - destruct (L (Fin 0)) as (y & E & _ & C). rewrite E. f_equal. apply C; cbn; lra.
  - apply C100_log_base. lia.
Qed.

(** exp, expm1, cosh and sinh return their values for infinities, NaN and all arguments below 600 in size. *)
Theorem C100_growing : total_below 600 m_exp spec_exp /\ total_below 600 m_expm1 spec_expm1 /\ total_below 600 m_cosh spec_cosh /\ total_below 600 m_sinh spec_sinh.
Proof. exact (conj exp_below (conj expm1_below (conj cosh_below sinh_below))). Qed.
Example C100_growing_example : exists v, m_exp (Fin 1) = Ok (Fin v) /\ 2 < v.
Proof.
  destruct (proj1 C100_growing (Fin 1)) as (y & E & C & _).
  - intros r H. injection H as <-. rewrite Rabs_R1. lra.
  - destruct (C I) as (v & -> & V). exists v. split; [exact E|]. rewrite V. pose proof (exp_ineq1 1 ltac:(lra)). lra.
Qed.

(** For large finite arguments they do not: Python's OverflowError comes, which is no PFA error, where infinity is the value at infinity. *)
Theorem C100_overflow_refuted :
  (forall r, 1024 <= r -> m_exp (Fin r) = Raise (PyErr "OverflowError") /\ m_expm1 (Fin r) = Raise (PyErr "OverflowError")) /\
  (forall r, 1026 <= Rabs r -> m_cosh (Fin r) = Raise (PyErr "OverflowError") /\ m_sinh (Fin r) = Raise (PyErr "OverflowError")) /\
  ~ total m_exp spec_exp /\ ~ total m_expm1 spec_expm1 /\ ~ total m_cosh spec_cosh /\ ~ total m_sinh spec_sinh.
Proof.
  assert (P : 1026 <= Rabs 1026) by (rewrite Rabs_pos_eq; lra).
  split; [exact exp_over|]. split; [exact hyper_over|]. repeat split; intros T; destruct (T (Fin 1026)) as (y & E & _).
  - rewrite (proj1 (exp_over 1026 ltac:(lra))) in E; discriminate.
  - rewrite (proj2 (exp_over 1026 ltac:(lra))) in E; discriminate.
  - rewrite (proj1 (hyper_over 1026 P)) in E; discriminate.
  - rewrite (proj2 (hyper_over 1026 P)) in E; discriminate.
Qed.

(** Near zero ln1p and expm1 lose every digit: the double nearest to 1 + x, or to exp x, is one, so that zero is returned for every small positive argument, though the value is positive. *)
Theorem C100_small_refuted :
  (forall x, 0 < x < / 2 ^ 53 -> (exists v, nearest v (1 + x)) /\ (forall v, nearest v (1 + x) -> ln1p_of_sum v = 0) /\ 0 < ln (1 + x)) /\
  (forall x, 0 < x < / 2 ^ 54 -> (exists v, nearest v (exp x)) /\ (forall v, nearest v (exp x) -> expm1_of_exp v = 0) /\ x < exp x - 1).
Proof.
  split; intros x H.
  - split; [exists 1; apply nearest_one; [exact H | reflexivity]|]. split.
    + intros v N. apply nearest_one in N; [|exact H]. rewrite N. apply ln_1.
    + rewrite <- ln_1. apply ln_increasing; lra.
  - assert (G := exp_near x H). assert (E : exp x = 1 + (exp x - 1)) by ring. rewrite E. split; [exists 1; apply nearest_one; [exact G | reflexivity]|]. split.
    + intros v N. apply nearest_one in N; [|exact G]. rewrite N. unfold expm1_of_exp. ring.
    + pose proof (exp_ineq1 x ltac:(lra)). lra.
Qed.
Example C100_small_example : 0 < / 2 ^ 60 < / 2 ^ 54.
Proof. split; [apply Rinv_0_lt_compat, pow_lt; lra|]. apply Rinv_lt_contravar; [apply Rmult_lt_0_compat; apply pow_lt; lra|]. apply Rlt_pow; [lra | lia]. Qed.

Print Assumptions C100_functions.
Print Assumptions C100_logarithms.
Print Assumptions C100_log_base.
Print Assumptions C100_growing.
Print Assumptions C100_overflow_refuted.
Print Assumptions C100_small_refuted.
