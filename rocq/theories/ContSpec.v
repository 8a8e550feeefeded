(** What a distribution of one real quantity is: a distribution function, its density and its quantiles. *)
From Coq Require Import Reals.
Open Scope R_scope.

Definition tends_up (F : R -> R) (l : R) : Prop := forall eps, 0 < eps -> exists M, forall x, M < x -> Rabs (F x - l) < eps.
Definition tends_down (F : R -> R) (l : R) : Prop := forall eps, 0 < eps -> exists M, forall x, x < M -> Rabs (F x - l) < eps.
(** F x is the probability of a value of at most x *)
Definition distribution_function (F : R -> R) : Prop :=
  (forall x y, x <= y -> F x <= F y) /\ tends_down F 0 /\ tends_up F 1.
(** f is the density of F at x *)
Definition density_at (f F : R -> R) (x : R) : Prop := derivable_pt_lim F x (f x).
(** q is the least value such that a value of at most q has at least probability p *)
Definition quantile (F : R -> R) (p q : R) : Prop := p <= F q /\ forall y, p <= F y -> q <= y.

(** The named densities, at a point x where they are positive *)
Definition gaussian_density (mu sigma x : R) : R := exp (- (((x - mu) / sigma) ^ 2 / 2)) / (sigma * sqrt (2 * PI)).
(** The error function: its slope, and its limits *)
Definition error_function (erf : R -> R) : Prop :=
  (forall x, derivable_pt_lim erf x (2 / sqrt PI * exp (- x ^ 2))) /\ tends_down erf (-1) /\ tends_up erf 1.
