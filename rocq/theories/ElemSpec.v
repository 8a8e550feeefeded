(** What the elementary functions are to be, said by the equations that define the functions of analysis. *)
From Coq Require Import Reals.
From Verif Require Import Base ElemModel.
Open Scope R_scope.

(** Where the function has a value, what makes [v] the value at [r], what is given elsewhere, and the values at the infinities. *)
Record profile := mkProfile { inside : R -> Prop; is_value : R -> R -> Prop; elsewhere : R -> dbl -> Prop; at_plus : dbl; at_minus : dbl }.

Definition conforms (p : profile) (x y : dbl) : Prop :=
  match x with
  | NaN => y = NaN
  | Inf true => y = at_plus p
  | Inf false => y = at_minus p
  | Fin r => (inside p r -> exists v, y = Fin v /\ is_value p r v) /\ (~ inside p r -> elsewhere p r y)
  end.
(** The function never raises and gives what the profile says. *)
Definition total (f : dbl -> res dbl) (p : profile) : Prop := forall x, exists y, f x = Ok y /\ conforms p x y.

Definition everywhere (r : R) : Prop := True.
Definition is_nan (r : R) (y : dbl) : Prop := y = NaN.
(** an end of the domain where the function goes to minus infinity *)
Definition pole_at (c : R) (r : R) (y : dbl) : Prop := (r = c -> y = minus_inf) /\ (r < c -> y = NaN).

Definition spec_acos := mkProfile (fun r => -1 <= r <= 1) (fun r v => 0 <= v <= PI /\ cos v = r) is_nan NaN NaN.
Definition spec_asin := mkProfile (fun r => -1 <= r <= 1) (fun r v => - (PI / 2) <= v <= PI / 2 /\ sin v = r) is_nan NaN NaN.
Definition spec_atan := mkProfile everywhere (fun r v => - PI / 2 < v < PI / 2 /\ tan v = r) is_nan (Fin (PI / 2)) (Fin (- PI / 2)).
Definition spec_cos := mkProfile everywhere (fun r v => v = cos r) is_nan NaN NaN.
Definition spec_sin := mkProfile everywhere (fun r v => v = sin r) is_nan NaN NaN.
(** no double is a zero of the cosine *)
Definition spec_tan := mkProfile (fun r => cos r <> 0) (fun r v => v * cos r = sin r) (fun _ _ => True) NaN NaN.
Definition spec_tanh := mkProfile everywhere (fun r v => v * (exp r + exp (- r)) = exp r - exp (- r)) is_nan (Fin 1) (Fin (-1)).
Definition spec_sqrt := mkProfile (fun r => 0 <= r) (fun r v => 0 <= v /\ v * v = r) is_nan plus_inf NaN.
Definition spec_ln := mkProfile (fun r => 0 < r) (fun r v => exp v = r) (pole_at 0) plus_inf NaN.
Definition spec_log (base : R) := mkProfile (fun r => 0 < r) (fun r v => Rpower base v = r) (pole_at 0) plus_inf NaN.
Definition spec_ln1p := mkProfile (fun r => -1 < r) (fun r v => exp v = 1 + r) (pole_at (-1)) plus_inf NaN.
(** The logarithm to base 1: the limit for bases above 1 that go to 1. *)
Definition spec_log1 := mkProfile (fun _ => False) (fun _ _ => False)
  (fun r y => (r < 0 -> y = NaN) /\ (0 <= r < 1 -> y = minus_inf) /\ (r = 1 -> y = NaN) /\ (1 < r -> y = plus_inf)) plus_inf NaN.

(** Functions that grow too fast. *)
Definition spec_exp := mkProfile everywhere (fun r v => v = exp r) is_nan plus_inf (Fin 0).
Definition spec_expm1 := mkProfile everywhere (fun r v => v = exp r - 1) is_nan plus_inf (Fin (-1)).
Definition spec_cosh := mkProfile everywhere (fun r v => v = (exp r + exp (- r)) / 2) is_nan plus_inf plus_inf.
Definition spec_sinh := mkProfile everywhere (fun r v => v = (exp r - exp (- r)) / 2) is_nan plus_inf minus_inf.
(** As [total], but for finite arguments of size at least [far] a Python exception may come instead. *)
Definition total_below (far : R) (f : dbl -> res dbl) (p : profile) : Prop :=
  forall x, (forall r, x = Fin r -> Rabs r < far) -> exists y, f x = Ok y /\ conforms p x y.
