(** Model of the elementary functions of the m library: lib/pfamath.py:71-101, 134-173, 199-260, 310-361 (acos, asin, atan, cos, cosh, exp, expm1, ln, log10, log, ln1p, sin, sinh,
    sqrt, tan, tanh).

    Simplifications, all deliberate:
    - a double is a real number, an infinity or no number: rounding and the sign of zero are left out;
    - Python's math module is taken as documented: ValueError where C's function has no value or an infinite one for a finite argument, OverflowError where the result is beyond the
      largest double, NaN for NaN;
    - genpy calls the same functions of math (97-98, 149-150 and so on). *)
From Coq Require Import Reals.
From Verif Require Import Base.
Open Scope string_scope.
Open Scope R_scope.

Inductive dbl := NaN | Inf (plus : bool) | Fin (r : R).
Definition plus_inf : dbl := Inf true.
Definition minus_inf : dbl := Inf false.
(** comparisons with a number: false for NaN *)
Definition dlt (x : dbl) (c : R) : bool := match x with NaN => false | Inf p => negb p | Fin r => if Rlt_dec r c then true else false end.
Definition dgt (x : dbl) (c : R) : bool := match x with NaN => false | Inf p => p | Fin r => if Rlt_dec c r then true else false end.
Definition deq (x : dbl) (c : R) : bool := match x with Fin r => if Req_EM_T r c then true else false | _ => false end.
Definition isnan (x : dbl) : bool := match x with NaN => true | _ => false end.
Definition isinf (x : dbl) : bool := match x with Inf _ => true | _ => false end.
Definition value_error : res dbl := Raise (PyErr "ValueError").
Definition overflow : res dbl := Raise (PyErr "OverflowError").

(** the largest double *)
Definition largest : R := IZR ((2 ^ 53 - 1) * 2 ^ 971).
Definition ranged (r : R) : res dbl := if Rlt_dec largest (Rabs r) then overflow else Ok (Fin r).

(** Python's math *)
Definition math_acos (x : dbl) : res dbl :=
  match x with NaN => Ok NaN | Inf _ => value_error | Fin r => if Rlt_dec 1 (Rabs r) then value_error else Ok (Fin (acos r)) end.
Definition math_asin (x : dbl) : res dbl :=
  match x with NaN => Ok NaN | Inf _ => value_error | Fin r => if Rlt_dec 1 (Rabs r) then value_error else Ok (Fin (asin r)) end.
Definition math_atan (x : dbl) : res dbl := Ok (match x with NaN => NaN | Inf true => Fin (PI / 2) | Inf false => Fin (- PI / 2) | Fin r => Fin (atan r) end).
Definition math_cos (x : dbl) : res dbl := match x with NaN => Ok NaN | Inf _ => value_error | Fin r => Ok (Fin (cos r)) end.
Definition math_sin (x : dbl) : res dbl := match x with NaN => Ok NaN | Inf _ => value_error | Fin r => Ok (Fin (sin r)) end.
Definition math_tan (x : dbl) : res dbl := match x with NaN => Ok NaN | Inf _ => value_error | Fin r => Ok (Fin (tan r)) end.
Definition math_cosh (x : dbl) : res dbl := match x with NaN => Ok NaN | Inf _ => Ok plus_inf | Fin r => ranged (cosh r) end.
Definition math_sinh (x : dbl) : res dbl := match x with NaN => Ok NaN | Inf p => Ok (Inf p) | Fin r => ranged (sinh r) end.
Definition math_tanh (x : dbl) : res dbl := Ok (match x with NaN => NaN | Inf true => Fin 1 | Inf false => Fin (-1) | Fin r => Fin (tanh r) end).
Definition math_exp (x : dbl) : res dbl := match x with NaN => Ok NaN | Inf true => Ok plus_inf | Inf false => Ok (Fin 0) | Fin r => ranged (exp r) end.
Definition math_sqrt (x : dbl) : res dbl :=
  match x with NaN => Ok NaN | Inf true => Ok plus_inf | Inf false => value_error | Fin r => if Rlt_dec r 0 then value_error else Ok (Fin (sqrt r)) end.
Definition math_log_of (c : R) (x : dbl) : res dbl :=
  match x with NaN => Ok NaN | Inf true => Ok plus_inf | Inf false => value_error | Fin r => if Rlt_dec 0 r then Ok (Fin (ln r / c)) else value_error end.
Definition math_log (x : dbl) : res dbl := math_log_of 1 x.
Definition math_log10 (x : dbl) : res dbl := math_log_of (ln 10) x.
(** math.log(x, base), for whole bases from 2 on *)
Definition math_log_base (x : dbl) (base : Z) : res dbl := math_log_of (ln (IZR base)) x.
Definition dadd (c : R) (x : dbl) : dbl := match x with Fin r => Fin (c + r) | _ => x end.

(** except ValueError *)
Definition nan_for_value_error (r : res dbl) : res dbl := match r with Raise (PyErr "ValueError") => Ok NaN | _ => r end.

(** 71-80, 82-91 *)
Definition m_acos (x : dbl) : res dbl := nan_for_value_error (math_acos x).
Definition m_asin (x : dbl) : res dbl := nan_for_value_error (math_asin x).
(** 93-101 *)
Definition m_atan (x : dbl) : res dbl := math_atan x.
(** 134-143 *)
Definition m_cos (x : dbl) : res dbl := if (isinf x || isnan x)%bool then Ok NaN else math_cos x.
(** 145-153, 155-163, 165-173 *)
Definition m_cosh (x : dbl) : res dbl := math_cosh x.
Definition m_exp (x : dbl) : res dbl := math_exp x.
Definition m_expm1 (x : dbl) : res dbl := y <- math_exp x ;; Ok (dadd (-1) y).
(** 199-210, 212-223 *)
Definition m_ln (x : dbl) : res dbl := if dlt x 0 then Ok NaN else if deq x 0 then Ok minus_inf else math_log x.
Definition m_log10 (x : dbl) : res dbl := if dlt x 0 then Ok NaN else if deq x 0 then Ok minus_inf else math_log10 x.
(** 225-247; without a value Python returns None *)
Definition m_log (x : dbl) (base : Z) : res dbl :=
  if Z.leb base 0 then Raise (PFAErr 27170)
  else if isnan x then Ok NaN else if dlt x 0 then Ok NaN else if deq x 0 then Ok minus_inf
  else if Z.eqb base 1 then (if dlt x 1 then Ok minus_inf else if deq x 1 then Ok NaN else if dgt x 1 then Ok plus_inf else Raise (PyErr "None"))
  else math_log_base x base.
(** 249-260 *)
Definition m_ln1p (x : dbl) : res dbl := if dlt x (-1) then Ok NaN else if deq x (-1) then Ok minus_inf else math_log (dadd 1 x).
(** 310-319, 321-329, 331-340, 342-351, 353-361 *)
Definition m_sin (x : dbl) : res dbl := if (isinf x || isnan x)%bool then Ok NaN else math_sin x.
Definition m_sinh (x : dbl) : res dbl := math_sinh x.
Definition m_sqrt (x : dbl) : res dbl := nan_for_value_error (math_sqrt x).
Definition m_tan (x : dbl) : res dbl := if (isinf x || isnan x)%bool then Ok NaN else math_tan x.
Definition m_tanh (x : dbl) : res dbl := math_tanh x.

(** Where rounding is all that matters, for small arguments: [v] is a double nearest to [x]. *)
Definition double (r : R) : Prop := exists m e : Z, (Z.abs m < 2 ^ 53 /\ -1074 <= e <= 971)%Z /\ r = IZR m * powerRZ 2 e.
Definition nearest (v x : R) : Prop := double v /\ forall d, double d -> Rabs (v - x) <= Rabs (d - x).
(** 260: math.log(1 + x), the sum being a double [v] nearest to 1 + x; 173: math.exp(x) - 1.0, the exponential being a double [v] nearest to it *)
Definition ln1p_of_sum (v : R) : R := ln v.
Definition expm1_of_exp (v : R) : R := v - 1.
