(** Model of the rounding functions of the m library, of m.signum and of m.hypot (lib/pfamath.py:113-123, 175-196,
    262-307).

    The argument is a float. (An int literal is a Python int, on which these functions are the identity.) *)
From Coq Require Import SpecFloat.
From Verif Require Import Base PyNum ArithModel LinregModel.
Open Scope string_scope.
Open Scope list_scope.
Open Scope Z_scope.

Definition inf_or_nan (x : pf) : bool := isinf x || isnan x.
Definition f_half : pf := S754_finite false 4503599627370496 (-53).

(** Ceil.__call__, pfamath.py:119-123: Python's math.ceil gives an int *)
Definition m_ceil (x : pf) : res num :=
  if inf_or_nan x then Ok (NF x) else z <- py_ceil x ;; Ok (NI z).
(** Floor.__call__, pfamath.py:181-185 *)
Definition m_floor (x : pf) : res num :=
  if inf_or_nan x then Ok (NF x) else z <- py_floor x ;; Ok (NI z).
(** [int(x)] of a number *)
Definition py_int_of (x : num) : res Z := match x with NI z => Ok z | NF f => py_int f end.
(** Round.__call__, pfamath.py:267-273; [t] is the type of the result, int for a float and long for a double *)
Definition m_round (t : ntype) (x : pf) : res Z :=
  out <- (if inf_or_nan x then Ok (NF x) else z <- py_floor (fadd x f_half) ;; Ok (NI z)) ;;
  out' <- check_overflow t out 27190 27191 ;;
  py_int_of out'.
(** RInt.__call__, pfamath.py:280-292: [up - x] turns the int into a float first *)
Definition m_rint (x : pf) : res num :=
  if inf_or_nan x then Ok (NF x)
  else
    up <- py_ceil x ;;
    down <- py_floor x ;;
    a <- py_sub (NI up) (NF x) ;;
    b <- py_sub (NF x) (NI down) ;;
    Ok (if num_lt a b then NI up
        else if num_gt a b then NI down
        else if up mod 2 =? 0 then NI up
        else NI down).
(** Signum.__call__, pfamath.py:299-307 *)
Definition m_signum (x : pf) : Z :=
  if isnan x then 0
  else if num_eq (NF x) (NI 0) then 0
  else if num_gt (NF x) (NI 0) then 1
  else -1.
(** Hypot.__call__, pfamath.py:192-196; [sqrt] is math.sqrt, which never fails on a sum of squares *)
Definition m_hypot (sqrt : pf -> pf) (x y : pf) : res pf :=
  if isinf x || isinf y then Ok finf
  else sx <- py_square x ;; sy <- py_square y ;; Ok (sqrt (fadd sx sy)).
