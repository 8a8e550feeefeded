(** Python numbers as titus sees them: unbounded [int] and IEEE binary64 [float].
    Floats are the Coq standard library's [spec_float] (Coq.Floats.SpecFloat) with
    precision 53 and maximal exponent 1024, i.e. CPython's C doubles with
    round-to-nearest-even. NaNs are a single value (payloads are not modelled). *)
From Coq Require Import SpecFloat.
From Verif Require Import Base.
Open Scope Z_scope.

Definition pf := spec_float.
Definition fadd : pf -> pf -> pf := SFadd 53 1024.
Definition fsub : pf -> pf -> pf := SFsub 53 1024.
Definition fmul : pf -> pf -> pf := SFmul 53 1024.
Definition fdiv : pf -> pf -> pf := SFdiv 53 1024.
Definition fneg : pf -> pf := SFopp.
Definition fabs : pf -> pf := SFabs.
Definition f0 : pf := S754_zero false.
Definition fnan : pf := S754_nan.
Definition finf : pf := S754_infinity false.
Definition fninf : pf := S754_infinity true.

Definition isnan (f : pf) : bool := match f with S754_nan => true | _ => false end.
Definition isinf (f : pf) : bool := match f with S754_infinity _ => true | _ => false end.
Definition is_fzero (f : pf) : bool := match f with S754_zero _ => true | _ => false end.

(** Nearest binary64 to an integer (round half even), infinity beyond the range. *)
Definition f_of_Z (z : Z) : pf := binary_normalize 53 1024 z 0 false.

(** Python [float(z)] for an int z: OverflowError when too large. *)
Definition py_float (z : Z) : res pf :=
  match f_of_Z z with
  | S754_infinity _ => Raise (PyErr "OverflowError")
  | f => Ok f
  end.

Definition zsign (s : bool) (m : Z) : Z := if s then - m else m.

(** Python [int(f)]: truncation toward zero. *)
Definition py_int (f : pf) : res Z :=
  match f with
  | S754_zero _ => Ok 0
  | S754_infinity _ => Raise (PyErr "OverflowError")
  | S754_nan => Raise (PyErr "ValueError")
  | S754_finite s m e =>
      if 0 <=? e then Ok (zsign s (Zpos m) * 2 ^ e)
      else Ok (zsign s (Zpos m / 2 ^ (- e)))
  end.

(** Python [math.floor(f)] (an int in Python 3). *)
Definition py_floor (f : pf) : res Z :=
  match f with
  | S754_zero _ => Ok 0
  | S754_infinity _ => Raise (PyErr "OverflowError")
  | S754_nan => Raise (PyErr "ValueError")
  | S754_finite s m e =>
      if 0 <=? e then Ok (zsign s (Zpos m) * 2 ^ e)
      else Ok (zsign s (Zpos m) / 2 ^ (- e))
  end.

(** Python [math.ceil(f)]. *)
Definition py_ceil (f : pf) : res Z :=
  match f with
  | S754_finite s m e =>
      if 0 <=? e then Ok (zsign s (Zpos m) * 2 ^ e)
      else Ok (- (- zsign s (Zpos m) / 2 ^ (- e)))
  | _ => py_floor f
  end.

(** Numbers of either kind. *)
Inductive num : Type := NI (z : Z) | NF (f : pf).

(** Exact comparison of a float with an int, as CPython does ([None]: unordered). *)
Definition f_cmp_Z (f : pf) (z : Z) : option comparison :=
  match f with
  | S754_nan => None
  | S754_infinity true => Some Lt
  | S754_infinity false => Some Gt
  | S754_zero _ => Some (0 ?= z)
  | S754_finite s m e =>
      if 0 <=? e then Some (zsign s (Zpos m) * 2 ^ e ?= z)
      else Some (zsign s (Zpos m) ?= z * 2 ^ (- e))
  end.

Definition num_cmp (a b : num) : option comparison :=
  match a, b with
  | NI x, NI y => Some (x ?= y)
  | NF x, NF y => SFcompare x y
  | NF x, NI y => f_cmp_Z x y
  | NI x, NF y => option_map CompOpp (f_cmp_Z y x)
  end.
Definition num_lt a b := match num_cmp a b with Some Lt => true | _ => false end.
Definition num_gt a b := match num_cmp a b with Some Gt => true | _ => false end.
Definition num_eq a b := match num_cmp a b with Some Eq => true | _ => false end.
Definition num_le a b := match num_cmp a b with Some Lt | Some Eq => true | _ => false end.
Definition num_ge a b := match num_cmp a b with Some Gt | Some Eq => true | _ => false end.

Definition to_f (a : num) : res pf := match a with NI z => py_float z | NF f => Ok f end.

(** Python binary arithmetic: ints stay exact, mixed operands are converted to float. *)
Definition num_op (iop : Z -> Z -> Z) (fop : pf -> pf -> pf) (a b : num) : res num :=
  match a, b with
  | NI x, NI y => Ok (NI (iop x y))
  | _, _ => x <- to_f a ;; y <- to_f b ;; Ok (NF (fop x y))
  end.
Definition py_add := num_op Z.add fadd.
Definition py_sub := num_op Z.sub fsub.
Definition py_mul := num_op Z.mul fmul.
Definition py_neg (a : num) : num := match a with NI z => NI (- z) | NF f => NF (fneg f) end.
Definition py_abs (a : num) : num := match a with NI z => NI (Z.abs z) | NF f => NF (fabs f) end.

(** [math.isnan(a)]: an int argument is converted to float first. *)
Definition py_isnan (a : num) : res bool := f <- to_f a ;; Ok (isnan f).
Definition py_isinf (a : num) : res bool := f <- to_f a ;; Ok (isinf f).

(** C [fmod] on doubles (exact remainder with the sign of the dividend). *)
Definition c_fmod (x y : pf) : pf :=
  match x, y with
  | S754_nan, _ | _, S754_nan | S754_infinity _, _ | _, S754_zero _ => S754_nan
  | _, S754_infinity _ => x
  | S754_zero _, _ => x
  | S754_finite sx mx ex, S754_finite _ my ey =>
      let e := Z.min ex ey in
      let r := Z.rem (Zpos mx * 2 ^ (ex - e)) (Zpos my * 2 ^ (ey - e)) in
      match r with
      | Z0 => S754_zero sx
      | _ => binary_normalize 53 1024 (zsign sx r) e false
      end
  end.

Definition fsign (f : pf) : bool :=
  match f with S754_zero s | S754_infinity s | S754_finite s _ _ => s | S754_nan => false end.

(** CPython [float % float] (Objects/floatobject.c float_rem); the divisor is non-zero here. *)
Definition py_fmod (x y : pf) : pf :=
  let m := c_fmod x y in
  if isnan m then m
  else if is_fzero m then S754_zero (fsign y)
  else if Bool.eqb (fsign y) (fsign m) then m else fadd m y.

Definition py_mod (a b : num) : res num :=
  match a, b with
  | NI x, NI y => Ok (NI (x mod y))
  | _, _ => x <- to_f a ;; y <- to_f b ;; Ok (NF (py_fmod x y))
  end.
