(** Model of titus/lib/core.py (arithmetic, logic, bitwise) and titus/lib/cast.py. *)
From Coq Require Import SpecFloat.
From Verif Require Import Base PyNum.
Open Scope Z_scope.

(** Declared numeric parameter type as seen by the library (repr of the Avro type). *)
Inductive ntype := TInt | TLong | TFloat | TDouble.

(** lib/core.py:37-40 *)
Definition INT_MIN_VALUE : Z := -2147483648.
Definition INT_MAX_VALUE : Z := 2147483647.
Definition LONG_MIN_VALUE : Z := -9223372036854775808.
Definition LONG_MAX_VALUE : Z := 9223372036854775807.

(** lib/core.py:46-58 checkForOverflow. [math.isnan] of a huge int raises OverflowError. *)
Definition check_overflow (t : ntype) (out : num) (code1 code2 : Z) : res num :=
  match t with
  | TInt =>
      b <- py_isnan out ;;
      if b || num_lt out (NI INT_MIN_VALUE) || num_gt out (NI INT_MAX_VALUE)
      then Raise (PFAErr code1) else Ok out
  | TLong =>
      b <- py_isnan out ;;
      if b || num_lt out (NI LONG_MIN_VALUE) || num_gt out (NI LONG_MAX_VALUE)
      then Raise (PFAErr code2) else Ok out
  | _ => Ok out
  end.

(** lib/core.py:62-68 *)
Definition lib_plus (t : ntype) (x y : num) : res num :=
  s <- py_add x y ;; check_overflow t s 18000 18001.
(** lib/core.py:70-76 *)
Definition lib_minus (t : ntype) (x y : num) : res num :=
  s <- py_sub x y ;; check_overflow t s 18010 18011.
(** lib/core.py:78-84 *)
Definition lib_times (t : ntype) (x y : num) : res num :=
  s <- py_mul x y ;; check_overflow t s 18020 18021.
(** lib/core.py:105-111 *)
Definition lib_negative (t : ntype) (x : num) : res num :=
  check_overflow t (py_neg x) 18050 18051.
(** lib/pfamath.py:63-69 *)
Definition lib_abs (t : ntype) (x : num) : res num :=
  check_overflow t (py_abs x) 27020 27021.
(** lib/pfamath.py:126-132 (no overflow check in the code) *)
Definition lib_copysign (mag sign : num) : res num :=
  py_mul (py_abs mag) (NI (if num_lt sign (NI 0) then -1 else 1)).

(** util.py:84-105 div, used by "/" (lib/core.py:86-92): Python float division raises
    ZeroDivisionError on a zero divisor, which div turns into inf/-inf/nan. *)
Definition lib_divide (x y : num) : res pf :=
  fy <- to_f y ;;
  if is_fzero fy then
    Ok (if num_gt x (NF f0) then finf else if num_lt x (NF f0) then fninf else fnan)
  else fx <- to_f x ;; Ok (fdiv fx fy).

(** lib/core.py:94-103 "//": [int(x / float(y))] *)
Definition lib_floordiv (x y : num) : res Z :=
  if num_eq y (NI 0) then Raise (PFAErr 18040)
  else fy <- to_f y ;; fx <- to_f x ;; py_int (fdiv fx fy).

(** lib/core.py:113-125 "%"; [t] is the last entry of paramTypes (the result type). *)
Definition lib_modulo (t : ntype) (x y : num) : res num :=
  if num_eq y (NI 0) then
    match t with TInt | TLong => Raise (PFAErr 18060) | _ => Ok (NF fnan) end
  else py_mod x y.

(** lib/core.py:127-148 "%%" *)
Definition lib_remainder (t : ntype) (x y : num) : res num :=
  if num_eq y (NI 0) then
    match t with TInt | TLong => Raise (PFAErr 18070) | _ => Ok (NF fnan) end
  else
    xn <- py_isnan x ;; xi <- py_isinf x ;; yi <- py_isinf y ;;
    if negb xn && negb xi && yi then Ok x
    else
      out <- py_mod x y ;;
      if num_lt x (NI 0) && num_gt out (NI 0) then py_sub out (py_abs y)
      else if num_gt x (NI 0) && num_lt out (NI 0) then py_add out (py_abs y)
      else Ok out.

(** lib/core.py:150-215 "**" on integer types, restricted to int operands: for ints the tests on
    NaN and infinity in powLikeJava are vacuous, [x == 0 and y < 0] gives inf, and otherwise
    the C library's [pow] is called; an OverflowError is treated as in lines 185-195. The C
    library's pow is a parameter: [None] stands for OverflowError. *)
Section Pow.
  Variable c_pow : pf -> pf -> option pf.
  Definition pow_like_java_int (x y : Z) : res pf :=
    if (x =? 0) && (y <? 0) then Ok finf
    else fx <- py_float x ;; fy <- py_float y ;;
         match c_pow fx fy with
         | Some r => Ok r
         | None => Ok (if y =? 0 then (if x <? 0 then fnan else f_of_Z 1)
                       else if ((1 <? Z.abs x) && (y <? 0)) || ((Z.abs x <? 1) && (0 <? y))
                       then f0 else finf)
         end.
  (** lib/core.py:201-214 *)
  Definition lib_pow_int (t : ntype) (x y : Z) : res num :=
    out <- pow_like_java_int x y ;;
    match t with
    | TInt => if isnan out || num_lt (NF out) (NI INT_MIN_VALUE) || num_gt (NF out) (NI INT_MAX_VALUE)
              then Raise (PFAErr 18080) else z <- py_int out ;; Ok (NI z)
    | TLong => if isnan out || num_lt (NF out) (NI LONG_MIN_VALUE) || num_gt (NF out) (NI LONG_MAX_VALUE)
              then Raise (PFAErr 18081) else z <- py_int out ;; Ok (NI z)
    | _ => Ok (NF out)
    end.
End Pow.

(** lib/core.py:394-437 bitwise operators on Python ints *)
Definition lib_bitand (x y : Z) : Z := Z.land x y.
Definition lib_bitor (x y : Z) : Z := Z.lor x y.
Definition lib_bitxor (x y : Z) : Z := Z.lxor x y.
Definition lib_bitnot (x : Z) : Z := Z.lnot x.

(** ---- logic (operands are computations over a state of side effects) ---- *)
Section Logic.
  Variable S : Type.
  Definition comp (A : Type) := S -> res A * S.

  (** lib/core.py:301-309: the generated code is [({0} and {1})] *)
  Definition lib_and (x y : comp bool) : comp bool := fun s =>
    match x s with
    | (Raise e, s') => (Raise e, s')
    | (Ok false, s') => (Ok false, s')
    | (Ok true, s') => y s'
    end.
  (** lib/core.py:311-319: [({0} or {1})] *)
  Definition lib_or (x y : comp bool) : comp bool := fun s =>
    match x s with
    | (Raise e, s') => (Raise e, s')
    | (Ok true, s') => (Ok true, s')
    | (Ok false, s') => y s'
    end.

  (** Run-time values of type union(boolean, null): a bare boolean, a tagged boolean
      [{"boolean": b}], or None. *)
  Inductive kval := KBare (b : bool) | KTag (b : bool) | KNull.
  Definition k_is (b : bool) (v : kval) : bool :=
    match v with KBare b' | KTag b' => Bool.eqb b b' | KNull => false end.

  (** lib/core.py:341-358 *)
  Definition lib_kand (x y : comp kval) : comp kval := fun s =>
    match x s with
    | (Raise e, s') => (Raise e, s')
    | (Ok xv, s') =>
        if k_is false xv then (Ok (KTag false), s')
        else match y s' with
             | (Raise e, s'') => (Raise e, s'')
             | (Ok yv, s'') =>
                 if k_is false yv then (Ok (KTag false), s'')
                 else if k_is true xv && k_is true yv then (Ok (KTag true), s'')
                 else (Ok KNull, s'')
             end
    end.
  (** lib/core.py:360-377 *)
  Definition lib_kor (x y : comp kval) : comp kval := fun s =>
    match x s with
    | (Raise e, s') => (Raise e, s')
    | (Ok xv, s') =>
        if k_is true xv then (Ok (KTag true), s')
        else match y s' with
             | (Raise e, s'') => (Raise e, s'')
             | (Ok yv, s'') =>
                 if k_is true yv then (Ok (KTag true), s'')
                 else if k_is false xv && k_is false yv then (Ok (KTag false), s'')
                 else (Ok KNull, s'')
             end
    end.
End Logic.
Arguments KNull : clear implicits.
(** lib/core.py:379-390 *)
Definition lib_knot (x : kval) : kval :=
  if k_is true x then KTag false else if k_is false x then KTag true else KNull.
(** lib/core.py:321-327 and 329-337 *)
Definition lib_xor (x y : bool) : bool := (x || y) && negb (x && y).
Definition lib_not (x : bool) : bool := negb x.

(** ---- casts ---- *)
(** lib/cast.py:55-63 doUnsigned; [-float(x) / maximum] is a float division. *)
Definition do_unsigned (x bits : Z) : res Z :=
  let maximum := 2 ^ bits in
  if x <? 0 then
    fx <- py_float x ;; fm <- py_float maximum ;;
    c <- py_ceil (fdiv (fneg fx) fm) ;;
    Ok ((x + maximum * c) mod maximum)
  else Ok (x mod maximum).
(** lib/cast.py:65-78 *)
Definition lib_signed (x bits : Z) : res Z :=
  if (bits <? 2) || (64 <? bits) then Raise (PFAErr 17000)
  else
    y <- do_unsigned x bits ;;
    let maximum := 2 ^ (bits - 1) in
    if maximum - 1 <? y then Ok (y - 2 * maximum) else Ok y.
(** lib/cast.py:80-88 *)
Definition lib_unsigned (x bits : Z) : res Z :=
  if (bits <? 1) || (63 <? bits) then Raise (PFAErr 17010) else do_unsigned x bits.

(** lib/cast.py:92-114 (min/max of int) and 116-138 (min/max of long). *)
Definition cast_integer (lo hi code : Z) (x : num) : res Z :=
  match x with
  | NF f =>
      if isnan f then Raise (PFAErr code)
      else match py_floor (fadd f (S754_finite false 4503599627370496 (-53))) with
           | Ok out => if (lo <=? out) && (out <=? hi) then Ok out else Raise (PFAErr code)
           | Raise (PyErr "OverflowError") => Raise (PFAErr code)
           | Raise e => Raise e
           end
  | NI out => if (lo <=? out) && (out <=? hi) then Ok out else Raise (PFAErr code)
  end.
Definition lib_cast_int := cast_integer INT_MIN_VALUE INT_MAX_VALUE 17020.
Definition lib_cast_long := cast_integer LONG_MIN_VALUE LONG_MAX_VALUE 17030.

(** Python [range(lo, hi)] *)
Definition zrange (lo hi : Z) : list Z :=
  map (fun i => lo + Z.of_nat i) (seq 0 (Z.to_nat (hi - lo))).

(** lib/cast.py:168-169 *)
Definition fanout_enum (x : string) (symbols : list string) : list bool :=
  map (String.eqb x) symbols.
(** lib/cast.py:171-176 *)
Definition fanout_string (x : string) (dictionary : list string) (outOfRange : bool) : list bool :=
  let out := map (String.eqb x) dictionary in
  if outOfRange then out ++ [negb (existsb (String.eqb x) dictionary)] else out.
(** lib/cast.py:178-183 *)
Definition fanout_int (x minimum maximum : Z) (outOfRange : bool) : list bool :=
  let out := map (Z.eqb x) (zrange minimum maximum) in
  if outOfRange then out ++ [(x <? minimum) || (maximum <=? x)] else out.

(** The three call forms, lib/cast.py:185-200; the numeric variants (202-268) map true/false to
    1/0 or 1.0/0.0, here [one]/[zero]. *)
Inductive fan_args :=
| FanEnum (x : string) (symbols : list string)
| FanString (x : string) (dictionary : list string) (outOfRange : bool)
| FanInt (x minimum maximum : Z) (outOfRange : bool).
Fixpoint nodupb (l : list string) : bool :=
  match l with [] => true | x :: l' => negb (existsb (String.eqb x) l') && nodupb l' end.
Definition lib_fanout {A} (one zero : A) (code : Z) (a : fan_args) : res (list A) :=
  let num := map (fun b : bool => if b then one else zero) in
  match a with
  | FanEnum x ss => Ok (num (fanout_enum x ss))
  | FanString x d o => if nodupb d then Ok (num (fanout_string x d o)) else Raise (PFAErr code)
  | FanInt x lo hi o => Ok (num (fanout_int x lo hi o))
  end.
