(** Model of titus/lib/parse.py: parse.int, parse.long, parse.float and parse.double.

    A text is a list of code points. int(str, base) is CPython's PyLong_FromUnicodeObject and PyLong_FromString,
    which titus calls at lib/parse.py:54 and 71: characters are first replaced by their ASCII equivalents, then
    white space, a sign, a prefix, digits with single underscores between them, and white space are read.
    Not modelled: the limit of 4300 digits that newer Python versions put on bases which are not powers of two. *)
From Coq Require Import SpecFloat.
From Verif Require Import Base PyNum.
Open Scope list_scope.
Open Scope Z_scope.

Notation str := (list Z).

(** Py_ISSPACE *)
Definition is_space (c : Z) : bool := (((9 <=? c) && (c <=? 13)) || (c =? 32))%bool.
(** _PyLong_DigitValue: 37 for characters that are no digits *)
Definition digit_of (c : Z) : Z :=
  if ((48 <=? c) && (c <=? 57))%bool then c - 48
  else if ((65 <=? c) && (c <=? 90))%bool then c - 55
  else if ((97 <=? c) && (c <=? 122))%bool then c - 87
  else 37.

Fixpoint skip_space (l : str) : str := match l with c :: r => if is_space c then skip_space r else l | [] => [] end.
(** the sign: (negative?, rest) *)
Definition read_sign (l : str) : bool * str :=
  match l with c :: r => if c =? 43 then (false, r) else if c =? 45 then (true, r) else (false, l) | [] => (false, []) end.
(** 0x, 0o, 0b (either case) if the base is 16, 8, 2; one underscore may follow *)
Definition prefix_letter (base c : Z) : bool :=
  (((base =? 16) && ((c =? 120) || (c =? 88))) || ((base =? 8) && ((c =? 111) || (c =? 79))) || ((base =? 2) && ((c =? 98) || (c =? 66))))%bool.
Definition skip_prefix (base : Z) (l : str) : str :=
  match l with
  | z :: c :: r => if ((z =? 48) && prefix_letter base c)%bool then match r with u :: r' => if u =? 95 then r' else r | [] => r end else l
  | _ => l
  end.
(** the digits; None: a doubled or trailing underscore *)
Fixpoint read_digits (base : Z) (underscore : bool) (n : Z) (l : str) : option (Z * str) :=
  let stop := if underscore then None else Some (n, l) in
  match l with
  | [] => stop
  | c :: r =>
      if c =? 95 then (if underscore then None else read_digits base true n r)
      else if digit_of c <? base then read_digits base false (n * base + digit_of c) r
      else stop
  end.
(** PyLong_FromString on the whole text; None: ValueError *)
Definition from_ascii (base : Z) (l : str) : option Z :=
  let (neg, l1) := read_sign (skip_space l) in
  let l2 := skip_prefix base l1 in
  match l2 with
  | [] => None
  | c :: _ =>
      if digit_of c <? base then
        match read_digits base false 0 l2 with
        | Some (n, rest) => match skip_space rest with [] => Some (if neg then - n else n) | _ => None end
        | None => None
        end
      else None
  end.

Section Unicode.
  (** The Unicode character database, above ASCII: white space, and the values of decimal digits. *)
  Variable uspace : Z -> bool.
  Variable udecimal : Z -> option Z.
  (** _PyUnicode_TransformDecimalAndSpaceToASCII; other characters become a question mark *)
  Definition to_ascii (c : Z) : Z :=
    if c <? 127 then c else if uspace c then 32 else match udecimal c with Some d => 48 + d | None => 63 end.
  Definition py_int_text (s : str) (base : Z) : option Z := from_ascii base (map to_ascii s).

  (** ParseInt, ParseLong: lib/parse.py:50-60, 67-77 *)
  Definition parse_integer (lo hi code : Z) (s : str) (base : Z) : res Z :=
    if ((base <? 2) || (36 <? base))%bool then Raise (PFAErr (code + 1))
    else match py_int_text s base with
         | None => Raise (PFAErr (code + 0))
         | Some out => if ((out <? lo) || (hi <? out))%bool then Raise (PFAErr (code + 0)) else Ok out
         end.
  Definition parse_int := parse_integer (-2147483648) 2147483647 33000.
  Definition parse_long := parse_integer (-9223372036854775808) 9223372036854775807 33010.
End Unicode.

(** The constants of lib/core.py:41-44 as binary64 numbers *)
Definition FLOAT_MAX : pf := S754_finite false 9007198806847480 75.
Definition FLOAT_MIN : pf := S754_finite false 8998853047850346 (-202).
Definition DOUBLE_MAX : pf := S754_finite false 9007199254740991 971.
Definition DOUBLE_MIN : pf := S754_finite false 1 (-1074).
Definition f_lt (x y : pf) : bool := SFltb x y.
(** ParseFloat, ParseDouble: lib/parse.py:84-100, 107-123; [value] is what float(str) gives, None a ValueError *)
Definition parse_real (fmax fmin : pf) (code : Z) (value : option pf) : res pf :=
  match value with
  | None => Raise (PFAErr code)
  | Some out =>
      if isnan out then Ok out
      else if isinf out then Ok out
      else if f_lt fmax out then Ok finf
      else if f_lt fmax (fneg out) then Ok fninf
      else if f_lt (fabs out) fmin then Ok f0
      else Ok out
  end.
Definition parse_float := parse_real FLOAT_MAX FLOAT_MIN 33020.
Definition parse_double := parse_real DOUBLE_MAX DOUBLE_MIN 33030.
