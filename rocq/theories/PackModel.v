(** Binary packing: titus/pfaast.py:5489-5692 (class BinaryFormatter: format strings, Declare classes,
    formatToDeclare) and titus/genpy.py:1102-1264 (pack, unpackOne, unpack, unpackElse), together with the
    part of Python's [struct] and [re] that they use.

    Strings are Coq strings, i.e. Python strings with code points below 256. *)
From Coq Require Import Ascii.
From Coq Require Import SpecFloat.
From Verif Require Import Base PyNum.
Open Scope string_scope.
Open Scope list_scope.
Open Scope Z_scope.

(** * Regular expressions *)

(** The regular expressions that occur in pfaast.py:5492-5507: literals, alternation, optional groups,
    [\s*], [\s+] and [([0-9]+)]. *)
Inductive rx : Type :=
| Lit (s : string)
| Alt (a b : rx)
| Seq (a b : rx)
| Opt (a : rx)
| SpStar
| SpPlus
| DigPlus.

(** [\s] of a [str] pattern: Python's str.isspace, restricted to code points below 256. *)
Definition is_space (c : ascii) : bool :=
  let n := Z.of_nat (nat_of_ascii c) in
  ((9 <=? n) && (n <=? 13)) || ((28 <=? n) && (n <=? 32)) || (n =? 133) || (n =? 160).
Definition is_digit (c : ascii) : bool :=
  let n := Z.of_nat (nat_of_ascii c) in (48 <=? n) && (n <=? 57).

Fixpoint drop_lit (p s : string) : option string :=
  match p, s with
  | EmptyString, _ => Some s
  | String a p', String b s' => if Ascii.eqb a b then drop_lit p' s' else None
  | String _ _, EmptyString => None
  end.
(** The suffixes left after one or more characters of a class, longest match first. *)
Fixpoint plus_rests (cl : ascii -> bool) (s : string) : list string :=
  match s with
  | EmptyString => []
  | String c s' => if cl c then plus_rests cl s' ++ [s'] else []
  end.
(** The suffixes a backtracking match of [r] at the beginning of [s] can leave, in the order in which Python's
    [re] tries them (greedy repetitions, leftmost alternative first). *)
Fixpoint rests (r : rx) (s : string) : list string :=
  match r with
  | Lit p => match drop_lit p s with Some s' => [s'] | None => [] end
  | Alt a b => rests a s ++ rests b s
  | Seq a b => flat_map (rests b) (rests a s)
  | Opt a => rests a s ++ [s]
  | SpStar => plus_rests is_space s ++ [s]
  | SpPlus => plus_rests is_space s
  | DigPlus => plus_rests is_digit s
  end.
(** [re.match(r, s)] is not None: a prefix of [s] matches. *)
Definition re_match (r : rx) (s : string) : bool := match rests r s with [] => false | _ => true end.

Definition seqs (l : list rx) : rx := fold_right Seq (Lit "") l.
Definition alts (a : rx) (l : list rx) : rx := fold_left Alt l a.

(** pfaast.py:5492-5507. *)
Definition endian : rx := Opt (alts (Lit "<") [Lit ">"; Lit "!"; Lit "little"; Lit "big"; Lit "network"]).
Definition uns (s : string) : rx := seqs [Lit "unsigned"; SpStar; Lit s].
Definition formatPad := seqs [SpStar; Lit "pad"; SpStar].
Definition formatBoolean := seqs [SpStar; Lit "boolean"; SpStar].
Definition formatByte := seqs [SpStar; alts (Lit "byte") [Lit "int8"]; SpStar].
Definition formatUnsignedByte := seqs [SpStar; Lit "unsigned"; SpStar; alts (Lit "byte") [Lit "int8"]; SpStar].
Definition formatShort := seqs [SpStar; endian; SpStar; alts (Lit "short") [Lit "int16"]; SpStar].
Definition formatUnsignedShort := seqs [SpStar; endian; SpStar; alts (uns "short") [uns "int16"]; SpStar].
Definition formatInt := seqs [SpStar; endian; SpStar; alts (Lit "int") [Lit "int32"]; SpStar].
Definition formatUnsignedInt := seqs [SpStar; endian; SpStar; alts (uns "int") [uns "int32"]; SpStar].
Definition formatLong :=
  seqs [SpStar; endian; SpStar; alts (Lit "long") [seqs [Lit "long"; SpPlus; Lit "long"]; Lit "int64"]; SpStar].
Definition formatUnsignedLong :=
  seqs [SpStar; endian; SpStar;
        alts (uns "long") [seqs [Lit "unsigned"; SpStar; Lit "long"; SpPlus; Lit "long"]; uns "int64"]; SpStar].
Definition formatFloat := seqs [SpStar; endian; SpStar; alts (Lit "float") [Lit "float32"]; SpStar].
Definition formatDouble := seqs [SpStar; endian; SpStar; alts (Lit "double") [Lit "float64"]; SpStar].
Definition formatRaw := seqs [SpStar; Lit "raw"; SpStar].
Definition formatRawSize := seqs [SpStar; Lit "raw"; SpStar; DigPlus; SpStar].
Definition formatToNull := seqs [SpStar; Opt (seqs [Lit "null"; SpStar]); Lit "terminated"; SpStar].
Definition formatPrefixed := seqs [SpStar; Opt (seqs [Lit "length"; SpStar]); Lit "prefixed"; SpStar].

(** Group 1 of formatRawSize: the digits between "raw" and the rest, taken greedily. *)
Fixpoint digits_of (s : string) : string :=
  match s with
  | EmptyString => EmptyString
  | String c s' => if is_digit c then String c (digits_of s') else EmptyString
  end.
Definition int_of_digits (s : string) : Z :=
  (fix go (acc : Z) (s : string) : Z :=
     match s with
     | EmptyString => acc
     | String c s' => go (acc * 10 + (Z.of_nat (nat_of_ascii c) - 48)) s'
     end) 0 s.
Definition raw_size (f : string) : Z :=
  match filter (fun s => match digits_of s with EmptyString => false | _ => true end)
               (rests (seqs [SpStar; Lit "raw"; SpStar]) f) with
  | s :: _ => int_of_digits (digits_of s)
  | [] => 0
  end.

(** Python's [sub in f]. *)
Fixpoint str_in (sub s : string) : bool :=
  match drop_lit sub s with
  | Some _ => true
  | None => match s with EmptyString => false | String _ s' => str_in sub s' end
  end.

(** * Declare classes, pfaast.py:5509-5654 *)

Inductive declare : Type :=
| DPad
| DBoolean
| DByte (unsigned : bool)
| DShort (little unsigned : bool)
| DInt (little unsigned : bool)
| DLong (little unsigned : bool)
| DFloat (little : bool)
| DDouble (little : bool)
| DRaw
| DRawSize (size : Z)
| DToNull
| DPrefixed.

(** pfaast.py:5656-5692 (formatToDeclare). Both error branches name [self] in a static method: NameError. *)
Definition formatToDeclare (f : string) (output : bool) : res declare :=
  let little := str_in "<" f || str_in "little" f in
  if re_match formatPad f then Ok DPad
  else if re_match formatBoolean f then Ok DBoolean
  else if re_match formatByte f then Ok (DByte false)
  else if re_match formatUnsignedByte f then Ok (DByte true)
  else if re_match formatShort f then Ok (DShort little false)
  else if re_match formatUnsignedShort f then Ok (DShort little true)
  else if re_match formatInt f then Ok (DInt little false)
  else if re_match formatUnsignedInt f then Ok (DInt little true)
  else if re_match formatLong f then Ok (DLong little false)
  else if re_match formatUnsignedLong f then Ok (DLong little true)
  else if re_match formatFloat f then Ok (DFloat little)
  else if re_match formatDouble f then Ok (DDouble little)
  else if re_match formatRawSize f then Ok (DRawSize (raw_size f))
  else if re_match formatToNull f then Ok DToNull
  else if re_match formatPrefixed f then Ok DPrefixed
  else if re_match formatRaw f then (if output then Ok DRaw else Raise (PyErr "NameError"))
  else Raise (PyErr "NameError").

(** The __str__ methods: the format code and length handed to pack/unpack (the value part is dropped). *)
Definition ord_ (little : bool) (c : string) : string := ((if little then "<" else ">") ++ c)%string.
Definition declare_str (d : declare) : string * option Z :=
  match d with
  | DPad => ("x", Some 1)
  | DBoolean => ("?", Some 1)
  | DByte u => (if u then "B" else "b", Some 1)
  | DShort l u => (ord_ l (if u then "H" else "h"), Some 2)
  | DInt l u => (ord_ l (if u then "I" else "i"), Some 4)
  | DLong l u => (ord_ l (if u then "Q" else "q"), Some 8)
  | DFloat l => (ord_ l "f", Some 4)
  | DDouble l => (ord_ l "d", Some 8)
  | DRaw => ("raw", None)
  | DRawSize n => ("raw", Some n)
  | DToNull => ("tonull", None)
  | DPrefixed => ("prefixed", None)
  end.

(** The [avroType] attribute of the Declare classes: the type an expression packed with this format must be
    accepted by (pfaast.py:5744) and the type of the variable bound by unpack (pfaast.py:5846). *)
Inductive ptype : Type := TyNull | TyBoolean | TyInt | TyLong | TyFloat | TyDouble | TyBytes.
Definition declare_type (d : declare) : ptype :=
  match d with
  | DPad => TyNull
  | DBoolean => TyBoolean
  | DByte _ => TyInt
  | DShort _ _ => TyInt
  | DInt _ u => if u then TyLong else TyInt
  | DLong _ u => if u then TyDouble else TyLong
  | DFloat _ => TyFloat
  | DDouble _ => TyDouble
  | DRaw | DRawSize _ | DToNull | DPrefixed => TyBytes
  end.

(** * Values *)

(** Python values: numbers, and the two representations of Avro bytes (bytes objects and strings whose
    characters stand for the bytes), as lists of code points. *)
Inductive pval : Type :=
| VNull
| VBool (b : bool)
| VNum (n : num)
| VBytes (l : list Z)
| VStr (l : list Z).

(** * Python's struct *)

(** IEEE 754 interchange format with [mw] mantissa and [ew] exponent bits. NaNs are not told apart. *)
Definition float_bits (mw ew : Z) (f : spec_float) : Z :=
  match f with
  | S754_zero s => (if s then 1 else 0) * 2 ^ ew * 2 ^ mw
  | S754_infinity s => ((if s then 1 else 0) * 2 ^ ew + (2 ^ ew - 1)) * 2 ^ mw
  | S754_nan => (2 ^ ew - 1) * 2 ^ mw + 2 ^ (mw - 1)
  | S754_finite s m e =>
      let be := if Zpos m <? 2 ^ mw then 0 else e + (2 ^ (ew - 1) - 1) + mw in
      ((if s then 1 else 0) * 2 ^ ew + be) * 2 ^ mw + Zpos m mod 2 ^ mw
  end.
Definition bits_float (mw ew : Z) (z : Z) : spec_float :=
  let s := 1 <=? z / 2 ^ (mw + ew) in
  let be := (z / 2 ^ mw) mod 2 ^ ew in
  let mt := z mod 2 ^ mw in
  if be =? 2 ^ ew - 1 then (if mt =? 0 then S754_infinity s else S754_nan)
  else if be =? 0 then
    match mt with Zpos p => S754_finite s p (2 - 2 ^ (ew - 1) - mw) | _ => S754_zero s end
  else match mt + 2 ^ mw with Zpos p => S754_finite s p (be - (2 ^ (ew - 1) - 1) - mw) | _ => S754_nan end.

(** C's (float)x for a double x, and PyFloat_Pack4's overflow check. *)
Definition narrow (f : pf) : res spec_float :=
  match f with
  | S754_finite s m e =>
      match binary_round 24 128 s m e with
      | S754_infinity _ => Raise (PyErr "OverflowError")
      | y => Ok y
      end
  | _ => Ok f
  end.
(** C's (double)y for a float y: exact. *)
Definition widen (y : spec_float) : pf :=
  match y with
  | S754_finite s m e =>
      let k := 53 - Zpos (digits2_pos m) in
      match Zpos m * 2 ^ k with Zpos m' => S754_finite s m' (e - k) | _ => S754_nan end
  | _ => y
  end.

Fixpoint le_bytes (n : nat) (z : Z) : list Z :=
  match n with O => [] | S n' => z mod 256 :: le_bytes n' (z / 256) end.
Fixpoint le_value (l : list Z) : Z :=
  match l with [] => 0 | b :: l' => b + 256 * le_value l' end.
Definition put (little : bool) (n : nat) (z : Z) : list Z :=
  if little then le_bytes n z else rev (le_bytes n z).
Definition get (little : bool) (l : list Z) : Z :=
  if little then le_value l else le_value (rev l).

Inductive scode : Type := SPad | SBool | SInt (signed : bool) (size : nat) | SFloat4 | SFloat8.
Definition letter (c : ascii) : option scode :=
  match c with
  | "x" => Some SPad
  | "?" => Some SBool
  | "b" => Some (SInt true 1) | "B" => Some (SInt false 1)
  | "h" => Some (SInt true 2) | "H" => Some (SInt false 2)
  | "i" => Some (SInt true 4) | "I" => Some (SInt false 4)
  | "q" => Some (SInt true 8) | "Q" => Some (SInt false 8)
  | "f" => Some SFloat4
  | "d" => Some SFloat8
  | _ => None
  end%char.
(** A struct format with one item: optional byte order, then a letter. (Without byte order only one-byte
    letters are used here.) *)
Definition parse_fmt (f : string) : option (bool * scode) :=
  match f with
  | String c EmptyString => option_map (pair true) (letter c)
  | String o (String c EmptyString) =>
      if Ascii.eqb o "<" then option_map (pair true) (letter c)
      else if Ascii.eqb o ">" then option_map (pair false) (letter c) else None
  | _ => None
  end.

Definition struct_error {A} : res A := Raise (PyErr "struct.error").
(** PyFloat_AsDouble as called by struct: every failure becomes struct.error. *)
Definition as_double (v : pval) : res pf :=
  match v with
  | VNum n => match to_f n with Ok f => Ok f | Raise _ => struct_error end
  | VBool b => Ok (f_of_Z (if b then 1 else 0))
  | _ => struct_error
  end.
Definition truthy (v : pval) : bool :=
  match v with
  | VNull => false
  | VBool b => b
  | VNum (NI z) => negb (z =? 0)
  | VNum (NF f) => negb (is_fzero f)
  | VBytes l | VStr l => match l with [] => false | _ => true end
  end.
Definition int_range (signed : bool) (n : nat) (z : Z) : bool :=
  let w := 8 * Z.of_nat n in
  if signed then (- 2 ^ (w - 1) <=? z) && (z <? 2 ^ (w - 1)) else (0 <=? z) && (z <? 2 ^ w).
Definition pack_int (little signed : bool) (n : nat) (z : Z) : res (list Z) :=
  if int_range signed n z then Ok (put little n (z mod 2 ^ (8 * Z.of_nat n))) else struct_error.

Definition struct_pack (f : string) (v : pval) : res (list Z) :=
  match parse_fmt f with
  | None => struct_error
  | Some (little, c) =>
      match c with
      | SPad => struct_error
      | SBool => Ok [if truthy v then 1 else 0]
      | SInt signed n =>
          match v with
          | VNum (NI z) => pack_int little signed n z
          | VBool b => pack_int little signed n (if b then 1 else 0)
          | _ => struct_error
          end
      | SFloat4 => x <- as_double v ;; y <- narrow x ;; Ok (put little 4 (float_bits 23 8 y))
      | SFloat8 => x <- as_double v ;; Ok (put little 8 (float_bits 52 11 x))
      end
  end.

Definition to_signed (n : nat) (z : Z) : Z :=
  let w := 8 * Z.of_nat n in if z <? 2 ^ (w - 1) then z else z - 2 ^ w.
(** struct.unpack(f, data) with exactly as many bytes as the format has (the caller has checked). *)
Definition struct_unpack (f : string) (l : list Z) : res pval :=
  match parse_fmt f with
  | None => struct_error
  | Some (little, c) =>
      match c with
      | SPad => Ok VNull
      | SBool => Ok (VBool (negb (get little l =? 0)))
      | SInt signed n =>
          if Nat.eqb (length l) n
          then Ok (VNum (NI (if signed then to_signed n (get little l) else get little l)))
          else struct_error
      | SFloat4 => if Nat.eqb (length l) 4 then Ok (VNum (NF (widen (bits_float 23 8 (get little l))))) else struct_error
      | SFloat8 => if Nat.eqb (length l) 8 then Ok (VNum (NF (bits_float 52 11 (get little l)))) else struct_error
      end
  end.

(** * genpy.py:1102-1156 (pack) *)

Definition py_len (v : pval) : res Z :=
  match v with VBytes l | VStr l => Ok (Z.of_nat (length l)) | _ => Raise (PyErr "TypeError") end.
(** [value if isinstance(value, bytes) else bytes(map(ord, value))]. *)
Definition as_bytes (v : pval) : res (list Z) :=
  match v with
  | VBytes l => Ok l
  | VStr l => if forallb (fun c => c <? 256) l then Ok l else Raise (PyErr "ValueError")
  | _ => Raise (PyErr "TypeError")
  end.
(** int(value). *)
Definition to_int (v : pval) : res pval :=
  match v with
  | VNum (NI z) => Ok (VNum (NI z))
  | VNum (NF f) => z <- py_int f ;; Ok (VNum (NI z))
  | VBool b => Ok (VNum (NI (if b then 1 else 0)))
  | VNull => Raise (PyErr "TypeError")
  | VBytes _ | VStr _ => Raise (PyErr "ValueError")
  end.

(** The body of the loop, genpy.py:1118-1154. *)
Definition packOne (v0 : pval) (f : string) (l : option Z) : res (list Z) :=
  let v := match v0 with VStr [] => VBytes [] | _ => v0 end in
  if String.eqb f "raw" then
    match l with
    | None => as_bytes v
    | Some n => len <- py_len v ;; if negb (len =? n) then Raise (PFAErr 3000) else as_bytes v
    end
  else if String.eqb f "tonull" then b <- as_bytes v ;; Ok (b ++ [0])
  else if String.eqb f "prefixed" then
    len <- py_len v ;;
    if 255 <? len then Raise (PFAErr 3001) else b <- as_bytes v ;; Ok (len :: b)
  else if String.eqb f "x" then Ok [0]
  else if str_in "Q" f || str_in "q" f then z <- to_int v ;; struct_pack f z
  else struct_pack f v.

Fixpoint pack (l : list (pval * declare)) : res (list Z) :=
  match l with
  | [] => Ok []
  | (v, d) :: l' =>
      b <- packOne v (fst (declare_str d)) (snd (declare_str d)) ;; bs <- pack l' ;; Ok (b ++ bs)
  end.

(** * genpy.py:1158-1264 (unpackOne, unpack, unpackElse) *)

Inductive step (A : Type) : Type := Done (a : A) | Misaligned | Error (e : exn).
Arguments Done {A} a.
Arguments Misaligned {A}.
Arguments Error {A} e.

(** The bytes under consideration: a bytes object or a string. *)
Record bstr := { b_str : bool; b_data : list Z }.
Definition bval (s : bool) (l : list Z) : pval := if s then VStr l else VBytes l.

(** [byte_s.index(bytes([0]))]. *)
Fixpoint index0 (l : list Z) : option nat :=
  match l with
  | [] => None
  | b :: l' => if b =? 0 then Some O else option_map S (index0 l')
  end.

(** [byte_s[:l], byte_s[l:]] and the length check. *)
Definition cut (b : bstr) (l : option Z) : step (list Z * list Z) :=
  match l with
  | None => Misaligned
  | Some n =>
      let this := firstn (Z.to_nat n) (b_data b) in
      if Z.of_nat (length this) =? n then Done (this, skipn (Z.to_nat n) (b_data b)) else Misaligned
  end.

(** unpackOne, genpy.py:1162-1208: the value bound and the remaining bytes. *)
Definition unpackOne (b : bstr) (f : string) (l : option Z) : step (pval * bstr) :=
  if String.eqb f "raw" then
    match cut b l with
    | Done (this, that) => Done (bval (b_str b) this, {| b_str := b_str b; b_data := that |})
    | Misaligned => Misaligned
    | Error e => Error e
    end
  else if String.eqb f "tonull" then
    if b_str b then Error (PyErr "TypeError")
    else match index0 (b_data b) with
         | None => Misaligned
         | Some n => Done (VBytes (firstn n (b_data b)), {| b_str := false; b_data := skipn (S n) (b_data b) |})
         end
  else if String.eqb f "prefixed" then
    match b_data b with
    | [] => Misaligned
    | len :: rest =>
        let this := firstn (Z.to_nat len) rest in
        if Z.of_nat (length this) =? len
        then Done (bval (b_str b) this, {| b_str := b_str b; b_data := skipn (Z.to_nat len) rest |})
        else Misaligned
    end
  else
    match cut b l with
    | Done (this, that) =>
        if b_str b then Error (PyErr "TypeError")
        else match struct_unpack f this with
             | Ok v => Done (v, {| b_str := false; b_data := that |})
             | Raise e => Error e
             end
    | Misaligned => Misaligned
    | Error e => Error e
    end.

(** The loop over the format: bindings made in the then-scope, and the bytes left. *)
Fixpoint unpack_loop (b : bstr) (fmt : list (string * declare)) : step (list (string * pval) * bstr) :=
  match fmt with
  | [] => Done ([], b)
  | (s, d) :: fmt' =>
      match unpackOne b (fst (declare_str d)) (snd (declare_str d)) with
      | Done (v, b') =>
          match unpack_loop b' fmt' with
          | Done (vs, b'') => Done ((s, v) :: vs, b'')
          | Misaligned => Misaligned
          | Error e => Error e
          end
      | Misaligned => Misaligned
      | Error e => Error e
      end
  end.

(** unpack / unpackElse: the bindings with which the then-clause is run, or None when the else-clause (if any)
    is run instead. *)
Definition unpack (b : bstr) (fmt : list (string * declare)) : res (option (list (string * pval))) :=
  match unpack_loop b fmt with
  | Done (vs, b') => Ok (match b_data b' with [] => Some vs | _ => None end)
  | Misaligned => Ok None
  | Error e => Raise e
  end.
