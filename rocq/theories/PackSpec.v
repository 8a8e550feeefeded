(** Specification of binary packing, independent of the code: what values fit a format, when an unpacked value is
    the packed one, and which spellings of a format the PFA document lists with which size. *)
From Coq Require Import Ascii.
From Coq Require Import SpecFloat.
From Verif Require Import Base PyNum PackModel.
Open Scope string_scope.
Open Scope list_scope.
Open Scope Z_scope.

(** [z] is in the range of a (signed or unsigned) integer of [bits] bits. *)
Definition in_bits (unsigned : bool) (bits z : Z) : Prop :=
  if unsigned then 0 <= z < 2 ^ bits else - 2 ^ (bits - 1) <= z < 2 ^ (bits - 1).
(** The content of a bytes value, in either of its two Python representations. *)
Definition content (v : pval) (l : list Z) : Prop := (v = VBytes l \/ v = VStr l) /\ Forall (fun b => 0 <= b < 256) l.
(** [n] is a Python number numerically equal to the integer [z]. *)
Definition is_int (n : num) (z : Z) : Prop :=
  match n with
  | NI z' => z' = z
  | NF (S754_zero _) => z = 0
  | NF (S754_finite s m e) =>
      if 0 <=? e then z = zsign s (Zpos m * 2 ^ e) else zsign s (Zpos m) = z * 2 ^ (- e)
  | NF _ => False
  end.
(** [x] is the double with the value of the single precision number [y]. *)
Definition same_float (y x : spec_float) : Prop :=
  match y, x with
  | S754_zero s, S754_zero s' => s = s'
  | S754_infinity s, S754_infinity s' => s = s'
  | S754_nan, S754_nan => True
  | S754_finite s m e, S754_finite s' m' e' => s = s' /\ e' <= e /\ Zpos m' = Zpos m * 2 ^ (e - e')
  | _, _ => False
  end.
Definition single (y : spec_float) : Prop := valid_binary 24 128 y = true.
Definition double (x : spec_float) : Prop := valid_binary 53 1024 x = true.

(** The value [v] can be represented in format [d]. *)
Definition fits (d : declare) (v : pval) : Prop :=
  match d with
  | DPad => v = VNull
  | DBoolean => exists b, v = VBool b
  | DByte u => exists z, v = VNum (NI z) /\ in_bits u 8 z
  | DShort _ u => exists z, v = VNum (NI z) /\ in_bits u 16 z
  | DInt _ u => exists z, v = VNum (NI z) /\ in_bits u 32 z
  | DLong _ false => exists z, v = VNum (NI z) /\ in_bits false 64 z
  | DLong _ true => exists n z, v = VNum n /\ is_int n z /\ in_bits true 64 z
  | DFloat _ => exists n x y, v = VNum n /\ to_f n = Ok x /\ double x /\ single y /\ same_float y x
  | DDouble _ => exists n x, v = VNum n /\ to_f n = Ok x /\ double x
  | DRaw => False
  | DRawSize k => exists l, content v l /\ Z.of_nat (length l) = k
  | DToNull => exists l, content v l /\ ~ In 0 l
  | DPrefixed => exists l, content v l /\ Z.of_nat (length l) <= 255
  end.

(** [w] is the value [v] again, after a round trip through format [d]. *)
Definition came_back (d : declare) (v w : pval) : Prop :=
  match d with
  | DPad | DBoolean | DByte _ | DShort _ _ | DInt _ _ | DLong _ false => w = v
  | DLong _ true => exists n z, v = VNum n /\ is_int n z /\ w = VNum (NI z)
  | DFloat _ | DDouble _ => exists n x, v = VNum n /\ to_f n = Ok x /\ w = VNum (NF x)
  | DRaw | DRawSize _ | DToNull | DPrefixed => exists l, content v l /\ w = VBytes l
  end.

(** Number of bytes of a value in a format. *)
Definition nbytes (d : declare) (v : pval) : Z :=
  let len := match v with VBytes l | VStr l => Z.of_nat (length l) | _ => 0 end in
  match d with
  | DPad | DBoolean | DByte _ => 1
  | DShort _ _ => 2
  | DInt _ _ | DFloat _ => 4
  | DLong _ _ | DDouble _ => 8
  | DRaw | DRawSize _ => len
  | DToNull | DPrefixed => len + 1
  end.

(** * Spellings of the fixed-size formats *)

Definition spaces (w : string) : Prop := Forall (fun c => is_space c = true) (list_ascii_of_string w).

(** What a name says: integer with signedness and width, or float with width. *)
Inductive kind : Type := KInt (unsigned : bool) (bytes : Z) | KFloat (bytes : Z).

(** The documented names (PFA: pack, unpack), the byte orders, and what they say. *)
Definition multi_byte_names : list (string * kind) :=
  [("short", KInt false 2); ("int16", KInt false 2); ("int", KInt false 4); ("int32", KInt false 4);
   ("long", KInt false 8); ("long long", KInt false 8); ("int64", KInt false 8);
   ("float", KFloat 4); ("float32", KFloat 4); ("double", KFloat 8); ("float64", KFloat 8)].
Definition unsigned_names : list (string * kind) :=
  [("short", KInt true 2); ("int16", KInt true 2); ("int", KInt true 4); ("int32", KInt true 4);
   ("long", KInt true 8); ("long long", KInt true 8); ("int64", KInt true 8)].
Definition byte_orders : list (string * bool) :=
  [("", false); ("<", true); ("little", true); (">", false); ("!", false); ("big", false); ("network", false)].
(** A spelling: white space, byte order, white space, name, white space. *)
Inductive spelling : string -> bool -> string -> kind -> Prop :=
| sp_signed w1 o little w2 n k w3 :
    spaces w1 -> spaces w2 -> spaces w3 -> In (o, little) byte_orders -> In (n, k) multi_byte_names ->
    spelling (w1 ++ o ++ w2 ++ n ++ w3)%string little n k
| sp_unsigned w1 o little w2 w n k w3 :
    spaces w1 -> spaces w2 -> spaces w -> spaces w3 -> In (o, little) byte_orders -> In (n, k) unsigned_names ->
    spelling (w1 ++ o ++ w2 ++ "unsigned" ++ w ++ n ++ w3)%string little n k.

(** The declaration says what the name says. *)
Definition says (little : bool) (k : kind) (d : declare) : Prop :=
  match k, d with
  | KInt u 2, DShort l u' => l = little /\ u' = u
  | KInt u 4, DInt l u' => l = little /\ u' = u
  | KInt u 8, DLong l u' => l = little /\ u' = u
  | KFloat 4, DFloat l => l = little
  | KFloat 8, DDouble l => l = little
  | _, _ => False
  end.
