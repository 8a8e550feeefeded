(** Specification of C77: which texts Python takes for integers. *)
From Verif Require Import Base StrSpec.
Open Scope list_scope.
Open Scope Z_scope.

Definition space (c : Z) : Prop := In c [9; 10; 11; 12; 13; 32].
(** the value of a digit: 0-9, a-z, A-Z *)
Definition alnum_value (c d : Z) : Prop :=
  (48 <= c <= 57 /\ d = c - 48) \/ (97 <= c <= 122 /\ d = c - 97 + 10) \/ (65 <= c <= 90 /\ d = c - 65 + 10).
Definition digit_in (base c d : Z) : Prop := alnum_value c d /\ d < base.
(** digits, with single underscores between them *)
Inductive digit_text (base : Z) : str -> list Z -> Prop :=
| dt_one c d : digit_in base c d -> digit_text base [c] [d]
| dt_next c d s ds : digit_in base c d -> digit_text base s ds -> digit_text base (c :: s) (d :: ds)
| dt_under c d s ds : digit_in base c d -> digit_text base s ds -> digit_text base (c :: 95 :: s) (d :: ds).
(** nothing, or 0x, 0o, 0b in the base that goes with it, possibly with an underscore *)
Definition base_prefix (base : Z) (p : str) : Prop :=
  p = [] \/ exists b l, In (b, l) [(16, 120); (16, 88); (8, 111); (8, 79); (2, 98); (2, 66)] /\ base = b /\ (p = [48; l] \/ p = [48; l; 95]).
(** the text stands for n *)
Definition int_text (base : Z) (s : str) (n : Z) : Prop :=
  exists sp sg p body sp' ds, s = sp ++ sg ++ p ++ body ++ sp' /\ Forall space sp /\ Forall space sp'
    /\ base_prefix base p /\ digit_text base body ds
    /\ (((sg = [] \/ sg = [43]) /\ n = numeral base 0 ds) \/ (sg = [45] /\ n = - numeral base 0 ds)).
(** the ASCII equivalent of a character *)
Definition ascii_for (uspace : Z -> bool) (udecimal : Z -> option Z) (c t : Z) : Prop :=
  (c < 127 /\ t = c) \/ (127 <= c /\ uspace c = true /\ t = 32) \/ (127 <= c /\ uspace c = false /\ exists d, udecimal c = Some d /\ t = 48 + d).
