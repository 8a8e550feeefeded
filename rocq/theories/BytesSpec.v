(** Specification of C76. *)
From Verif Require Import Base ArrayModel BytesModel.
Open Scope string_scope.
Open Scope list_scope.
Open Scope Z_scope.

(** a value of type bytes, whichever way Python holds it *)
Definition bytes_ok (x : bval) : Prop := match x with BStr l | BBytes l => Forall (fun b => 0 <= b < 256) l end.
Definition contents (x : bval) : list Z := match x with BStr l | BBytes l => l end.
(** the characters an encoding has *)
Definition has_char (k : codec) (c : Z) : Prop :=
  match k with
  | Ascii => 0 <= c < 128
  | Latin1 => 0 <= c < 256
  | _ => 0 <= c < 55296 \/ 57344 <= c < 1114112
  end.
(** the characters of base 64 *)
Definition b64_alphabet (c : Z) : Prop := 65 <= c <= 90 \/ 97 <= c <= 122 \/ 48 <= c <= 57 \/ c = 43 \/ c = 47.
(** the same in order (RFC 4648, table 1) *)
Definition b64_table : list Z :=
  map (fun c => Z.of_N (Ascii.N_of_ascii c)) (list_ascii_of_string "ABCDEFGHIJKLMNOPQRSTUVWXYZabcdefghijklmnopqrstuvwxyz0123456789+/").
(** the number written with these digits, the most significant first: what base 64 has to carry *)
Definition number (base : Z) (digits : list Z) : Z := fold_left (fun n d => n * base + d) digits 0.
