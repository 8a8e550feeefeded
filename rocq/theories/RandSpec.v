(** What a user expects of random values, independent of the model. *)
From Coq Require Import SpecFloat Permutation.
From Verif Require Import Base PyNum Effects StrModel StrSpec.
Open Scope string_scope.
Open Scope list_scope.
Open Scope Z_scope.

(** A generator that answers [draw n] with some integer in [0, n); nothing is assumed about the distribution. *)
Definition fair {S} (draw : Z -> M S Z) : Prop := forall n s, 0 < n -> exists k s', draw n s = (Ok k, s') /\ 0 <= k < n.
(** Unicode characters: code points other than surrogates *)
Definition character (c : Z) : Prop := 0 <= c < 55296 \/ 57344 <= c < 1114112.
(** ys is drawn from population without replacement *)
Definition without_replacement {A} (ys population : list A) : Prop := exists rest, Permutation (ys ++ rest) population.
(** lower-case hexadecimal digits *)
Definition hex_digits (n : nat) (s : str) : Prop := length s = n /\ Forall (fun c => exists d, digit_value c d) s.
(** the text form of a UUID of version 4, with [n] digits in the last group (12 by RFC 4122) *)
Definition uuid4 (n : nat) (s : str) : Prop := exists a b c v d e,
  hex_digits 8 a /\ hex_digits 4 b /\ hex_digits 3 c /\ In v [56;57;97;98] /\ hex_digits 3 d /\ hex_digits n e /\
  s = a ++ [45] ++ b ++ [45] ++ [52] ++ c ++ [45] ++ [v] ++ d ++ [45] ++ e.
