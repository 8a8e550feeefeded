(** Specification vocabulary for strings. *)
From Verif Require Import Base.
Open Scope list_scope.
Open Scope Z_scope.

Notation str := (list Z).
(** needle occurs in hay at position i *)
Definition occurs_at (needle hay : str) (i : Z) : Prop := exists p q, hay = p ++ needle ++ q /\ Z.of_nat (length p) = i.
Definition occurs (needle hay : str) : Prop := exists i, occurs_at needle hay i.
(** joining pieces with a separator *)
Fixpoint joined (sep : str) (first : str) (rest : list str) : str :=
  match rest with [] => first | s :: l => first ++ sep ++ joined sep s l end.
(** The pieces of s between the occurrences of sep that a reader from left to right finds: each piece
    ends where sep occurs first, the last one contains no sep. *)
Inductive cuts (sep : str) : str -> str -> list str -> Prop :=
| cuts_last s : ~ occurs sep s -> cuts sep s s []
| cuts_step p s' p' ps : (forall i, occurs_at sep (p ++ sep ++ s') i -> Z.of_nat (length p) <= i) ->
    cuts sep s' p' ps -> cuts sep (p ++ sep ++ s') p (p' :: ps).
(** the number denoted by digits in base b, most significant first *)
Fixpoint numeral (b : Z) (acc : Z) (ds : list Z) : Z := match ds with [] => acc | d :: l => numeral b (acc * b + d) l end.
(** the value of a character as a digit: 0-9, a-f *)
Definition digit_value (c d : Z) : Prop := (48 <= c <= 57 /\ d = c - 48) \/ (97 <= c <= 102 /\ d = c - 87).
(** s denotes x >= 0 in base b, without leading zeros *)
Definition denotes (b : Z) (s : str) (x : Z) : Prop :=
  exists ds, Forall2 digit_value s ds /\ Forall (fun d => 0 <= d < b) ds /\ numeral b 0 ds = x /\ s <> [] /\ (forall c s', s = c :: s' -> c = 48 -> s' = []).
