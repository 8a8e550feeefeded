(** What residuals, pulls and chi-square states should be, entry by entry. *)
From Coq Require Import SpecFloat.
From Verif Require Import Base PyNum.
Open Scope string_scope.
Open Scope list_scope.
Open Scope Z_scope.

(** a number that a PFA value of type double can be: any float, or an int of at most 64 bits *)
Definition a_double (x : num) : Prop := match x with NI z => Z.abs z <= 2 ^ 63 | NF _ => True end.

(** [r] holds, for each position of the arrays [o] and [p], which are of the same length, a value related to theirs *)
Definition at_each_position {V : Type} (R : V -> V -> V -> Prop) (o p r : list V) : Prop :=
  length o = length p /\ length r = length o /\
  forall i a b c, nth_error o i = Some a -> nth_error p i = Some b -> nth_error r i = Some c -> R a b c.
Definition at_each_position3 {V : Type} (R : V -> V -> V -> V -> Prop) (o p u r : list V) : Prop :=
  length o = length p /\ length o = length u /\ length r = length o /\
  forall i a b w c, nth_error o i = Some a -> nth_error p i = Some b -> nth_error u i = Some w ->
    nth_error r i = Some c -> R a b w c.

Definition same_keys {V W : Type} (a : list (string * V)) (b : list (string * W)) : Prop :=
  forall k, In k (map fst a) <-> In k (map fst b).
(** a dict: no key twice *)
Definition dict_ok {V : Type} (d : list (string * V)) : Prop := NoDup (map fst d).

(** the sign of a difference decides what a zero uncertainty gives *)
Definition limit_of (d : num) : pf :=
  match num_cmp d (NI 0) with Some Gt => finf | Some Lt => fninf | _ => fnan end.

Definition sum_sq (l : list Z) : Z := fold_right (fun z t => z * z + t) 0 l.
