(** Specification vocabulary for lib/la.py: matrices as families of numbers indexed by positions or keys. *)
From Verif Require Import Base.
Open Scope list_scope.

(** the entry of row r and column c *)
Definition cell {T} (x : list (list T)) (r c : nat) : option T :=
  match nth_error x r with Some row => nth_error row c | None => None end.
(** x is the n by m matrix with entries f r c *)
Definition represents {T} (x : list (list T)) (n m : nat) (f : nat -> nat -> T) : Prop :=
  length x = n /\ (forall row, In row x -> length row = m) /\ forall r c, r < n -> c < m -> cell x r c = Some (f r c).
(** x is rectangular *)
Definition rectangular {T} (x : list (list T)) : Prop := forall a b, In a x -> In b x -> length a = length b.
(** x and y have rows of the same lengths *)
Definition aligned {A B} (x : list (list A)) (y : list (list B)) : Prop := map (@length A) x = map (@length B) y.
(** f 0 + f 1 + ... + f (n-1) *)
Fixpoint total {T} (zero : T) (add : T -> T -> T) (f : nat -> T) (n : nat) : T :=
  match n with O => zero | S k => add (total zero add f k) (f k) end.
(** the sum of f k over the keys of a list *)
Fixpoint sum_keys {T} (zero : T) (add : T -> T -> T) (f : string -> T) (ks : list string) : T :=
  match ks with [] => zero | k :: l => add (f k) (sum_keys zero add f l) end.

(** maps of maps *)
Definition proper2 {T} (x : list (string * list (string * T))) : Prop :=
  NoDup (map fst x) /\ forall i r, In (i, r) x -> NoDup (map fst r).
Definition entry2 {T} (x : list (string * list (string * T))) (i j : string) (v : T) : Prop :=
  exists r, In (i, r) x /\ In (j, v) r.
Definition is_row {T} (x : list (string * list (string * T))) (i : string) : Prop := exists r, In (i, r) x.
Definition is_col {T} (x : list (string * list (string * T))) (j : string) : Prop := exists i v, entry2 x i j v.
(** the value of a sparse matrix: absent entries are zero *)
Definition sparse2 {T} (zero : T) (x : list (string * list (string * T))) (i j : string) (v : T) : Prop :=
  entry2 x i j v \/ (v = zero /\ forall u, ~ entry2 x i j u).
Definition sparse {T} (zero : T) (x : list (string * T)) (i : string) (v : T) : Prop :=
  In (i, v) x \/ (v = zero /\ forall u, ~ In (i, u) x).
(** [order] enumerates the members of a set *)
Definition enumerates (order : list string -> list string) : Prop :=
  forall l, NoDup (order l) /\ forall k, In k (order l) <-> In k l.
