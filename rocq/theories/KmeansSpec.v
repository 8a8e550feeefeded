(** What k-means is: squared distances, the cost of a set of centers, runs. *)
From Coq Require Import Permutation Reals Lra Sorted.
From Verif Require Import Base ScopeModel CartModel CartProofs3 KmeansModel.
Open Scope list_scope.
Open Scope R_scope.

(** the i-th number of a point *)
Definition at_k (k : nat) (x : list R) : R := nth k x 0.
Definition dist2 (dim : nat) (x y : list R) : R := rsum (map (fun k => (at_k k x - at_k k y) ^ 2) (seq 0 dim)).
(** [i] is the first of the nearest of the centers *)
Definition nearest (dim : nat) (x : list R) (centers : list (list R)) (i : nat) : Prop :=
  (i < length centers)%nat /\ forall j, (j < length centers)%nat ->
    dist2 dim x (nth i centers []) <= dist2 dim x (nth j centers []) /\ ((j < i)%nat -> dist2 dim x (nth i centers []) < dist2 dim x (nth j centers [])).
(** [v] is the sum of the squared distances of the points to their nearest centers *)
Inductive cost (dim : nat) (centers : list (list R)) : list (list R) -> R -> Prop :=
| cost_nil : cost dim centers [] 0
| cost_cons x l i v : nearest dim x centers i -> cost dim centers l v -> cost dim centers (x :: l) (dist2 dim x (nth i centers []) + v).
(** the metric puts points in the order of their Euclidean distances *)
Definition euclidean_order (dim : nat) (metric : list R -> list R -> R) : Prop :=
  forall x c c', metric x c < metric x c' <-> dist2 dim x c < dist2 dim x c'.
(** the points of [dataset] whose nearest center is the j-th *)
Inductive members (dim : nat) (centers : list (list R)) (j : nat) : list (list R) -> list (list R) -> Prop :=
| members_nil : members dim centers j [] []
| members_in x l m : nearest dim x centers j -> members dim centers j l m -> members dim centers j (x :: l) (x :: m)
| members_out x l m : ~ nearest dim x centers j -> members dim centers j l m -> members dim centers j (x :: l) m.
Definition no_jump {B} (corrections : list (option B)) : Prop := Forall (fun c => c <> None) corrections.

(** the order of Python lists *)
Inductive lex : list R -> list R -> Prop :=
| lex_nil y : lex [] y
| lex_lt a b x y : a < b -> lex (a :: x) (b :: y)
| lex_eq a x y : lex x y -> lex (a :: x) (a :: y).
(** equality is that of the numbers *)
Definition good_eq (N : arith) : Prop := forall a b : num N, eq N a b = true <-> a = b.
(** the number of different points is more than [k] *)
Definition more_than {B} (k : nat) (l : list B) : Prop := exists m, NoDup m /\ incl m l /\ (k < length m)%nat.
