(** Specification of C78. *)
From Verif Require Import Base ArraySpec.
Open Scope list_scope.
Open Scope Z_scope.

(** how many items are smaller, and how many are not greater, than r *)
Definition smaller {A} (lt : A -> A -> bool) (a : list A) (r : A) : Z := len (filter (fun x => lt x r) a).
Definition not_greater {A} (lt : A -> A -> bool) (a : list A) (r : A) : Z := len (filter (fun x => negb (lt r x)) a).
(** r is the item number i, from 0, in increasing order *)
Definition order_stat {A} (lt : A -> A -> bool) (a : list A) (i : Z) (r : A) : Prop :=
  In r a /\ smaller lt a r <= i < not_greater lt a r.
(** neither is smaller *)
Definition tied {A} (lt : A -> A -> bool) (x y : A) : Prop := lt x y = false /\ lt y x = false.
(** how often x occurs *)
Definition times {A} (same : A -> A -> bool) (a : list A) (x : A) : Z := len (filter (same x) a).
(** the most frequent items, each once, in order of first appearance *)
Definition most_frequent {A} (same : A -> A -> bool) (a ms : list A) : Prop :=
  (forall x, In x ms -> In x a /\ forall y, In y a -> times same a y <= times same a x)
  /\ (forall x, In x a -> (forall y, In y a -> times same a y <= times same a x) -> exists m, In m ms /\ same x m = true)
  /\ (forall i j x y, nth_error ms i = Some x -> nth_error ms j = Some y -> same x y = true -> i = j).
