(** Specification vocabulary for linear models, networks and support vector machines. *)
From Verif Require Import Base LaSpec.
Open Scope list_scope.

(** the list of the numbers f 0 ... f (n-1) *)
Definition vec {T} (x : list T) (n : nat) (f : nat -> T) : Prop :=
  length x = n /\ forall k, k < n -> nth_error x k = Some (f k).
(** the entries of f, then v at position n *)
Definition then_at {T} (n : nat) (f : nat -> T) (v : T) : nat -> T := fun k => if k =? n then v else f k.
(** a map in which every key occurs once *)
Definition proper {A} (x : list (string * A)) : Prop := NoDup (map fst x).
(** ks has no repetition and contains the key of every entry of x *)
Definition covers {A} (ks : list string) (x : list (string * A)) : Prop :=
  NoDup ks /\ forall k v, In (k, v) x -> In k ks.
(** y is the affine image of x: y i = sum of W i j * x j over j, plus b i *)
Definition affine_image {T} (zero : T) (add mul : T -> T -> T) (W : list (list T)) (b x y : list T) : Prop :=
  length b = length W /\ length y = length W /\ (forall row, In row W -> length row = length x) /\
  exists w bf xf, represents W (length W) (length x) w /\ vec b (length W) bf /\ vec x (length x) xf /\
    vec y (length W) (fun i => add (total zero add (fun j => mul (w i j) (xf j)) (length x)) (bf i)).
(** a network: affine layers, with the activation between them *)
Inductive forward {T} (zero : T) (add mul : T -> T -> T) (g : T -> T) : list (list (list T) * list T) -> list T -> list T -> Prop :=
| forward_last W b x y : affine_image zero add mul W b x y -> forward zero add mul g [(W, b)] x y
| forward_more W b l rest x h y : affine_image zero add mul W b x h -> forward zero add mul g (l :: rest) (map g h) y ->
    forward zero add mul g ((W, b) :: l :: rest) x y.
(** the numbers that the hidden layers pass to the activation, in order *)
Inductive hidden_values {T} (zero : T) (add mul : T -> T -> T) (g : T -> T) : list (list (list T) * list T) -> list T -> list T -> Prop :=
| hidden_none l x : hidden_values zero add mul g [l] x []
| hidden_more W b l rest x h vs : affine_image zero add mul W b x h -> hidden_values zero add mul g (l :: rest) (map g h) vs ->
    hidden_values zero add mul g ((W, b) :: l :: rest) x (h ++ vs).
Definition sum_list {T} (zero : T) (add : T -> T -> T) (l : list T) : T := fold_right add zero l.
