(** * What a two-sample Kolmogorov-Smirnov statistic is *)
From Coq Require Import List Bool ZArith QArith Qabs.
Import ListNotations.

(** a total order given by a boolean test; values that are equal in the order need not be identical (0.0 and -0.0) *)
Record total_order {T : Type} (leb : T -> T -> bool) : Prop := {
  to_total : forall a b, leb a b = true \/ leb b a = true;
  to_trans : forall a b c, leb a b = true -> leb b c = true -> leb a c = true }.

(** the values of a sample, without the NaN values *)
Definition values {T : Type} (l : list (option T)) : list T :=
  flat_map (fun o => match o with Some v => [v] | None => [] end) l.

(** how many values of a sample are at most [t] *)
Definition at_most {T : Type} (leb : T -> T -> bool) (t : T) (x : list T) : nat :=
  length (filter (fun v => leb v t) x).

(** the empirical distribution function of a sample *)
Definition ecdf {T : Type} (leb : T -> T -> bool) (x : list T) (t : T) : Q :=
  (inject_Z (Z.of_nat (at_most leb t x)) / inject_Z (Z.of_nat (length x)))%Q.

Definition distance {T : Type} (leb : T -> T -> bool) (x y : list T) (t : T) : Q :=
  Qabs (ecdf leb x t - ecdf leb y t).

(** no value occurs twice in a sample *)
Fixpoint no_ties {T : Type} (leb : T -> T -> bool) (x : list T) : Prop :=
  match x with
  | [] => True
  | a :: r => Forall (fun b => leb a b && leb b a = false) r /\ no_ties leb r
  end.

(** [d] is the largest distance between the two distribution functions *)
Definition ks_distance {T : Type} (leb : T -> T -> bool) (x y : list T) (d : Q) : Prop :=
  (forall t, distance leb x y t <= d)%Q /\ (exists t, distance leb x y t == d)%Q.
