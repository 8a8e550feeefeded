(** Specification vocabulary for lib/metric.py. *)
From Coq Require Import QArith Qabs.
From Verif Require Import Base StatSpec.
Open Scope list_scope.
Open Scope Z_scope.

(** the number of positions at which x is [u] and y is [v] *)
Definition positions_with (x y : list bool) (u v : bool) : Z :=
  Z.of_nat (length (filter (fun p => Bool.eqb (fst p) u && Bool.eqb (snd p) v) (combine x y))).

(** the pairs of values present in both vectors, in order *)
Fixpoint both_present {A B} (x : list (option A)) (y : list (option B)) : list (A * B) :=
  match x, y with
  | Some a :: x', Some b :: y' => (a, b) :: both_present x' y'
  | _ :: x', _ :: y' => both_present x' y'
  | _, _ => []
  end.
(** the weights of those positions *)
Fixpoint present_weights {A B} (x : list (option A)) (y : list (option B)) (w : list Q) : list Q :=
  match x, y, w with
  | Some _ :: x', Some _ :: y', c :: w' => c :: present_weights x' y' w'
  | _ :: x', _ :: y', _ :: w' => present_weights x' y' w'
  | _, _, _ => []
  end.
(** [m] is the largest of 0 and the numbers of [l] *)
Definition largest (l : list Q) (m : Q) : Prop :=
  (0 <= m)%Q /\ (forall z, In z l -> (z <= m)%Q) /\ (m = 0%Q \/ In m l).
