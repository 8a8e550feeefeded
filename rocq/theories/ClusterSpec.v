(** Specification vocabulary for nearest clusters and neighbours. *)
From Coq Require Import QArith.
From Verif Require Import Base PyNum ArraySpec StatSpec.
Open Scope list_scope.
Open Scope Z_scope.

(** the order of distances: Python's comparison of floats *)
Definition nearer (a b : pf) : bool := num_lt (NF a) (NF b).
Definition no_nan (ds : list pf) : Prop := Forall (fun d => isnan d = false) ds.
(** [i] is the first position of a smallest distance *)
Definition first_nearest (ds : list pf) (i : Z) : Prop :=
  exists d, at_ ds i = Some d /\
    forall j d', at_ ds j = Some d' -> nearer d' d = false /\ (j < i -> nearer d d' = true).
(** the items of [l] at the [n] smallest distances, nearest first, ties in the order of [l] *)
Definition nearest_in_order {X} (ds : list pf) (l : list X) (n : Z) (out : list X) : Prop :=
  exists ps, best_positions nearer ds n ps /\ items_at l ps out.

(** Assigning each datum, in order, to the first nearest of the centers; [is_] are the positions. *)
Inductive assigning {S A B} (metric : A -> B -> S -> res pf * S) (centers : list B)
  : S -> list A -> S -> list Z -> Prop :=
| assigning_nil s : assigning metric centers s [] s []
| assigning_cons s x l s1 s' i is_ ds :
    calls (metric x) s centers s1 ds -> no_nan ds -> first_nearest ds i ->
    assigning metric centers s1 l s' is_ ->
    assigning metric centers s (x :: l) s' (i :: is_).
(** the data assigned to position [i], in order *)
Definition assigned_to {A} (data : list A) (is_ : list Z) (i : Z) : list A :=
  map fst (filter (fun p => snd p =? i) (combine data is_)).
(** The clusters from position [i] on, updated in order with the data assigned to them; a cluster
    without data is kept. *)
Inductive updating {S A C} (update : list A -> C -> S -> res C * S) (group : Z -> list A)
  : Z -> S -> list C -> S -> list C -> Prop :=
| updating_nil i s : updating update group i s [] s []
| updating_keep i s c l s' l' :
    group i = [] -> updating update group (i + 1) s l s' l' ->
    updating update group i s (c :: l) s' (c :: l')
| updating_call i s c l s1 s' c' l' :
    group i <> [] -> update (group i) c s = (Ok c', s1) ->
    updating update group (i + 1) s1 l s' l' ->
    updating update group i s (c :: l) s' (c' :: l').

(** coordinate [i] of the vectors *)
Definition coord (i : nat) (l : list (list Q)) : list Q := map (fun v => nth i v 0%Q) l.
