(** Specifications for array library functions, independent of ArrayModel's helpers. *)
From Verif Require Import Base.
From Coq Require Import Permutation Sorting.Sorted.
Open Scope Z_scope.

Definition len {A} (a : list A) : Z := Z.of_nat (length a).
(** the item at a position *)
Definition at_ {A} (a : list A) (i : Z) : option A :=
  if i <? 0 then None else nth_error a (Z.to_nat i).
(** the cut point that a slice index denotes in a list of length n: negative indices count from the
    end, and everything is clipped to the interval [0, n] *)
Definition cut (n i : Z) : Z := Z.max 0 (Z.min n (if i <? 0 then n + i else i)).

(** [a] cut into before / inside / after at cut points s and e (inside empty if e <= s) *)
Definition cut3 {A} (a : list A) (s e : Z) (p m q : list A) : Prop :=
  a = p ++ m ++ q /\ len p = cut (len a) s /\ len (p ++ m) = Z.max (cut (len a) s) (cut (len a) e).

(** a valid item index, possibly negative *)
Definition valid_index (n i : Z) : Prop := - n <= i < n.
Definition position (n i : Z) : Z := if i <? 0 then n + i else i.

(** needle occurs in haystack at position i *)
Definition occurs_at {A} (haystack needle : list A) (i : Z) : Prop :=
  exists p q, haystack = p ++ needle ++ q /\ len p = i.

(** Strict weak orders: what a comparison function must satisfy. *)
Record weak_order {A} (lt : A -> A -> bool) : Prop := {
  wo_irrefl : forall x, lt x x = false;
  wo_trans : forall x y z, lt x y = true -> lt y z = true -> lt x z = true;
  wo_neg : forall x y z, lt x z = true -> lt x y = true \/ lt y z = true }.

(** item i of [a] must come before item j: it is smaller, or equal and earlier *)
Definition goes_before {A} (lt : A -> A -> bool) (a : list A) (i j : Z) : Prop :=
  exists x y, at_ a i = Some x /\ at_ a j = Some y /\
    (lt x y = true \/ (lt x y = false /\ lt y x = false /\ i < j)).
Definition items_at {A} (a : list A) (l : list Z) (r : list A) : Prop :=
  Forall2 (fun i x => at_ a i = Some x) l r.
Definition all_positions {A} (a : list A) (l : list Z) : Prop :=
  NoDup l /\ forall i, In i l <-> 0 <= i < len a.
(** r is a stable sorting of a *)
Definition stable_sorting {A} (lt : A -> A -> bool) (a r : list A) : Prop :=
  exists l, all_positions a l /\ items_at a l r /\ StronglySorted (goes_before lt a) l.
(** l lists the positions of the n first items of a in the order lt (ties: earlier position first) *)
Definition best_positions {A} (lt : A -> A -> bool) (a : list A) (n : Z) (l : list Z) : Prop :=
  len l = Z.min n (len a) /\
  StronglySorted (goes_before lt a) l /\
  (forall i, In i l -> 0 <= i < len a) /\
  (forall i j, In i l -> 0 <= j < len a -> ~ In j l -> goes_before lt a i j).

(** Equality of items as an equivalence relation, and sets up to it. *)
Record equivalence {A} (eqb : A -> A -> bool) : Prop := {
  eqv_refl : forall x, eqb x x = true;
  eqv_sym : forall x y, eqb x y = true -> eqb y x = true;
  eqv_trans : forall x y z, eqb x y = true -> eqb y z = true -> eqb x z = true }.
Definition isin {A} (eqb : A -> A -> bool) (x : A) (l : list A) : Prop :=
  exists y, In y l /\ eqb x y = true.
Fixpoint no_repeats {A} (eqb : A -> A -> bool) (l : list A) : Prop :=
  match l with [] => True | x :: l' => ~ isin eqb x l' /\ no_repeats eqb l' end.

(** Left-to-right calls: calling f on each item of l in order, starting in state s, all succeed,
    end in state s', and return ys. *)
Inductive calls {S A B} (f : A -> S -> res B * S) : S -> list A -> S -> list B -> Prop :=
| calls_nil s : calls f s [] s []
| calls_cons s x y s1 l s' ys :
    f x s = (Ok y, s1) -> calls f s1 l s' ys -> calls f s (x :: l) s' (y :: ys).
Inductive fold_calls {S A B} (f : B -> A -> S -> res B * S) : S -> B -> list A -> S -> B -> Prop :=
| fold_calls_nil s b : fold_calls f s b [] s b
| fold_calls_cons s b x b1 s1 l s' b' :
    f b x s = (Ok b1, s1) -> fold_calls f s1 b1 l s' b' -> fold_calls f s b (x :: l) s' b'.
(** the items whose flag is true *)
Definition flagged {A} (l : list A) (bs : list bool) : list A :=
  map fst (filter (fun p : A * bool => snd p) (combine l bs)).

Inductive sublist {A} : list A -> list A -> Prop :=
| sub_nil : sublist [] []
| sub_skip x l l' : sublist l l' -> sublist l (x :: l')
| sub_take x l l' : sublist l l' -> sublist (x :: l) (x :: l').
Fixpoint choose (n k : nat) : nat :=
  match k, n with
  | O, _ => 1
  | S _, O => 0
  | S k', S n' => choose n' k' + choose n' k
  end.
