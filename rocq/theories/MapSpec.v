(** Specifications for the map library: finite maps as sets of entries, whatever the order of insertion. *)
From Verif Require Import Base.
From Coq Require Import Permutation Sorting.Sorted.

(** a dict: no key twice *)
Definition proper {A} (m : list (string * A)) : Prop := NoDup (map fst m).
Definition entry {A} (m : list (string * A)) (k : string) (v : A) : Prop := In (k, v) m.
Definition domain {A} (m : list (string * A)) (k : string) : Prop := exists v, entry m k v.
(** equal maps, as Python's == on dicts: the same entries, in whatever order *)
Definition same_map {A} (m m' : list (string * A)) : Prop := forall k v, entry m k v <-> entry m' k v.
(** m is the map with exactly the entries that satisfy P *)
Definition is_map {A} (m : list (string * A)) (P : string -> A -> Prop) : Prop :=
  proper m /\ forall k v, entry m k v <-> P k v.
(** The last map of a list that has a key decides. *)
Definition decides {A} (l : list (list (string * A))) (k : string) (v : A) : Prop :=
  exists p m q, l = p ++ m :: q /\ entry m k v /\ forall m', In m' q -> ~ domain m' k.
(** Strings in the order of their code points: a proper prefix comes first, else the first difference decides. *)
Definition str_before (s r : string) : Prop :=
  exists p, (exists c t, s = p /\ r = append p (String c t)) \/
            (exists c d t u, s = append p (String c t) /\ r = append p (String d u) /\ (Ascii.N_of_ascii c < Ascii.N_of_ascii d)%N).
(** best first: by value, and equal values by key *)
Definition better {A} (lt : A -> A -> bool) (e e' : string * A) : Prop :=
  lt (snd e) (snd e') = true \/ (lt (snd e) (snd e') = false /\ lt (snd e') (snd e) = false /\ str_before (fst e) (fst e')).
(** ks lists the keys of the n first entries of m in this order *)
Definition best_keys {A} (lt : A -> A -> bool) (m : list (string * A)) (n : Z) (ks : list string) : Prop :=
  exists es rest, Permutation m (es ++ rest) /\ map fst es = ks /\ Z.of_nat (length es) = Z.min n (Z.of_nat (length m)) /\
    StronglySorted (better lt) es /\ forall e e', In e es -> In e' rest -> better lt e e'.
