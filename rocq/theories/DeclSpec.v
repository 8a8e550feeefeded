(** What it is for declarations to be resolvable, and what they mean. *)
From Verif Require Import Base PyNum ScopeModel TypeModel DeclModel.
Open Scope string_scope.
Open Scope list_scope.

(** *** The names in a type, in textual order *)
Inductive event := Def (n : string) | Use (n : string).
Fixpoint events (d : desc) : list event :=
  match d with
  | DName s => match prim_of s with Some _ => [] | None => [Use s] end
  | DArray x | DMap x => events x
  | DUnion ds => flat_map events ds
  | DRecord n fs => Def n :: flat_map (fun p => events (snd p)) fs
  | DEnum n _ | DFixed n _ => [Def n]
  end.
(** Names are used after they are defined, and defined once; [K] are known from before. *)
Fixpoint scoped (K : list string) (l : list event) : Prop :=
  match l with
  | [] => True
  | Use n :: l' => In n K /\ scoped K l'
  | Def n :: l' => ~ In n K /\ scoped (n :: K) l'
  end.
Definition defined (l : list event) : list string := flat_map (fun e => match e with Def n => [n] | Use _ => [] end) l.

(** *** Declarations that are in order by themselves *)
(** what a member of a union is recognised by *)
Inductive label := Named (n : string) | Unnamed (t : string) | Nested.
Definition label_of (d : desc) : label :=
  match d with
  | DName s => match prim_of s with Some _ => Unnamed s | None => Named s end
  | DArray _ => Unnamed "array"
  | DMap _ => Unnamed "map"
  | DUnion _ => Nested
  | DRecord n _ | DEnum n _ | DFixed n _ => Named n
  end.
Fixpoint sane (d : desc) : Prop :=
  match d with
  | DName _ => True
  | DArray x | DMap x => sane x
  | DUnion ds => fold_right (fun x P => sane x /\ P) True ds /\ NoDup (map label_of ds) /\ ~ In Nested (map label_of ds)
  | DRecord n fs => reserved n = false /\ fold_right (fun p P => sane (snd p) /\ P) True fs /\ NoDup (map (fun p => fst (fst p)) fs)
  | DEnum n symbols => reserved n = false /\ NoDup symbols
  | DFixed n _ => reserved n = false
  end.

(** *** The meaning *)
(** the types that are declared, at the top and inside *)
Fixpoint declared (d : desc) : list (string * ty) :=
  match d with
  | DName _ => []
  | DArray x | DMap x => declared x
  | DUnion ds => flat_map declared ds
  | DRecord n fs => (n, TRecord n) :: flat_map (fun p => declared (snd p)) fs
  | DEnum n symbols => [(n, TEnum n symbols)]
  | DFixed n size => [(n, TFixed n size)]
  end.
(** the type that is meant, if [T] says what the names mean *)
Fixpoint means (T : string -> ty) (d : desc) : ty :=
  match d with
  | DName s => match prim_of s with Some t => t | None => T s end
  | DArray x => TArray (means T x)
  | DMap x => TMap (means T x)
  | DUnion ds => TUnion (map (means T) ds)
  | DRecord n _ => TRecord n
  | DEnum n symbols => TEnum n symbols
  | DFixed n size => TFixed n size
  end.
(** and the records with their fields *)
Fixpoint records (T : string -> ty) (d : desc) : defs :=
  match d with
  | DName _ | DEnum _ _ | DFixed _ _ => []
  | DArray x | DMap x => records T x
  | DUnion ds => flat_map (records T) ds
  | DRecord n fs => flat_map (fun p => records T (snd p)) fs ++ [(n, map (fun p => Field (fst (fst p)) (means T (snd p)) (snd (fst p)) None) fs)]
  end.
Definition reading (l : list (string * ty)) (n : string) : ty := match assoc n l with Some t => t | None => TNull end.

(** *** Sets of declarations *)
(** There is an order in which every name is defined before it is used. *)
Definition resolvable (loads : string -> desc) (K : list string) (texts : list string) : Prop :=
  (forall x, In x texts -> sane (loads x)) /\
  exists q, NoDup q /\ (forall x, In x q <-> In x texts) /\ scoped K (flat_map (fun x => events (loads x)) q).
(** the names of a parser: no duplicates, none of Avro's own, no other records, every type under its name *)
Definition fit (N : names) : Prop :=
  NoDup (map fst (nm_types N)) /\ NoDup (map fst (nm_defs N)) /\ (forall n, In n (map fst (nm_types N)) -> reserved n = false) /\
  (forall n, In n (map fst (nm_defs N)) -> In n (map fst (nm_types N))) /\
  (forall n t, In (n, t) (nm_types N) -> t = TRecord n \/ (exists s, t = TEnum n s) \/ exists k, t = TFixed n k).
