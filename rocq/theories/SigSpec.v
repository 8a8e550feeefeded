(** What it means for argument types to match the patterns of a signature. *)
From Verif Require Import Base ScopeModel TypeModel TypeSpec SigModel.
From Coq Require Import Permutation.
Open Scope string_scope.
Open Scope list_scope.
Open Scope nat_scope.

(** patterns that stand for one type *)
Inductive plain : pat -> ty -> Prop :=
| pl_null : plain QNull TNull | pl_bool : plain QBoolean TBool | pl_bytes : plain QBytes TBytes | pl_string : plain QString TString
| pl_int : plain QInt TInt | pl_long : plain QLong TLong | pl_float : plain QFloat TFloat | pl_double : plain QDouble TDouble.

(** conditions on what a label stands for: a record with these fields in this order; one of these types *)
Inductive condition := Fields (names : list string) | OneOf (ts : list ty).

Section Match.
  Variable D : defs.
  (** [ideal]: the rules as they should be; otherwise those that titus follows, which ignore how many parameters a
      function has and do not ask whether a wild enum is an enum and a wild fixed a fixed; of several enums that should name the
      fields of one record they look at the last only; and if a label is restricted to some types where it first occurs,
      they test only the argument there and not what the label comes to stand for. *)
  Variable ideal : bool.
  (** what a label may stand for; the flag says whether it is a place where the argument receives values (the parameter
      of a function that is passed) *)
  Variable W : bool -> string -> ptype -> Prop.
  (** what a label stands for meets the condition *)
  Variable E : string -> condition -> Prop.

  Definition has_field (n k : string) (t : ty) : Prop := exists f, In f (fields_of D n) /\ f_name f = k /\ f_type f = t.
  (** [matches strict receives p a]: strict forbids numeric promotion *)
  Inductive matches : bool -> bool -> pat -> ptype -> Prop :=
  | m_plain s r p t : plain p t -> matches s r p (PVal t)
  | m_promoted p u t : plain p u -> widens u t -> matches false false p (PVal t)
  | m_receives p u t : plain p u -> widens t u -> matches false true p (PVal t)
  | m_array s r q t : matches s r q (PVal t) -> matches s r (QArray q) (PVal (TArray t))
  | m_map s r q t : matches s r q (PVal t) -> matches s r (QMap q) (PVal (TMap t))
  (** the members of a union match different patterns; some patterns may be left *)
  | m_union s r qs used left ts : Permutation qs (used ++ left) -> Forall2 (fun q t => matches true r q (PVal t)) used ts ->
      matches s r (QUnion qs) (PVal (TUnion ts))
  | m_member s r qs q t : is_union t = false -> t <> TExc -> In q qs -> matches s r q (PVal t) -> matches s r (QUnion qs) (PVal t)
  | m_fixed s r k n : matches s r (QFixed k None) (PVal (TFixed n k))
  | m_fixed_name s r k n k' : matches s r (QFixed k (Some n)) (PVal (TFixed n k'))
  | m_enum s r ss n : matches s r (QEnum ss None) (PVal (TEnum n ss))
  | m_enum_name s r ss n ss' : matches s r (QEnum ss (Some n)) (PVal (TEnum n ss'))
  | m_record_name s r fs n : matches s r (QRecord fs (Some n)) (PVal (TRecord n))
  | m_record s r fs n : (forall f, In f (fields_of D n) -> In (f_name f) (map fst fs)) ->
      Forall (fun kq => exists t, has_field n (fst kq) t /\ matches true r (snd kq) (PVal t)) fs ->
      matches s r (QRecord fs None) (PVal (TRecord n))
  | m_fcn s r qs q ts u : (ideal = true -> length qs = length ts) ->
      Forall (fun qt => matches s true (fst qt) (PVal (snd qt))) (combine qs ts) -> matches s false q (PVal u) ->
      matches s r (QFcn qs q) (PFcn ts u)
  | m_wild s r l a : a <> PVal TExc -> W r l a -> matches s r (QWild l None) a
  | m_wild_one s r l ts t : t <> TExc -> In t ts -> W r l (PVal t) -> (ideal = true -> E l (OneOf ts)) -> matches s r (QWild l (Some ts)) (PVal t)
  | m_wild_record s r l fs n : W r l (PVal (TRecord n)) ->
      Forall (fun kq => exists t, has_field n (fst kq) t /\ matches true r (snd kq) (PVal t)) fs ->
      matches s r (QWildRecord l fs) (PVal (TRecord n))
  | m_wild_enum s r l a : a <> PVal TExc -> W r l a -> (ideal = true -> exists n ss, a = PVal (TEnum n ss)) -> matches s r (QWildEnum l) a
  | m_wild_fixed s r l a : a <> PVal TExc -> W r l a -> (ideal = true -> exists n k, a = PVal (TFixed n k)) -> matches s r (QWildFixed l) a
  | m_enum_fields s r l w n ss : W r l (PVal (TEnum n ss)) -> (ideal = true -> E w (Fields ss)) -> matches s r (QEnumFields l w) (PVal (TEnum n ss)).

  (** the type that a parameter gets: the pattern, with the labels replaced, or the argument itself *)
  Variable sigma : string -> option ptype.
  Inductive param_type : pat -> ptype -> ptype -> Prop :=
  | pt_plain p a t : plain p t -> param_type p (PVal a) (PVal t)
  | pt_array q a t : param_type q (PVal a) (PVal t) -> param_type (QArray q) (PVal (TArray a)) (PVal (TArray t))
  | pt_map q a t : param_type q (PVal a) (PVal t) -> param_type (QMap q) (PVal (TMap a)) (PVal (TMap t))
  | pt_union qs a : param_type (QUnion qs) a a
  | pt_fixed s o a : param_type (QFixed s o) a a
  | pt_enum s o a : param_type (QEnum s o) a a
  | pt_record s o a : param_type (QRecord s o) a a
  | pt_fcn qs q a : param_type (QFcn qs q) a a
  | pt_wild l o a t : sigma l = Some t -> param_type (QWild l o) a t
  | pt_wild_record l o a t : sigma l = Some t -> param_type (QWildRecord l o) a t
  | pt_wild_enum l a t : sigma l = Some t -> param_type (QWildEnum l) a t
  | pt_wild_fixed l a t : sigma l = Some t -> param_type (QWildFixed l) a t
  | pt_enum_fields l w a t : sigma l = Some t -> param_type (QEnumFields l w) a t.
  (** the type that a call returns: the return pattern, with the labels replaced *)
  Inductive return_type : pat -> ptype -> Prop :=
  | rt_plain p t : plain p t -> return_type p (PVal t)
  | rt_array q t : return_type q (PVal t) -> return_type (QArray q) (PVal (TArray t))
  | rt_map q t : return_type q (PVal t) -> return_type (QMap q) (PVal (TMap t))
  | rt_union qs ts : Forall2 (fun q t => return_type q (PVal t)) qs ts -> return_type (QUnion qs) (PVal (TUnion ts))
  | rt_fixed s n : return_type (QFixed s (Some n)) (PVal (TFixed n s))
  | rt_enum ss n : return_type (QEnum ss (Some n)) (PVal (TEnum n ss))
  | rt_record fs n : return_type (QRecord fs (Some n)) (PVal (TRecord n))
  | rt_wild l o t : sigma l = Some t -> return_type (QWild l o) t
  | rt_wild_record l o t : sigma l = Some t -> return_type (QWildRecord l o) t
  | rt_wild_enum l t : sigma l = Some t -> return_type (QWildEnum l) t
  | rt_wild_fixed l t : sigma l = Some t -> return_type (QWildFixed l) t
  | rt_enum_fields l w t : sigma l = Some t -> return_type (QEnumFields l w) t.
End Match.

(** [covers D t a]: a parameter of type t may be given an argument of type a; for functions only the same type *)
Definition covers (D : defs) (t a : ptype) : Prop :=
  match t, a with
  | PVal u, PVal b => accepts D D u b = true
  | PFcn ps r, PFcn qs q => ps = qs /\ r = q
  | _, _ => False
  end.

(** The types of one document: well formed, and a name stands for one fixed or enum type throughout. *)
Definition doc_type (sizes : string -> nat) (symbols : string -> list string) (t : ty) : Prop :=
  wf t /\ uniq t /\ (forall n s, In (TFixed n s) (parts t) -> s = sizes n) /\ (forall n ss, In (TEnum n ss) (parts t) -> ss = symbols n).
Definition doc_ptype sizes symbols (a : ptype) : Prop :=
  match a with
  | PVal TExc => True
  | PVal t => doc_type sizes symbols t
  | PFcn ps r => Forall (fun t => t = TExc \/ doc_type sizes symbols t) ps /\ (r = TExc \/ doc_type sizes symbols r)
  end.
Definition document (D : defs) sizes symbols : Prop :=
  wf_defs D /\ forall n f, In f (fields_of D n) -> doc_type sizes symbols (f_type f).

(** What accepting a call means: there are types for the labels such that every argument matches its pattern, a label
    standing for a type that covers all the types it is matched with, the parameters get the patterns' types, these
    cover the arguments, and the result is the return pattern's type. Where a function that is passed receives values it
    is the function's parameter that should cover the type of the label. *)
Definition wfp (t : ptype) : Prop := match t with PVal u => wf u /\ uniq u | PFcn _ _ => True end.
Definition stands (D : defs) (ideal : bool) (sigma : string -> option ptype) (r : bool) (l : string) (a : ptype) : Prop :=
  exists t, sigma l = Some t /\ wfp t /\ (if (ideal && r)%bool then covers D a t else covers D t a).
Definition obeys (D : defs) (sigma : string -> option ptype) (l : string) (c : condition) : Prop :=
  match c with
  | Fields ss => exists n, sigma l = Some (PVal (TRecord n)) /\ ss = map f_name (fields_of D n)
  | OneOf ts => exists t, sigma l = Some (PVal t) /\ In t ts
  end.
Definition good_call (D : defs) (ideal : bool) (sigma : string -> option ptype) (s : sig) (args ts : list ptype) (t : ptype) : Prop :=
  Forall2 (fun p a => matches D ideal (stands D ideal sigma) (obeys D sigma) false false p a) (map snd (s_params s)) args /\
  length ts = length args /\
  Forall (fun pau => let '(p, (a, u)) := pau in param_type sigma p a u /\ wfp u /\ covers D u a) (combine (map snd (s_params s)) (combine args ts)) /\
  return_type sigma (s_ret s) t.

(** Patterns for which matching is decided without guessing: a union pattern in them lists types without parameters
    only, and there is no EnumFields. *)
Definition is_plain (p : pat) : bool :=
  match p with QNull | QBoolean | QInt | QLong | QFloat | QDouble | QBytes | QString => true | _ => false end.
Fixpoint direct (p : pat) : bool :=
  match p with
  | QArray q | QMap q => direct q
  | QUnion qs => forallb is_plain qs
  | QRecord fs _ | QWildRecord _ fs => forallb (fun kq => match kq with (_, q) => direct q end) fs
  | QFcn qs q => (forallb (fun q => direct q) qs && direct q)%bool
  | QEnumFields _ _ => false
  | _ => true
  end.
(** patterns without functions, wild enums, wild fixed, EnumFields and restricted wildcards *)
Fixpoint first_order (p : pat) : bool :=
  match p with
  | QArray q | QMap q => first_order q
  | QUnion qs => forallb (fun q => first_order q) qs
  | QRecord fs _ | QWildRecord _ fs => forallb (fun kq => match kq with (_, q) => first_order q end) fs
  | QFcn _ _ | QWildEnum _ | QWildFixed _ | QEnumFields _ _ | QWild _ (Some _) => false
  | _ => true
  end.
(** no union of two fixed types or two enums at the end of arrays and maps *)
Definition count (f : ty -> bool) (ts : list ty) : nat := length (filter f ts).
Fixpoint modest (t : ty) : bool :=
  match t with
  | TArray x | TMap x => modest x
  | TUnion ts => (Nat.leb (count (fun t => match t with TFixed _ _ => true | _ => false end) ts) 1 &&
                  Nat.leb (count (fun t => match t with TEnum _ _ => true | _ => false end) ts) 1)%bool
  | _ => true
  end.
