(** What acceptance between types is supposed to mean. *)
From Verif Require Import Base PyNum ScopeModel TypeModel.
Open Scope string_scope.
Open Scope list_scope.

(** Well-formed types: a union has no union as a direct member (datatype.py:562) and no exception type occurs. *)
Fixpoint wf (t : ty) : Prop :=
  match t with
  | TArray x | TMap x => wf x
  | TUnion ts => (fix all (l : list ty) : Prop :=
                    match l with [] => True | x :: l' => match x with TUnion _ => False | _ => wf x end /\ all l' end) ts
  | TExc => False
  | _ => True
  end.
(** Field names of a record are distinct (the Avro library checks it). *)
Definition wf_defs (D : defs) : Prop :=
  forall n, NoDup (map f_name (fields_of D n)) /\ forall f, In f (fields_of D n) -> wf (f_type f).

Definition is_union (t : ty) : bool := match t with TUnion _ => true | _ => false end.
Definition prim (t : ty) : bool :=
  match t with TNull | TBool | TInt | TLong | TFloat | TDouble | TBytes | TString => true | _ => false end.
(** the numeric promotions of Avro *)
Inductive widens : ty -> ty -> Prop :=
| w_il : widens TLong TInt
| w_if : widens TFloat TInt
| w_lf : widens TFloat TLong
| w_id : widens TDouble TInt
| w_ld : widens TDouble TLong
| w_fd : widens TDouble TFloat.

(** [fits S a b]: a accepts b, where S tells which records accept the record of the same name. *)
Inductive fits (S : string -> Prop) : ty -> ty -> Prop :=
| fit_prim t : prim t = true -> fits S t t
| fit_num a b : widens a b -> fits S a b
| fit_fixed n s : fits S (TFixed n s) (TFixed n s)
| fit_enum n ss rs : incl rs ss -> fits S (TEnum n ss) (TEnum n rs)
| fit_array a b : fits S a b -> fits S (TArray a) (TArray b)
| fit_map a b : fits S a b -> fits S (TMap a) (TMap b)
| fit_record n : S n -> fits S (TRecord n) (TRecord n)
| fit_into xs x b : is_union b = false -> In x xs -> fits S x b -> fits S (TUnion xs) b
| fit_all a ys : (forall y, In y ys -> fits S a y) -> fits S a (TUnion ys).

(** The fields of a reader record against those of a writer record: a field without default must be there and fit,
    a field with a default must fit if it is there. *)
Definition fields_fit (S : string -> Prop) (xs ys : list field) : Prop :=
  forall xf, In xf xs ->
    match default_of xf with
    | None => exists yf, In yf ys /\ f_name yf = f_name xf /\ fits S (f_type xf) (f_type yf)
    | Some _ => forall yf, In yf ys -> f_name yf = f_name xf -> fits S (f_type xf) (f_type yf)
    end.
(** S is a possible answer for all records at once; recursive records may rely on each other. *)
Definition consistent (D1 D2 : defs) (S : string -> Prop) : Prop :=
  forall n, S n -> fields_fit S (fields_of D1 n) (fields_of D2 n).
Definition Accepts (D1 D2 : defs) (a b : ty) : Prop := exists S, consistent D1 D2 S /\ fits S a b.

(** *** Values of a type *)
Open Scope Z_scope.
Definition int_range (z : Z) : Prop := - 2 ^ 31 <= z < 2 ^ 31.
Definition long_range (z : Z) : Prop := - 2 ^ 63 <= z < 2 ^ 63.
Definition lookup (k : string) (d : list (string * val)) : val := match assoc k d with Some v => v | None => VNull end.
(** [tagged]: whether a union may also hold {tag: value}, the form in which titus keeps data of union type (null is never tagged); the tag may
    name a narrower number type, as the run time accepts it (genpy.py:978-981). *)
Inductive tag_ok : string -> ty -> Prop :=
| tag_same t : tag_ok (tyname t) t
| tag_wider a b : widens a b -> tag_ok (tyname b) a.
Inductive has_type (tagged : bool) (D : defs) : ty -> val -> Prop :=
| ht_null : has_type tagged D TNull VNull
| ht_bool b : has_type tagged D TBool (VBool b)
| ht_int z : int_range z -> has_type tagged D TInt (VInt z)
| ht_long z : long_range z -> has_type tagged D TLong (VInt z)
| ht_float_i z : long_range z -> has_type tagged D TFloat (VInt z)
| ht_float f : has_type tagged D TFloat (VFlt f)
| ht_double_i z : long_range z -> has_type tagged D TDouble (VInt z)
| ht_double f : has_type tagged D TDouble (VFlt f)
| ht_string s : has_type tagged D TString (VStr s)
| ht_bytes l : has_type tagged D TBytes (VBytes l)
| ht_fixed n l : has_type tagged D (TFixed n (length l)) (VBytes l)
| ht_enum n ss s : In s ss -> has_type tagged D (TEnum n ss) (VStr s)
| ht_array t l : (forall v, In v l -> has_type tagged D t v) -> has_type tagged D (TArray t) (VArr l)
| ht_map t d : (forall k v, In (k, v) d -> has_type tagged D t v) -> has_type tagged D (TMap t) (VDict d)
| ht_record n d :
    (forall f, In f (fields_of D n) -> has_key (f_name f) d = true) ->
    (forall k v, In (k, v) d -> In k (map f_name (fields_of D n))) ->
    (forall f, In f (fields_of D n) -> has_type tagged D (f_type f) (lookup (f_name f) d)) ->
    has_type tagged D (TRecord n) (VDict d)
| ht_member ts t v : In t ts -> has_type tagged D t v -> has_type tagged D (TUnion ts) v
| ht_tagged ts t g v : tagged = true -> In t ts -> t <> TNull -> tag_ok g t -> has_type tagged D t v ->
    has_type tagged D (TUnion ts) (VDict [(g, v)]).
Close Scope Z_scope.

(** Wherever the accepted type has a union, the accepting type has one, too. *)
Fixpoint keeps_unions (a : ty) : ty -> Prop :=
  match a with
  | TArray x => fun b => match b with TArray y => keeps_unions x y | TUnion _ => False | _ => True end
  | TMap x => fun b => match b with TMap y => keeps_unions x y | TUnion _ => False | _ => True end
  | TUnion xs => fun b =>
      match b with
      | TUnion ys => (fix all (l : list ty) : Prop :=
                        match l with [] => True | x :: l' => (forall y, In y ys -> keeps_unions x y) /\ all l' end) xs
      | _ => (fix all (l : list ty) : Prop := match l with [] => True | x :: l' => keeps_unions x b /\ all l' end) xs
      end
  | _ => fun b => is_union b = false
  end.

(** *** The type of several branches *)
(** The members of every union have different names (datatype.py:556-561). *)
Fixpoint uniq (t : ty) : Prop :=
  match t with
  | TArray x | TMap x => uniq x
  | TUnion ts => NoDup (map tyname ts) /\
                 (fix all (l : list ty) : Prop := match l with [] => True | x :: l' => uniq x /\ all l' end) ts
  | _ => True
  end.
(** Types taken from one document: a name stands for one fixed or enum type. *)
Fixpoint parts (t : ty) : list ty :=
  t :: match t with
       | TArray x | TMap x => parts x
       | TUnion ts => flat_map parts ts
       | _ => []
       end.
Definition one_document (cs : list ty) : Prop :=
  (forall n s r, In (TFixed n s) (flat_map parts cs) -> In (TFixed n r) (flat_map parts cs) -> s = r) /\
  (forall n s r, In (TEnum n s) (flat_map parts cs) -> In (TEnum n r) (flat_map parts cs) -> s = r).
