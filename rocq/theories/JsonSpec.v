(** What JSON encoding, comparison and input checking are supposed to do. *)
From Verif Require Import Base PyNum ScopeModel TypeModel TypeSpec NumOrder.
From Verif Require Import JsonModel.
Open Scope string_scope.
Open Scope list_scope.
Open Scope Z_scope.

(** *** Unions whose members can be told apart by looking at the data *)
Inductive kind := KNull | KBool | KInt | KReal | KString | KArray | KDict | KUnion | KNone.
Definition kind_of (t : ty) : kind :=
  match t with
  | TNull => KNull | TBool => KBool | TInt | TLong => KInt | TFloat | TDouble => KReal
  | TBytes | TString | TFixed _ _ | TEnum _ _ => KString
  | TArray _ => KArray | TMap _ | TRecord _ => KDict | TUnion _ => KUnion | TExc => KNone
  end.
(** data of type b may pass for data of type a: the same kind, or an integer where a real number is expected *)
Definition passes_for (a b : ty) : Prop := kind_of a = kind_of b \/ kind_of a = KReal /\ kind_of b = KInt.
(** no member of a union passes for an earlier one *)
Fixpoint separated (t : ty) : Prop :=
  match t with
  | TArray x | TMap x => separated x
  | TUnion ts => ForallOrdPairs (fun a b => ~ passes_for a b) ts /\
                 (fix all (l : list ty) : Prop := match l with [] => True | x :: l' => separated x /\ all l' end) ts
  | _ => True
  end.
Definition defs_sat (Q : ty -> Prop) (D : defs) : Prop := forall n f, In f (fields_of D n) -> Q (f_type f).

(** *** Valid data in the form titus holds them *)
(** Only the null type is called null (Avro reserves the names of the primitive types). *)
Fixpoint null_names (t : ty) : Prop :=
  match t with
  | TArray x | TMap x => null_names x
  | TUnion ts => (fix all (l : list ty) : Prop :=
                    match l with [] => True | x :: l' => (tyname x = "null" -> x = TNull) /\ null_names x /\ all l' end) ts
  | _ => True
  end.
(** v is a datum of type t with less than n levels of nesting. *)
Fixpoint datum (n : nat) (D : defs) (t : ty) (v : val) : Prop :=
  match n with
  | O => False
  | S n' =>
      match t, v with
      | TNull, VNull | TBool, VBool _ | (TFloat | TDouble), VFlt _ | TString, VStr _ | TBytes, VBytes _ => True
      | TInt, VInt z => int_range z
      | TLong, VInt z => long_range z
      | TFixed _ size, VBytes l => length l = size
      | TEnum _ symbols, VStr s => In s symbols
      | TArray items, VArr l => forall x, In x l -> datum n' D items x
      | TMap values, VDict d => forall k x, In (k, x) d -> datum n' D values x
      | TRecord name, VDict d => Forall2 (fun f kx => fst kx = f_name f /\ datum n' D (f_type f) (snd kx)) (fields_of D name) d
      | TUnion ts, VNull => In TNull ts /\ n' <> O
      | TUnion ts, VDict [(tag, x)] => exists t', In t' ts /\ tyname t' = tag /\ t' <> TNull /\ datum n' D t' x
      | _, _ => False
      end
  end.
(** The same without the conditions on the leaves: ranges, symbols and sizes; and a boolean may stand for an integer. *)
Fixpoint shape (n : nat) (D : defs) (t : ty) (v : val) : Prop :=
  match n with
  | O => False
  | S n' =>
      match t, v with
      | TNull, VNull | TBool, VBool _ | (TInt | TLong), (VInt _ | VBool _) | (TFloat | TDouble), VFlt _
      | (TString | TEnum _ _), VStr _ | (TBytes | TFixed _ _), VBytes _ => True
      | TArray items, VArr l => forall x, In x l -> shape n' D items x
      | TMap values, VDict d => forall k x, In (k, x) d -> shape n' D values x
      | TRecord name, VDict d => Forall2 (fun f kx => fst kx = f_name f /\ shape n' D (f_type f) (snd kx)) (fields_of D name) d
      | TUnion ts, VNull => In TNull ts /\ n' <> O
      | TUnion ts, VDict [(tag, x)] => exists t', In t' ts /\ tyname t' = tag /\ t' <> TNull /\ shape n' D t' x
      | _, _ => False
      end
  end.

(** *** Values that can be compared *)
(** Numbers that a float can stand for: math.isnan raises for larger integers. *)
Definition float_num (v : val) : Prop := match v with VInt z => Z.abs z < 2 ^ 200 | VFlt f => vfloat f | _ => False end.
Definition is_nan (v : val) : bool := match v with VFlt f => isnan f | _ => false end.
(** v is a value of type t that compare can order, with less than n levels of nesting: no maps, no "float" NaN, bytes as strings *)
Fixpoint ordered (n : nat) (D : defs) (t : ty) (v : val) : Prop :=
  match n with
  | O => False
  | S n' =>
      match t, v with
      | TNull, VNull | TBool, VBool _ | (TInt | TLong), VInt _ => True
      | TFloat, _ => float_num v /\ is_nan v = false
      | TDouble, _ => float_num v
      | (TString | TBytes | TFixed _ _), VStr _ => True
      | TEnum _ symbols, VStr s => In s symbols
      | TArray items, VArr l => forall x, In x l -> ordered n' D items x
      | TRecord name, VDict d =>
          forall f, In f (fields_of D name) ->
            f_order f = Some "ignore" \/ exists x, assoc (f_name f) d = Some x /\ ordered n' D (f_type f) x
      | TUnion ts, VNull => In TNull ts /\ n' <> O
      | TUnion ts, VDict [(tag, x)] => exists t', In t' ts /\ tyname t' = tag /\ ordered n' D t' x
      | _, _ => False
      end
  end.
(** the results of comparing x with y, y with z and x with z fit together *)
Definition sign (a : Z) : Prop := a = -1 \/ a = 0 \/ a = 1.
Definition transitive3 (a b c : Z) : Prop :=
  sign a /\ sign b /\ sign c /\ (a = 0 -> c = b) /\ (b = 0 -> c = a) /\ (a = b -> c = a).
