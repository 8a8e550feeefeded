(** What a snapshot is supposed to keep. *)
From Verif Require Import Base PyNum ScopeModel TypeModel JsonModel SnapModel.
Open Scope string_scope.
Open Scope list_scope.
Open Scope Z_scope.

(** *** Data as a cell or pool holds them *)
(** Python's == on the values of PFA: dicts by keys, an integer equals a float of the same value. *)
Fixpoint same (v w : val) : Prop :=
  match v with
  | VArr l => match w with
              | VArr m => (fix all (l m : list val) : Prop :=
                             match l, m with
                             | [], [] => True
                             | x :: l', y :: m' => same x y /\ all l' m'
                             | _, _ => False
                             end) l m
              | _ => False
              end
  | VDict d => match w with
               | VDict e => (forall k, assoc k d = None -> assoc k e = None) /\
                            (fix all (d : list (string * val)) : Prop :=
                               match d with
                               | [] => True
                               | (k, x) :: d' => (exists y, assoc k e = Some y /\ same x y) /\ all d'
                               end) d
               | _ => False
               end
  | VInt a => w = VInt a \/ exists f, w = VFlt f /\ num_eq (NI a) (NF f) = true
  | _ => w = v
  end.

(** v is a value of type t with less than n levels of nesting, with every member of a union under its name, bytes as
    strings, and integers among the floats only as far as floats are exact. *)
Fixpoint stored (n : nat) (D : defs) (t : ty) (v : val) : Prop :=
  match n with
  | O => False
  | S n' =>
      match t, v with
      | TNull, VNull | TBool, VBool _ | (TInt | TLong), VInt _ | (TFloat | TDouble), VFlt _ | (TString | TBytes), VStr _ => True
      | (TFloat | TDouble), VInt z => Z.abs z <= 2 ^ 53
      | TFixed _ size, VStr s => str_len s = size
      | TEnum _ symbols, VStr s => In s symbols
      | TArray items, VArr l => forall x, In x l -> stored n' D items x
      | TMap values, VDict d => NoDup (map fst d) /\ forall k x, In (k, x) d -> stored n' D values x
      | TRecord name, VDict d =>
          NoDup (map fst d) /\ (forall k, In k (map fst d) <-> In k (map f_name (fields_of D name))) /\
          forall f x, In f (fields_of D name) -> assoc (f_name f) d = Some x -> stored n' D (f_type f) x
      | TUnion ts, VNull => In TNull ts
      | TUnion ts, VDict [(tag, x)] => exists t', In t' ts /\ tyname t' = tag /\ stored n' D t' x
      | _, _ => False
      end
  end.
(** The same with floats as floats and the fields of a record in their order: what decoding a document gives. *)
Fixpoint canonical (n : nat) (D : defs) (t : ty) (v : val) : Prop :=
  match n with
  | O => False
  | S n' =>
      match t, v with
      | TNull, VNull | TBool, VBool _ | (TInt | TLong), VInt _ | (TFloat | TDouble), VFlt _ | (TString | TBytes), VStr _ => True
      | TFixed _ size, VStr s => str_len s = size
      | TEnum _ symbols, VStr s => In s symbols
      | TArray items, VArr l => forall x, In x l -> canonical n' D items x
      | TMap values, VDict d => forall k x, In (k, x) d -> canonical n' D values x
      | TRecord name, VDict d => Forall2 (fun f kx => fst kx = f_name f /\ canonical n' D (f_type f) (snd kx)) (fields_of D name) d
      | TUnion ts, VNull => In TNull ts
      | TUnion ts, VDict [(tag, x)] => exists t', In t' ts /\ tyname t' = tag /\ canonical n' D t' x
      | _, _ => False
      end
  end.
(** nothing is called "@" *)
Fixpoint no_marks (v : val) : Prop :=
  match v with
  | VArr l => (fix all (l : list val) : Prop := match l with [] => True | x :: l' => no_marks x /\ all l' end) l
  | VDict d => (fix all (d : list (string * val)) : Prop :=
                  match d with [] => True | (k, x) :: d' => k <> "@" /\ no_marks x /\ all d' end) d
  | _ => True
  end.

(** *** Engines *)
Section Engines.
  Context {R : Type}.
  (** The cells and pools of the engine are those of its document, and no other engine's. *)
  Definition own (e : engine R) : Prop :=
    NoDup (map fst (en_cells e)) /\ NoDup (map fst (en_pools e)) /\
    (forall k, In k (map fst (en_cells e)) <-> In k (map fst (cf_cells (en_config e)))) /\
    (forall k, In k (map fst (en_pools e)) <-> In k (map fst (cf_pools (en_config e)))) /\
    (forall k x, In (k, x) (en_cells e) -> it_shared x = true -> it_rollback x = false) /\
    (forall k x, In (k, x) (en_pools e) -> it_shared x = true -> it_rollback x = false).
  (** Every value fits the type its document declares, in the sense of Q. *)
  Definition holds (Q : ty -> val -> Prop) (e : engine R) : Prop :=
    (forall k x a, In (k, x) (en_cells e) -> assoc k (cf_cells (en_config e)) = Some a -> Q (ca_type a) (it_value x)) /\
    (forall k x a i v, In (k, x) (en_pools e) -> assoc k (cf_pools (en_config e)) = Some a -> In (i, v) (it_value x) -> Q (pa_type a) v).
  Definition embedded (e : engine R) : Prop :=
    (forall k x, In (k, x) (en_cells e) -> it_source x = "embedded") /\ (forall k x, In (k, x) (en_pools e) -> it_source x = "embedded").
  Definition same_flags {V} (x y : item V) : Prop :=
    it_shared y = it_shared x /\ it_rollback y = it_rollback x /\ it_source y = it_source x.
  (** related item by item *)
  Definition related {V} (Q : V -> V -> Prop) (d d' : list (string * item V)) : Prop :=
    forall k, match assoc k d, assoc k d' with
              | Some x, Some y => same_flags x y /\ Q (it_value x) (it_value y)
              | None, None => True
              | _, _ => False
              end.
  Definition same_items (d d' : list (string * val)) : Prop :=
    forall i, match assoc i d, assoc i d' with Some v, Some w => same v w | None, None => True | _, _ => False end.
  (** e' is in the same state as e, as far as a program can tell by comparing values *)
  Definition restored (e e' : engine R) : Prop :=
    related same (en_cells e) (en_cells e') /\ related same_items (en_pools e) (en_pools e') /\
    cf_rest (en_config e') = cf_rest (en_config e) /\ cf_defs (en_config e') = cf_defs (en_config e).
  (** ... and the values are identical *)
  Definition identical (e e' : engine R) : Prop :=
    (forall k, assoc k (en_cells e') = assoc k (en_cells e)) /\ (forall k, assoc k (en_pools e') = assoc k (en_pools e)) /\
    cf_rest (en_config e') = cf_rest (en_config e) /\ cf_defs (en_config e') = cf_defs (en_config e).
End Engines.
