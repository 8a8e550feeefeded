(** Avro types and type acceptance: titus/datatype.py:30-628, and LabelData of titus/signature.py:171-302. *)
From Verif Require Import Base PyNum ScopeModel.
Require Import Ascii.
Open Scope string_scope.
Open Scope list_scope.

(** datatype.py:336-572. Named types carry their full name. A record refers to its fields through the table of
    definitions below, because the schema objects of a recursive type are cyclic. *)
Inductive ty :=
| TNull | TBool | TInt | TLong | TFloat | TDouble | TBytes | TString
| TFixed (name : string) (size : nat)
| TEnum (name : string) (symbols : list string)
| TArray (items : ty)
| TMap (values : ty)
| TRecord (name : string)
| TUnion (types : list ty)
| TExc.   (* ExceptionType, the type of an expression that always raises *)

(** AvroField, datatype.py:575-628 *)
Record field := Field { f_name : string; f_type : ty; f_default : option val; f_order : option string }.
(** field.default is not None: a default of null is the same as no default (611-616) *)
Definition default_of (f : field) : option val := match f_default f with Some VNull => None | d => d end.
(** the records by full name *)
Definition defs := list (string * list field).
Definition fields_of (D : defs) (n : string) : list field := match assoc n D with Some fs => fs | None => [] end.

(** the part of a full name after the last dot *)
Fixpoint after_dot (s : string) : option string :=
  match s with
  | EmptyString => None
  | String c r => match after_dot r with
                  | Some x => Some x
                  | None => if Ascii.eqb c "."%char then Some r else None
                  end
  end.
Definition short (n : string) : string := match after_dot n with Some x => x | None => n end.
(** the property "name" of each class: 352-570; ExceptionType inherits None, never used as a name *)
Definition tyname (t : ty) : string :=
  match t with
  | TNull => "null" | TBool => "boolean" | TInt => "int" | TLong => "long" | TFloat => "float" | TDouble => "double"
  | TBytes => "bytes" | TString => "string"
  | TFixed n _ | TEnum n _ | TRecord n => short n
  | TArray _ => "array" | TMap _ => "map" | TUnion _ => "union" | TExc => ""
  end.
Definition mem (x : string) (l : list string) : bool := existsb (String.eqb x) l.

(** *** accepts, datatype.py:206-287 *)
(** Everything except records. [rec n m]: the record named n accepts the record named m. *)
Fixpoint acc (rec : string -> string -> bool) (a : ty) : ty -> bool :=
  fix accb (b : ty) : bool :=
    match a, b with
    | _, TExc => false                                                                    (* 221 *)
    | TNull, TNull | TBool, TBool | TBytes, TBytes | TString, TString => true             (* 224-231 *)
    | TInt, TInt => true                                                                  (* 233 *)
    | TLong, (TInt | TLong) => true
    | TFloat, (TInt | TLong | TFloat) => true
    | TDouble, (TInt | TLong | TFloat | TDouble) => true
    | TArray x, TArray y => acc rec x y                                                   (* 242 *)
    | TMap x, TMap y => acc rec x y
    | TFixed n s, TFixed m r => (Nat.eqb s r && String.eqb n m)%bool                      (* 248 *)
    | TEnum n ss, TEnum m rs => (forallb (fun r => mem r ss) rs && String.eqb n m)%bool   (* 251 *)
    | TRecord n, TRecord m => rec n m                                                     (* 254 *)
    | TUnion xs, TUnion ys => forallb (fun y => existsb (fun x => acc rec x y) xs) ys     (* 274 *)
    | TUnion xs, _ => existsb (fun x => acc rec x b) xs                                   (* 280 *)
    | _, TUnion ys => forallb accb ys                                                     (* 283 *)
    | _, _ => false
    end.
(** _recordFieldsOkay, datatype.py:188-201 *)
Definition fields_ok (rec : string -> string -> bool) (xs ys : list field) : bool :=
  forallb (fun xf =>
    match default_of xf with
    | None => existsb (fun yf => (String.eqb (f_name xf) (f_name yf) && acc rec (f_type xf) (f_type yf))%bool) ys
    | Some _ => forallb (fun yf => (negb (String.eqb (f_name xf) (f_name yf)) || acc rec (f_type xf) (f_type yf))%bool) ys
    end) xs.
(** The record case, datatype.py:254-272. [k] bounds the number of records entered: each one is added to memo,
    so the number of definitions is enough (see rec_ok_enough). *)
Fixpoint rec_ok (D1 D2 : defs) (k : nat) (memo : list string) (checkRecord : bool) (n m : string) : bool :=
  if negb (String.eqb n m) then false
  else if (checkRecord && negb (mem m memo))%bool then
    match k with
    | O => false
    | S k' => (fields_ok (rec_ok D1 D2 k' memo false) (fields_of D1 n) (fields_of D2 m) &&
               fields_ok (rec_ok D1 D2 k' (n :: memo) true) (fields_of D1 n) (fields_of D2 m))%bool
    end
  else true.
(** self.accepts(other), self defined with D1 and other with D2 *)
Definition accepts (D1 D2 : defs) (a b : ty) : bool := acc (rec_ok D1 D2 (S (length D1)) [] true) a b.

(** *** LabelData, signature.py:171-302 *)
(** The types of expressions: a value or a function (FcnType, datatype.py:37-72; its parameters are value types) *)
Inductive ptype :=
| PVal (t : ty)
| PFcn (params : list ty) (ret : ty).
Section Broadest.
  Variable D : defs.
  Let accd := accepts D D.
  (** signature.py:174-191; the position of the first element the candidate accepts (183-190) *)
  Fixpoint subst_first (c : ty) (out : list ty) : list ty :=
    match out with
    | [] => [c]
    | y :: out' => if accd c y then c :: out' else y :: subst_first c out'
    end.
  Definition add_type (c : ty) (out : list ty) : list ty :=
    if existsb (fun y => accd y c) out then out else subst_first c out.
  Fixpoint distinct1 (out : list ty) (c : ty) {struct c} : list ty :=
    match c with
    | TUnion ts => (fix go (ts : list ty) (out : list ty) : list ty :=
                      match ts with [] => out | t :: ts' => go ts' (distinct1 out t) end) ts out
    | _ => add_type c out
    end.
  Definition distinct_types (cs : list ty) : list ty := fold_left distinct1 cs [].
  Definition is_fixed (t : ty) : bool := match t with TFixed _ _ => true | _ => false end.
  Definition is_enum (t : ty) : bool := match t with TEnum _ _ => true | _ => false end.
  Fixpoint nodup_str (l : list string) : bool := match l with [] => true | x :: l' => (negb (mem x l') && nodup_str l')%bool end.
  (** AvroUnion(types), datatype.py:553-564 *)
  Definition make_union (ts : list ty) : res ty :=
    if negb (nodup_str (map tyname ts)) then Raise AvroErr
    else if mem "union" (map tyname ts) then Raise AvroErr
    else Ok (TUnion ts).
  Definition incompatible {A} : res A := Raise (PyErr "IncompatibleTypes").
  Definition all_named (sel : ty -> option string) (cs : list ty) : option (list string) :=
    fold_right (fun c o => match sel c, o with Some n, Some l => Some (n :: l) | _, _ => None end) (Some []) cs.
  Definition fixed_name t := match t with TFixed n _ => Some n | _ => None end.
  Definition enum_name t := match t with TEnum n _ => Some n | _ => None end.
  Definition record_name t := match t with TRecord n => Some n | _ => None end.
  Definition items_of t := match t with TArray x => Some x | _ => None end.
  Definition values_of t := match t with TMap x => Some x | _ => None end.
  Fixpoint all_some {A B} (f : A -> option B) (l : list A) : option (list B) :=
    match l with
    | [] => Some []
    | a :: l' => match f a, all_some f l' with Some b, Some bs => Some (b :: bs) | _, _ => None end
    end.
  Definition isb (p : ty -> bool) (cs : list ty) := forallb p cs.
  (** same full name for all: the first one (235-254) *)
  Definition same_name (sel : ty -> option string) (cs : list ty) : option (res ty) :=
    match all_some sel cs, cs with
    | Some (n :: ns), c :: _ => Some (if forallb (String.eqb n) ns then Ok c else incompatible)
    | _, _ => None
    end.
  (** signature.py:194-285 for value types; [cs]: realCandidates, not empty. [n] bounds the nesting of arrays and maps.
      Returning a ValueError object instead of raising it for empty lists (205-208) is modelled as raising it. *)
  Fixpoint broadest (n : nat) (cs : list ty) : res ty :=
    match n with
    | O => Raise (PyErr "RecursionError")
    | S n' =>
        match cs with
        | [] => Raise (PyErr "ValueError")
        | c :: _ =>
            if isb (fun t => match t with TNull => true | _ => false end) cs then Ok c
            else if isb (fun t => match t with TBool => true | _ => false end) cs then Ok c
            else if isb (fun t => match t with TInt => true | _ => false end) cs then Ok TInt
            else if isb (fun t => match t with TInt | TLong => true | _ => false end) cs then Ok TLong
            else if isb (fun t => match t with TInt | TLong | TFloat => true | _ => false end) cs then Ok TFloat
            else if isb (fun t => match t with TInt | TLong | TFloat | TDouble => true | _ => false end) cs then Ok TDouble
            else if isb (fun t => match t with TBytes => true | _ => false end) cs then Ok c
            else if isb (fun t => match t with TString => true | _ => false end) cs then Ok c
            else match all_some items_of cs with
            | Some items => t <- broadest n' items ;; Ok (TArray t)
            | None =>
            match all_some values_of cs with
            | Some values => t <- broadest n' values ;; Ok (TMap t)
            | None =>
            match same_name fixed_name cs with Some r => r | None =>
            match same_name enum_name cs with Some r => r | None =>
            match same_name record_name cs with Some r => r | None =>
              let types := distinct_types cs in
              if Nat.ltb 1 (length (filter is_fixed types)) then incompatible
              else if Nat.ltb 1 (length (filter is_enum types)) then incompatible
              else make_union types
            end end end end end
        end
    end.
  Fixpoint depth (t : ty) : nat := match t with TArray x | TMap x => S (depth x) | _ => 0 end.
  Definition is_exc (t : ty) : bool := match t with TExc => true | _ => false end.
  (** broadestType for value types *)
  Definition broadestType (cs : list ty) : res ty :=
    let real := filter (fun t => negb (is_exc t)) cs in
    broadest (S (list_max (map depth real))) real.
End Broadest.
(** with function types: signature.py:256-263, 284-285 *)
Definition vals_of (cs : list ptype) : option (list ty) := all_some (fun c => match c with PVal t => Some t | _ => None end) cs.
Definition fcns_of (cs : list ptype) : option (list (list ty * ty)) := all_some (fun c => match c with PFcn ps r => Some (ps, r) | _ => None end) cs.
Definition broadest_ptype (D : defs) (eqb : list ty * ty -> list ty * ty -> bool) (cs : list ptype) : res ptype :=
  let real := filter (fun c => match c with PVal TExc => false | _ => true end) cs in
  match vals_of real with
  | Some ts => t <- broadestType D ts ;; Ok (PVal t)
  | None =>
      match fcns_of real with
      | Some (f :: fs) => if forallb (eqb f) fs then Ok (PFcn (fst f) (snd f)) else incompatible
      | _ => incompatible
      end
  end.
