(** Model of titus/lib/model/tree.py: tree predicates and tree walks.

    Values are the Python values of ScopeModel. A user's function is a computation in the effect monad, already
    applied to the datum. *)
From Coq Require Import SpecFloat.
From Verif Require Import Base PyNum Effects ScopeModel TypeModel JsonModel.
Open Scope string_scope.
Open Scope list_scope.
Open Scope Z_scope.

(** Python's [x == y] on JSON-like values: numbers by value (a bool is an int), dicts without regard to order. *)
Fixpoint py_eq (x y : val) : bool :=
  let num (v : val) : option num :=
    match v with VBool b => Some (NI (bool_z b)) | _ => num_of v end in
  match x with
  | VNull => match y with VNull => true | _ => false end
  | VStr s => match y with VStr r => String.eqb s r | _ => false end
  | VBytes l => match y with VBytes r => if list_eq_dec Z.eq_dec l r then true else false | _ => false end
  | VArr l =>
      match y with
      | VArr r => (fix go (l r : list val) : bool :=
                     match l, r with
                     | [], [] => true
                     | a :: l', b :: r' => py_eq a b && go l' r'
                     | _, _ => false
                     end) l r
      | _ => false
      end
  | VDict d =>
      match y with
      | VDict e => Nat.eqb (length d) (length e) &&
                   forallb (fun kv => match assoc (fst kv) e with Some w => py_eq (snd kv) w | None => false end) d
      | _ => false
      end
  | VBool _ | VInt _ | VFlt _ =>
      match num x, num y with Some a, Some b => num_eq a b | _, _ => false end
  end.

(** [v[k]] for a string k *)
Definition getitem (v : val) (k : string) : res val :=
  match v with
  | VDict d => match assoc k d with Some x => Ok x | None => Raise (PyErr "KeyError") end
  | _ => Raise (PyErr "TypeError")
  end.
(** [[x for x in fields if x["name"] == k][0]["type"]], tree.py:46-47 *)
Definition field_type (fs : list field) (k : string) : res ty :=
  match find (fun f => String.eqb (f_name f) k) fs with Some f => Ok (f_type f) | None => Raise (PyErr "IndexError") end.
Definition is_number (t : ty) : bool := match t with TInt | TLong | TFloat | TDouble => true | _ => false end.
(** isinstance(v, (int, float)): a bool is an int *)
Definition as_number (v : val) : option num := match v with VBool b => Some (NI (bool_z b)) | _ => num_of v end.

(** tree.py:49-58: null is taken out of a union type, and the tag off its value *)
Definition is_null_ty (t : ty) : bool := match t with TNull => true | _ => false end.
Definition without_null (ts : list ty) : list ty := filter (fun t => negb (is_null_ty t)) ts.
Definition unwrap (t : ty) (v : val) : ty * val :=
  match t with
  | TUnion ts =>
      let wn := without_null ts in
      (match wn with [t'] => t' | _ => TUnion wn end,
       match v with
       | VDict [(tag, w)] => if existsb (fun t' => String.eqb (tyname t') tag) wn then w else v
       | _ => v
       end)
  | _ => (t, v)
  end.

(** tree.py:73-78 *)
Definition items_accept (D : defs) (valueType fieldType : ty) : bool :=
  match valueType with
  | TArray items => accepts D D items fieldType
  | TUnion ts => existsb (fun t => match t with TArray items => accepts D D items fieldType | _ => false end) ts
  | _ => false
  end.
(** tree.py:80-81 *)
Definition unwrap_array (v : val) : val :=
  match v with VDict [(tag, w)] => if String.eqb tag "array" then w else v | _ => v end.
(** tree.py:106-107 *)
Definition unwrap_number (v : val) : val :=
  match v with
  | VDict [(tag, w)] => if mem tag ["int"; "long"; "float"; "double"] then w else v
  | _ => v
  end.
(** [x in l]. Python also finds an object that is identical without being equal (the same nan object); the value of
    a field and the value in a tree node are different objects. A string is searched for a substring, a dict for a
    key: not reachable, the type is an array here. *)
Definition py_in (x l : val) : res bool :=
  match l with VArr l => Ok (existsb (fun y => py_eq y x) l) | _ => Raise (PyErr "TypeError") end.

(** tree.py:111-122 *)
Definition number_operator (op : string) (x y : num) (code2 : Z) : res bool :=
  if String.eqb op "<=" then Ok (num_le x y)
  else if String.eqb op "<" then Ok (num_lt x y)
  else if String.eqb op ">=" then Ok (num_ge x y)
  else if String.eqb op ">" then Ok (num_gt x y)
  else if String.eqb op "==" then Ok (num_eq x y)
  else if String.eqb op "!=" then Ok (negb (num_eq x y))
  else Raise (PFAErr code2).
(** tree.py:126-137; [compare] is called after the operator has been recognised *)
Definition compare_operator (op : string) (c : res Z) (code2 : Z) : res bool :=
  if String.eqb op "<=" then z <- c ;; Ok (z <=? 0)
  else if String.eqb op "<" then z <- c ;; Ok (z <? 0)
  else if String.eqb op ">=" then z <- c ;; Ok (0 <=? z)
  else if String.eqb op ">" then z <- c ;; Ok (0 <? z)
  else if String.eqb op "==" then z <- c ;; Ok (z =? 0)
  else if String.eqb op "!=" then z <- c ;; Ok (negb (z =? 0))
  else Raise (PFAErr code2).

(** simpleComparison, tree.py:40-137. [dfields] and [vfields] are the fields of the record types of the datum and of
    the comparison, [n] the depth to which [compare] may recurse. None is Python's None. *)
Definition simpleComparison (n : nat) (D : defs) (dfields vfields : list field) (datum comparison : val)
    (missingOperators : bool) (code1 code2 : Z) : res (option bool) :=
  fld <- getitem comparison "field" ;;
  match fld with
  | VStr field =>
      fieldValue0 <- getitem datum field ;;
      opv <- getitem comparison "operator" ;;
      value <- getitem comparison "value" ;;
      fieldType0 <- field_type dfields field ;;
      valueType <- field_type vfields "value" ;;
      let (fieldType, fieldValue) := if missingOperators then (fieldType0, fieldValue0) else unwrap fieldType0 fieldValue0 in
      let isNull := match fieldValue with VNull => true | _ => false end in
      let op := match opv with VStr s => s | _ => "" end in
      if String.eqb op "alwaysTrue" then Ok (Some true)
      else if String.eqb op "alwaysFalse" then Ok (Some false)
      else if missingOperators && String.eqb op "isMissing" then Ok (Some isNull)
      else if missingOperators && String.eqb op "notMissing" then Ok (Some (negb isNull))
      else if String.eqb op "in" || String.eqb op "notIn" then
        if negb (items_accept D valueType fieldType) then Raise (PFAErr code1)
        else if negb missingOperators && isNull then Ok None
        else
          contained <- py_in fieldValue (unwrap_array value) ;;
          Ok (Some (if String.eqb op "in" then contained else negb contained))
      else if negb (accepts D D valueType fieldType) && negb (is_number valueType && is_number fieldType)
      then Raise (PFAErr code1)
      else if negb missingOperators && isNull then Ok None
      else if is_number fieldType then
        match as_number (unwrap_number value), as_number fieldValue with
        | None, _ => Raise (PFAErr code1)
        | _, None => Raise (PyErr "TypeError")
        | Some y, Some x => b <- number_operator op x y code2 ;; Ok (Some b)
        end
      else b <- compare_operator op (compare n D valueType fieldValue value) code2 ;; Ok (Some b)
  | _ => Raise (PyErr "KeyError")
  end.

(** SimpleTest, tree.py:139-145. With missingOperators the result is never None. *)
Definition simpleTest n D dfields vfields datum comparison : res (option bool) :=
  simpleComparison n D dfields vfields datum comparison true 32001 32000.
(** MissingTest, tree.py:172-188; {"boolean": b} is [Some b] *)
Definition missingTest n D dfields vfields datum comparison : res (option bool) :=
  simpleComparison n D dfields vfields datum comparison false 32011 32010.

Section Walks.
  Context {S : Type}.

  (** CompoundTest, tree.py:147-170 *)
  Fixpoint all_tests (test : val -> M S bool) (l : list val) : M S bool :=
    match l with [] => ret true | c :: l' => b <~ test c ;; if b : bool then all_tests test l' else ret false end.
  Fixpoint any_test (test : val -> M S bool) (l : list val) : M S bool :=
    match l with [] => ret false | c :: l' => b <~ test c ;; if b : bool then ret true else any_test test l' end.
  Fixpoint count_tests (test : val -> M S bool) (l : list val) (numTrue : Z) : M S Z :=
    match l with
    | [] => ret numTrue
    | c :: l' => b <~ test c ;; count_tests test l' (if b : bool then numTrue + 1 else numTrue)
    end.
  Definition compoundTest (operator : string) (comparisons : list val) (test : val -> M S bool) : M S bool :=
    if String.eqb operator "and" then all_tests test comparisons
    else if String.eqb operator "or" then any_test test comparisons
    else if String.eqb operator "xor" then n <~ count_tests test comparisons 0 ;; ret (n mod 2 =? 1)
    else raise (PFAErr 32020).

  (** SurrogateTest, tree.py:190-203 *)
  Fixpoint surrogateTest (comparisons : list val) (test : val -> M S (option bool)) : M S bool :=
    match comparisons with
    | [] => raise (PFAErr 32030)
    | c :: l' => r <~ test c ;; match r with Some b => ret b | None => surrogateTest l' test end
    end.

  (** tree.py:217-223 (and 244-250, 264-270): None ends the walk; a one-entry dict gives the tag and the next node *)
  Definition next_node (T : string) (union : val) : res (bool * val) :=
    match union with
    | VNull => Ok (false, VNull)
    | VDict [(utype, node)] => Ok (String.eqb utype T, node)
    | VDict _ => Raise (PyErr "ValueError")
    | _ => Raise (PyErr "AttributeError")
    end.
  (** The loop of SimpleWalk (tree.py:209-224), of MissingWalk (231-251) and of SimpleTree (258-271): [choose] is the
      name of the branch to take. The fuel is enough when it exceeds the depth of the tree (C48_terminates). *)
  Fixpoint walk (fuel : nat) (T : string) (choose : val -> M S string) (node : val) : M S val :=
    match fuel with
    | O => raise (PyErr "out of fuel")
    | Datatypes.S fuel' =>
        branch <~ choose node ;;
        union <~ lift (getitem node branch) ;;
        go <~ lift (next_node T union) ;;
        if fst go then walk fuel' T choose (snd go) else ret (snd go)
    end.
  Definition simpleWalk fuel T (treeNode : val) (test : val -> M S bool) : M S val :=
    walk fuel T (fun node => b <~ test node ;; ret (if b : bool then "pass" else "fail")) treeNode.
  Definition missingWalk fuel T (treeNode : val) (test : val -> M S (option bool)) : M S val :=
    walk fuel T (fun node => r <~ test node ;;
      ret (match r with Some true => "pass" | Some false => "fail" | None => "missing" end)) treeNode.
  Definition simpleTree fuel T n D dfields vfields (datum treeNode : val) : M S val :=
    walk fuel T (fun node => r <~ lift (simpleComparison n D dfields vfields datum node true 32061 32060) ;;
      ret (match r with Some true => "pass" | _ => "fail" end)) treeNode.
End Walks.
