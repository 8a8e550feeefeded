(** What search patterns of pfainspector say. *)
From Verif Require Import Base PyNum ScopeModel ToolsModel ToolsSpec InspModel.
Open Scope string_scope.
Open Scope list_scope.

Section Lists.
Variable P : cmd -> val -> Prop.
Fixpoint say_items (l : list cmd) (w : list val) : Prop := match l, w with [], [] => True | c :: l', x :: w' => P c x /\ say_items l' w' | _, _ => False end.
Fixpoint say_entries (l : list (string * cmd)) (d : list (string * val)) : Prop :=
  match l with [] => True | (k, c) :: l' => (k <> "@" -> exists x, assoc k d = Some x /\ P c x) /\ say_entries l' d end.
Fixpoint say_all (l : list cmd) (v : val) : Prop := match l with [] => True | c :: l' => P c v /\ say_all l' v end.
Fixpoint say_some (l : list (list cmd)) (v : val) : Prop := match l with [] => False | c :: l' => say_all c v \/ say_some l' v end.
End Lists.

(** [stands m s n]: the number m stands in the relation s to n. *)
Definition stands (m : num) (s : sign) (n : num) : Prop :=
  match s with Less => num_lt m n = true | LessEq => num_le m n = true | More => num_gt m n = true | MoreEq => num_ge m n = true end.
(** true and false are the numbers 1 and 0, as in Python. Marks "@" are ignored. *)
Fixpoint says (c : cmd) (v : val) {struct c} : Prop :=
  match c with
  | CWord s => if String.eqb s "null" then v = VNull
               else if String.eqb s "true" then exists m, number v m /\ num_eq (NI 1) m = true
               else if String.eqb s "false" then exists m, number v m /\ num_eq (NI 0) m = true else v = VStr s
  | CString s => v = VStr s
  | CNum n => exists m, number v m /\ num_eq n m = true
  | CUnder => True
  | CRegex f _ => exists s, v = VStr s /\ f s = true
  | CObject l e => exists d, v = VDict d /\ say_entries says l d /\ (e = false -> forall k, k <> "@" -> In k (map fst d) -> In k (map fst l))
  | CArray l b a => exists w1 w w2, v = VArr (w1 ++ w ++ w2) /\ say_items says l w /\ (b = false -> w1 = []) /\ (a = false -> w2 = [])
  | CRange None => exists m, number v m
  | CRange (Some (s, n)) => exists m, number v m /\ stands m s n
  | CBetween a s t b => exists m, number v m /\ stands a (if s then LessEq else Less) m /\ stands m (if t then LessEq else Less) b
  | CApprox c e => exists m d, number v m /\ py_sub m c = Ok d /\ num_gt (py_abs d) e = false
  | CGroup l => say_some says l v
  end.

Section Parts.
Variable P : cmd -> Prop.
Fixpoint all_of (l : list cmd) : Prop := match l with [] => True | c :: l' => P c /\ all_of l' end.
Fixpoint all_pairs (l : list (string * cmd)) : Prop := match l with [] => True | (_, c) :: l' => P c /\ all_pairs l' end.
Fixpoint all_chains (l : list (list cmd)) : Prop := match l with [] => True | c :: l' => c <> [] /\ all_of c /\ all_chains l' end.
End Parts.
Definition real (n : num) : Prop := match n with NI _ => True | NF f => isnan f = false end.
(** Patterns that the grammar can give, without a range that has a limit below and without a key twice. *)
Fixpoint sound (c : cmd) : Prop :=
  match c with
  | CObject l _ => NoDup (map fst l) /\ all_pairs sound l
  | CArray l _ _ => all_of sound l
  | CRange (Some (_, n)) => real n
  | CBetween _ _ _ _ => False
  | CGroup l => all_chains sound l
  | _ => True
  end.
