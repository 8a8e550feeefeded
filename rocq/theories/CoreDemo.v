(** A small concrete environment used by the examples. *)
From Verif Require Import Base ScopeModel CoreModel EngineModel.
Open Scope string_scope.
Open Scope Z_scope.

Definition demo_lib (f : string) : option libfun :=
  if String.eqb f "+" then
    Some (Strict (fun avs => match avs with
                             | [AV (VInt a); AV (VInt b)] => LRet (VInt (a + b))
                             | _ => LRaise (PyErr "TypeError")
                             end))
  else if String.eqb f "<" then
    Some (Strict (fun avs => match avs with
                             | [AV (VInt a); AV (VInt b)] => LRet (VBool (a <? b))
                             | _ => LRaise (PyErr "TypeError")
                             end))
  else if String.eqb f "apply" then   (* call the first argument on the second *)
    Some (Strict (fun avs => match avs with
                             | [AF _; AV v] => LCall 0 [v] (fun r => match r with Ok w => LRet w | Raise e => LRaise e end)
                             | _ => LRaise (PyErr "TypeError")
                             end))
  else if String.eqb f "&&" then
    Some (Lazy (LForce 0 (fun r => match r with
                                   | Ok (VBool true) => LForce 1 (fun r => match r with Ok w => LRet w | Raise e => LRaise e end)
                                   | Ok w => LRet w
                                   | Raise e => LRaise e
                                   end)))
  else None.
Definition demo_env (fcns : list (string * (list string * list expr))) (time : nat -> Z) : env := {|
  e_lib := demo_lib;
  e_libref := fun _ _ => LRaise (PyErr "TypeError");
  e_libparams := fun _ => ["x"; "y"];
  e_fcns := fcns;
  e_decode := fun ty v => if String.eqb ty "int" then match v with VInt _ => Ok v | _ => Raise AvroErr end
                          else if String.eqb ty "string" then match v with VStr _ => Ok v | _ => Raise AvroErr end
                          else Raise AvroErr;
  e_tyname := fun ty => ty;
  e_pack := fun _ _ => Raise (PyErr "TypeError");
  e_unpack := fun _ _ => None;
  e_message := fun _ => "array index not found";
  e_time := time;
  e_rand := fun _ => 0 |}.
Definition int (z : Z) : expr := ELit "(int)" (VInt z).
Definition str (s : string) : expr := ELit "(string)" (VStr s).
Definition add (a b : expr) : expr := ECall "+" [AExpr a; AExpr b].
Definition no_limit : options := engine_options [] [].
(** two cells and a pool; "r" and "p" with rollback, "k" without *)
Definition demo_doc (m : method) (body : list expr) : doc := {|
  d_method := m; d_begin := []; d_action := body; d_end := []; d_merge := None; d_zero := VInt 0;
  d_cells := [("r", CellDecl (VInt 1) false true); ("k", CellDecl (VInt 1) false false)];
  d_pools := [("p", PoolDecl [("a", VInt 1)] false true)];
  d_name := VStr "demo"; d_instance := VInt 0; d_metadata := VDict []; d_version := None;
  d_check := fun v => match v with VInt _ => Ok v | _ => Raise AvroErr end;
  d_options := no_limit |}.
