(** What the user of pfainspector counts on: names stand for documents, and reports are about the document as it is. *)
From Verif Require Import Base ScopeModel SesModel.
Open Scope string_scope.

(** the document that a name stands for *)
Definition document {C E} (s : session C E) (a : string) : option val := match assoc a s with Some m => Some (obj m) | None => None end.
Section Reports.
Variables C E : Type.
Variable toAst : val -> res C.
Variable fromAst : C -> res E.
(** what has to be said of a document *)
Definition says_conf (d : option val) : res (report C E) :=
  match d with None => Raise (PyErr "InspectorError") | Some v => match toAst v with Ok c => Ok (Conf c) | Raise _ => Raise (PyErr "InspectorError") end end.
Definition says_engine (d : option val) : res (report C E) :=
  match d with
  | None => Raise (PyErr "InspectorError")
  | Some v => match toAst v with Ok c => match fromAst c with Ok e => Ok (Eng e) | Raise _ => Raise (PyErr "InspectorError") end | Raise _ => Raise (PyErr "InspectorError") end
  end.
End Reports.
Definition moves (c : command) : Prop := match c with Move _ _ => True | _ => False end.
(** the names a command is about *)
Definition about (c : command) : list string :=
  match c with Load _ n => [n] | Rename a b => [a; b] | Drop a => [a] | Change a _ => [a] | Move a _ => [a] | UseConf _ | UseEngine _ => [] end.
