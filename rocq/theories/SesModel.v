(** Model of the documents that pfainspector holds in memory: titus/inspector/defs.py:338-376 (Model), titus/inspector/main.py:58-118 (load, rename, drop), titus/inspector/jsongadget.py:484-510 and 586-594 (what json
    change does with the document), titus/inspector/pfagadget.py:58-79 (valid; types, functions, calls use the engine in the same way), 427-466 (cells, pools; io and the list of functions use the syntax tree), 596-599
    and 710-711 (externalize and internalize).

    Simplifications: lines are already commands; what json change, externalize and internalize make of the document is a function (see C103 and C104); reading the document ([toAst]) and building an engine ([fromAst])
    are functions of the document, so that files that cells refer to do not change meanwhile; every error of theirs is reported as an InspectorError. *)
From Verif Require Import Base ScopeModel.
Open Scope string_scope.
Open Scope list_scope.

Section Session.
Variables C E : Type.
Variable toAst : val -> res C.
Variable fromAst : C -> res E.
(** defs.py:348-351 *)
Record model := mkModel { obj : val; conf : option C; eng : option E }.
Definition session := list (string * model).
Inductive command :=
| Load (file : res val) (name : string)      (* main.py:58-68; [file]: what reading the file gives *)
| Rename (a b : string)                      (* 84-93 *)
| Drop (a : string)                          (* 107-115 *)
| Change (a : string) (f : val -> res val)   (* json change *)
| Move (a : string) (f : val -> res val)     (* pfa externalize, pfa internalize *)
| UseConf (a : string)                       (* pfa cells, pfa pools ... *)
| UseEngine (a : string).                    (* pfa valid, pfa types ... *)
Inductive report := Done | Conf (c : C) | Eng (e : E).
Definition inspector {A} : res A := Raise (PyErr "InspectorError").

(** 357-364 *)
Definition get_conf (m : model) : res C * model :=
  match conf m with
  | Some c => (Ok c, m)
  | None => match toAst (obj m) with Ok c => (Ok c, mkModel (obj m) (Some c) (eng m)) | Raise _ => (inspector, m) end
  end.
(** 366-373 *)
Definition get_engine (m : model) : res E * model :=
  match eng m with
  | Some e => (Ok e, m)
  | None =>
      match get_conf m with
      | (Raise x, m') => (Raise x, m')
      | (Ok c, m') => match fromAst c with Ok e => (Ok e, mkModel (obj m') (conf m') (Some e)) | Raise _ => (inspector, m') end
      end
  end.
Definition with_model (s : session) (a : string) (f : model -> res report * model) : res report * session :=
  match assoc a s with
  | None => (inspector, s)
  | Some m => let (r, m') := f m in (r, dict_set a m' s)
  end.
Definition step (s : session) (c : command) : res report * session :=
  match c with
  | Load (Ok v) n => (Ok Done, dict_set n (mkModel v None None) s)
  | Load (Raise e) _ => (Raise e, s)
  | Rename a b => match assoc a s with None => (inspector, s) | Some m => (Ok Done, dict_del a (dict_set b m s)) end
  | Drop a => match assoc a s with None => (inspector, s) | Some m => (Ok Done, dict_del a s) end
  | Change a f => with_model s a (fun m => match f (obj m) with Ok v => (Ok Done, mkModel v None None) | Raise e => (Raise e, m) end)
  | Move a f => with_model s a (fun m => match f (obj m) with Ok v => (Ok Done, mkModel v (conf m) (eng m)) | Raise e => (Raise e, m) end)
  | UseConf a => with_model s a (fun m => match get_conf m with (Ok c, m') => (Ok (Conf c), m') | (Raise e, m') => (Raise e, m') end)
  | UseEngine a => with_model s a (fun m => match get_engine m with (Ok e, m') => (Ok (Eng e), m') | (Raise x, m') => (Raise x, m') end)
  end.
Definition run (s : session) (l : list command) : session := fold_left (fun s c => snd (step s c)) l s.
End Session.
Arguments mkModel {C E}. Arguments obj {C E}. Arguments conf {C E}. Arguments eng {C E}. Arguments Conf {C E}. Arguments Eng {C E}. Arguments Done {C E}.
Arguments step {C E}. Arguments run {C E}.
