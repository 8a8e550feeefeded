(** Library functions called directly and by reference: how the generated code reaches the method of a library
    function in either case (titus/fcn.py, titus/genpy.py:311-331, titus/util.py:155-179, titus/errors.py:72-82), and which
    functions may be referenced (titus/pfaast.py:1580-1600).
    The bodies of the methods are programs [body]: what they compute is arbitrary, what they can see is not. *)
From Verif Require Import Base ScopeModel VersionModel CoreModel RefTable.
Open Scope string_scope.
Open Scope list_scope.
Open Scope Z_scope.

(** ** The argument "pos" *)
(** a direct call passes the text of the position, or None (fcn.py:34); callfcn passes the function titus.util.pos, since
    it has no variable of that name (util.py:67, 179) *)
Inductive posv := PosNone | PosText (t : string) | PosFcn.
(** raise PFARuntimeException(message, code, name, pos): the constructor adds pos to a text (errors.py:82) *)
Definition runtime_error (p : posv) (code : Z) : exn :=
  match p with PosFcn => PyErr "TypeError" | _ => PFAErr code end.

(** ** Methods *)
Inductive body :=
| BRet (v : val)
| BError (code : Z)                                  (* raise PFARuntimeException(..., code, self.name, pos) *)
| BRaise (e : exn)                                   (* any other exception *)
| BCall (i : nat) (args : list val) (k : res val -> body)  (* callfcn on the i-th argument *)
| BForce (i : nat) (k : res val -> body)             (* call the i-th argument as a Python function without arguments *)
| BTime (k : body)
| BRand (k : Z -> body)
| BTypes (k : list string -> body).                  (* look into paramTypes *)
(** A method run with given pos and paramTypes; [thunks]: its arguments are wrapped in lambdas *)
Fixpoint compile (thunks : bool) (p : posv) (ts : option (list string)) (b : body) : libprog :=
  match b with
  | BRet v => LRet v
  | BError c => LRaise (runtime_error p c)
  | BRaise e => LRaise e
  | BCall i vs k => LCall i vs (fun r => compile thunks p ts (k r))
  | BForce i k => if thunks then LForce i (fun r => compile thunks p ts (k r)) else LRaise (PyErr "TypeError")
  | BTime k => LTime (compile thunks p ts k)
  | BRand k => LRand (fun z => compile thunks p ts (k z))
  | BTypes k => match ts with Some l => compile thunks p ts (k l) | None => LRaise (PyErr "TypeError") end
  end.

(** ** Library functions *)
Inductive codegen :=
| GMethod                                   (* self.f[name](state, scope, pos, paramTypes, args...), fcn.py:32-34 *)
| GInline (e : list aval -> body)           (* an expression in the arguments *)
| GLazy (e : body)                          (* "({0} and {1})", "({0} or {1})": core.py:307, 317 *)
| GThunks                                   (* "lambda: ({2})": core.py:346, 365 *)
| GExtra (more : list val).                 (* more arguments after the others: stat/sample.py *)
Record libclass := LibClass { c_name : string; c_cases : list (bool * lifespan); c_gen : codegen; c_method : list aval -> body }.
(** what a direct call becomes: genpy.py:331 *)
Definition direct (c : libclass) (p : posv) (ts : list string) : libfun :=
  match c_gen c with
  | GMethod => Strict (fun avs => compile false p (Some ts) (c_method c avs))
  | GInline e => Strict (fun avs => compile false p (Some ts) (e avs))
  | GLazy e => Lazy (compile true p (Some ts) e)
  | GThunks => Lazy (compile true p (Some ts) (c_method c []))
  | GExtra more => Strict (fun avs => compile false p (Some ts) (c_method c (avs ++ map AV more)))
  end.
(** fcn(state, scope, pos, None, *args): util.py:179 *)
Definition by_reference (c : libclass) (avs : list aval) : libprog := compile false PosFcn None (c_method c avs).

(** ** References *)
(** FcnRef.walk, pfaast.py:1584-1598 (FcnRefFill.walk, 1717-1736): exactly one living signature, and one that P.toType
    can turn into a type *)
Definition living (v : version) (cases : list (bool * lifespan)) : list (bool * lifespan) :=
  filter (fun c => (current (snd c) v || deprecated (snd c) v)%bool) cases.
Definition referenceable (v : version) (cases : list (bool * lifespan)) : bool :=
  match living v cases with [(wild, _)] => negb wild | _ => false end.

(** ** The classes with code of their own that may be referenced *)
Section Inline.
(** math.atan and so on, len; with their Python exceptions *)
Variable py : string -> list val -> res val.
Definition of_res (r : res val) : body := match r with Ok v => BRet v | Raise e => BRaise e end.
Definition on_values (f : string) (avs : list aval) : body := of_res (py f (map plain avs)).
Definition minus_one (r : res val) : res val := match r with Ok v => py "- 1.0" [v] | Raise e => Raise e end.
Definition first (avs : list aval) : val := match avs with a :: _ => plain a | [] => VNull end.
Definition second (avs : list aval) : val := match avs with _ :: a :: _ => plain a | _ => VNull end.
(** x and y, x or y on values *)
Definition py_and (x y : val) : val := if truthy x then y else x.
Definition py_or (x y : val) : val := if truthy x then x else y.
Definition and_then (r : res val) (k : val -> body) : body := match r with Ok v => k v | Raise e => BRaise e end.
Definition inl (name f : string) : libclass := LibClass name plain1 (GInline (on_values f)) (on_values f).
Definition inline_classes : list libclass := [
  inl "bytes.len" "len";                                                            (* bytes.py:45-48 *)
  inl "s.len" "len";                                                                (* pfastring.py:45-48 *)
  LibClass "m.pi" plain1 (GInline (fun _ => on_values "math.pi" [])) (fun _ => on_values "math.pi" []);   (* pfamath.py:43-46 *)
  LibClass "m.e" plain1 (GInline (fun _ => on_values "math.e" [])) (fun _ => on_values "math.e" []);      (* 53-56 *)
  inl "m.atan" "math.atan"; inl "m.atan2" "math.atan2"; inl "m.cosh" "math.cosh"; inl "m.exp" "math.exp"; (* 97-100, 107-110, 149-152, 159-162 *)
  LibClass "m.expm1" plain1 (GInline (fun avs => of_res (minus_one (py "math.exp" (map plain avs)))))
                            (fun avs => of_res (minus_one (py "math.exp" (map plain avs))));               (* 169-172 *)
  inl "m.sinh" "math.sinh"; inl "m.tanh" "math.tanh";                               (* 325-328, 357-360 *)
  LibClass "!" plain1 (GInline (fun avs => BRet (VBool (negb (truthy (first avs))))))
                      (fun avs => BRet (VBool (negb (truthy (first avs)))));         (* core.py:333-336 *)
  LibClass "&&" plain1 (GLazy (BForce 0 (fun r => and_then r (fun x => if truthy x then BForce 1 (fun r => of_res r) else BRet x))))
                       (fun avs => BRet (py_and (first avs) (second avs)));          (* core.py:305-308 *)
  LibClass "||" plain1 (GLazy (BForce 0 (fun r => and_then r (fun x => if truthy x then BRet x else BForce 1 (fun r => of_res r)))))
                       (fun avs => BRet (py_or (first avs) (second avs))) ].         (* core.py:315-318 *)
End Inline.

(** KleeneAnd, core.py:341-357: the method calls its arguments *)
Definition is_bool (b : bool) (v : val) : bool :=
  match v with
  | VBool c => Bool.eqb b c
  | VDict [(t, VBool c)] => (String.eqb t "boolean" && Bool.eqb b c)%bool
  | _ => false
  end.
Definition kleene_and : libclass := LibClass "&&&" plain1 GThunks (fun _ =>
  BForce 0 (fun r => and_then r (fun x =>
    if is_bool false x then BRet (VDict [("boolean", VBool false)])
    else BForce 1 (fun r => and_then r (fun y =>
      if is_bool false y then BRet (VDict [("boolean", VBool false)])
      else if (is_bool true x && is_bool true y)%bool then BRet (VDict [("boolean", VBool true)])
      else BRet VNull))))).
(** KleeneOr, core.py:360-376 *)
Definition kleene_or : libclass := LibClass "|||" plain1 GThunks (fun _ =>
  BForce 0 (fun r => and_then r (fun x =>
    if is_bool true x then BRet (VDict [("boolean", VBool true)])
    else BForce 1 (fun r => and_then r (fun y =>
      if is_bool true y then BRet (VDict [("boolean", VBool true)])
      else if (is_bool false x && is_bool false y)%bool then BRet (VDict [("boolean", VBool false)])
      else BRet VNull))))).
