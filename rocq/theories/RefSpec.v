(** Specification of C63: what calling a library function by reference is compared with. *)
From Verif Require Import Base ScopeModel VersionModel CoreModel RefTable RefModel.
Open Scope string_scope.
Open Scope list_scope.
Open Scope Z_scope.

(** {"params": [ps...], "do": {g: [ps...]}}: the direct call of [g] written as a function *)
Definition wrapper (g : string) (ps : list string) : arg := AFcn ps [ECall g (map (fun p => AExpr (ERef p)) ps)].
(** A method that does not look into paramTypes and does not call its arguments as Python functions; its exceptions
    with a code are made with its own pos. *)
Fixpoint untyped (b : body) : Prop :=
  match b with
  | BRet _ | BError _ => True
  | BRaise e => forall c, e <> PFAErr c
  | BCall _ _ k => forall r, untyped (k r)
  | BTime k => untyped k
  | BRand k => forall z, untyped (k z)
  | BForce _ _ | BTypes _ => False
  end.
(** [c] is a class that the table describes by [d]. Classes with an expression of their own are the ones written out. *)
Definition described (py : string -> list val -> res val) (d : entry) (c : libclass) : Prop :=
  c_name c = t_name d /\ c_cases c = t_cases d /\
  match t_gen d with
  | KMethod => c_gen c = GMethod /\ (t_reads d = false -> forall avs, untyped (c_method c avs))
  | KInline | KLazy => (exists p, referenceable p (t_cases d) = true) -> In c (inline_classes py)
  | KThunks => c = kleene_and \/ c = kleene_or
  | KExtra => exists more, c_gen c = GExtra more
  end.
(** The environment runs direct calls and references of [c] as the generated code does. *)
Definition implements (E : env) (c : libclass) (p : posv) (ts : list string) : Prop :=
  e_lib E (c_name c) = Some (direct c p ts) /\ e_libref E (c_name c) = by_reference c /\
  assoc (c_name c) (e_fcns E) = None /\ c_name c <> "emit".
(** The result of a reference for the result of the direct call: exceptions with a code become TypeErrors. *)
Definition referenced (r : res val) : res val :=
  match r with Raise (PFAErr _) => Raise (PyErr "TypeError") | _ => r end.
Definition no_code (e : exn) : exn := match e with PFAErr _ => PyErr "TypeError" | _ => e end.
(** the same value, and the same exception or what [h] makes of it *)
Definition on_exn (h : exn -> exn) (r : res val) : res val := match r with Ok v => Ok v | Raise e => Raise (h e) end.
Definition settled (h : exn -> exn) (r r' : res val) : Prop := r' = r \/ r' = on_exn h r.
(** A function argument cannot be looked into. *)
Definition alike (a b : aval) : Prop := a = b \/ exists f g, a = AF f /\ b = AF g.
Definition opaque (p : list aval -> libprog) : Prop := forall xs ys, Forall2 alike xs ys -> p xs = p ys.
(** A higher-order library function gives up at the first exception of the functions it calls. *)
Fixpoint gives_up (p : libprog) : Prop :=
  match p with
  | LRet _ | LRaise _ => True
  | LCall _ _ k | LForce _ k => (forall e, k (Raise e) = LRaise e) /\ forall r, gives_up (k r)
  | LTime k => gives_up k
  | LRand k => forall z, gives_up (k z)
  end.
(** It does not look into the functions it is given, and calls them with as many arguments as they have parameters. *)
Fixpoint calls_with (i n : nat) (p : libprog) : Prop :=
  match p with
  | LRet _ | LRaise _ => True
  | LCall j vs k => (j = i -> length vs = n) /\ forall r, calls_with i n (k r)
  | LForce _ k => forall r, calls_with i n (k r)
  | LTime k => calls_with i n k
  | LRand k => forall z, calls_with i n (k z)
  end.
