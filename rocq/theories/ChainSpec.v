(** What it means that a chained engine does what its engines do one after the other; independent of how the chain is built. *)
From Verif Require Import Base ScopeModel CoreModel EngineModel ChainModel.
Open Scope string_scope.
Open Scope list_scope.
Open Scope Z_scope.

(** *** Code that can be moved into a chain *)
Section Fit.
  Variable own : string -> bool.      (* variables the code may make, read and change *)
  Variable given : string -> bool.    (* variables of the engine itself (name, instance, ...) *)
  Variable known : string -> bool.    (* those of them that the code may read, outside of functions *)
  Variable fn : string -> bool.       (* functions the code may call *)
  (** [b]: outside of functions. No "call" by computed name, and no deletion from pools. *)
  Fixpoint fit (b : bool) (e : expr) {struct e} : bool :=
    let named := forallb (fun x : string * expr => (own (fst x) && fit b (snd x))%bool) in
    match e with
    | ELit _ _ | EDoc | EError _ _ => true
    | ERef x => if (b && given x)%bool then known x else own x
    | ECall f args => (fn f && (negb (String.eqb f "emit") || Nat.eqb (length args) 1) && forallb (fit_arg b) args)%bool
    | ECallUser _ _ _ | EPoolDel _ _ => false
    | ENewObj fs => forallb (fun x => fit b (snd x)) fs
    | ENewArr es | EDo es | ETry es _ | ELog es => forallb (fit b) es
    | ELet bs | ESet bs => named bs
    | EAttrGet e path => (fit b e && forallb (fit b) path)%bool
    | EAttrTo e path to => (fit b e && forallb (fit b) path && fit_arg b to)%bool
    | ECellGet _ path | EPoolGet _ path => forallb (fit b) path
    | ECellTo _ path to => (forallb (fit b) path && fit_arg b to)%bool
    | EPoolTo _ path to init => (forallb (fit b) path && fit_arg b to && fit b init)%bool
    | EIf p t el => (fit b p && forallb (fit b) t && match el with Some es => forallb (fit b) es | None => true end)%bool
    | ECond its el => (forallb (fun it => fit b (fst it) && forallb (fit b) (snd it)) its
                       && match el with Some es => forallb (fit b) es | None => true end)%bool
    | EWhile p body => (fit b p && forallb (fit b) body)%bool
    | EDoUntil body p => (forallb (fit b) body && fit b p)%bool
    | EFor init p upd body => (named init && fit b p && named upd && forallb (fit b) body)%bool
    | EForeach x e body _ => (own x && fit b e && forallb (fit b) body)%bool
    | EForkeyval k v e body => (own k && own v && fit b e && forallb (fit b) body)%bool
    | ECast e _ cases _ => (fit b e && forallb (fun c => own (fst (fst c)) && forallb (fit b) (snd c)) cases)%bool
    | EUpcast e _ => fit b e
    | EIfNotNull bs t el => (forallb (fun x => own (fst (fst x)) && fit b (snd x)) bs && forallb (fit b) t
                             && match el with Some es => forallb (fit b) es | None => true end)%bool
    | EPack es => forallb (fun x => fit b (snd x)) es
    | EUnpack e fmt t el => (fit b e && forallb (fun x => own (fst x)) fmt && forallb (fit b) t
                             && match el with Some es => forallb (fit b) es | None => true end)%bool
    end
  with fit_arg (b : bool) (a : arg) {struct a} : bool :=
    match a with
    | AExpr e => fit b e
    | AFcn ps body => (forallb own ps && forallb (fit false) body)%bool
    | ARef f => fn f
    | AFill f fills => (fn f && forallb (fun x => fit_arg b (snd x)) fills)%bool
    end.
  Definition fit_fcn (f : list string * list expr) : bool := (forallb own (fst f) && forallb (fit false) (snd f))%bool.
End Fit.

(** the variables of the engine *)
Definition common_names : list string := ["name"; "instance"; "metadata"]%string.
Definition engine_names : list string := (common_names ++ ["actionsStarted"; "actionsFinished"]%string)%list.
Definition among (l : list string) (x : string) : bool := existsb (String.eqb x) l.
(** [code] of a document with the functions [fcns] *)
Record movable (own given known fn : string -> bool) (fcns : list (string * (list string * list expr))) (code : list expr) : Prop := {
  mv_code : forallb (fit own given known fn true) code = true;
  mv_fcns : forall f ps body, In (f, (ps, body)) fcns -> fn ("u." ++ f)%string = true -> fit_fcn own given known fn (ps, body) = true;
  mv_decl : forall f, fn ("u." ++ f)%string = true -> In f (map fst fcns) }.

(** *** The library *)
(** programs of library functions that draw no random numbers *)
Inductive quiet : libprog -> Prop :=
| q_ret v : quiet (LRet v)
| q_raise e : quiet (LRaise e)
| q_call i vs k : (forall r, quiet (k r)) -> quiet (LCall i vs k)
| q_force i k : (forall r, quiet (k r)) -> quiet (LForce i k)
| q_time p : quiet p -> quiet (LTime p).
(** the same values; any functions *)
Definition same_values (a b : aval) : Prop :=
  match a, b with AV v, AV w => v = w | AF _, AF _ => True | _, _ => False end.
(** A library that calls its function arguments and does not look at them otherwise, draws no random numbers, and whose
    unpacking gives the variables of the format. *)
Record plain_lib (L : env) : Prop := {
  pl_blind : forall f g, e_lib L f = Some (Strict g) -> forall a b, Forall2 same_values a b -> g a = g b;
  pl_blindref : forall f a b, Forall2 same_values a b -> e_libref L f a = e_libref L f b;
  pl_quiet : forall f g a, e_lib L f = Some (Strict g) -> quiet (g a);
  pl_quiet_lazy : forall f p, e_lib L f = Some (Lazy p) -> quiet p;
  pl_quietref : forall f a, quiet (e_libref L f a);
  pl_unpack : forall fmt v bs, e_unpack L fmt v = Some bs -> forall x, In x (map fst bs) -> In x (map fst fmt) }.

(** *** Engines one after the other *)
(** [n]: fuel. The engines are given values with check=False: the values are of the right type already. *)
Definition engine : Type := (env * doc)%type.
(** what an engine has given after one call of action: the result, or the values emitted *)
Definition outputs (D : doc) (r : val) (s s2 : st) : list val :=
  match d_method D with MEmit => skipn (length (s_emitted s)) (s_emitted s2) | _ => [r] end.
(** one engine is given all the values; None if some call fails *)
Fixpoint one_engine (n : nat) (e : engine) (vs : list val) (s : st) : option (list val * st) :=
  match vs with
  | [] => Some ([], s)
  | v :: vs' =>
      match action (fst e) (snd e) n v s with
      | Done (Ok r) s1 => match one_engine n e vs' s1 with Some (o, s2) => Some (outputs (snd e) r s s1 ++ o, s2) | None => None end
      | _ => None
      end
  end.
(** each engine is given all that the engine before it has given *)
Fixpoint pipeline (n : nat) (es : list engine) (vs : list val) (ss : list st) : option (list val * list st) :=
  match es, ss with
  | [], [] => Some (vs, [])
  | e :: es', s :: ss' =>
      match one_engine n e vs s with
      | Some (o, s2) => match pipeline n es' o ss' with Some (o2, ss2) => Some (o2, s2 :: ss2) | None => None end
      | None => None
      end
  | _, _ => None
  end.
Definition opt_rel {A B} (P : A -> B -> Prop) (a : option A) (b : option B) : Prop :=
  match a, b with Some x, Some y => P x y | None, None => True | _, _ => False end.
(** the same but for the backup *)
Definition cell_like (x y : cell) : Prop :=
  c_value x = c_value y /\ c_shared x = c_shared y /\ c_rollback x = c_rollback y /\ c_locked x = c_locked y.
Definition pool_like (x y : pool) : Prop :=
  p_value x = p_value y /\ p_shared x = p_shared y /\ p_rollback x = p_rollback y /\ p_locklock x = p_locklock y /\ p_locks x = p_locks y.
(** no time limit is set *)
Definition no_limit (s : st) : Prop := exists t, s_timeout s = Some t /\ (t <= 0)%Z.
Definition unlimited (o : options) : Prop := (o_action o <= 0)%Z.
(** all engines begin, or end; None if one of them fails *)
Fixpoint each (f : engine -> EM unit) (es : list engine) (ss : list st) : option (list st) :=
  match es, ss with
  | [], [] => Some []
  | e :: es', s :: ss' =>
      match f e s with
      | Done (Ok _) s1 => match each f es' ss' with Some r => Some (s1 :: r) | None => None end
      | _ => None
      end
  | _, _ => None
  end.
Definition begin_all (n : nat) : list engine -> list st -> option (list st) := each (fun e => begin (fst e) (snd e) n).
Definition end_all (n : nat) : list engine -> list st -> option (list st) := each (fun e => end_ (fst e) (snd e) n).

(** *** Steps *)
(** the names of functions, of cells and of pools in a document are different: they are keys of dicts *)
Definition dicts (p : pfa) : Prop := NoDup (map fst (f_fcns p)) /\ NoDup (map fst (f_cells p)) /\ NoDup (map fst (f_pools p)).
Definition own_act (x : string) : bool := negb (among engine_names x).
Definition known (cnt : bool) : string -> bool := if cnt then among engine_names else among common_names.
(** an action that can be moved *)
Definition action_moves (cnt : bool) (p : pfa) : Prop :=
  f_method p <> MFold /\ dicts p /\ exists fn, movable own_act (among engine_names) (known cnt) fn (f_fcns p) (f_action p) /\
    (is_emit (f_method p) = false -> fn "emit" = false).
(** the code of the steps from [i] on can be moved; [own]: the variables of each step *)
Fixpoint code_moves (own : nat -> string -> bool) (given known : string -> bool) (sel : pfa -> list expr) (i : nat) (ps : list pfa) : Prop :=
  match ps with
  | [] => True
  | p :: ps' => (dicts p /\ exists fn, movable (own i) given known fn (f_fcns p) (sel p) /\ fn "emit" = false) /\ code_moves own given known sel (S i) ps'
  end.
(** the cells and pools of step [i] in the chain are those of its engine *)
Definition holds (i : nat) (p : pfa) (s s' : st) : Prop :=
  (forall c, opt_rel cell_like (assoc c (s_cells s)) (assoc (prefix_cell i (f_name p) c) (s_cells s'))) /\
  (forall c, opt_rel pool_like (assoc c (s_pools s)) (assoc (prefix_pool i (f_name p) c) (s_pools s'))).
Fixpoint holds_all (i : nat) (ps : list pfa) (ss : list st) (s' : st) : Prop :=
  match ps, ss with
  | [], [] => True
  | p :: ps', s :: ss' => holds i p s s' /\ holds_all (S i) ps' ss' s'
  | _, _ => False
  end.
(** The engine of one step on its own. It is given the name, instance, metadata and options of the chain. *)
Definition engine_of (L : env) (nm inst meta : val) (o : options) (p : pfa) : engine := (with_fcns L (f_fcns p), doc_of nm inst meta o p).
Definition chain_engine (L : env) (inst meta : val) (o : options) (H : chained) : engine := (with_fcns L (h_fcns H), doc_of_chain inst meta o H).
(** In a chain of maps all engines count the same calls; in a chain with an emit engine they do not, and the steps must not read the counters. *)
Definition counting (ps : list pfa) : bool := negb (is_emit (method_of ps)).
(** the variables of the steps do not clash *)
Record apart (own : nat -> string -> bool) (given : string -> bool) : Prop := {
  ap_given : forall i x, own i x = true -> given x = false;
  ap_other : forall i j x, i <> j -> own i x = true -> own j x = false;
  ap_dollar : forall i j, own i (dollar j) = false }.
