(** What the type rules are supposed to guarantee: the data in the scopes, cells, pools and results of a running document
    have the types that the rules say. *)
From Verif Require Import Base PyNum ScopeModel CoreModel EngineModel TypeModel TypeSpec TypingModel.
Open Scope string_scope.
Open Scope list_scope.

Section Spec.
  Variable T : tenv.
  Notation D := (te_defs T).
  Notation ok t v := (has_type true D t v).

  (** *** Scopes *)
  (** The frame f of a scope with context g inside scopes with contexts G: every declared variable is there with a value of
      its type. Variables that are no longer declared may be left over, but hide none of the declared ones. *)
  Definition frame_ok (g : ctx) (G : list ctx) (f : frame) : Prop :=
    (forall x t, assoc x g = Some t -> exists v, assoc x f = Some v /\ ok t v) /\
    (forall x, has_key x f = true -> has_key x g = true \/ look G x = None).
  Fixpoint agree (G : list ctx) (A : list frame) : Prop :=
    match G, A with
    | [], [] => True
    | g :: G', f :: A' => frame_ok g G' f /\ agree G' A'
    | _, _ => False
    end.

  (** *** Cells, pools and emitted data *)
  (** [saved]: also the values kept for rollback. *)
  Definition cell_ok (saved : bool) (t : ty) (x : cell) : Prop :=
    ok t (c_value x) /\ (saved = true -> c_rollback x = true -> ok t (c_old x)).
  Definition pool_ok (saved : bool) (t : ty) (x : pool) : Prop :=
    (forall k v, In (k, v) (p_value x) -> ok t v) /\
    (saved = true -> p_rollback x = true -> forall k v, In (k, v) (p_old x) -> ok t v).
  Record st_ok (saved : bool) (s : st) : Prop := {
    ok_cells : forall c x, In (c, x) (s_cells s) -> exists t, te_cells T c = Some t /\ cell_ok saved t x;
    ok_pools : forall p x, In (p, x) (s_pools s) -> exists t, te_pools T p = Some t /\ pool_ok saved t x;
    ok_emitted : forall v, In v (s_emitted s) -> ok (te_out T) v }.

  (** *** Library functions *)
  Definition fcn_of (atys : list aty) (i : nat) : option (list ty * ty) :=
    match nth_error atys i with Some (AFn ps r) => Some (ps, r) | _ => None end.
  Definition val_of (atys : list aty) (i : nat) : option ty :=
    match nth_error atys i with Some (AT t) => Some t | _ => None end.
  (** A library function that returns only values of type t if the functions given to it return values of their types,
      and gives them only values of their parameters' types. *)
  Inductive lib_typed (fns : nat -> option (list ty * ty)) (lazies : nat -> option ty) (t : ty) : libprog -> Prop :=
  | lt_ret v : ok t v -> lib_typed fns lazies t (LRet v)
  | lt_raise e : lib_typed fns lazies t (LRaise e)
  | lt_call i vs k : (forall ps r, fns i = Some (ps, r) -> Forall2 (fun p v => ok p v) ps vs) ->
      (forall ps r v, fns i = Some (ps, r) -> ok r v -> lib_typed fns lazies t (k (Ok v))) ->
      (forall e, lib_typed fns lazies t (k (Raise e))) -> lib_typed fns lazies t (LCall i vs k)
  | lt_force i k : (forall u v, lazies i = Some u -> ok u v -> lib_typed fns lazies t (k (Ok v))) ->
      (forall e, lib_typed fns lazies t (k (Raise e))) -> lib_typed fns lazies t (LForce i k)
  | lt_time k : lib_typed fns lazies t k -> lib_typed fns lazies t (LTime k)
  | lt_rand k : (forall z, lib_typed fns lazies t (k z)) -> lib_typed fns lazies t (LRand k).
  Definition arg_shape (a : aty) (v : aval) : Prop :=
    match a, v with AT t, AV w => ok t w | AFn _ _, AF _ => True | _, _ => False end.
  Definition no_fcn : nat -> option (list ty * ty) := fun _ => None.
  Definition no_lazy : nat -> option ty := fun _ => None.

  (** *** The rest of the document and the host *)
  Record env_typed (E : env) : Prop := {
    et_defs : wf_defs D;
    et_known : forall f, te_fcns T f = None <-> assoc f (e_fcns E) = None;
    et_fcns : forall f ps body pts r, assoc f (e_fcns E) = Some (ps, body) -> te_fcns T f = Some (pts, r) ->
      length ps = length pts /\ NoDup ps /\
      exists t g', block T (combine ps pts) [] body t g' /\ (t = TExc \/ sub T r t);
    et_strict : forall f g atys t avs, e_lib E f = Some (Strict g) -> te_lib T f atys t -> Forall2 arg_shape atys avs ->
      lib_typed (fcn_of atys) no_lazy t (g avs);
    et_lazy : forall f p atys t, e_lib E f = Some (Lazy p) -> te_lib T f atys t -> lib_typed no_fcn (val_of atys) t p;
    et_ref : forall f pts r vs, te_libref T f pts r -> Forall2 (fun p v => ok p v) pts vs ->
      lib_typed no_fcn no_lazy r (e_libref E f (map AV vs));
    et_decode : forall s v w, e_decode E s v = Ok w -> ok (te_schema T s) w;
    et_exh : forall t fu ss v, te_exh T t fu ss -> ok t v ->
      exists s w c, In s ss /\ cast_value fu v (e_tyname E s) = Some w /\ e_decode E s w = Ok c;
    et_pack : forall fs vs v, e_pack E fs vs = Ok v -> ok TBytes v;
    et_unpack : forall fmt v bs, e_unpack E fmt v = Some bs ->
      Forall2 (fun f b => fst b = fst f /\ ok (te_fmt T (snd f)) (snd b)) fmt bs }.

  (** *** Documents *)
  (** The variables of the routines: pfaast.py:924-988. *)
  Definition common_types : ctx := [("name", TString); ("instance", TInt); ("metadata", TMap TString)].
  Definition version_types (Dc : doc) : ctx := match d_version Dc with Some _ => [("version", TInt)] | None => [] end.
  Definition tally_types (Dc : doc) : ctx := match d_method Dc with MFold => [("tally", te_out T)] | _ => [] end.
  Definition counter_types : ctx := [("actionsStarted", TLong); ("actionsFinished", TLong)].
  Definition routine_typed (g : ctx) (es : list expr) (P : ty -> Prop) : Prop := exists t g', block T g [] es t g' /\ P t.
  Definition any_type (t : ty) : Prop := True.
  Definition output_type (t : ty) : Prop := t = TExc \/ sub T (te_out T) t.
  Record doc_typed (Dc : doc) (it : ty) : Prop := {
    dt_begin : d_begin Dc = [] \/ routine_typed (common_types ++ version_types Dc) (d_begin Dc) any_type;
    dt_action : routine_typed ((("input", it) :: common_types) ++ counter_types ++ version_types Dc ++ tally_types Dc) (d_action Dc)
                  (match d_method Dc with MEmit => any_type | _ => output_type end);
    dt_end : d_end Dc = [] \/ routine_typed (common_types ++ counter_types ++ version_types Dc ++ tally_types Dc) (d_end Dc) any_type;
    dt_merge : forall es, d_merge Dc = Some es ->
      routine_typed ((("tallyOne", te_out T) :: ("tallyTwo", te_out T) :: common_types) ++ version_types Dc) es output_type;
    dt_zero : d_method Dc = MFold -> ok (te_out T) (d_zero Dc);
    dt_cells : forall c d, In (c, d) (d_cells Dc) -> exists t, te_cells T c = Some t /\ ok t (cd_init d);
    dt_pools : forall p d, In (p, d) (d_pools Dc) -> exists t, te_pools T p = Some t /\ forall k v, In (k, v) (pd_init d) -> ok t v;
    dt_name : ok TString (d_name Dc);
    dt_instance : ok TInt (d_instance Dc);
    dt_metadata : ok (TMap TString) (d_metadata Dc);
    dt_version : forall v, d_version Dc = Some v -> ok TInt v;
    dt_check : forall v w, d_check Dc v = Ok w -> ok it w }.
  (** what a call of the host returns, if it returns *)
  Definition outcome_ok (Dc : doc) (c : call) (r : res val) : Prop :=
    forall v, r = Ok v ->
      match c with
      | CAction _ => match d_method Dc with MEmit => v = VNull | _ => ok (te_out T) v end
      | CMerge _ _ => ok (te_out T) v
      | CBegin | CEnd => v = VNull
      end.
  Definition call_ok (c : call) : Prop := match c with CMerge a b => ok (te_out T) a /\ ok (te_out T) b | _ => True end.
  Definition engine_ok (Dc : doc) (s : st) : Prop := st_ok false s /\ (d_method Dc = MFold -> ok (te_out T) (s_tally s)).
End Spec.
