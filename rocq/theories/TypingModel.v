(** The static types of expressions: the type rules of the [walk] methods of titus/pfaast.py, as a relation between the
    declared names, an expression of CoreModel and its type.

    Simplifications, all deliberate:
    - a type context is a stack of frames that matches the stack of run-time scopes (CoreModel), not the symbol table of
      pfaast.py:74-233; sealing is not modelled (it only refuses more documents; see C59 for the scoping rules);
    - a type that is only used to compute another one need not be the one computed by the code: wherever the code takes
      broadestType of the branches, the rules allow any type that accepts all of them (C12: broadestType is one);
    - "let" may stand only as an expression of a block, not directly as the "to", "init" or "dell" of another expression;
    - functions by reference with filled-in arguments have no rule: see C93_fill_refuted;
    - the rules demand more than the code does at four places, each of them for a reason stated as a theorem of
      TypingProps.v: acceptance that takes a union into a plain type (C93_union_refuted), "set" of variables of different
      scopes (C93_set_refuted), "ifnotnull" of a member whose tag is not certain (C93_ifnotnull_refuted), and
      "cast" blocks that are not exhaustive (C40). *)
From Verif Require Import Base PyNum ScopeModel CoreModel TypeModel TypeSpec.
Open Scope string_scope.
Open Scope list_scope.

(** The type of an argument: of a value or of a function (FcnType, datatype.py:37) *)
Inductive aty :=
| AT (t : ty)
| AFn (params : list ty) (ret : ty).

(** What the type checker knows about the document outside of the expression. *)
Record tenv := TEnv {
  te_defs : defs;                                    (* the declared record types *)
  te_cells : string -> option ty;                    (* cells and pools, pfaast.py:905-912 *)
  te_pools : string -> option ty;
  te_out : ty;                                       (* the engine's output type, accepted by "emit" *)
  te_fcns : string -> option (list ty * ty);         (* user functions *)
  te_lib : string -> list aty -> ty -> Prop;         (* signatures of library functions (SigModel) *)
  te_libref : string -> list ty -> ty -> Prop;       (* the one-signature ones, when passed by reference *)
  te_schema : string -> ty;                          (* the type that a schema stands for *)
  te_exh : ty -> bool -> list string -> Prop;        (* the cast blocks known to be exhaustive *)
  te_fmt : string -> ty }.                           (* the type of a format of "unpack" *)

Definition ctx := list (string * ty).
(** Symbol table lookup, innermost scope first: pfaast.py:104-122. *)
Fixpoint look (G : list ctx) (x : string) : option ty :=
  match G with
  | [] => None
  | g :: G' => match assoc x g with Some t => Some t | None => look G' x end
  end.
(** All the names live in the same scope. *)
Fixpoint same_frame (xs : list string) (G : list ctx) : bool :=
  match G with
  | [] => false
  | g :: G' => (forallb (fun x => has_key x g) xs ||
                (forallb (fun x => negb (has_key x g)) xs && same_frame xs G'))%bool
  end.

Section Rules.
  Variable T : tenv.
  Notation D := (te_defs T).

  (** a.accepts(b), where a datum of type b is held in the form that type a expects *)
  Definition sub (a b : ty) : Prop := wf a /\ wf b /\ accepts D D a b = true /\ keeps_unions a b.
  (** the type of branches of which some may only raise exceptions (pfaast.py:4117-4125) *)
  Definition joins (t : ty) (us : list ty) : Prop := forall u, In u us -> u = TExc \/ sub t u.
  (** ... and of a sequence: pfaast.py:2930-2933 *)
  Definition value_type (t : ty) : ty := match t with TExc => TNull | _ => t end.
  (** pfaast.py:6162-6172 *)
  Definition try_type (t : ty) : ty :=
    match t with
    | TExc => TNull
    | TUnion ts => if existsb (fun u => match u with TNull => true | _ => false end) ts then t else TUnion (ts ++ [TNull])
    | _ => TUnion [t; TNull]
    end.

  (** *** Paths, pfaast.py:1362-1406 *)
  Inductive pkey := KIndex | KKey | KField (k : string).
  Inductive steps : ty -> list pkey -> ty -> Prop :=
  | sp_nil t : steps t [] t
  | sp_array t ks u : steps t ks u -> steps (TArray t) (KIndex :: ks) u                   (* 1380-1384 *)
  | sp_map t ks u : steps t ks u -> steps (TMap t) (KKey :: ks) u                         (* 1385-1389 *)
  | sp_map_lit t k ks u : steps t ks u -> steps (TMap t) (KField k :: ks) u
  | sp_record n f ks u : In f (fields_of D n) -> steps (f_type f) ks u ->
      steps (TRecord n) (KField (f_name f) :: ks) u.                                      (* 1390-1402 *)

  (** What "ifnotnull" binds: the only member of the union besides null (pfaast.py:5428-5432). *)
  Definition not_null_member (ts : list ty) (m : ty) : Prop :=
    In m ts /\ m <> TNull /\ forall u, In u ts -> u = TNull \/ u = m.
  (** ... when the run time can tell {tag: value} from a value (genpy.py:1018-1052): no narrower number may be tagged,
      and a dict with only the tag as key is none of the values *)
  Definition clear (m : ty) : Prop :=
    match m with
    | TBool | TInt | TBytes | TString | TFixed _ _ | TEnum _ _ | TArray _ => True
    | TRecord n => ~ In (tyname (TRecord n)) (map f_name (fields_of D n))
    | _ => False
    end.

  Inductive typed : list ctx -> expr -> ty -> Prop :=
  | t_lit G d v t : has_type true D t v -> typed G (ELit d v) t                           (* 2098-2581 *)
  | t_doc G : typed G EDoc TNull                                                          (* 5998 *)
  | t_ref G x t : look G x = Some t -> typed G (ERef x) t                                 (* 2066-2074 *)
  | t_call_user G f args pts ret us : te_fcns T f = Some (pts, ret) ->                    (* 1970-2011, UserFcn *)
      Forall2 (fun a u => arg_typed G a (AT u)) args us -> Forall2 sub pts us -> typed G (ECall f args) ret
  | t_emit G e u : te_fcns T "emit" = None -> typed G e u -> sub (te_out T) u -> typed G (ECall "emit" [AExpr e]) TNull
  | t_call_lib G f args atys t : te_fcns T f = None -> f <> "emit" -> te_lib T f atys t ->
      Forall2 (arg_typed G) args atys -> typed G (ECall f args) t
  | t_call_enum G e n ss cs args us t : typed G e (TEnum n ss) -> Forall2 (typed G) args us ->   (* 1825-1867 *)
      (forall s, In s ss -> exists pts ret, te_fcns T ("u." ++ s) = Some (pts, ret) /\ Forall2 sub pts us /\ sub t ret) ->
      typed G (ECallUser e cs args) t
  | t_new_record G n bs us : NoDup (map fst bs) ->                                        (* 2690-2704 *)
      (forall x, In x (map fst bs) <-> In x (map f_name (fields_of D n))) ->
      Forall2 (typed G) (map snd bs) us ->
      (forall f x u, In f (fields_of D n) -> In (x, u) (combine (map fst bs) us) -> f_name f = x -> sub (f_type f) u) ->
      typed G (ENewObj bs) (TRecord n)
  | t_new_map G t bs us : Forall2 (typed G) (map snd bs) us -> Forall (sub t) us -> typed G (ENewObj bs) (TMap t)  (* 2705-2711 *)
  | t_new_array G t es us : Forall2 (typed G) es us -> Forall (sub t) us -> typed G (ENewArr es) (TArray t)        (* 2818-2836 *)
  | t_do g G es t g' : block g G es t g' -> typed (g :: G) (EDo es) (value_type t)        (* 2926-2934 *)
  | t_set G bs us : Forall2 (typed G) (map snd bs) us -> same_frame (map fst bs) G = true ->     (* 3142-3161 *)
      NoDup (map fst bs) ->
      (forall x u, In (x, u) (combine (map fst bs) us) -> exists t, look G x = Some t /\ sub t u) ->
      typed G (ESet bs) TNull
  | t_attr_get G e path t ks u : typed G e t -> Forall2 (key_typed G) path ks -> steps t ks u ->
      typed G (EAttrGet e path) u                                                         (* 3257-3265 *)
  | t_attr_to G e path to t ks u a : typed G e t -> Forall2 (key_typed G) path ks -> steps t ks u ->   (* 3369-3399 *)
      arg_typed G to a -> replaces u a -> typed G (EAttrTo e path to) t
  | t_cell_get G c path t ks u : te_cells T c = Some t -> Forall2 (key_typed G) path ks -> steps t ks u ->
      typed G (ECellGet c path) u                                                         (* 3492-3503 *)
  | t_cell_to G c path to t ks u a : te_cells T c = Some t -> Forall2 (key_typed G) path ks -> steps t ks u ->  (* 3600-3629 *)
      arg_typed G to a -> replaces u a -> typed G (ECellTo c path to) t
  | t_pool_get G p path t ks u : te_pools T p = Some t -> Forall2 (key_typed G) path ks -> steps (TMap t) ks u ->
      typed G (EPoolGet p path) u                                                         (* 3726-3737 *)
  | t_pool_to G p path to init t k ks u a i : te_pools T p = Some t -> Forall2 (key_typed G) path (k :: ks) ->  (* 3843-3877 *)
      k <> KIndex -> steps t ks u -> arg_typed G to a -> replaces u a -> typed G init i -> sub t i ->
      typed G (EPoolTo p path to init) t
  | t_pool_del G p t e : te_pools T p = Some t -> typed G e TString -> typed G (EPoolDel p e) TNull             (* 3971-3985 *)
  | t_if G p es u g' : typed ([] :: G) p TBool -> block [] G es u g' -> typed G (EIf p es None) TNull           (* 4090-4125 *)
  | t_if_else G p es el u w g' g'' t : typed ([] :: G) p TBool -> block [] G es u g' -> block [] G el w g'' ->
      joins t [u; w] -> typed G (EIf p es (Some el)) t
  | t_cond G its us : Forall2 (case_typed G) its us -> typed G (ECond its None) TNull                           (* 4230-4273 *)
  | t_cond_else G its us el w g'' t : Forall2 (case_typed G) its us -> block [] G el w g'' -> joins t (w :: us) ->
      typed G (ECond its (Some el)) t
  | t_while G p es u g' : typed ([] :: [] :: G) p TBool -> block [] G es u g' -> typed G (EWhile p es) TNull    (* 4372-4388 *)
  | t_until G es p u g' : block [] G es u g' -> typed ([] :: g' :: G) p TBool -> typed G (EDoUntil es p) TNull  (* 4480-4496 *)
  | t_for G init us p upd ws es u g' : Forall2 (typed ([] :: G)) (map snd init) us -> NoDup (map fst init) ->    (* 4611-4663 *)
      (forall x, In x (map fst init) -> look G x = None) ->
      typed ([] :: combine (map fst init) us :: G) p TBool ->
      block [] (combine (map fst init) us :: G) es u g' ->
      Forall2 (typed (combine (map fst init) us :: G)) (map snd upd) ws -> same_frame (map fst upd) (combine (map fst init) us :: G) = true ->
      NoDup (map fst upd) ->
      (forall x w, In (x, w) (combine (map fst upd) ws) -> exists t, look (combine (map fst init) us :: G) x = Some t /\ sub t w) ->
      typed G (EFor init p upd es) TNull
  | t_foreach G x e es sq t u g' : typed G e (TArray t) -> block [] ([(x, t)] :: G) es u g' ->                   (* 4774-4797 *)
      typed G (EForeach x e es sq) TNull
  | t_forkeyval G k v e es t u g' : typed G e (TMap t) -> k <> v -> block [] ([(k, TString); (v, t)] :: G) es u g' ->
      typed G (EForkeyval k v e es) TNull                                                                        (* 4910-4935 *)
  | t_cast_partial G e fu cs t us : typed G e t -> Forall2 (cast_case G) cs us -> typed G (ECast e fu cs true) TNull   (* 5156-5193 *)
  | t_cast G e fu cs t us u : typed G e t -> Forall2 (cast_case G) cs us -> te_exh T t fu (map (fun c => snd (fst c)) cs) ->
      joins u us -> typed G (ECast e fu cs false) u
  | t_upcast G e u t : typed G e u -> sub t u -> typed G (EUpcast e None) t               (* 5292-5302; genpy.py:438 *)
  | t_upcast_wrap G e u ts t : typed G e u -> In t ts -> sub t u -> typed G (EUpcast e (Some (tyname t))) (TUnion ts)  (* genpy.py:432-436 *)
  | t_ifnotnull G bs ms es u g' : Forall2 (nn_case G) bs ms -> NoDup (map (fun b => fst (fst b)) bs) ->          (* 5409-5461 *)
      block (combine (map (fun b => fst (fst b)) bs) ms) G es u g' -> typed G (EIfNotNull bs es None) TNull
  | t_ifnotnull_else g G bs ms es u g' el w g'' t : Forall2 (nn_case (g :: G)) bs ms -> NoDup (map (fun b => fst (fst b)) bs) ->
      block (combine (map (fun b => fst (fst b)) bs) ms) (g :: G) es u g' -> block g G el w g'' -> joins t [u; w] ->
      typed (g :: G) (EIfNotNull bs es (Some el)) t
  | t_pack G es us : Forall2 (typed G) (map snd es) us -> typed G (EPack es) TBytes       (* 5760-5775 *)
  | t_unpack G e fmt es u g' : typed G e TBytes -> NoDup (map fst fmt) ->                 (* 5892-5944 *)
      block (map (fun f => (fst f, te_fmt T (snd f))) fmt) G es u g' -> typed G (EUnpack e fmt es None) TNull
  | t_unpack_else g G e fmt es u g' el w g'' t : typed (g :: G) e TBytes -> NoDup (map fst fmt) ->
      block (map (fun f => (fst f, te_fmt T (snd f))) fmt) (g :: G) es u g' -> block g G el w g'' -> joins t [u; w] ->
      typed (g :: G) (EUnpack e fmt es (Some el)) t
  | t_error G m c : typed G (EError m c) TExc                                             (* 6056 *)
  | t_try g G es t g' flt : block g G es t g' -> typed (g :: G) (ETry es flt) (try_type t)       (* 6159-6175 *)
  | t_log G es us : Forall2 (typed G) es us -> typed G (ELog es) TNull                    (* 6242-6254 *)
  (** one expression of a block; the context of the innermost scope after it *)
  with stmt : ctx -> list ctx -> expr -> ty -> ctx -> Prop :=
  | st_expr g G e t : typed (g :: G) e t -> stmt g G e t g
  | st_let g G bs us : Forall2 (typed (g :: G)) (map snd bs) us -> NoDup (map fst bs) ->  (* 3023-3053 *)
      (forall x, In x (map fst bs) -> look (g :: G) x = None) ->
      stmt g G (ELet bs) TNull (combine (map fst bs) us ++ g)
  (** a block: the type of its last expression *)
  with block : ctx -> list ctx -> list expr -> ty -> ctx -> Prop :=
  | bl_last g G e t g' : stmt g G e t g' -> block g G [e] t g'
  | bl_cons g G e u g1 es t g' : stmt g G e u g1 -> block g1 G es t g' -> block g G (e :: es) t g'
  (** arguments of functions: values, functions defined in place, references to functions *)
  with arg_typed : list ctx -> arg -> aty -> Prop :=
  | a_expr G e t : typed G e t -> arg_typed G (AExpr e) (AT t)
  | a_fcn G ps pts ret body t g' : length ps = length pts -> NoDup ps ->                  (* 1506-1522 *)
      block (combine ps pts) G body t g' -> t = TExc \/ sub ret t -> arg_typed G (AFcn ps body) (AFn pts ret)
  | a_ref_user G f pts ret : te_fcns T f = Some (pts, ret) -> arg_typed G (ARef f) (AFn pts ret)   (* 1579-1601 *)
  | a_ref_lib G f pts ret : te_fcns T f = None -> te_libref T f pts ret -> arg_typed G (ARef f) (AFn pts ret)
  (** one step of a path *)
  with key_typed : list ctx -> expr -> pkey -> Prop :=
  | k_index G e t : typed G e t -> t = TInt \/ t = TLong -> key_typed G e KIndex
  | k_key G e : typed G e TString -> key_typed G e KKey
  | k_field G d k : key_typed G (ELit d (VStr k)) (KField k)
  with case_typed : list ctx -> expr * list expr -> ty -> Prop :=
  | c_case G p es u g' : typed ([] :: G) p TBool -> block [] G es u g' -> case_typed G (p, es) u
  with cast_case : list ctx -> string * string * list expr -> ty -> Prop :=
  | c_cast G x s es u g' : block [(x, te_schema T s)] G es u g' -> cast_case G (x, s, es) u     (* 5052-5056 *)
  with nn_case : list ctx -> string * string * expr -> ty -> Prop :=
  | c_nn G x tag e ts m : typed G e (TUnion ts) -> not_null_member ts m -> clear m -> tag = tyname m ->
      nn_case G (x, tag, e) m
  (** what "to" may be: a value of the type in its place, or a function from that type to itself
      (FcnType([t], t).accepts, datatype.py:52-58; pfaast.py:3385-3395) *)
  with replaces : ty -> aty -> Prop :=
  | r_value u t : sub u t -> replaces u (AT t)
  | r_fcn u p r : sub p u -> sub u r -> replaces u (AFn [p] r).
End Rules.
