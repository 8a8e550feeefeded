(** Model of the traversals of documents: Ast.collect and Ast.replace (titus/pfaast.py:513-541 and the methods of the
    same names of the node classes), and of checkForDeadlock (titus/genpy.py:1325-1358). *)
From Verif Require Import Base ScopeModel CoreModel EngineModel CallGraphModel StaticModel CoreInd.
Open Scope string_scope.
Open Scope list_scope.

(** ** collect with a partial function that is defined everywhere and returns the node itself *)
Definition flat {A} (f : A -> list node) (l : list A) : list node := concat (map f l).
Fixpoint collect (e : expr) {struct e} : list node :=
  NE e ::
  match e with
  | ELit _ _ | ERef _ | EDoc | EError _ _ => []                       (* 513 *)
  | ECall _ args => flat collect_arg args                             (* 1922 *)
  | ECallUser nm _ args => collect nm ++ flat collect args            (* 1782 *)
  | ENewObj fs => flat (fun b => collect (snd b)) fs                  (* 2637 *)
  | ENewArr es => flat collect es                                     (* 2770 *)
  | EDo es => flat collect es                                         (* 2879 *)
  | ELet bs => flat (fun b => collect (snd b)) bs                     (* 2976 *)
  | ESet bs => flat (fun b => collect (snd b)) bs                     (* 3095 *)
  | EAttrGet e path => collect e ++ flat collect path                 (* 3208 *)
  | EAttrTo e path to => collect e ++ flat collect path ++ collect_arg to  (* 3318 *)
  | ECellGet _ path => flat collect path                              (* 3444 *)
  | ECellTo _ path to => flat collect path ++ collect_arg to          (* 3550 *)
  | EPoolGet _ path => flat collect path                              (* 3678 *)
  | EPoolTo _ path to init => flat collect path ++ collect_arg to ++ collect init  (* 3791 *)
  | EPoolDel _ e => collect e                                         (* 3925 *)
  | EIf p t el => collect p ++ flat collect t ++ match el with Some es => flat collect es | None => [] end  (* 4039 *)
  | ECond its el => flat (fun it => NE (EIf (fst it) (snd it) None) :: collect (fst it) ++ flat collect (snd it)) its
                    ++ match el with Some es => flat collect es | None => [] end  (* 4181; the clauses are If nodes *)
  | EWhile p body => collect p ++ flat collect body                   (* 4323 *)
  | EDoUntil body p => flat collect body ++ collect p                 (* 4431 *)
  | EFor init p upd body => flat (fun b => collect (snd b)) init ++ collect p ++ flat (fun b => collect (snd b)) upd ++ flat collect body  (* 4558 *)
  | EForeach _ e body _ => collect e ++ flat collect body             (* 4723 *)
  | EForkeyval _ _ e body => collect e ++ flat collect body           (* 4859 *)
  | ECast e _ cases _ => collect e ++ flat (fun c => flat collect (snd c)) cases  (* 5106; the CastCase nodes themselves (5003) are left out *)
  | EUpcast e _ => collect e                                          (* 5244 *)
  | EIfNotNull bs t el => flat (fun b => collect (snd b)) bs ++ flat collect t
                          ++ match el with Some es => flat collect es | None => [] end  (* 5358 *)
  | EPack es => flat (fun b => collect (snd b)) es                    (* 5714 *)
  | EUnpack e _ t el => collect e ++ flat collect t ++ match el with Some es => flat collect es | None => [] end  (* 5840 *)
  | ETry es _ => flat collect es                                      (* 6111 *)
  | ELog es => flat collect es                                        (* 6221 *)
  end
with collect_arg (a : arg) {struct a} : list node :=
  match a with
  | AExpr e => collect e
  | AFcn _ body => NA a :: flat collect body                          (* 1457 *)
  | ARef _ => [NA a]
  | AFill _ fills => NA a :: flat (fun b => collect_arg (snd b)) fills (* 1646 *)
  end.
(** EngineConfig.collect, 833-849: begin, action, end and the functions; merge is not visited. Cells and pools contain no
    expressions. (The functions themselves are FcnDef nodes.) *)
Definition collect_fcn (f : string * (list string * list expr)) : list node := collect_arg (AFcn (fst (snd f)) (snd (snd f))).
Definition collect_doc (fcns : list (string * (list string * list expr))) (D : doc) : list node :=
  flat collect (d_begin D) ++ flat collect (d_action D) ++ flat collect (d_end D) ++ flat collect_fcn fcns.

(** ** replace with a partial function on expressions and one on function arguments *)
Section Replace.
  Variable pe : expr -> option expr.
  Variable pa : arg -> option arg.
  Definition on_snd {A B} (f : A -> B) (b : string * A) : string * B := (fst b, f (snd b)).
  Fixpoint replace (e : expr) {struct e} : expr :=
    match pe e with
    | Some e' => e'
    | None =>
        match e with
        | ELit _ _ | ERef _ | EDoc | EError _ _ => e                                                  (* 528-541 *)
        | ECall f args => ECall f (map replace_arg args)                                       (* 1935 *)
        | ECallUser nm ch args => ECallUser (replace nm) ch (map replace args)                 (* 1796 *)
        | ENewObj fs => ENewObj (map (on_snd replace) fs)                                      (* 2650 *)
        | ENewArr es => ENewArr (map replace es)                                               (* 2783 *)
        | EDo es => EDo (map replace es)                                                       (* 2892 *)
        | ELet bs => ELet (map (on_snd replace) bs)                                            (* 2989 *)
        | ESet bs => ESet (map (on_snd replace) bs)                                            (* 3108 *)
        | EAttrGet e path => EAttrGet (replace e) (map replace path)                           (* 3222 *)
        | EAttrTo e path to => EAttrTo (replace e) (map replace path) (replace_arg to)         (* 3333 *)
        | ECellGet c path => ECellGet c (map replace path)                                     (* 3457 *)
        | ECellTo c path to => ECellTo c (map replace path) (replace_arg to)                   (* 3564 *)
        | EPoolGet p path => EPoolGet p (map replace path)                                     (* 3691 *)
        | EPoolTo p path to init => EPoolTo p (map replace path) (replace_arg to) (replace init) (* 3806 *)
        | EPoolDel p e => EPoolDel p (replace e)                                               (* 3938 *)
        | EIf p t el => EIf (replace p) (map replace t) (option_map (map replace) el)          (* 4054 *)
        (* 4195; a partial function that replaces the If node of a clause is not modelled *)
        | ECond its el => ECond (map (fun it => (replace (fst it), map replace (snd it))) its) (option_map (map replace) el)
        | EWhile p body => EWhile (replace p) (map replace body)                               (* 4337 *)
        | EDoUntil body p => EDoUntil (map replace body) (replace p)                           (* 4445 *)
        | EFor init p upd body => EFor (map (on_snd replace) init) (replace p) (map (on_snd replace) upd) (map replace body) (* 4574 *)
        | EForeach x e body q => EForeach x (replace e) (map replace body) q                   (* 4737 *)
        | EForkeyval k v e body => EForkeyval k v (replace e) (map replace body)               (* 4873 *)
        | ECast e ty cases part => ECast (replace e) ty (map (fun c => (fst c, map replace (snd c))) cases) part (* 5016, 5120 *)
        | EUpcast e ty => EUpcast (replace e) ty                                               (* 5257 *)
        | EIfNotNull bs t el => EIfNotNull (map (fun b => (fst b, replace (snd b))) bs) (map replace t) (option_map (map replace) el) (* 5373 *)
        | EPack es => EPack (map (fun b => (fst b, replace (snd b))) es)                       (* 5727 *)
        | EUnpack e fmt t el => EUnpack (replace e) fmt (map replace t) (option_map (map replace) el) (* 5855 *)
        | ETry es flt => ETry (map replace es) flt                                             (* 6124 *)
        | ELog es => ELog (map replace es)                                                     (* 6234 *)
        end
    end
  with replace_arg (a : arg) {struct a} : arg :=
    match a with
    | AExpr e => AExpr (replace e)
    | _ =>
        match pa a with
        | Some a' => a'
        | None =>
            match a with
            | AExpr e => AExpr e
            | AFcn ps body => AFcn ps (map replace body)                                       (* 1470 *)
            | ARef f => ARef f
            | AFill f fills => AFill f (map (on_snd replace_arg) fills)                        (* 1659 *)
            end
        end
    end.
  (** EngineConfig.replace, 851-881, when the partial function is not defined at the engine itself or at whole functions *)
  Definition replace_doc (D : doc) : doc := {|
    d_method := d_method D; d_begin := map replace (d_begin D); d_action := map replace (d_action D);
    d_end := map replace (d_end D); d_merge := d_merge D; d_zero := d_zero D; d_cells := d_cells D; d_pools := d_pools D;
    d_name := d_name D; d_instance := d_instance D; d_metadata := d_metadata D; d_version := d_version D;
    d_check := d_check D; d_options := d_options D |}.
  Definition replace_fcns (fcns : list (string * (list string * list expr))) : list (string * (list string * list expr)) :=
    map (fun f => (fst f, (fst (snd f), map replace (snd (snd f))))) fcns.
End Replace.

(** ** The static call graph (genpy.py:174-179) *)
Definition graph_of (fcns : list (string * (list string * list expr))) (D : doc) : call_graph :=
  ("(begin)", body_calls (d_begin D)) :: ("(action)", body_calls (d_action D)) :: ("(end)", body_calls (d_end D))
  :: match d_merge D with Some es => [("(merge)", body_calls es)] | None => [] end
  ++ map (fun f => (fst f, body_calls (snd (snd f)))) fcns.

(** ** checkForDeadlock, genpy.py:1325-1358; true: no exception *)
Definition quiet_name (g : call_graph) (f : string) : bool := match has_side_effects g f with Some b => negb b | None => false end.
(** 1331-1337, and for an inline function 1339-1358 *)
Definition to_ok (g : call_graph) (to : arg) : bool :=
  match to with
  | ARef f | AFill f _ => quiet_name g f
  | AFcn _ body => forallb (fun n => match n with
                                     | NE (ECellTo _ _ _) | NE (EPoolTo _ _ _ _) => false
                                     | NE (ECall f _) => quiet_name g f
                                     | _ => true
                                     end) (flat collect body)
  | AExpr _ => true
  end.
Definition check_for_deadlock (fcns : list (string * (list string * list expr))) (D : doc) : bool :=
  forallb (fun n => match n with
                    | NE (ECellTo _ _ to) | NE (EPoolTo _ _ to _) => to_ok (graph_of fcns D) to
                    | _ => true
                    end) (collect_doc fcns D).
