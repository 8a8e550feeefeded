(** Model of titus.producer.chain.ast (titus/producer/chain.py:171-662): one scoring engine made from a list of engines.
    Not modelled: types. The code gives every named type a new name (231-284, 346-390) and checks that the output type of
    each engine fits the input type of the next (287-344); here types are the descriptions carried by [ELit], [ECast] and
    [EUpcast], which stay as they are, as they do in documents without named types. Also not modelled: source positions,
    the resolution of placeholders, randseed, doc, metadata and options (given by the caller, not taken from the
    engines), and the last step "check", which builds an engine from the result and drops it. *)
From Verif Require Import Base ScopeModel CoreModel EngineModel.
From Coq Require Import Ascii Decimal DecimalString DecimalNat.
Open Scope string_scope.
Open Scope list_scope.

(** A document, as far as chaining reads it (EngineConfig, pfaast.py:742-790). Functions are given without the "u.".
    [snd] of a pool says whether its source is "embedded". *)
Record pfa := Pfa {
  f_name : string;
  f_method : method;
  f_begin : list expr;
  f_action : list expr;
  f_end : list expr;
  f_fcns : list (string * (list string * list expr));
  f_cells : list (string * cell_decl);
  f_pools : list (string * (pool_decl * bool)) }.

(** *** Names *)
(** "step{0:d}_{1}_".format(i + 1, pfa.name): 235-251 *)
Definition dec (n : nat) : string := NilEmpty.string_of_uint (Nat.to_uint n).
Definition label (i : nat) (name : string) : string := ("step" ++ dec (S i) ++ "_" ++ name ++ "_")%string.
Definition prefix_action (i : nat) (name : string) : string := (label i name ++ "action")%string.        (* 235-236 *)
Definition prefix_def (i : nat) (name x : string) : string := (label i name ++ "fcn_" ++ x)%string.      (* 244-245 *)
(** x.startswith("u.") and x[2:] *)
Definition strip_u (f : string) : option string :=
  match f with
  | String a (String b x) => if (Ascii.eqb a "u"%char && Ascii.eqb b "."%char)%bool then Some x else None
  | _ => None
  end.
Definition prefix_ref (i : nat) (name f : string) : string :=                                   (* 238-242 *)
  match strip_u f with Some x => ("u." ++ prefix_def i name x)%string | None => f end.
Definition prefix_cell (i : nat) (name x : string) : string := (label i name ++ x)%string.               (* 247-248 *)
Definition prefix_pool (i : nat) (name x : string) : string := (label i name ++ x)%string.               (* 250-251 *)

(** *** Rewriting the code of one step *)
(** What the replacers of one turn of the loop (440-559) know. [c_emit]: the function that calls of emit are sent to. *)
Record ctx := Ctx { c_fcn : string -> string; c_cell : string -> string; c_pool : string -> string; c_emit : option string }.
Definition no_refs (_ : string) : bool := false.
Section Rewrite.
  Variable C : ctx.
  (** genericReplacer (451-516) on top of the replace methods of pfaast.py (see TraverseModel). [refs]: the variables
      that beginReplacer, endReplacer or actionReplacer (525-557) turn into reads of cells; none in fcnReplacer (518). *)
  Fixpoint ren (refs : string -> bool) (e : expr) {struct e} : expr :=
    match e with
    | ERef x => if refs x then ECellGet x [] else ERef x                                        (* 526-530 *)
    | ECall f args =>                                                                           (* 467-475 *)
        match c_emit C with
        | Some g => if String.eqb f "emit" then ECall g (map (ren_arg refs) args) else ECall (c_fcn C f) (map (ren_arg refs) args)
        | None => ECall (c_fcn C f) (map (ren_arg refs) args)
        end
    | ECallUser nm ch args => ECallUser (ren refs nm) ch (map (ren refs) args)                  (* 463-466: the symbols stay *)
    | ELit _ _ | EDoc | EError _ _ => e                                                         (* 476-479 *)
    | ENewObj fs => ENewObj (map (fun b => (fst b, ren refs (snd b))) fs)                       (* 480-483 *)
    | ENewArr es => ENewArr (map (ren refs) es)                                                 (* 484-487 *)
    | ECellGet c path => ECellGet (c_cell C c) (map (ren refs) path)                            (* 488-491 *)
    | ECellTo c path to => ECellTo (c_cell C c) (map (ren refs) path) (ren_arg refs to)         (* 492-496 *)
    | EPoolGet p path => EPoolGet (c_pool C p) (map (ren refs) path)                            (* 497-500 *)
    | EPoolTo p path to init => EPoolTo (c_pool C p) (map (ren refs) path) (ren_arg refs to) (ren refs init)  (* 501-506 *)
    | ECast e fu cases part => ECast (ren refs e) fu (map (fun c => (fst c, map (ren refs) (snd c))) cases) part  (* 507-511 *)
    | EUpcast e ty => EUpcast (ren refs e) ty                                                   (* 512-515 *)
    (* the replacers are not defined at the following: replace of pfaast.py goes into the parts *)
    | EDo es => EDo (map (ren refs) es)
    | ELet bs => ELet (map (fun b => (fst b, ren refs (snd b))) bs)
    | ESet bs => ESet (map (fun b => (fst b, ren refs (snd b))) bs)
    | EAttrGet e path => EAttrGet (ren refs e) (map (ren refs) path)
    | EAttrTo e path to => EAttrTo (ren refs e) (map (ren refs) path) (ren_arg refs to)
    | EPoolDel p e => EPoolDel p (ren refs e)                                                   (* the pool keeps its name *)
    | EIf p t el => EIf (ren refs p) (map (ren refs) t) (option_map (map (ren refs)) el)
    | ECond its el => ECond (map (fun it => (ren refs (fst it), map (ren refs) (snd it))) its) (option_map (map (ren refs)) el)
    | EWhile p body => EWhile (ren refs p) (map (ren refs) body)
    | EDoUntil body p => EDoUntil (map (ren refs) body) (ren refs p)
    | EFor init p upd body => EFor (map (fun b => (fst b, ren refs (snd b))) init) (ren refs p)
                                   (map (fun b => (fst b, ren refs (snd b))) upd) (map (ren refs) body)
    | EForeach x e body q => EForeach x (ren refs e) (map (ren refs) body) q
    | EForkeyval k v e body => EForkeyval k v (ren refs e) (map (ren refs) body)
    | EIfNotNull bs t el => EIfNotNull (map (fun b => (fst b, ren refs (snd b))) bs) (map (ren refs) t) (option_map (map (ren refs)) el)
    | EPack es => EPack (map (fun b => (fst b, ren refs (snd b))) es)
    | EUnpack e fmt t el => EUnpack (ren refs e) fmt (map (ren refs) t) (option_map (map (ren refs)) el)
    | ETry es flt => ETry (map (ren refs) es) flt
    | ELog es => ELog (map (ren refs) es)
    end
  with ren_arg (refs : string -> bool) (a : arg) {struct a} : arg :=
    match a with
    | AExpr e => AExpr (ren refs e)
    | AFcn ps body => AFcn ps (map (ren no_refs) body)                                          (* 452-456: always fcnReplacer *)
    | ARef f => ARef (c_fcn C f)                                                                (* 457-458 *)
    | AFill f fills => AFill (c_fcn C f) (map (fun b => (fst b, ren_arg refs (snd b))) fills)   (* 459-462 *)
    end.
End Rewrite.

Definition is_one_of (l : list string) (x : string) : bool := existsb (String.eqb x) l.
(** 527 and 539, 551 (without a version) *)
Definition begin_refs : string -> bool := is_one_of ["name"; "instance"; "metadata"].
Definition action_refs : string -> bool := is_one_of ["name"; "instance"; "metadata"; "actionsStarted"; "actionsFinished"].

(** *** The chained document *)
Record chained := Chained {
  h_name : string;
  h_method : method;
  h_begin : list expr;
  h_action : list expr;
  h_end : list expr;
  h_fcns : list (string * (list string * list expr));
  h_cells : list (string * cell_decl);
  h_pools : list (string * pool_decl) }.

Definition is_emit (m : method) : bool := match m with MEmit => true | _ => false end.
Definition is_fold (m : method) : bool := match m with MFold => true | _ => false end.
(** 397-402; fold raises NotImplementedError unless an exception came before *)
Definition method_of (ps : list pfa) : method := if existsb (fun p => is_emit (f_method p)) ps then MEmit else MMap.
(** the context of step i (440-447); [next]: the name of the next step *)
Definition ctx_of (i : nat) (p : pfa) (next : option string) : ctx :=
  Ctx (prefix_ref i (f_name p)) (prefix_cell i (f_name p)) (prefix_pool i (f_name p))
      (if is_emit (f_method p) then option_map (fun nm => ("u." ++ prefix_action (S i) nm)%string) next else None).
Definition null_lit : expr := ELit "LiteralNull" VNull.
(** 559-580: the body of the function made from the action *)
Definition step_body (whole : method) (i : nat) (p : pfa) (next : option string) : list expr :=
  let body := map (ren (ctx_of i p next) action_refs) (f_action p) in
  if is_emit whole then
    if is_emit (f_method p) then body ++ [null_lit]                                             (* 577-578 *)
    else match next with
         | Some nm => [ECall ("u." ++ prefix_action (S i) nm)%string [AExpr (EDo body)]; null_lit]     (* 573-574 *)
         | None => [ECall "emit" [AExpr (EDo body)]]                                            (* 575-576 *)
         end
  else body.
(** 564, 580, 585-590: the functions of one step, in the order in which they are put into fcns *)
Definition step_fcns (whole : method) (i : nat) (p : pfa) (next : option string) : list (string * (list string * list expr)) :=
  (prefix_action i (f_name p), (["input"], step_body whole i p next))
  :: map (fun f => (prefix_def i (f_name p) (fst f), (fst (snd f), map (ren (ctx_of i p next) no_refs) (snd (snd f))))) (f_fcns p).
Definition head_name (ps : list pfa) : option string := match ps with p :: _ => Some (f_name p) | [] => None end.
Fixpoint all_fcns (whole : method) (i : nat) (ps : list pfa) : list (string * (list string * list expr)) :=
  match ps with
  | [] => []
  | p :: ps' => step_fcns whole i p (head_name ps') ++ all_fcns whole (S i) ps'
  end.
Fixpoint all_code (sel : pfa -> list expr) (refs : string -> bool) (i : nat) (ps : list pfa) : list expr :=
  match ps with
  | [] => []
  | p :: ps' => map (ren (ctx_of i p (head_name ps')) refs) (sel p) ++ all_code sel refs (S i) ps'
  end.
Fixpoint all_cells (i : nat) (ps : list pfa) : list (string * cell_decl) :=
  match ps with
  | [] => []
  | p :: ps' => map (fun c => (prefix_cell i (f_name p) (fst c), snd c)) (f_cells p) ++ all_cells (S i) ps'
  end.
Fixpoint all_pools (i : nat) (ps : list pfa) : list (string * pool_decl) :=
  match ps with
  | [] => []
  | p :: ps' => map (fun c => (prefix_pool i (f_name p) (fst c), fst (snd c))) (f_pools p) ++ all_pools (S i) ps'
  end.
(** 565-568: Call(u.stepN, [... Call(u.step1, [input])]) *)
Fixpoint nest (i : nat) (ps : list pfa) (e : expr) : expr :=
  match ps with
  | [] => e
  | p :: ps' => nest (S i) ps' (ECall ("u." ++ prefix_action i (f_name p))%string [AExpr e])
  end.
Definition keep (x : string) : expr := ECellTo x [] (AExpr (ERef x)).
(** d[k] = v for all items in turn *)
Definition fill {V} (l d : list (string * V)) : list (string * V) := fold_left (fun d kv => dict_set (fst kv) (snd kv) d) l d.
(** "_".join(names) *)
Fixpoint join_names (l : list string) : string :=
  match l with [] => "" | [x] => x | x :: l' => (x ++ "_" ++ join_names l')%string end.

(** 171-662. The exceptions in the order in which they can come: an empty list (the first engine's input, 283), a fold
    engine (402), a version (420: the constructor of Cell wants a string and gets the number 0), an embedded pool
    (614, 638: json.loads is given the dict of the pool). *)
Definition chain (name : option string) (version : option Z) (ps : list pfa) : res chained :=
  match ps with
  | [] => Raise (PyErr "IndexError")
  | p1 :: _ =>
      if existsb (fun p => is_fold (f_method p)) ps then Raise (PyErr "NotImplementedError")
      else match version with Some _ => Raise (PyErr "PFASyntaxException") | None =>
      if existsb (fun p => existsb (fun q => snd (snd q)) (f_pools p)) ps then Raise (PyErr "TypeError")
      else
        let whole := method_of ps in
        Ok {| h_name := match name with Some x => x | None => ("Chain_" ++ join_names (map f_name ps))%string end;   (* 393-394 *)
              h_method := whole;
              h_begin := map keep ["name"; "instance"; "metadata"] ++ all_code f_begin begin_refs 0 ps;       (* 428-432, 534 *)
              h_action := map keep ["actionsStarted"; "actionsFinished"]                                      (* 434-435 *)
                          ++ [if is_emit whole then ECall ("u." ++ prefix_action 0 (f_name p1))%string [AExpr (ERef "input")]  (* 581-582 *)
                              else nest 0 ps (ERef "input")];
              h_end := map keep ["actionsStarted"; "actionsFinished"] ++ all_code f_end action_refs 0 ps;     (* 437-438, 546 *)
              h_fcns := fill (all_fcns whole 0 ps) [];
              h_cells := fill (all_cells 0 ps)                                                                (* 414-418, 594-604 *)
                           [("name", CellDecl (VStr "") false false); ("instance", CellDecl (VInt 0) false false);
                            ("metadata", CellDecl (VDict []) false false); ("actionsStarted", CellDecl (VInt 0) false false);
                            ("actionsFinished", CellDecl (VInt 0) false false)];
              h_pools := fill (all_pools 0 ps) [] |}
      end
  end.

(** *** Running it: the environment and the document of EngineModel that a document stands for *)
Definition with_fcns (L : env) (fcns : list (string * (list string * list expr))) : env :=
  Env (e_lib L) (e_libref L) (e_libparams L) (map (fun f => (("u." ++ fst f)%string, snd f)) fcns) (e_decode L) (e_tyname L)
      (e_pack L) (e_unpack L) (e_message L) (e_time L) (e_rand L).
(** the engine of a document, and of the chained document; [check=False] *)
Definition doc_of (name instance metadata : val) (o : options) (p : pfa) : doc :=
  Doc (f_method p) (f_begin p) (f_action p) (f_end p) None VNull (f_cells p) (map (fun q => (fst q, fst (snd q))) (f_pools p))
      name instance metadata None (fun v => Ok v) o.
Definition doc_of_chain (instance metadata : val) (o : options) (H : chained) : doc :=
  Doc (h_method H) (h_begin H) (h_action H) (h_end H) None VNull (h_cells H) (h_pools H)
      (VStr (h_name H)) instance metadata None (fun v => Ok v) o.
