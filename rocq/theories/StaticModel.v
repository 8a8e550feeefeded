(** The static pass over a document before code generation: symbol tables, the scoping rules of the walk
    methods, the call graph they collect, and the deadlock check (titus/pfaast.py, titus/genpy.py).
    Types are left out, so this pass accepts every document that the code accepts, and more; the validity of
    symbol names and the existence of functions, cells and pools are left out in the same way. *)
From Verif Require Import Base ScopeModel CoreModel EngineModel CallGraphModel CoreInd.
Open Scope string_scope.
Open Scope list_scope.

Definition memb (x : string) (l : list string) : bool := existsb (String.eqb x) l.
(** pfaast.py:117-139; innermost first *)
Record scope := Scope { sc_syms : list string; sc_above : bool; sc_within : bool }.
Definition symtab := list scope.
(** get(name) is not None, 141-179: sealing does not restrict reading *)
Definition visible (T : symtab) (x : string) : bool := existsb (fun s => memb x (sc_syms s)) T.
(** 195-215 *)
Fixpoint writable (T : symtab) (x : string) : bool :=
  match T with
  | [] => false
  | s :: T' => if sc_within s then false else if memb x (sc_syms s) then true else if sc_above s then false else writable T' x
  end.
Definition sealed (T : symtab) : bool := match T with [] => false | s :: _ => sc_within s end.
(** newScope, 259-269; put, 217-227 *)
Definition new_scope (above within : bool) (T : symtab) : symtab := Scope [] above within :: T.
Definition put (xs : list string) (T : symtab) : symtab :=
  match T with [] => [] | s :: T' => Scope (xs ++ sc_syms s) (sc_above s) (sc_within s) :: T' end.

(** walk one after the other in the same symbol table *)
Definition walk_all {A} (f : symtab -> A -> option symtab) : symtab -> list A -> option symtab :=
  fix go T l := match l with [] => Some T | a :: l' => match f T a with Some T' => go T' l' | None => None end end.
Definition ok {A} (o : option A) : bool := match o with Some _ => true | None => false end.
(** keep the table when the parts in scopes of their own are accepted *)
Definition when (b : bool) (T : symtab) : option symtab := if b then Some T else None.
(** put one name after the other, each new (Unpack.walk, 5896-5903) *)
Fixpoint declare (T : symtab) (xs : list string) : option symtab :=
  match xs with [] => Some T | x :: xs' => if visible T x then None else declare (put [x] T) xs' end.
Definition opt_all {A} (f : A -> bool) (o : option A) : bool := match o with Some a => f a | None => true end.

Section Walk.
(** What the function table tells: user functions, parameter names, and the number of parameters of the function
    that a library function expects at a position (P.Fcn in its signature). *)
Variable user : string -> bool.
Variable params : string -> list string.
Variable fcn_arity : string -> nat -> option nat.
(** Sig.accepts wants as many arguments as parameters (signature.py:366-383) *)
Definition arity_ok (f : string) (n : nat) : bool := if user f then Nat.eqb (length (params f)) n else true.
(** the function type of an argument has n parameters (datatype.py:54; FcnDef 1517, FcnRef 1593, FcnRefFill 1734) *)
Definition takes (a : arg) (n : nat) : bool :=
  match a with
  | AExpr _ => true
  | AFcn ps _ => Nat.eqb (length ps) n
  | ARef g => arity_ok g n
  | AFill g fills => Nat.eqb (length (filter (fun p => negb (has_key p fills)) (params g))) n
  end.
(** Sig.check on function arguments (signature.py:385-404, 540-552) *)
Fixpoint args_ok (f : string) (i : nat) (args : list arg) : bool :=
  match args with
  | [] => true
  | AExpr _ :: args' => args_ok f (S i) args'
  | a :: args' => (match fcn_arity f i with Some k => takes a k | None => false end && args_ok f (S i) args')%bool
  end.
(** The symbol table after walking an expression; None: PFASemanticException. *)
Fixpoint walk (T : symtab) (e : expr) {struct e} : option symtab :=
  let inner := new_scope true true T in          (* sealed scope of a part that is only read *)
  let block := new_scope false false T in
  match e with
  | ELit _ _ | EDoc | EError _ _ => Some T
  | ERef x => when (visible T x) T                                                          (* 2066 *)
  | ECall f args => when (arity_ok f (length args) && args_ok f 0 args && ok (walk_all walk_arg inner args)) T   (* 1974-1993 *)
  | ECallUser nm choices args =>                                                             (* 1831-1871 *)
      when (forallb (fun x => arity_ok ("u." ++ x) (length args)) choices && ok (walk inner nm) && ok (walk_all walk inner args)) T
  | ENewObj fs => when (ok (walk_all (fun U b => walk U (snd b)) inner fs)) T                (* 2688-2690 *)
  | ENewArr es => when (ok (walk_all walk inner es)) T                                       (* 2820-2823 *)
  | EDo es => when (ok (walk_all walk block es)) T                                           (* 2926-2927 *)
  | ELet bs =>                                                                               (* 3023-3050 *)
      if (negb (sealed T) && forallb (fun b => negb (visible T (fst b)) && ok (walk inner (snd b))) bs)%bool
      then Some (put (map fst bs) T) else None
  | ESet bs =>                                                                               (* 3145-3152 *)
      when (forallb (fun b => visible T (fst b) && writable T (fst b) && ok (walk inner (snd b)))%bool bs) T
  | EAttrGet e path => when (ok (walk inner e) && ok (walk_all walk inner path)) T           (* 3257-3263, 1363 *)
  | EAttrTo e path to =>                                                                     (* 3369-3377 *)
      if (ok (walk inner e) && ok (walk_all walk inner path) && takes to 1)%bool then walk_arg T to else None
  | ECellGet _ path | EPoolGet _ path => when (ok (walk_all walk inner path)) T              (* 3497, 3731 *)
  | ECellTo _ path to => if (ok (walk_all walk inner path) && takes to 1)%bool then walk_arg T to else None       (* 3605-3607 *)
  | EPoolTo _ path to init =>                                                                (* 3848-3852 *)
      if (ok (walk_all walk inner path) && takes to 1)%bool then match walk_arg T to with Some T' => walk T' init | None => None end else None
  | EPoolDel _ e => walk T e                                                                 (* 3976 *)
  | EIf p t el =>                                                                            (* 4092-4106 *)
      when (ok (walk inner p) && ok (walk_all walk block t) && opt_all (fun es => ok (walk_all walk block es)) el) T
  | ECond its el =>                                                                          (* 4233-4254 *)
      when (forallb (fun it => ok (walk inner (fst it)) && ok (walk_all walk block (snd it)))%bool its
            && opt_all (fun es => ok (walk_all walk block es)) el) T
  | EWhile p body => when (ok (walk (new_scope true true block) p) && ok (walk_all walk block body)) T  (* 4373-4381 *)
  | EDoUntil body p =>                                                                       (* 4481-4488 *)
      when match walk_all walk block body with Some U => ok (walk (new_scope true true U) p) | None => false end T
  | EFor init p upd body =>                                                                  (* 4612-4658 *)
      let loop := put (map fst init) block in
      when (forallb (fun b => negb (visible block (fst b)) && ok (walk (new_scope true true block) (snd b)))%bool init
            && ok (walk (new_scope true true loop) p)
            && forallb (fun b => visible loop (fst b) && writable loop (fst b) && ok (walk (new_scope true true loop) (snd b)))%bool upd
            && ok (walk_all walk (new_scope false false loop) body)) T
  | EForeach x e body seq =>                                                                 (* 4775-4794 *)
      let loop := new_scope (negb seq) false T in
      when (negb (visible T x) && ok (walk (new_scope true true loop) e)
            && ok (walk_all walk (new_scope false false (put [x] loop)) body)) T
  | EForkeyval k v e body =>                                                                 (* 4911-4935 *)
      when (negb (visible T k) && negb (visible T v) && ok (walk (new_scope true true block) e)
            && ok (walk_all walk (new_scope false false (put [k; v] block)) body)) T
  | ECast e _ cases _ =>                                                                     (* 5158-5170, 5052-5055 *)
      when (ok (walk inner e) && forallb (fun c => ok (walk_all walk (put [fst (fst c)] block) (snd c))) cases) T
  | EUpcast e _ => when (ok (walk inner e)) T                                                (* 5292 *)
  | EIfNotNull bs t el =>                                                                    (* 5411-5445 *)
      when (ok (walk_all (fun U b => walk U (snd b)) inner bs)
            && ok (walk_all walk (new_scope false false (put (map (fun b => fst (fst b)) bs) block)) t)
            && opt_all (fun es => ok (walk_all walk block es)) el) T
  | EPack es => when (forallb (fun b => ok (walk inner (snd b))) es) T                       (* 5764 *)
  | EUnpack e fmt t el =>                                                                    (* 5894-5921 *)
      match declare block (map fst fmt) with
      | Some U => when (ok (walk inner e) && ok (walk_all walk (new_scope false false U) t)
                        && opt_all (fun es => ok (walk_all walk block es)) el) T
      | None => None
      end
  | ETry es _ | ELog es => when (ok (walk_all walk inner es)) T                              (* 6159, 6269 *)
  end
with walk_arg (T : symtab) (a : arg) {struct a} : option symtab :=
  match a with
  | AExpr e => walk T e
  | AFcn ps body => when (ok (walk_all walk (put ps (new_scope true false T)) body)) T   (* 1509-1515 *)
  | ARef _ => Some T
  | AFill _ fills => when (ok (walk_all (fun U b => walk_arg U (snd b)) (new_scope true true T) fills)) T  (* 1700-1703 *)
  end.

(** EngineConfig.walk, 901-988: the tables of user functions and sections (scopes on scopes merged where nothing
    can tell the difference: sealedAbove only matters to "set", and nobody sets these names). *)
Definition section (names : list string) : symtab := [Scope [] true false; Scope names true false].
Definition walk_fcn (ps : list string) (body : list expr) : bool :=
  ok (walk_all walk (put ps (new_scope true false [Scope [] true false; Scope [] true false])) body).
Definition common_names (D : doc) : list string :=
  ["name"; "instance"; "metadata"] ++ match d_version D with Some _ => ["version"] | None => [] end.   (* 925-929 *)
Definition tally_names (D : doc) : list string := match d_method D with MFold => ["tally"] | _ => [] end. (* 960-961 *)
Definition action_names (D : doc) : list string :=                                                        (* 978-985 *)
  ["input"] ++ common_names D ++ ["actionsStarted"; "actionsFinished"] ++ tally_names D.
Definition end_names (D : doc) : list string :=                                                           (* 964-970 *)
  common_names D ++ ["actionsStarted"; "actionsFinished"] ++ tally_names D.
Definition merge_names (D : doc) : list string := ["tallyOne"; "tallyTwo"] ++ common_names D.             (* 938-944 *)
Definition walk_section (names : list string) (es : list expr) : bool := ok (walk_all walk (section names) es).
Definition walk_doc (fcns : list (string * (list string * list expr))) (D : doc) : bool :=
  (forallb (fun f => walk_fcn (fst (snd f)) (snd (snd f))) fcns
   && walk_section (common_names D) (d_begin D) && walk_section (action_names D) (d_action D)
   && walk_section (end_names D) (d_end D) && opt_all (walk_section (merge_names D)) (d_merge D))%bool.
End Walk.

(** ** The call graph: the field "calls" of the contexts *)
Definition all_calls {A} (f : A -> list string) (l : list A) : list string := concat (map f l).
Fixpoint calls (e : expr) {struct e} : list string :=
  match e with
  | ELit d _ => [d]                                          (* 2105-2602 *)
  | EDoc => ["doc"]
  | EError _ _ => ["error"]
  | ERef _ => []                                             (* 2068 *)
  | ECall f args => f :: all_calls arg_calls args            (* 1977-1991 *)
  | ECallUser _ choices args => map (fun x => ("u." ++ x)%string) choices ++ all_calls calls args (* 1842-1847: not the calls in the name *)
  | ENewObj fs => "new (object)" :: all_calls (fun b => calls (snd b)) fs
  | ENewArr es => "new (array)" :: all_calls calls es
  | EDo es => "do" :: all_calls calls es
  | ELet bs => "let" :: all_calls (fun b => calls (snd b)) bs
  | ESet bs => "set" :: all_calls (fun b => calls (snd b)) bs
  | EAttrGet _ path => "attr" :: all_calls calls path        (* 3263-3264: not the calls of the expression *)
  | EAttrTo _ path to => "attr-to" :: all_calls calls path ++ arg_calls to  (* 3375-3397: the same *)
  | ECellGet _ path => "cell" :: all_calls calls path
  | ECellTo _ path to => "cell-to" :: all_calls calls path ++ arg_calls to
  | EPoolGet _ path => "pool" :: all_calls calls path
  | EPoolTo _ path to _ => "pool-to" :: all_calls calls path ++ arg_calls to (* 3860-3875: not the calls of init *)
  | EPoolDel _ e => "pool-del" :: calls e
  | EIf p t el => "if" :: calls p ++ all_calls calls t ++ match el with Some es => all_calls calls es | None => [] end
  | ECond its el => "cond" :: all_calls (fun it => calls (fst it) ++ all_calls calls (snd it)) its
                           ++ match el with Some es => all_calls calls es | None => [] end
  | EWhile p body => "while" :: calls p ++ all_calls calls body
  | EDoUntil body p => "do-until" :: all_calls calls body ++ calls p
  | EFor init p upd body => "for" :: all_calls (fun b => calls (snd b)) init ++ calls p
                                  ++ all_calls (fun b => calls (snd b)) upd ++ all_calls calls body
  | EForeach _ e body _ => "foreach" :: calls e ++ all_calls calls body
  | EForkeyval _ _ e body => "forkey-forval" :: calls e ++ all_calls calls body
  | ECast e _ cases _ => "cast-cases" :: calls e ++ all_calls (fun c => all_calls calls (snd c)) cases
  | EUpcast e _ => "upcast" :: calls e
  | EIfNotNull bs t el => "ifnotnull" :: all_calls (fun b => calls (snd b)) bs ++ all_calls calls t
                                      ++ match el with Some es => all_calls calls es | None => [] end
  | EPack es => "pack" :: all_calls (fun b => calls (snd b)) es
  | EUnpack e _ t el => "unpack" :: calls e ++ all_calls calls t ++ match el with Some es => all_calls calls es | None => [] end
  | ETry es _ => "try" :: all_calls calls es
  | ELog es => "log" :: all_calls calls es
  end
with arg_calls (a : arg) {struct a} : list string :=
  match a with
  | AExpr e => calls e
  | AFcn _ body => all_calls calls body                      (* 1521 *)
  | ARef f => [f]                                            (* 1600 *)
  | AFill f fills => f :: all_calls (fun b => arg_calls (snd b)) fills  (* 1694-1705 *)
  end.
Definition body_calls (body : list expr) : list string := all_calls calls body.
