(** Model of how PrettyPFA's own syntax tree becomes a PFA syntax tree: prettypfa.py:345-487 (MiniGenGet, MiniGet, MiniTo, MiniDotName), 489-514 (numbers and texts), 579-583 and
    675-680 (MiniCall: blocks, calls and partial applications), 888-920 (MiniIf), 1022-1041 (MiniWhile), 1115-1171 (MiniGenAssignment, MiniAssignment).

    Simplifications, all deliberate:
    - a dotted name is its first piece and the list of the others, so that split is not needed;
    - the other special calls (json, new, upcast, pack, error, log, apply, update, int ...), function literals, casts, ifnotnull, unpack, for, foreach and try are left out, and so are types
      and positions;
    - the pairs of an assignment are a list whose names differ (p_assignments, 2018-2024, keeps the last of equal names);
    - the tree that asExpr gives is run by [eval], the generated code of genpy.py:348-470 with the values, cells, pools and functions left open. *)
From Verif Require Import Base.
Open Scope string_scope.

Definition dotted : Type := string * list string.

Inductive mini :=
| MName (n : dotted) | MNum (z : Z) | MStr (s : string)
| MCall (f : dotted) (args : list (option string * mini))
| MDo (l : list mini)
| MGenGet (e : mini) (path : list mini)
| MGet (n : dotted) (path : list mini)
| MTo (n : dotted) (path : list mini) (direct : bool) (to : mini) (init : option mini)
| MIf (pairs : list (mini * mini)) (els : option mini)
| MWhile (p body : mini) (pretest : bool)
| MGenAssign (e : mini) (path : list mini) (rhs : mini)
| MAssign (var : bool) (pairs : list (dotted * mini)).

Inductive ast :=
| ANull | ABool (b : bool) | ANum (z : Z) | AStr (s : string) | ARef (x : string)
| AFcn (f : dotted) | AFill (f : dotted) (fill : list (string * ast))
| ACall (f : dotted) (args : list ast)
| ADo (l : list ast)
| AAttrGet (e : ast) (path : list ast) | ACellGet (c : string) (path : list ast) | APoolGet (p : string) (path : list ast)
| AAttrTo (e : ast) (path : list ast) (to : ast) | ACellTo (c : string) (path : list ast) (to : ast) | APoolTo (p : string) (path : list ast) (to init : ast)
| ALet (pairs : list (string * ast)) | ASet (pairs : list (string * ast))
| AIf (p : ast) (thn : list ast) (els : option (list ast))
| ACond (pairs : list (ast * list ast)) (els : option (list ast))
| AWhile (p : ast) (body : list ast) | AUntil (body : list ast) (p : ast).

(** 104-112, 1502-1507: the names known before the expressions are translated *)
Record names := mkNames { functions : list dotted; cells : list string; pools : list string }.
Definition mem (x : string) (l : list string) : bool := existsb (String.eqb x) l.
Fixpoint same_pieces (a b : list string) : bool :=
  match a, b with [], [] => true | x :: a', y :: b' => (String.eqb x y && same_pieces a' b')%bool | _, _ => false end.
Definition same_dotted (a b : dotted) : bool := (String.eqb (fst a) (fst b) && same_pieces (snd a) (snd b))%bool.
Definition is_function (st : names) (n : dotted) : bool := existsb (same_dotted n) (functions st).
Definition pretty {A} (s : string) : res A := Raise (PyErr ("PrettyPfaException: " ++ s)).

Section Each.
Variables A B : Type.
Variable f : A -> res B.
Fixpoint each (l : list A) : res (list B) := match l with [] => Ok [] | a :: l' => b <- f a ;; bs <- each l' ;; Ok (b :: bs) end.
End Each.
Arguments each {A B} f l.

Definition is_fcn (a : ast) : bool := match a with AFcn _ | AFill _ _ => true | _ => false end.
Definition is_fcnref (a : ast) : bool := match a with AFcn _ => true | _ => false end.

(** 371-377, 456-473 *)
Definition get (st : names) (base : string) (path : list ast) : ast :=
  if mem base (cells st) then ACellGet base path else if mem base (pools st) then APoolGet base path else AAttrGet (ARef base) path.
(** 448-473 *)
Definition name_expr (st : names) (n : dotted) : ast :=
  if same_dotted n ("null", []) then ANull else if same_dotted n ("true", []) then ABool true else if same_dotted n ("false", []) then ABool false
  else if is_function st n then AFcn n
  else match n with
       | (b, []) => if mem b (cells st) then ACellGet b [] else if mem b (pools st) then APoolGet b [] else ARef b
       | (b, r) => get st b (map AStr r)
       end.
(** 398-425; [init] is [Some] of the translated one *)
Definition to_expr (st : names) (base : string) (path : list ast) (direct : bool) (to : ast) (init : option ast) : res ast :=
  if (direct && is_fcn to)%bool then pretty "direct assignments cannot refer to functions"
  else if (negb direct && negb (is_fcn to))%bool then pretty "indirect assignments must refer to functions"
  else if (negb direct && mem base (pools st) && match init with None => true | _ => false end)%bool then pretty "indirect pool assignments must also have an init"
  else if (negb (mem base (pools st)) && match init with None => false | _ => true end)%bool then pretty "non-pool assignments must not have an init"
  else Ok (if mem base (cells st) then ACellTo base path to
           else if mem base (pools st) then APoolTo base path to (match init with Some i => i | None => to end)
           else AAttrTo (ARef base) path to).
(** 1136-1166: one assignment without var *)
Definition assign_expr (st : names) (n : dotted) (to : ast) : res ast :=
  if is_fcnref to then pretty "direct assignments cannot refer to functions"
  else match n with
       | (b, []) => Ok (if mem b (cells st) then ACellTo b [] to else if mem b (pools st) then APoolTo b [] to to else ASet [(b, to)])
       | (b, r) => Ok (if mem b (cells st) then ACellTo b (map AStr r) to else if mem b (pools st) then APoolTo b (map AStr r) to to else AAttrTo (ARef b) (map AStr r) to)
       end.
Definition is_named {A} (a : option string * A) : bool := match fst a with Some _ => true | None => false end.

Section Translate.
Variable st : names.
Fixpoint asExpr (m : mini) : res ast :=
  let body m := match m with MDo l => each asExpr l | _ => a <- asExpr m ;; Ok [a] end in
  match m with
  | MName n => Ok (name_expr st n)
  | MNum z => Ok (ANum z)
  | MStr s => Ok (AStr s)
  | MCall f args =>   (* 675-680: with one named argument, those without a name are passed over *)
      if existsb is_named args
      then fill <- each (fun a => match a with (Some k, e) => v <- asExpr e ;; Ok [(k, v)] | (None, _) => Ok [] end) args ;; Ok (AFill f (concat fill))
      else l <- each (fun a => match a with (_, e) => asExpr e end) args ;; Ok (ACall f l)
  | MDo l => l <- each asExpr l ;; Ok (ADo l)
  | MGenGet e path => a <- asExpr e ;; p <- each asExpr path ;; Ok (AAttrGet a p)
  | MGet (b, r) path => p <- each asExpr path ;; Ok (get st b (map AStr r ++ p))
  | MTo (b, r) path direct to init =>
      p <- each asExpr path ;; t <- asExpr to ;;
      i <- match init with None => Ok None | Some i => i <- asExpr i ;; Ok (Some i) end ;;
      to_expr st b (map AStr r ++ p) direct t i
  | MIf pairs els =>
      ps <- each (fun q => match q with (p, t) => t <- body t ;; p <- asExpr p ;; Ok (p, t) end) pairs ;;
      e <- match els with None => Ok None | Some e => e <- body e ;; Ok (Some e) end ;;
      Ok (match ps with [(p, t)] => AIf p t e | _ => ACond ps e end)
  | MWhile p b pretest => b <- body b ;; p <- asExpr p ;; Ok (if pretest then AWhile p b else AUntil b p)
  | MGenAssign e path rhs => a <- asExpr e ;; p <- each asExpr path ;; t <- asExpr rhs ;; Ok (AAttrTo a p t)
  | MAssign var pairs =>
      l <- each (fun q => match q with (n, e) => a <- asExpr e ;; Ok (n, a) end) pairs ;;
      match var, l with
      | false, [(n, a)] => assign_expr st n a
      | _, _ => if existsb (fun q => match snd (fst q) with [] => false | _ => true end) l then pretty "cannot assign multiple deep objects"
                else let l := map (fun q => (fst (fst q), snd q)) l in Ok (if var then ALet l else ASet l)
      end
  end.
End Translate.

(** Running the tree. Values, the world (cells, pools and whatever functions change) and functions are left open. *)
Inductive change (V : Type) := Direct (v : V) | Through (v : V).
Arguments Direct {V}. Arguments Through {V}.
Record machine (V W : Type) := mkMachine {
  v_null : V; v_bool : bool -> V; v_num : Z -> V; v_str : string -> V; v_fcn : dotted -> V; v_fill : dotted -> list (string * V) -> V;
  truth : V -> bool;
  attr_get : V -> list V -> res V; attr_to : V -> list V -> change V -> W -> res (V * W);
  cell_get : string -> list V -> W -> res V; cell_to : string -> list V -> change V -> W -> res (V * W);
  pool_get : string -> list V -> W -> res V; pool_to : string -> list V -> change V -> V -> W -> res (V * W);
  call : dotted -> list V -> W -> res (V * W) }.
Definition env (V : Type) : Type := list (list (string * V)).
Fixpoint look {V} (e : env V) (x : string) : option V :=
  match e with [] => None | s :: e' => match assoc x s with Some v => Some v | None => look e' x end end.
Definition declare {V} (e : env V) (x : string) (v : V) : env V := match e with [] => [[(x, v)]] | s :: e' => ((x, v) :: s) :: e' end.
Fixpoint assign {V} (e : env V) (x : string) (v : V) : res (env V) :=
  match e with
  | [] => Raise (PyErr "unknown symbol")
  | s :: e' => match assoc x s with Some _ => Ok (dict_set x v s :: e') | None => e'' <- assign e' x v ;; Ok (s :: e'') end
  end.

Section Eval.
Variables V W : Type.
Variable M : machine V W.
Definition state : Type := env V * W.
Section Seq.
Variables A : Type.
Variable f : state -> A -> res (V * state).
Fixpoint seq (s : state) (l : list A) : res (list V * state) :=
  match l with [] => Ok ([], s) | a :: l' => r <- f s a ;; r' <- seq (snd r) l' ;; Ok (fst r :: fst r', snd r') end.
Definition last_of (l : list V) : V := last l (v_null _ _ M).
(** a scope of its own *)
Definition block (s : state) (l : list A) : res (V * state) := r <- seq ([] :: fst s, snd s) l ;; Ok (last_of (fst r), (tl (fst (snd r)), snd (snd r))).
End Seq.
Definition in_world {A} (e : env V) (r : res (A * W)) : res (A * state) := x <- r ;; Ok (fst x, (e, snd x)).
Definition declare_all (e : env V) (xs : list string) (vs : list V) : env V := fold_left (fun e p => declare e (fst p) (snd p)) (combine xs vs) e.
Fixpoint assign_all (e : env V) (xs : list string) (vs : list V) : res (env V) :=
  match xs, vs with x :: xs', v :: vs' => e' <- assign e x v ;; assign_all e' xs' vs' | _, _ => Ok e end.
Definition change_of (f : bool) (v : V) : change V := if f then Through v else Direct v.

Section Conds.
Variables P T : Type.
Variable test : state -> P -> res (V * state).
Variable branch : state -> T -> res (V * state).
Fixpoint conds (s : state) (l : list (P * T)) (els : option T) : res (V * state) :=
  match l with
  | [] => match els with None => Ok (v_null _ _ M, s) | Some t => branch s t end
  | (p, t) :: l' => r <- test s p ;; if truth _ _ M (fst r) then branch (snd r) t else conds (snd r) l' els
  end.
End Conds.

Fixpoint eval (fuel : nat) (s : state) (a : ast) : res (V * state) :=
  match fuel with
  | O => Raise (PyErr "fuel")
  | S n =>
      match a with
      | ANull => Ok (v_null _ _ M, s)
      | ABool b => Ok (v_bool _ _ M b, s)
      | ANum z => Ok (v_num _ _ M z, s)
      | AStr x => Ok (v_str _ _ M x, s)
      | ARef x => match look (fst s) x with Some v => Ok (v, s) | None => Raise (PyErr "unknown symbol") end
      | AFcn f => Ok (v_fcn _ _ M f, s)
      | AFill f l => r <- seq _ (eval n) s (map snd l) ;; Ok (v_fill _ _ M f (combine (map fst l) (fst r)), snd r)
      | ACall f l => r <- seq _ (eval n) s l ;; in_world (fst (snd r)) (call _ _ M f (fst r) (snd (snd r)))
      | ADo l => block _ (eval n) s l
      | AAttrGet e p => r <- eval n s e ;; q <- seq _ (eval n) (snd r) p ;; v <- attr_get _ _ M (fst r) (fst q) ;; Ok (v, snd q)
      | ACellGet c p => q <- seq _ (eval n) s p ;; v <- cell_get _ _ M c (fst q) (snd (snd q)) ;; Ok (v, snd q)
      | APoolGet c p => q <- seq _ (eval n) s p ;; v <- pool_get _ _ M c (fst q) (snd (snd q)) ;; Ok (v, snd q)
      | AAttrTo e p t => r <- eval n s e ;; q <- seq _ (eval n) (snd r) p ;; u <- eval n (snd q) t ;;
          in_world (fst (snd u)) (attr_to _ _ M (fst r) (fst q) (change_of (is_fcn t) (fst u)) (snd (snd u)))
      | ACellTo c p t => q <- seq _ (eval n) s p ;; u <- eval n (snd q) t ;; in_world (fst (snd u)) (cell_to _ _ M c (fst q) (change_of (is_fcn t) (fst u)) (snd (snd u)))
      | APoolTo c p t i => q <- seq _ (eval n) s p ;; u <- eval n (snd q) t ;; w <- eval n (snd u) i ;;
          in_world (fst (snd w)) (pool_to _ _ M c (fst q) (change_of (is_fcn t) (fst u)) (fst w) (snd (snd w)))
      | ALet l => r <- seq _ (eval n) s (map snd l) ;; Ok (v_null _ _ M, (declare_all (fst (snd r)) (map fst l) (fst r), snd (snd r)))
      | ASet l => r <- seq _ (eval n) s (map snd l) ;; e <- assign_all (fst (snd r)) (map fst l) (fst r) ;; Ok (v_null _ _ M, (e, snd (snd r)))
      | AIf p t e => conds _ _ (eval n) (block _ (eval n)) s [(p, t)] e
      | ACond l e => conds _ _ (eval n) (block _ (eval n)) s l e
      | AWhile p b => r <- eval n s p ;; if truth _ _ M (fst r) then r <- block _ (eval n) (snd r) b ;; eval n (snd r) a else Ok (v_null _ _ M, snd r)
      | AUntil b p => r <- block _ (eval n) s b ;; r <- eval n (snd r) p ;; if truth _ _ M (fst r) then Ok (v_null _ _ M, snd r) else eval n (snd r) a
      end
  end.
End Eval.
