(** The PFA expression language as executed by the generated Python code (titus/genpy.py).

    Simplifications, all deliberate:
    - type annotations are kept only where they reach the run time (cast, ifnotnull, upcast);
    - library functions are arbitrary programs of the kind [libprog]: they compute with their arguments,
      call the functions given to them, read the clock and the random generator, and have no other effect
      (read off titus/lib: the only exceptions are the functions that modify an argument in place,
      see DESIGN.md);
    - the chain of scopes is a stack of frames (functions are second class in PFA, so no scope outlives
      the call that made it);
    - Python's recursion limit is not modelled: unbounded recursion is [OutOfFuel] for every fuel. *)
From Verif Require Import Base ScopeModel.
Require Import Ascii.
Open Scope Z_scope.

(** ** Syntax (pfaast.py, classes named on the right) *)
Inductive expr :=
| ELit (desc : string) (v : val)                       (* Literal*: 2088-2602 *)
| ERef (x : string)                                    (* Ref: 2032 *)
| ECall (f : string) (args : list arg)                 (* Call: 1901 *)
| ECallUser (name : expr) (choices : list string) (args : list expr) (* CallUserFcn: 1761; choices = symbols of the enum *)
| ENewObj (fs : list (string * expr))                  (* NewObject: 2605 *)
| ENewArr (es : list expr)                             (* NewArray: 2738 *)
| EDo (es : list expr)                                 (* Do: 2860 *)
| ELet (bs : list (string * expr))                     (* Let: 2957 *)
| ESet (bs : list (string * expr))                     (* SetVar: 3076 *)
| EAttrGet (e : expr) (path : list expr)               (* AttrGet: 3184 *)
| EAttrTo (e : expr) (path : list expr) (to : arg)     (* AttrTo: 3289 *)
| ECellGet (c : string) (path : list expr)             (* CellGet: 3424 *)
| ECellTo (c : string) (path : list expr) (to : arg)   (* CellTo: 3524 *)
| EPoolGet (p : string) (path : list expr)             (* PoolGet: 3655 *)
| EPoolTo (p : string) (path : list expr) (to : arg) (init : expr) (* PoolTo: 3757 *)
| EPoolDel (p : string) (e : expr)                     (* PoolDel: 3904 *)
| EIf (p : expr) (t : list expr) (e : option (list expr)) (* If: 4007 *)
| ECond (its : list (expr * list expr)) (e : option (list expr)) (* Cond: 4151 *)
| EWhile (p : expr) (body : list expr)                 (* While: 4302 *)
| EDoUntil (body : list expr) (p : expr)               (* DoUntil: 4410 *)
| EFor (init : list (string * expr)) (p : expr) (upd : list (string * expr)) (body : list expr) (* For: 4518 *)
| EForeach (x : string) (e : expr) (body : list expr) (seq : bool) (* Foreach: 4689 *)
| EForkeyval (k v : string) (e : expr) (body : list expr) (* Forkeyval: 4825 *)
| ECast (e : expr) (fromUnion : bool) (cases : list (string * string * list expr)) (partial : bool) (* CastBlock: 5080; case = (named, type, body) *)
| EUpcast (e : expr) (wrap : option string)            (* Upcast: 5218; wrap = tag put around the value, genpy.py:432-439 *)
| EIfNotNull (bs : list (string * string * expr)) (t : list expr) (e : option (list expr)) (* IfNotNull: 5323; (name, expected tag, expr) *)
| EPack (es : list (string * expr))                    (* Pack: 5695 *)
| EUnpack (e : expr) (fmt : list (string * string)) (t : list expr) (el : option (list expr)) (* Unpack: 5800 *)
| EDoc                                                 (* Doc: 5966 *)
| EError (msg : string) (code : option Z)              (* Error: 6024 *)
| ETry (es : list expr) (filter : option (list (string + Z))) (* Try: 6090 *)
| ELog (es : list expr)                                (* Log: 6200 *)
with arg :=
| AExpr (e : expr)
| AFcn (params : list string) (body : list expr)       (* FcnDef: 1409 *)
| ARef (f : string)                                    (* FcnRef: 1545 *)
| AFill (f : string) (fills : list (string * arg)).    (* FcnRefFill: 1622 *)

(** An evaluated argument: a value or a function (functions are never stored in values). *)
Inductive aval :=
| AV (v : val)
| AF (a : arg).

(** ** Library functions *)
Inductive libprog :=
| LRet (v : val)
| LRaise (e : exn)
| LCall (i : nat) (args : list val) (k : res val -> libprog) (* callfcn on the i-th argument *)
| LForce (i : nat) (k : res val -> libprog)                  (* evaluate the i-th (lazy) argument *)
| LTime (k : libprog)                                        (* state.checkTime() *)
| LRand (k : Z -> libprog).                                  (* state.rand *)
Inductive libfun :=
| Strict (f : list aval -> libprog)
| Lazy (f : libprog).  (* "&&", "||", "&&&", "|||": arguments are evaluated by the function (core.py:306-365) *)

Record env := Env {
  e_lib : string -> option libfun;
  (** library function called through a reference: paramTypes is None (util.py:179) *)
  e_libref : string -> list aval -> libprog;
  e_libparams : string -> list string;   (* parameter names of a library function's signature *)
  e_fcns : list (string * (list string * list expr)); (* user functions by full name "u...." *)
  e_decode : string -> val -> res val;   (* jsonDecoder for a type given by its schema *)
  e_tyname : string -> string;           (* name of the type with that schema *)
  e_pack : list string -> list val -> res val;
  e_unpack : list (string * string) -> val -> option (list (string * val));
  e_message : Z -> string;               (* message of the PFARuntimeException with a given code *)
  e_time : nat -> Z;                     (* n-th reading of the clock, in milliseconds *)
  e_rand : nat -> Z }.

(** ** State *)
(** genpy.py:524-556; c_locked: state of self.lock (only used when shared) *)
Record cell := Cell { c_value : val; c_shared : bool; c_rollback : bool; c_old : val; c_locked : bool }.
(** genpy.py:558-608; p_locklock: self.locklock held; p_locks: heads whose lock is held *)
Record pool := Pool { p_value : list (string * val); p_shared : bool; p_rollback : bool;
                      p_old : list (string * val); p_locklock : bool; p_locks : list string }.
Record st := St {
  s_scopes : scopes;
  s_cells : list (string * cell);
  s_pools : list (string * pool);
  s_started : Z;                      (* self.actionsStarted *)
  s_finished : Z;                     (* self.actionsFinished *)
  s_tally : val;                      (* self.tally *)
  s_log : list (list val);            (* calls of self.log *)
  s_emitted : list val;               (* calls of self.emit *)
  s_timeout : option Z;               (* ExecutionState.timeout; None: attribute not set (genpy.py:492-497) *)
  s_start : Z;                        (* ExecutionState.startTime *)
  s_tick : nat;
  s_rand : nat;
  s_trace : list string }.            (* ghost: names of the functions called so far, latest first *)

Definition set_scopes ss s := St ss (s_cells s) (s_pools s) (s_started s) (s_finished s) (s_tally s) (s_log s) (s_emitted s) (s_timeout s) (s_start s) (s_tick s) (s_rand s) (s_trace s).
Definition set_cells c s := St (s_scopes s) c (s_pools s) (s_started s) (s_finished s) (s_tally s) (s_log s) (s_emitted s) (s_timeout s) (s_start s) (s_tick s) (s_rand s) (s_trace s).
Definition set_pools p s := St (s_scopes s) (s_cells s) p (s_started s) (s_finished s) (s_tally s) (s_log s) (s_emitted s) (s_timeout s) (s_start s) (s_tick s) (s_rand s) (s_trace s).
Definition set_started n s := St (s_scopes s) (s_cells s) (s_pools s) n (s_finished s) (s_tally s) (s_log s) (s_emitted s) (s_timeout s) (s_start s) (s_tick s) (s_rand s) (s_trace s).
Definition set_finished n s := St (s_scopes s) (s_cells s) (s_pools s) (s_started s) n (s_tally s) (s_log s) (s_emitted s) (s_timeout s) (s_start s) (s_tick s) (s_rand s) (s_trace s).
Definition set_tally v s := St (s_scopes s) (s_cells s) (s_pools s) (s_started s) (s_finished s) v (s_log s) (s_emitted s) (s_timeout s) (s_start s) (s_tick s) (s_rand s) (s_trace s).
Definition add_log l s := St (s_scopes s) (s_cells s) (s_pools s) (s_started s) (s_finished s) (s_tally s) (s_log s ++ [l]) (s_emitted s) (s_timeout s) (s_start s) (s_tick s) (s_rand s) (s_trace s).
Definition add_emitted v s := St (s_scopes s) (s_cells s) (s_pools s) (s_started s) (s_finished s) (s_tally s) (s_log s) (s_emitted s ++ [v]) (s_timeout s) (s_start s) (s_tick s) (s_rand s) (s_trace s).
Definition set_timing to t0 s := St (s_scopes s) (s_cells s) (s_pools s) (s_started s) (s_finished s) (s_tally s) (s_log s) (s_emitted s) to t0 (s_tick s) (s_rand s) (s_trace s).
Definition set_tick n s := St (s_scopes s) (s_cells s) (s_pools s) (s_started s) (s_finished s) (s_tally s) (s_log s) (s_emitted s) (s_timeout s) (s_start s) n (s_rand s) (s_trace s).
Definition set_rand n s := St (s_scopes s) (s_cells s) (s_pools s) (s_started s) (s_finished s) (s_tally s) (s_log s) (s_emitted s) (s_timeout s) (s_start s) (s_tick s) n (s_trace s).
Definition add_trace f s := St (s_scopes s) (s_cells s) (s_pools s) (s_started s) (s_finished s) (s_tally s) (s_log s) (s_emitted s) (s_timeout s) (s_start s) (s_tick s) (s_rand s) (f :: s_trace s).

(** Outcome of running generated code: a return value or exception together with the state it leaves;
    or blocked forever on a lock; or not finished within the fuel. *)
Inductive out (A : Type) :=
| Done (r : res A) (s : st)
| Blocked
| OutOfFuel.
Arguments Done {A} r s.
Arguments Blocked {A}.
Arguments OutOfFuel {A}.
Definition EM A := st -> out A.
Definition ret {A} (a : A) : EM A := fun s => Done (Ok a) s.
Definition raise {A} (e : exn) : EM A := fun s => Done (Raise e) s.
Definition bind {A B} (m : EM A) (k : A -> EM B) : EM B := fun s =>
  match m s with
  | Done (Ok a) s' => k a s'
  | Done (Raise e) s' => Done (Raise e) s'
  | Blocked => Blocked
  | OutOfFuel => OutOfFuel
  end.
Notation "x <== m ;; k" := (bind m (fun x => k)) (at level 61, m at next level, right associativity).
Definition out_of_fuel {A} : EM A := fun _ => OutOfFuel.
Definition lift {A} (r : res A) : EM A := fun s => Done r s.
Definition modify (f : st -> st) : EM unit := fun s => Done (Ok tt) (f s).
(** the result of a computation as a value: try/except around it *)
Definition attempt {A} (m : EM A) : EM (res A) := fun s =>
  match m s with
  | Done r s' => Done (Ok r) s'
  | Blocked => Blocked
  | OutOfFuel => OutOfFuel
  end.
(** run in new scopes whose frames are [fs] (innermost first) on top of the current scope; return also the final frames *)
Definition in_frames {A} (fs : list frame) (m : EM A) : EM (A * list frame) := fun s =>
  match m (set_scopes (fs ++ s_scopes s) s) with
  | Done r s' => Done (match r with Ok a => Ok (a, firstn (length fs) (s_scopes s')) | Raise e => Raise e end)
                      (set_scopes (skipn (length fs) (s_scopes s')) s')
  | Blocked => Blocked
  | OutOfFuel => OutOfFuel
  end.
Definition in_frame {A} (f : frame) (m : EM A) : EM A := p <== in_frames [f] m ;; ret (fst p).
(** run with the scopes [fs] instead of the current ones (DynamicScope(None)) *)
Definition in_root {A} (fs : list frame) (m : EM A) : EM A := fun s =>
  match m (set_scopes fs s) with
  | Done r s' => Done r (set_scopes (s_scopes s) s')
  | Blocked => Blocked
  | OutOfFuel => OutOfFuel
  end.
Fixpoint mapE {A B} (f : A -> EM B) (l : list A) : EM (list B) :=
  match l with
  | [] => ret []
  | x :: l' => y <== f x ;; ys <== mapE f l' ;; ret (y :: ys)
  end.
Fixpoint last_or_null (l : list val) : val :=
  match l with [] => VNull | [v] => v | _ :: l' => last_or_null l' end.

(** Python truth value of a value (predicates are booleans by the static type check) *)
Definition truthy (v : val) : bool :=
  match v with
  | VNull => false
  | VBool b => b
  | VInt z => negb (z =? 0)
  | VStr s => negb (String.eqb s "")
  | VArr l => negb (Nat.eqb (length l) 0)
  | VDict d => negb (Nat.eqb (length d) 0)
  | VBytes l => negb (Nat.eqb (length l) 0)
  | VFlt f => match f with SpecFloat.S754_zero _ => false | _ => true end
  end.

(** ** Paths *)
(** genpy.py:624-654 *)
Definition get_one (obj key : val) (arrayErr mapErr : Z) : res val :=
  match obj, key with
  | VArr l, VInt i =>
      let n := Z.of_nat (length l) in
      let j := if i <? 0 then n + i else i in   (* Python's negative indexes *)
      if (0 <=? j) && (j <? n) then Ok (nth (Z.to_nat j) l VNull) else Raise (PFAErr arrayErr)
  | VDict d, VStr k => match assoc k d with Some v => Ok v | None => Raise (PFAErr mapErr) end
  | VDict _, _ => Raise (PFAErr mapErr)
  | _, _ => Raise (PyErr "TypeError")
  end.
Fixpoint get_path (obj : val) (path : list val) (arrayErr mapErr : Z) : res val :=
  match path with
  | [] => Ok obj
  | k :: path' => v <- get_one obj k arrayErr mapErr ;; get_path v path' arrayErr mapErr
  end.
(** the elements of a list with the one at position i replaced (nothing happens when i is past the end) *)
Fixpoint replace_nth (i : nat) (v : val) (l : list val) : list val :=
  match l, i with
  | [], _ => []
  | _ :: l', O => v :: l'
  | x :: l', S i' => x :: replace_nth i' v l'
  end.
(** genpy.py:656-715; [leaf] computes the new value from the old one (lines 709-715) *)
Fixpoint update_path (leaf : val -> EM val) (obj : val) (path : list val) (arrayErr mapErr : Z) : EM val :=
  match path with
  | [] => leaf obj
  | k :: path' =>
      match obj, k with
      | VDict d, VStr k =>
          match assoc k d with
          | None => match path' with
                    | [] => ret (VDict d)                       (* 685, 688-693: no key equals head *)
                    | _ => raise (PFAErr mapErr)
                    end
          | Some v => v' <== update_path leaf v path' arrayErr mapErr ;; ret (VDict (dict_set k v' d))
          end
      | VDict d, _ => match path' with [] => ret (VDict d) | _ => raise (PFAErr mapErr) end
      | VArr l, VInt i =>
          let n := Z.of_nat (length l) in
          if ((match path' with [] => false | _ => true end) && (n <=? i)) || (i <? 0) then raise (PFAErr arrayErr)
          else if n <=? i then ret (VArr l)                     (* 699-704: no index equals head *)
          else v' <== update_path leaf (nth (Z.to_nat i) l VNull) path' arrayErr mapErr ;;
               ret (VArr (replace_nth (Z.to_nat i) v' l))
      | VArr _, _ => raise (PyErr "TypeError")
      | _, _ => raise (PyErr "Exception")                       (* 707 *)
      end
  end.

(** ** Clock *)
(** genpy.py:501-503 *)
Definition check_time (E : env) : EM unit := fun s =>
  match s_timeout s with
  | None => Done (Raise (PyErr "AttributeError")) s
  | Some t =>
      if t <=? 0 then Done (Ok tt) s
      else let s' := set_tick (S (s_tick s)) s in
           if t <? e_time E (s_tick s) - s_start s then Done (Raise TimeoutErr) s' else Done (Ok tt) s'
  end.
Definition draw (E : env) : EM Z := fun s => Done (Ok (e_rand E (s_rand s))) (set_rand (S (s_rand s)) s).

(** ** Cells and pools *)
Definition get_cell (c : string) : EM cell := fun s =>
  match assoc c (s_cells s) with Some x => Done (Ok x) s | None => Done (Raise (PyErr "KeyError")) s end.
Definition get_pool (p : string) : EM pool := fun s =>
  match assoc p (s_pools s) with Some x => Done (Ok x) s | None => Done (Raise (PyErr "KeyError")) s end.
Definition upd_cell (c : string) (f : cell -> cell) : EM unit := fun s =>
  match assoc c (s_cells s) with
  | Some x => Done (Ok tt) (set_cells (dict_set c (f x) (s_cells s)) s)
  | None => Done (Raise (PyErr "KeyError")) s
  end.
Definition upd_pool (p : string) (f : pool -> pool) : EM unit := fun s =>
  match assoc p (s_pools s) with
  | Some x => Done (Ok tt) (set_pools (dict_set p (f x) (s_pools s)) s)
  | None => Done (Raise (PyErr "KeyError")) s
  end.
Definition cell_put (v : val) (x : cell) := Cell v (c_shared x) (c_rollback x) (c_old x) (c_locked x).
Definition cell_lock (b : bool) (x : cell) := Cell (c_value x) (c_shared x) (c_rollback x) (c_old x) b.
Definition pool_put (d : list (string * val)) (x : pool) := Pool d (p_shared x) (p_rollback x) (p_old x) (p_locklock x) (p_locks x).
Definition pool_locks (l : list string) (x : pool) := Pool (p_value x) (p_shared x) (p_rollback x) (p_old x) (p_locklock x) l.
Definition blocked {A} : EM A := fun _ => Blocked.
Definition remove_lock (h : string) (l : list string) := filter (fun x => negb (String.eqb h x)) l.

(** genpy.py:538-548. Acquiring a lock that is already held blocks; the lock is released only when
    the update returns. *)
Definition cell_update (c : string) (upd : val -> EM val) : EM val :=
  x <== get_cell c ;;
  if c_shared x then
    if c_locked x then blocked
    else
      _ <== upd_cell c (cell_lock true) ;;
      v <== upd (c_value x) ;;
      _ <== upd_cell c (cell_put v) ;;
      _ <== upd_cell c (cell_lock false) ;;
      ret v
  else
    v <== upd (c_value x) ;;
    _ <== upd_cell c (cell_put v) ;;
    ret v.
(** genpy.py:587-590, 595-598 *)
Definition pool_update_body (p head : string) (upd : val -> EM val) (init : val) : EM val :=
  x <== get_pool p ;;
  _ <== (if has_key head (p_value x) then ret tt else upd_pool p (fun x => pool_put (dict_set head init (p_value x)) x)) ;;
  x' <== get_pool p ;;
  v <== upd (match assoc head (p_value x') with Some v => v | None => VNull end) ;;
  _ <== upd_pool p (fun x => pool_put (dict_set head v (p_value x)) x) ;;
  ret v.
(** genpy.py:573-600 (locklock is held only between 579 and 585, and forever when line 581 blocks) *)
Definition pool_update (p head : string) (upd : val -> EM val) (init : val) : EM val :=
  x <== get_pool p ;;
  if p_shared x then
    if p_locklock x then blocked
    else if existsb (String.eqb head) (p_locks x) then blocked
    else
      _ <== upd_pool p (pool_locks (head :: p_locks x)) ;;
      v <== pool_update_body p head upd init ;;
      _ <== upd_pool p (fun x => pool_locks (remove_lock head (p_locks x)) x) ;;
      ret v
  else pool_update_body p head upd init.

(** ** Exceptions and try *)
(** err.message in filter or err.code in filter (genpy.py:1297); None: the exception has no such attribute *)
Definition in_filter (E : env) (e : exn) (flt : list (string + Z)) : option bool :=
  let has_msg m := existsb (fun f => match f with inl m' => String.eqb m m' | inr _ => false end) flt in
  let has_code c := existsb (fun f => match f with inl _ => false | inr c' => c =? c' end) flt in
  match e with
  | PFAErr c => Some (has_msg (e_message E c) || has_code c)
  | UserErr m c => Some (has_msg m || match c with Some c => has_code c | None => false end)
  | _ => None
  end.
(** genpy.py:1296-1300 *)
Definition handle (E : env) (flt : option (list (string + Z))) (e : exn) : EM val :=
  match flt with
  | None => ret VNull
  | Some l => match in_filter E e l with
              | Some true => ret VNull
              | Some false => raise e
              | None => raise (PyErr "AttributeError")
              end
  end.

(** ** Evaluation *)
(** genpy.py:1018-1052 for one binding *)
Definition untag (expected : string) (v : val) : val :=
  match v with
  | VDict [(tag, w)] => if String.eqb tag expected then w else v
  | _ => v
  end.
Definition is_null (v : val) : bool := match v with VNull => true | _ => false end.
(** genpy.py:978-981 *)
Definition tag_matches (tag toName : string) : bool :=
  (String.eqb tag toName
   || (String.eqb tag "int" && existsb (String.eqb toName) ["long"; "float"; "double"]%string)
   || (String.eqb tag "long" && existsb (String.eqb toName) ["float"; "double"]%string)
   || (String.eqb tag "float" && String.eqb toName "double"))%bool.
(** genpy.py:974-985: the value to decode, or None to skip this case *)
Definition cast_value (fromUnion : bool) (v : val) (toName : string) : option val :=
  match fromUnion, v with
  | true, VDict [(tag, w)] => if tag_matches tag toName then Some w else None
  | _, _ => Some v
  end.
Fixpoint zip_dict {A} (ks : list string) (vs : list A) : list (string * A) :=
  match ks, vs with k :: ks', v :: vs' => (k, v) :: zip_dict ks' vs' | _, _ => [] end.
Definition plain (a : aval) : val := match a with AV v => v | AF _ => VNull end.
Definition let_vars (bs : list (string * val)) : EM unit := modify (fun s => set_scopes (scope_let bs (s_scopes s)) s).
Definition set_vars_m (bs : list (string * val)) : EM unit := fun s =>
  let '(r, ss) := set_vars bs (s_scopes s) in Done r (set_scopes ss s).
(** "$0", "$1", ... (genpy.py:315). One character instead of decimal digits: "$" starts no symbol name, so only
    distinctness matters, and that holds for the first 208 positions. *)
Definition dollar (i : nat) : string := String "$"%char (String (Ascii.ascii_of_nat (48 + i)) EmptyString).
Fixpoint dollars (i n : nat) : list string := match n with O => [] | S n' => dollar i :: dollars (S i) n' end.

Section Eval.
  Variable E : env.
  Section Step.
    Variable n : nat.                          (* fuel for loops *)
    Variable ev : expr -> EM val.              (* evaluation with less fuel *)
    Variable app : arg -> list val -> EM val.  (* callfcn with less fuel *)

    (** do(e1, ..., en): genpy.py:717-729 *)
    Definition run (es : list expr) : EM val := vs <== mapE ev es ;; ret (last_or_null vs).
    Definition ev_named (bs : list (string * expr)) : EM (list (string * val)) :=
      mapE (fun b => v <== ev (snd b) ;; ret (fst b, v)) bs.
    Definition ev_arg (a : arg) : EM aval :=
      match a with AExpr e => v <== ev e ;; ret (AV v) | _ => ret (AF a) end.

    (** run a library function on its arguments; [lazies]: argument expressions of a lazy function *)
    Fixpoint run_lib (lazies : list arg) (args : list aval) (p : libprog) : EM val :=
      match p with
      | LRet v => ret v
      | LRaise e => raise e
      | LCall i vs k => match nth_error args i with
                        | Some (AF f) => r <== attempt (app f vs) ;; run_lib lazies args (k r)
                        | _ => raise (PyErr "TypeError")
                        end
      | LForce i k => match nth_error lazies i with
                      | Some (AExpr e) => r <== attempt (ev e) ;; run_lib lazies args (k r)
                      | _ => raise (PyErr "TypeError")
                      end
      | LTime k => _ <== check_time E ;; run_lib lazies args k
      | LRand k => z <== draw E ;; run_lib lazies args (k z)
      end.
    (** call(state, DynamicScope(None), self.f[f], args): a user function in a fresh root scope *)
    Definition call_user (f : string) (args : list val) : EM val :=
      match assoc f (e_fcns E) with
      | Some (params, body) => in_root [frame_let (zip_dict params args) []; []] (run body)
      | None => raise (PyErr "KeyError")
      end.
    (** update's leaf: genpy.py:709-715; a library function given as "to" has no paramNames *)
    Definition update_leaf (to : aval) (old : val) : EM val :=
      match to with
      | AV v => ret v
      | AF (ARef f) => match assoc f (e_fcns E) with
                       | Some _ => app (ARef f) [old]
                       | None => raise (PyErr "AttributeError")
                       end
      | AF f => app f [old]
      end.
    Fixpoint conds (its : list (expr * list expr)) (els : EM val) (keep : bool) : EM val :=
      match its with
      | [] => els
      | (p, t) :: its' =>
          b <== in_frame [] (ev p) ;;
          if truthy b then v <== in_frame [] (run t) ;; ret (if keep then v else VNull)
          else conds its' els keep
      end.
    (** genpy.py:811-833 *)
    Fixpoint while_loop (m : nat) (p : expr) (body : list expr) (pf bf : frame) : EM val :=
      match m with
      | O => out_of_fuel
      | S m' =>
          r <== in_frames [pf; bf] (ev p) ;;
          let '(b, fs) := r in
          let pf := nth 0 fs [] in let bf := nth 1 fs [] in
          if truthy b then
            _ <== check_time E ;;
            r <== in_frames [bf] (run body) ;;
            while_loop m' p body pf (nth 0 (snd r) [])
          else ret VNull
      end.
    (** genpy.py:835-859 *)
    Fixpoint until_loop (m : nat) (body : list expr) (p : expr) (pf bf : frame) : EM val :=
      match m with
      | O => out_of_fuel
      | S m' =>
          _ <== check_time E ;;
          r <== in_frames [bf] (run body) ;;
          let bf := nth 0 (snd r) [] in
          r <== in_frames [pf; bf] (ev p) ;;
          let '(b, fs) := r in
          if truthy b then ret VNull
          else until_loop m' body p (nth 0 fs []) (nth 1 fs [])
      end.
    (** genpy.py:886-890 *)
    Fixpoint for_loop (m : nat) (p : expr) (step : list (string * expr)) (body : list expr) (pf bf lf : frame) : EM val :=
      match m with
      | O => out_of_fuel
      | S m' =>
          r <== in_frames [pf; lf] (ev p) ;;
          let '(b, fs) := r in
          let pf := nth 0 fs [] in let lf := nth 1 fs [] in
          if truthy b then
            _ <== check_time E ;;
            r <== in_frames [bf; lf] (run body) ;;
            let bf := nth 0 (snd r) [] in let lf := nth 1 (snd r) [] in
            r <== in_frames [lf] (vs <== ev_named step ;; set_vars_m vs) ;;
            for_loop m' p step body pf bf (nth 0 (snd r) [])
          else ret VNull
      end.
    (** genpy.py:911-917, 940-946; [items]: the bindings made at each turn *)
    Fixpoint each_loop (items : list (list (string * val))) (body : list expr) (bf lf : frame) : EM val :=
      match items with
      | [] => ret VNull
      | bs :: items' =>
          _ <== check_time E ;;
          r <== in_frames [bf; frame_let bs lf] (run body) ;;
          each_loop items' body (nth 0 (snd r) []) (nth 1 (snd r) [])
      end.
    (** genpy.py:971-1000 *)
    Fixpoint cast_cases (fromUnion partial : bool) (v : val) (cases : list (string * string * list expr)) : EM val :=
      match cases with
      | [] => ret VNull
      | (name, ty, body) :: cases' =>
          match cast_value fromUnion v (e_tyname E ty) with
          | None => cast_cases fromUnion partial v cases'
          | Some w =>
              match e_decode E ty w with
              | Ok c => o <== in_frame [(name, c)] (run body) ;; ret (if partial then VNull else o)
              | Raise AvroErr => cast_cases fromUnion partial v cases'
              | Raise (PyErr k) => if String.eqb k "TypeError" then cast_cases fromUnion partial v cases' else raise (PyErr k)
              | Raise e => raise e
              end
          end
      end.
    Definition or_else (els : option (list expr)) (f : list expr -> EM val) : EM val :=
      match els with Some es => f es | None => ret VNull end.

    Definition step (e : expr) : EM val :=
      match e with
      | ELit _ v => ret v
      | EDoc => ret VNull
      | ERef x => fun s => Done (scope_get x (s_scopes s)) s
      | ECall f args =>
          match assoc f (e_fcns E) with
          | Some _ =>                                              (* UserFcn.genpy, pfaast.py:327-330 *)
              avs <== mapE ev_arg args ;;
              _ <== modify (add_trace f) ;;
              call_user f (map plain avs)
          | None =>
              if String.eqb f "emit" then                          (* EmitFcn.genpy, pfaast.py:354-356 *)
                avs <== mapE ev_arg args ;;
                _ <== modify (add_trace f) ;;
                _ <== modify (add_emitted (match avs with a :: _ => plain a | [] => VNull end)) ;;
                ret VNull
              else match e_lib E f with
                   | Some (Strict g) =>
                       avs <== mapE ev_arg args ;;
                       _ <== modify (add_trace f) ;;
                       run_lib [] avs (g avs)
                   | Some (Lazy p) =>
                       _ <== modify (add_trace f) ;;
                       run_lib args [] p
                   | None => raise (PyErr "KeyError")
                   end
          end
      | ECallUser name _ args =>                                   (* genpy.py:327-328 *)
          nm <== ev name ;;
          match nm with
          | VStr x =>
              let f := ("u." ++ x)%string in
              if has_key f (e_fcns E) then
                vs <== mapE ev args ;;
                _ <== modify (add_trace f) ;;
                call_user f vs
              else raise (PyErr "KeyError")
          | _ => raise (PyErr "TypeError")
          end
      | ENewObj fs => kvs <== ev_named fs ;; ret (VDict (frame_let kvs []))
      | ENewArr es => vs <== mapE ev es ;; ret (VArr vs)
      | EDo es => run es
      | ELet bs => vs <== ev_named bs ;; _ <== let_vars vs ;; ret VNull
      | ESet bs => vs <== ev_named bs ;; _ <== set_vars_m vs ;; ret VNull
      | EAttrGet e path =>
          v <== ev e ;; ks <== mapE ev path ;; lift (get_path v ks 2000 2001)
      | EAttrTo e path to =>
          v <== ev e ;; ks <== mapE ev path ;; t <== ev_arg to ;;
          update_path (update_leaf t) v ks 2002 2003
      | ECellGet c path =>
          x <== get_cell c ;; ks <== mapE ev path ;;
          lift (get_path (c_value x) ks 2004 2005)
      | ECellTo c path to =>
          ks <== mapE ev path ;; t <== ev_arg to ;;
          _ <== modify (add_trace "cell-to") ;;
          cell_update c (fun old => update_path (update_leaf t) old ks 2006 2007)
      | EPoolGet p path =>
          _ <== get_pool p ;; ks <== mapE ev path ;;
          x <== get_pool p ;;                                       (* the dict is changed in place by updates in the path *)
          lift (get_path (VDict (p_value x)) ks 2008 2009)
      | EPoolTo p path to init =>
          ks <== mapE ev path ;; t <== ev_arg to ;; i <== ev init ;;
          _ <== modify (add_trace "pool-to") ;;
          match ks with
          | VStr h :: tail => pool_update p h (fun old => update_path (update_leaf t) old tail 2010 2011) i
          | _ => raise (PyErr "TypeError")
          end
      | EPoolDel p e =>
          k <== ev e ;;
          _ <== modify (add_trace "pool-del") ;;
          match k with
          | VStr h => _ <== upd_pool p (fun x => pool_put (dict_del h (p_value x)) x) ;; ret VNull
          | _ => ret VNull
          end
      | EIf p t None => conds [(p, t)] (ret VNull) false
      | EIf p t (Some el) => conds [(p, t)] (in_frame [] (run el)) true
      | ECond its None => conds its (ret VNull) false
      | ECond its (Some el) => conds its (in_frame [] (run el)) true
      | EWhile p body => while_loop n p body [] []
      | EDoUntil body p => until_loop n body p [] []
      | EFor init p step body =>
          r <== in_frames [[]] (vs <== ev_named init ;; let_vars vs) ;;
          for_loop n p step body [] [] (nth 0 (snd r) [])
      | EForeach x e body _ =>
          v <== ev e ;;
          match v with
          | VArr l => each_loop (map (fun y => [(x, y)]) l) body [] []
          | _ => raise (PyErr "TypeError")
          end
      | EForkeyval k v e body =>
          m <== ev e ;;
          match m with
          | VDict d => each_loop (map (fun kv => [(k, VStr (fst kv)); (v, snd kv)]) d) body [] []
          | _ => raise (PyErr "AttributeError")
          end
      | ECast e fromUnion cases partial => v <== ev e ;; cast_cases fromUnion partial v cases
      | EUpcast e None => ev e
      | EUpcast e (Some tag) => v <== ev e ;; ret (if is_null v then v else VDict [(tag, v)])
      | EIfNotNull bs t el =>
          vs <== mapE (fun b => v <== ev (snd b) ;; ret (fst b, v)) bs ;;
          if forallb (fun b => negb (is_null (snd b))) vs then
            v <== in_frame (frame_let (map (fun b => (fst (fst b), untag (snd (fst b)) (snd b))) vs) []) (run t) ;;
            ret (match el with Some _ => v | None => VNull end)
          else or_else el run                                      (* 1100: elseClause(state, scope) *)
      | EPack es => vs <== mapE ev (map snd es) ;; lift (e_pack E (map fst es) vs)
      | EUnpack e fmt t el =>
          b <== ev e ;;
          match e_unpack E fmt b with
          | Some bs => v <== in_frame (frame_let bs []) (run t) ;; ret (match el with Some _ => v | None => VNull end)
          | None => or_else el run                                 (* 1259, 1262 *)
          end
      | EError msg code => raise (UserErr msg code)
      | ETry es flt =>
          r <== attempt (run es) ;;
          match r with
          | Ok v => ret v
          | Raise e => handle E flt e
          end
      | ELog es => vs <== mapE ev es ;; _ <== modify (add_log vs) ;; ret VNull
      end.

    (** callfcn, util.py:155-179: the function runs in a scope made on top of the current one *)
    Definition step_app (f : arg) (vs : list val) : EM val :=
      match f with
      | AExpr _ => raise (PyErr "TypeError")
      | AFcn params body => in_frame (frame_let (zip_dict params vs) []) (run body)
      | ARef g =>
          _ <== modify (add_trace g) ;;
          match assoc g (e_fcns E) with
          | Some (params, body) => in_frame (frame_let (zip_dict params vs) []) (run body)
          | None => run_lib [] (map AV vs) (e_libref E g (map AV vs))
          end
      | AFill g fills =>                                           (* genpy.py:314-325 *)
          let params := match assoc g (e_fcns E) with Some (ps, _) => ps | None => e_libparams E g end in
          in_frame (frame_let (zip_dict (dollars 0 (length vs)) vs) [])
            (let fix args (j : nat) (ps : list string) : EM (list aval) :=
               match ps with
               | [] => ret []
               | p :: ps' =>
                   match assoc p fills with
                   | Some a => v <== ev_arg a ;; vs <== args j ps' ;; ret (v :: vs)
                   | None => v <== (fun s => Done (scope_get (dollar j) (s_scopes s)) s) ;; vs <== args (S j) ps' ;; ret (AV v :: vs)
                   end
               end in
             avs <== args O params ;;
             _ <== modify (add_trace g) ;;
             in_frame []
               (match assoc g (e_fcns E) with
                | Some (ps, body) => in_frame (frame_let (zip_dict ps (map plain avs)) []) (run body)
                | None => run_lib [] avs (e_libref E g avs)
                end))
      end.
  End Step.

  Fixpoint eval (n : nat) (e : expr) : EM val :=
    match n with
    | O => out_of_fuel
    | S n' => step n' (eval n') (apply n') e
    end
  with apply (n : nat) (f : arg) (vs : list val) : EM val :=
    match n with
    | O => out_of_fuel
    | S n' => step_app (eval n') (apply n') f vs
    end.
  Definition exec (n : nat) (es : list expr) : EM val := run (eval n) es.
End Eval.
