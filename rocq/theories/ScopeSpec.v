(** Specification of variables: what lexical scoping means, independently of DynamicScope. *)
From Verif Require Import Base ScopeModel.

(** Frame number [i] (0 = innermost) is the innermost frame in which [x] is defined, with value [v]. *)
Definition visible (ss : scopes) (i : nat) (x : string) (v : val) : Prop :=
  assoc x (nth i ss []) = Some v /\ (i < length ss)%nat /\ forall j, (j < i)%nat -> assoc x (nth j ss []) = None.

(** Programs over variables: declarations, assignments, blocks that open a new scope (with some names
    bound on entry, as in foreach, cast or inline functions), and calls of user-defined functions, which see
    nothing but their parameters. *)
Inductive src := Const (v : val) | Var (x : string).
Inductive op :=
| OLet (x : string) (s : src)
| OSet (x : string) (s : src)
| OBlock (params : list (string * val)) (body : list op)
| OCall (params : list (string * val)) (body : list op).

(** *** How DynamicScope runs them *)
Definition src_get (s : src) (ss : scopes) : res val :=
  match s with Const v => Ok v | Var x => scope_get x ss end.
(** the outcome and the scope chain afterwards; a block's scope is dropped also when an exception leaves it *)
Fixpoint run_op (o : op) (ss : scopes) : res unit * scopes :=
  let run_ops := fix run_ops (l : list op) (ss : scopes) : res unit * scopes :=
    match l with
    | [] => (Ok tt, ss)
    | o :: l' => match run_op o ss with
                 | (Ok _, ss') => run_ops l' ss'
                 | (Raise e, ss') => (Raise e, ss')
                 end
    end in
  match o with
  | OLet x s => match src_get s ss with
                | Ok v => (Ok tt, scope_let [(x, v)] ss)
                | Raise e => (Raise e, ss)
                end
  | OSet x s => match src_get s ss with
                | Ok v => set_vars [(x, v)] ss
                | Raise e => (Raise e, ss)
                end
  | OBlock params body => let '(r, ss') := run_ops body (frame_let params [] :: ss) in (r, tl ss')
  | OCall params body => let '(r, _) := run_ops body [frame_let params []; []] in (r, ss)
  end.
Fixpoint run_ops (l : list op) (ss : scopes) : res unit * scopes :=
  match l with
  | [] => (Ok tt, ss)
  | o :: l' => match run_op o ss with
               | (Ok _, ss') => run_ops l' ss'
               | (Raise e, ss') => (Raise e, ss')
               end
  end.

(** *** The textbook semantics of lexical scoping
    An environment maps names to locations, a store maps locations to values. A declaration allocates a new
    location; an assignment writes the location the name denotes; leaving a block restores the environment
    (but not the store); a function body starts from an environment with its parameters only. *)
Definition lenv := string -> option nat.
Definition store := list val.
Definition bind_loc (x : string) (l : nat) (r : lenv) : lenv := fun y => if String.eqb y x then Some l else r y.
Definition empty_env : lenv := fun _ => None.
Fixpoint write (l : nat) (v : val) (m : store) : store :=
  match m, l with
  | [], _ => []
  | _ :: m', O => v :: m'
  | w :: m', S l' => w :: write l' v m'
  end.
Definition read (x : string) (r : lenv) (m : store) : option val :=
  match r x with Some l => nth_error m l | None => None end.
Definition src_read (s : src) (r : lenv) (m : store) : option val :=
  match s with Const v => Some v | Var x => read x r m end.
Fixpoint declare (bs : list (string * val)) (r : lenv) (m : store) : lenv * store :=
  match bs with
  | [] => (r, m)
  | (x, v) :: bs' => declare bs' (bind_loc x (length m) r) (m ++ [v])
  end.
(** [true]: no unknown variable was met *)
Fixpoint lex_op (o : op) (r : lenv) (m : store) : bool * lenv * store :=
  let lex_ops := fix lex_ops (l : list op) (r : lenv) (m : store) : bool * lenv * store :=
    match l with
    | [] => (true, r, m)
    | o :: l' => match lex_op o r m with
                 | (true, r', m') => lex_ops l' r' m'
                 | (false, r', m') => (false, r', m')
                 end
    end in
  match o with
  | OLet x s => match src_read s r m with
                | Some v => (true, bind_loc x (length m) r, m ++ [v])
                | None => (false, r, m)
                end
  | OSet x s => match src_read s r m, r x with
                | Some v, Some l => (true, r, write l v m)
                | _, _ => (false, r, m)
                end
  | OBlock params body =>
      let '(r0, m0) := declare params r m in
      let '(b, _, m') := lex_ops body r0 m0 in (b, r, m')
  | OCall params body =>
      let '(r0, m0) := declare params empty_env m in
      let '(b, _, m') := lex_ops body r0 m0 in (b, r, m')
  end.
Fixpoint lex_ops (l : list op) (r : lenv) (m : store) : bool * lenv * store :=
  match l with
  | [] => (true, r, m)
  | o :: l' => match lex_op o r m with
               | (true, r', m') => lex_ops l' r' m'
               | (false, r', m') => (false, r', m')
               end
  end.

(** Assigning several variables as if each had been set separately. *)
Fixpoint set_each (bs : list (string * val)) (ss : scopes) : res unit * scopes :=
  match bs with
  | [] => (Ok tt, ss)
  | b :: bs' => match set_vars [b] ss with
                | (Ok _, ss') => set_each bs' ss'
                | (Raise e, ss') => (Raise e, ss')
                end
  end.
(** The frame in which each name of [bs] is innermost defined is number [i]. *)
Definition all_visible_at (i : nat) (bs : list (string * val)) (ss : scopes) : Prop :=
  forall x v, In (x, v) bs -> exists w, visible ss i x w.
(** Each name is defined in at most one of the frames (the static check forbids shadowing). *)
Definition no_shadowing (ss : scopes) : Prop :=
  forall x i j v w, assoc x (nth i ss []) = Some v -> assoc x (nth j ss []) = Some w -> i = j.

(** [y] is the target of some assignment in the operation (function bodies do not count: they cannot see [y]). *)
Fixpoint assigns (y : string) (o : op) : bool :=
  match o with
  | OLet _ _ => false
  | OSet x _ => String.eqb x y
  | OBlock _ body => existsb (assigns y) body
  | OCall _ _ => false
  end.
