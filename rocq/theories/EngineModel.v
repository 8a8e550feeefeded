(** The engine: begin, action, end, merge of the generated class (titus/genpy.py:181-304) and fromAst. *)
From Verif Require Import Base ScopeModel CoreModel.
Open Scope string_scope.

(** *** Options (titus/options.py) *)
(** options.py:26-48. The document's options and the host's, as name -> integer; [int(...)] of a non-number and the
    resulting initialization error are not modelled. *)
Definition combined_options (requested host : list (string * Z)) : list (string * Z) :=
  fold_left (fun d kv => dict_set (fst kv) (snd kv) d) host requested.
Definition long_opt (opts : list (string * Z)) (name : string) (default : Z) : Z :=
  match assoc name opts with Some z => z | None => default end.
Record options := Options { o_timeout : Z; o_begin : Z; o_action : Z; o_end : Z }.
(** options.py:43-46: the same key "timeout" is read four times *)
Definition engine_options (requested host : list (string * Z)) : options :=
  let opts := combined_options requested host in
  let t := long_opt opts "timeout" (-1) in
  Options t (long_opt opts "timeout" t) (long_opt opts "timeout" t) (long_opt opts "timeout" t).

(** *** Documents *)
Inductive method := MMap | MEmit | MFold.
(** pfaast.py:1108-1160 (Cell), 1209-1262 (Pool): the constructor rejects shared together with rollback *)
Record cell_decl := CellDecl { cd_init : val; cd_shared : bool; cd_rollback : bool }.
Record pool_decl := PoolDecl { pd_init : list (string * val); pd_shared : bool; pd_rollback : bool }.
Definition ast_cell (init : val) (shared rollback : bool) : res cell_decl :=
  if (shared && rollback)%bool then Raise (PyErr "PFASyntaxException") else Ok (CellDecl init shared rollback).
Definition ast_pool (init : list (string * val)) (shared rollback : bool) : res pool_decl :=
  if (shared && rollback)%bool then Raise (PyErr "PFASyntaxException") else Ok (PoolDecl init shared rollback).

Record doc := Doc {
  d_method : method;
  d_begin : list expr;
  d_action : list expr;
  d_end : list expr;
  d_merge : option (list expr);
  d_zero : val;
  d_cells : list (string * cell_decl);
  d_pools : list (string * pool_decl);
  d_name : val;
  d_instance : val;
  d_metadata : val;
  d_version : option val;
  d_check : val -> res val;       (* checkData(input, inputType) *)
  d_options : options }.

(** genpy.py:506-532 of fromAst (1506-1532): the run-time cells and pools. The values are already decoded. *)
Definition new_cell (d : cell_decl) : cell := Cell (cd_init d) (cd_shared d) (cd_rollback d) VNull false.
Definition new_pool (d : pool_decl) : pool := Pool (pd_init d) (pd_shared d) (pd_rollback d) [] false [].
Definition map_vals {A B} (f : A -> B) (l : list (string * A)) : list (string * B) := map (fun kv => (fst kv, f (snd kv))) l.
(** the engine's state after construction (genpy.py:182-198) *)
Definition load (D : doc) : st :=
  St [] (map_vals new_cell (d_cells D)) (map_vals new_pool (d_pools D)) 0 0 (d_zero D) [] [] None 0 0 0 [].

(** *** Backups: genpy.py:550-556, 602-608. The attribute oldvalue is the last two fields' [c_old], [p_old]. *)
Definition save_cell (x : cell) : cell :=
  if c_rollback x then Cell (c_value x) (c_shared x) (c_rollback x) (c_value x) (c_locked x) else x.
Definition restore_cell (x : cell) : cell :=
  if c_rollback x then Cell (c_old x) (c_shared x) (c_rollback x) (c_old x) (c_locked x) else x.
Definition save_pool (x : pool) : pool :=
  if p_rollback x then Pool (p_value x) (p_shared x) (p_rollback x) (p_value x) (p_locklock x) (p_locks x) else x.
Definition restore_pool (x : pool) : pool :=
  if p_rollback x then Pool (p_old x) (p_shared x) (p_rollback x) (p_old x) (p_locklock x) (p_locks x) else x.
Definition save_all (s : st) : st := set_pools (map_vals save_pool (s_pools s)) (set_cells (map_vals save_cell (s_cells s)) s).
Definition restore_all (s : st) : st := set_pools (map_vals restore_pool (s_pools s)) (set_cells (map_vals restore_cell (s_cells s)) s).

(** ExecutionState(options, rand, routine, parser): genpy.py:488-499 *)
Inductive routine := RBegin | RAction | REnd | RMerge.
Definition timeout_of (o : options) (r : routine) : option Z :=
  match r with RBegin => Some (o_begin o) | RAction => Some (o_action o) | REnd => Some (o_end o) | RMerge => None end.
Definition start (E : env) (D : doc) (r : routine) (s : st) : st :=
  set_tick (S (s_tick s)) (set_timing (timeout_of (d_options D) r) (e_time E (s_tick s)) s).

Definition common_vars (D : doc) : list (string * val) :=
  [("name", d_name D); ("instance", d_instance D); ("metadata", d_metadata D)].
Definition version_vars (D : doc) : list (string * val) :=
  match d_version D with Some v => [("version", v)] | None => [] end.
Definition tally_vars (D : doc) (s : st) : list (string * val) :=
  match d_method D with MFold => [("tally", s_tally s)] | _ => [] end.
Definition counter_vars (s : st) : list (string * val) :=
  [("actionsStarted", VInt (s_started s)); ("actionsFinished", VInt (s_finished s))].

Section Engine.
  Variable E : env.
  Variable D : doc.
  Variable n : nat.  (* fuel *)

  (** genpy.py:141-144, 207-220 *)
  Definition begin : EM unit := fun s =>
    match d_begin D with
    | [] => Done (Ok tt) s
    | es => (_ <== in_root [frame_let (common_vars D ++ version_vars D) []] (exec E n es) ;; ret tt) (start E D RAction s)
    end.

  (** the variables an action sees: lines 241-243, and 128 for fold *)
  Definition action_frame (input : val) (s : st) : frame :=
    frame_let ((("input", input) :: common_vars D) ++ counter_vars s ++ version_vars D ++ tally_vars D s) [].
  (** after the body: lines 112-132; [last] is the value of the last expression *)
  Definition finish (last : val) (s : st) : res val * st :=
    match d_method D with
    | MMap => (Ok last, set_finished (s_finished s + 1) s)
    | MEmit => (Ok VNull, set_finished (s_finished s + 1) s)
    | MFold => (Ok last, set_finished (s_finished s + 1) (set_tally last s))
    end.
  (** lines 233-239: the state in which the body starts *)
  Definition prepare (s : st) : st :=
    let s1 := save_all (start E D RAction s) in set_started (s_started s1 + 1) s1.
  (** genpy.py:229-252 with check=True *)
  Definition action (input : val) : EM val := fun s =>
    match d_check D input with
    | Raise e => Done (Raise e) s
    | Ok inp =>
        let s1 := prepare s in
        match in_root [action_frame inp s1] (exec E n (d_action D)) s1 with
        | Done (Ok last) s2 => let '(r, s3) := finish last s2 in Done r s3
        | Done (Raise e) s2 => Done (Raise e) (restore_all s2)
        | Blocked => Blocked
        | OutOfFuel => OutOfFuel
        end
    end.

  (** genpy.py:254-275 *)
  Definition merge (tallyOne tallyTwo : val) : EM val := fun s =>
    match d_merge D with
    | None => Done (Raise (PyErr "AttributeError")) s
    | Some es =>
        let s1 := save_all (start E D RMerge s) in
        match in_root [frame_let ((("tallyOne", tallyOne) :: ("tallyTwo", tallyTwo) :: common_vars D) ++ version_vars D) []]
                      (exec E n es) s1 with
        | Done (Ok last) s2 => Done (Ok last) (set_tally last s2)
        | Done (Raise e) s2 => Done (Raise e) (restore_all s2)
        | Blocked => Blocked
        | OutOfFuel => OutOfFuel
        end
    end.

  (** genpy.py:277-294 *)
  Definition end_ : EM unit := fun s =>
    match d_end D with
    | [] => Done (Ok tt) s
    | es => (_ <== in_root [frame_let (common_vars D ++ counter_vars s ++ version_vars D ++ tally_vars D s) []] (exec E n es) ;; ret tt)
              (start E D RAction s)
    end.

  (** A history of calls, as a host program makes them: an exception of one call does not prevent the next. *)
  Inductive call := CBegin | CAction (input : val) | CMerge (one two : val) | CEnd.
  Definition do_call (c : call) : EM val :=
    match c with
    | CBegin => _ <== begin ;; ret VNull
    | CAction input => action input
    | CMerge a b => merge a b
    | CEnd => _ <== end_ ;; ret VNull
    end.
  (** the outcomes of all the calls and the final state; None if some call does not come back *)
  Fixpoint history (cs : list call) (s : st) : option (list (res val) * st) :=
    match cs with
    | [] => Some ([], s)
    | c :: cs' =>
        match do_call c s with
        | Done r s1 => match history cs' s1 with
                       | Some (rs, s2) => Some (r :: rs, s2)
                       | None => None
                       end
        | _ => None
        end
    end.
End Engine.
