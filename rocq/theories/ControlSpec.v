(** Declarative semantics of loops, try and cast, against which the interpreter is checked. *)
From Verif Require Import Base ScopeModel CoreModel CoreFuel.
Open Scope string_scope.
Open Scope list_scope.
Open Scope Z_scope.

(** Running a block on top of given frames: the frames it leaves are [fs']. *)
Definition block_runs (E : env) (fs : list frame) (es : list expr) (s : st) (v : val) (fs' : list frame) (s' : st) : Prop :=
  exists n, in_frames fs (exec E n es) s = Done (Ok (v, fs')) s'.
Definition block_fails (E : env) (fs : list frame) (es : list expr) (s : st) (e : exn) (s' : st) : Prop :=
  exists n, in_frames fs (exec E n es) s = Done (Raise e) s'.

(** [while_runs p body pf bf s r s']: the loop, about to test its condition, ends with [r].  [pf] and [bf] are the frames of
    the condition and of the body, made once for the whole loop (genpy.py:822-824). *)
Inductive while_runs (E : env) (p : expr) (body : list expr) : frame -> frame -> st -> res val -> st -> Prop :=
| while_stop pf bf s b fs s' :
    block_runs E [pf; bf] [p] s b fs s' -> truthy b = false -> while_runs E p body pf bf s (Ok VNull) s'
| while_again pf bf s b pf1 bf1 s1 s2 v bf2 s3 r s4 :
    block_runs E [pf; bf] [p] s b [pf1; bf1] s1 -> truthy b = true -> check_time E s1 = Done (Ok tt) s2 ->
    block_runs E [bf1] body s2 v [bf2] s3 -> while_runs E p body pf1 bf2 s3 r s4 -> while_runs E p body pf bf s r s4
| while_cond_fails pf bf s e s' : block_fails E [pf; bf] [p] s e s' -> while_runs E p body pf bf s (Raise e) s'
| while_timeout pf bf s b fs s1 e s2 :
    block_runs E [pf; bf] [p] s b fs s1 -> truthy b = true -> check_time E s1 = Done (Raise e) s2 ->
    while_runs E p body pf bf s (Raise e) s2
| while_body_fails pf bf s b pf1 bf1 s1 s2 e s3 :
    block_runs E [pf; bf] [p] s b [pf1; bf1] s1 -> truthy b = true -> check_time E s1 = Done (Ok tt) s2 ->
    block_fails E [bf1] body s2 e s3 -> while_runs E p body pf bf s (Raise e) s3.

(** do-until: the body runs first; the loop stops the first time the condition is true. *)
Inductive until_runs (E : env) (body : list expr) (p : expr) : frame -> frame -> st -> res val -> st -> Prop :=
| until_stop pf bf s s1 v bf1 s2 b fs s3 :
    check_time E s = Done (Ok tt) s1 -> block_runs E [bf] body s1 v [bf1] s2 -> block_runs E [pf; bf1] [p] s2 b fs s3 ->
    truthy b = true -> until_runs E body p pf bf s (Ok VNull) s3
| until_again pf bf s s1 v bf1 s2 b pf2 bf2 s3 r s4 :
    check_time E s = Done (Ok tt) s1 -> block_runs E [bf] body s1 v [bf1] s2 -> block_runs E [pf; bf1] [p] s2 b [pf2; bf2] s3 ->
    truthy b = false -> until_runs E body p pf2 bf2 s3 r s4 -> until_runs E body p pf bf s r s4
| until_timeout pf bf s e s1 : check_time E s = Done (Raise e) s1 -> until_runs E body p pf bf s (Raise e) s1
| until_body_fails pf bf s s1 e s2 :
    check_time E s = Done (Ok tt) s1 -> block_fails E [bf] body s1 e s2 -> until_runs E body p pf bf s (Raise e) s2
| until_cond_fails pf bf s s1 v bf1 s2 e s3 :
    check_time E s = Done (Ok tt) s1 -> block_runs E [bf] body s1 v [bf1] s2 -> block_fails E [pf; bf1] [p] s2 e s3 ->
    until_runs E body p pf bf s (Raise e) s3.

(** The update of the loop variables of a for: all right hand sides, then all assignments. *)
Definition update_runs (E : env) (upd : list (string * expr)) (lf : frame) (s : st) (r : res frame) (s' : st) : Prop :=
  match r with
  | Ok lf' => exists n, in_frames [lf] (vs <== ev_named (eval E n) upd ;; set_vars_m vs) s = Done (Ok (tt, [lf'])) s'
  | Raise e => exists n, in_frames [lf] (vs <== ev_named (eval E n) upd ;; set_vars_m vs) s = Done (Raise e) s'
  end.
(** for, after the initialization: like while, with the update after each turn. [lf] is the frame of the loop variables. *)
Inductive for_runs (E : env) (p : expr) (upd : list (string * expr)) (body : list expr) : frame -> frame -> frame -> st -> res val -> st -> Prop :=
| for_stop pf bf lf s b fs s' :
    block_runs E [pf; lf] [p] s b fs s' -> truthy b = false -> for_runs E p upd body pf bf lf s (Ok VNull) s'
| for_again pf bf lf s b pf1 lf1 s1 s2 v bf2 lf2 s3 lf3 s4 r s5 :
    block_runs E [pf; lf] [p] s b [pf1; lf1] s1 -> truthy b = true -> check_time E s1 = Done (Ok tt) s2 ->
    block_runs E [bf; lf1] body s2 v [bf2; lf2] s3 -> update_runs E upd lf2 s3 (Ok lf3) s4 ->
    for_runs E p upd body pf1 bf2 lf3 s4 r s5 -> for_runs E p upd body pf bf lf s r s5
| for_cond_fails pf bf lf s e s' : block_fails E [pf; lf] [p] s e s' -> for_runs E p upd body pf bf lf s (Raise e) s'
| for_timeout pf bf lf s b fs s1 e s2 :
    block_runs E [pf; lf] [p] s b fs s1 -> truthy b = true -> check_time E s1 = Done (Raise e) s2 ->
    for_runs E p upd body pf bf lf s (Raise e) s2
| for_body_fails pf bf lf s b pf1 lf1 s1 s2 e s3 :
    block_runs E [pf; lf] [p] s b [pf1; lf1] s1 -> truthy b = true -> check_time E s1 = Done (Ok tt) s2 ->
    block_fails E [bf; lf1] body s2 e s3 -> for_runs E p upd body pf bf lf s (Raise e) s3
| for_update_fails pf bf lf s b pf1 lf1 s1 s2 v bf2 lf2 s3 e s4 :
    block_runs E [pf; lf] [p] s b [pf1; lf1] s1 -> truthy b = true -> check_time E s1 = Done (Ok tt) s2 ->
    block_runs E [bf; lf1] body s2 v [bf2; lf2] s3 -> update_runs E upd lf2 s3 (Raise e) s4 ->
    for_runs E p upd body pf bf lf s (Raise e) s4.

(** The turns of a foreach: for each of the [items], in order, the body runs once with the item's bindings in scope. *)
Inductive each_runs (E : env) (body : list expr) : list (list (string * val)) -> frame -> frame -> st -> res val -> st -> Prop :=
| each_done bf lf s : each_runs E body [] bf lf s (Ok VNull) s
| each_turn bs items bf lf s s1 v bf1 lf1 s2 r s3 :
    check_time E s = Done (Ok tt) s1 ->
    block_runs E [bf; frame_let bs lf] body s1 v [bf1; lf1] s2 ->
    each_runs E body items bf1 lf1 s2 r s3 -> each_runs E body (bs :: items) bf lf s r s3
| each_timeout bs items bf lf s e s1 :
    check_time E s = Done (Raise e) s1 -> each_runs E body (bs :: items) bf lf s (Raise e) s1
| each_fails bs items bf lf s s1 e s2 :
    check_time E s = Done (Ok tt) s1 -> block_fails E [bf; frame_let bs lf] body s1 e s2 ->
    each_runs E body (bs :: items) bf lf s (Raise e) s2.

(** A filter of try matches an exception by its message or its code. *)
Definition message_of (E : env) (e : exn) : option string :=
  match e with PFAErr c => Some (e_message E c) | UserErr m _ => Some m | _ => None end.
Definition code_of (e : exn) : option Z :=
  match e with PFAErr c => Some c | UserErr _ c => c | _ => None end.
Definition matches (E : env) (e : exn) (flt : list (string + Z)) : Prop :=
  (exists m, message_of E e = Some m /\ In (inl m) flt) \/ (exists c, code_of e = Some c /\ In (inr c) flt).
(** runtime and user exceptions of PFA, as opposed to timeouts and Python's own *)
Definition pfa_exception (e : exn) : Prop := match e with PFAErr _ | UserErr _ _ => True | _ => False end.

(** A case of a cast: how the value is seen by the case of type [ty]. A tagged value {tag: w} of a union is considered
    only if the tag is the type's name or a narrower number type; [u] is what gets decoded. *)
Definition narrower (tag name : string) : Prop :=
  tag = name \/ (tag = "int" /\ In name ["long"; "float"; "double"]) \/ (tag = "long" /\ In name ["float"; "double"]) \/
  (tag = "float" /\ name = "double").
Inductive seen_as (E : env) (fromUnion : bool) (ty : string) : val -> val -> Prop :=
| seen_tagged tag w : fromUnion = true -> narrower tag (e_tyname E ty) -> seen_as E fromUnion ty (VDict [(tag, w)]) w
| seen_plain v : fromUnion = false \/ (forall tag w, v <> VDict [(tag, w)]) -> seen_as E fromUnion ty v v.
(** the case accepts the value and binds its variable to [w] *)
Definition accepted (E : env) (fromUnion : bool) (ty : string) (v w : val) : Prop :=
  exists u, seen_as E fromUnion ty v u /\ e_decode E ty u = Ok w.
(** the value does not have the case's type *)
Definition rejected (E : env) (fromUnion : bool) (ty : string) (v : val) : Prop :=
  forall u, seen_as E fromUnion ty v u -> e_decode E ty u = Raise AvroErr \/ e_decode E ty u = Raise (PyErr "TypeError").
