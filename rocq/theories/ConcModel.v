(** Several engines (threads) working on the same shared cells and pools, one Python statement at a time.

    Threads interleave between statements; a statement that reads or writes one attribute or one dictionary
    entry is atomic (CPython's global interpreter lock), and so are acquire and release of a threading.Lock.
    Everything a thread does away from shared storage is hidden in the continuations of [prog] and [comp].
    Cells and pools that are not shared belong to one engine and are modelled in CoreModel.v. *)
From Verif Require Import Base ScopeModel.
Open Scope string_scope.
Open Scope list_scope.

(** The evaluation of update(state, scope, old value, path, to, ...) of genpy.py:656-715: it may read shared cells and
    pool items (genpy.py:384-385, 390-391; reading takes no lock), and it returns the new value or raises.
    It updates no cell and no pool: that is what the deadlock check of genpy.py:1325-1358 is for. *)
Inductive comp :=
| CRet (v : val)
| CRaise (e : exn)
| CCell (c : string) (k : val -> comp)
| CItem (p h : string) (k : option val -> comp).

(** What remains to be done by a thread: any mixture of updates, reads and deletions, chosen by what it has seen.
    The update functions receive the value being replaced. An exception may be handled by the program. *)
Inductive prog :=
| PEnd
| PCellTo (c : string) (f : val -> comp) (k : res val -> prog)                  (* genpy.py:387-388 *)
| PPoolTo (p h : string) (init : val) (f : val -> comp) (k : res val -> prog)   (* genpy.py:393-394 *)
| PCellGet (c : string) (k : val -> prog)                                       (* genpy.py:384-385 *)
| PPoolGet (p h : string) (k : option val -> prog)                              (* genpy.py:390-391 *)
| PPoolDel (p h : string) (k : prog).                                           (* genpy.py:396-397, 297-303 *)

(** Where a thread is. The comments give the line about to be executed in genpy.py. *)
Inductive thread :=
| TRun (p : prog)
(* Cell.update, shared branch *)
| TCRead (c : string) (f : val -> comp) (k : res val -> prog)   (* 542: read self.value; lock held *)
| TCComp (c : string) (m : comp) (k : res val -> prog)          (* 542: update(...) running, then assignment *)
| TCRes (c : string) (k : res val -> prog)                      (* 543: result = self.value *)
| TCRel (c : string) (v : val) (k : res val -> prog)            (* 544: self.lock.release() *)
(* Pool.update, shared branch *)
| TPLock (p h : string) (init : val) (f : val -> comp) (k : res val -> prog)  (* 580-584: locklock held, take locks[head] *)
| TPUnl (p h : string) (init : val) (f : val -> comp) (k : res val -> prog)   (* 585: locklock.release() *)
| TPTest (p h : string) (init : val) (f : val -> comp) (k : res val -> prog)  (* 587: head not in self.value *)
| TPInit (p h : string) (init : val) (f : val -> comp) (k : res val -> prog)  (* 588: self.value[head] = init *)
| TPRead (p h : string) (f : val -> comp) (k : res val -> prog)               (* 589: read self.value[head] *)
| TPComp (p h : string) (m : comp) (k : res val -> prog)                      (* 589: update(...), then assignment *)
| TPRes (p h : string) (k : res val -> prog)                                  (* 591: result = self.value[head] *)
| TPRel (p h : string) (v : val) (k : res val -> prog).                       (* 592: self.locks[head].release() *)

(** Shared storage: titus/genpy.py:505-513 (SharedState), 524-530 (Cell), 558-565 (Pool). Locks hold the thread that
    took them. A lock of [i_lock] that was never created is the same as a free one (580-584). *)
Record shared := Shared {
  c_val : string -> val;
  c_lock : string -> option nat;
  p_val : string -> string -> option val;
  p_locklock : string -> option nat;
  i_lock : string -> string -> option nat;
  threads : nat -> thread }.

Definition fset {A} (f : string -> A) (k : string) (a : A) : string -> A :=
  fun x => if String.eqb x k then a else f x.
Definition fset2 {A} (f : string -> string -> A) (k h : string) (a : A) : string -> string -> A :=
  fset f k (fset (f k) h a).
Definition nset (f : nat -> thread) (k : nat) (a : thread) : nat -> thread :=
  fun x => if Nat.eqb x k then a else f x.
Definition goto (i : nat) (t : thread) (s : shared) := Shared (c_val s) (c_lock s) (p_val s) (p_locklock s) (i_lock s) (nset (threads s) i t).
Definition put_c (c : string) (v : val) (s : shared) := Shared (fset (c_val s) c v) (c_lock s) (p_val s) (p_locklock s) (i_lock s) (threads s).
Definition lock_c (c : string) (o : option nat) (s : shared) := Shared (c_val s) (fset (c_lock s) c o) (p_val s) (p_locklock s) (i_lock s) (threads s).
Definition put_p (p h : string) (v : option val) (s : shared) := Shared (c_val s) (c_lock s) (fset2 (p_val s) p h v) (p_locklock s) (i_lock s) (threads s).
Definition lock_l (p : string) (o : option nat) (s : shared) := Shared (c_val s) (c_lock s) (p_val s) (fset (p_locklock s) p o) (i_lock s) (threads s).
Definition lock_i (p h : string) (o : option nat) (s : shared) := Shared (c_val s) (c_lock s) (p_val s) (p_locklock s) (fset2 (i_lock s) p h o) (threads s).

(** What an observer sees of a step. *)
Inductive label :=
| Silent
| CellStart (i : nat) (c : string) (f : val -> comp)                    (* thread i begins to update c with f *)
| CellDone (i : nat) (c : string) (v : val)                             (* ... and its cell-to returns v *)
| CellFail (i : nat) (c : string) (e : exn)                             (* ... or raises *)
| ItemStart (i : nat) (p h : string) (init : val) (f : val -> comp)
| ItemDone (i : nat) (p h : string) (v : val)
| ItemFail (i : nat) (p h : string) (e : exn)
| ItemDel (i : nat) (p h : string).

Definition key_error := PyErr "KeyError".

(** One step of thread i; None: finished, or waiting for a lock. *)
Definition step (i : nat) (s : shared) : option (label * shared) :=
  match threads s i with
  | TRun PEnd => None
  | TRun (PCellTo c f k) =>                                           (* 541 *)
      match c_lock s c with
      | None => Some (CellStart i c f, goto i (TCRead c f k) (lock_c c (Some i) s))
      | Some _ => None
      end
  | TCRead c f k => Some (Silent, goto i (TCComp c (f (c_val s c)) k) s)
  | TCComp c (CRet v) k => Some (Silent, goto i (TCRes c k) (put_c c v s))
  | TCComp c (CRaise e) k => Some (CellFail i c e, goto i (TRun (k (Raise e))) s)   (* the lock stays *)
  | TCComp c (CCell d g) k => Some (Silent, goto i (TCComp c (g (c_val s d)) k) s)
  | TCComp c (CItem p h g) k => Some (Silent, goto i (TCComp c (g (p_val s p h)) k) s)
  | TCRes c k => Some (Silent, goto i (TCRel c (c_val s c) k) s)
  | TCRel c v k => Some (CellDone i c v, goto i (TRun (k (Ok v))) (lock_c c None s))
  | TRun (PPoolTo p h init f k) =>                                    (* 579 *)
      match p_locklock s p with
      | None => Some (Silent, goto i (TPLock p h init f k) (lock_l p (Some i) s))
      | Some _ => None
      end
  | TPLock p h init f k =>
      match i_lock s p h with
      | None => Some (ItemStart i p h init f, goto i (TPUnl p h init f k) (lock_i p h (Some i) s))
      | Some _ => None
      end
  | TPUnl p h init f k => Some (Silent, goto i (TPTest p h init f k) (lock_l p None s))
  | TPTest p h init f k =>
      match p_val s p h with
      | Some _ => Some (Silent, goto i (TPRead p h f k) s)
      | None => Some (Silent, goto i (TPInit p h init f k) s)
      end
  | TPInit p h init f k => Some (Silent, goto i (TPRead p h f k) (put_p p h (Some init) s))
  | TPRead p h f k =>
      match p_val s p h with
      | Some v => Some (Silent, goto i (TPComp p h (f v) k) s)
      | None => Some (ItemFail i p h key_error, goto i (TRun (k (Raise key_error))) s)
      end
  | TPComp p h (CRet v) k => Some (Silent, goto i (TPRes p h k) (put_p p h (Some v) s))
  | TPComp p h (CRaise e) k => Some (ItemFail i p h e, goto i (TRun (k (Raise e))) s)
  | TPComp p h (CCell d g) k => Some (Silent, goto i (TPComp p h (g (c_val s d)) k) s)
  | TPComp p h (CItem p' h' g) k => Some (Silent, goto i (TPComp p h (g (p_val s p' h')) k) s)
  | TPRes p h k =>
      match p_val s p h with
      | Some v => Some (Silent, goto i (TPRel p h v k) s)
      | None => Some (ItemFail i p h key_error, goto i (TRun (k (Raise key_error))) s)
      end
  | TPRel p h v k => Some (ItemDone i p h v, goto i (TRun (k (Ok v))) (lock_i p h None s))
  | TRun (PCellGet c k) => Some (Silent, goto i (TRun (k (c_val s c))) s)
  | TRun (PPoolGet p h k) => Some (Silent, goto i (TRun (k (p_val s p h))) s)
  | TRun (PPoolDel p h k) => Some (ItemDel i p h, goto i (TRun k) (put_p p h None s))   (* 300; no lock *)
  end.
