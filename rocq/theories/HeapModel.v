(** Python objects and references to them: the storage of cells and pools, paths and backups as the generated code has
    them, titus/genpy.py:230-275 (actions), 296-304 (pool-del), 363-367 (new objects), 515-608 (Cell, Pool), 624-715
    (get, update). CoreModel has values in the place of objects; here values are objects in a heap that any number of
    variables, cells and other objects may refer to.
    A run is a trace of commands: every command takes references that something holds and gives one more reference.
    What a library function computes is a trace of [New] and [Flat] (it builds a new value out of parts of old ones),
    except for model.reg.updateChi2, which is [SetKey]. Which commands a document performs, and on what, depends on
    values only, so a trace stands for the run of a document. Locks and the state of shared cells are in ConcModel. *)
From Verif Require Import Base ScopeModel CoreModel.
Open Scope string_scope.
Open Scope list_scope.
Open Scope Z_scope.

(** A reference: a value without parts (None, booleans, numbers, strings: immutable in Python), or an object. *)
Inductive ref := RFlat (v : val) | RObj (a : nat).
Inductive obj := OArr (l : list ref) | ODict (d : list (string * ref)).
Definition heap := list obj.
Definition flat (v : val) : bool := match v with VArr _ | VDict _ => false | _ => true end.

(** ** get, 624-654 *)
Definition hget_one (h : heap) (r : ref) (key : val) (arrayErr mapErr : Z) : res ref :=
  match r with
  | RFlat _ => Raise (PyErr "TypeError")
  | RObj a =>
      match nth_error h a with
      | Some (OArr l) =>
          match key with
          | VInt i =>
              let n := Z.of_nat (length l) in
              let j := if i <? 0 then n + i else i in
              if ((0 <=? j) && (j <? n))%bool then Ok (nth (Z.to_nat j) l (RFlat VNull)) else Raise (PFAErr arrayErr)
          | _ => Raise (PyErr "TypeError")
          end
      | Some (ODict d) =>
          match key with
          | VStr k => match assoc k d with Some x => Ok x | None => Raise (PFAErr mapErr) end
          | _ => Raise (PFAErr mapErr)
          end
      | None => Raise (PyErr "TypeError")
      end
  end.
Fixpoint hget (h : heap) (r : ref) (path : list val) (arrayErr mapErr : Z) : res ref :=
  match path with
  | [] => Ok r
  | k :: path' => x <- hget_one h r k arrayErr mapErr ;; hget h x path' arrayErr mapErr
  end.
Fixpoint replace {A} (i : nat) (v : A) (l : list A) : list A :=
  match l, i with
  | [], _ => []
  | _ :: l', O => v :: l'
  | x :: l', S i' => x :: replace i' v l'
  end.

(** ** States *)
(** Cell: value, oldvalue (set by maybeSaveBackup), rollback. Pool: its dict, which is changed in place (589, 597, 300) *)
Record hcell := HCell { hc_value : ref; hc_old : option ref; hc_rollback : bool }.
Record hpool := HPool { hp_value : nat; hp_old : option nat; hp_rollback : bool }.
(** [held]: all the references that variables, the caller of the engine, and so on, ever had *)
Record hst := HSt { hs_heap : heap; hs_held : list ref; hs_cells : list (string * hcell); hs_pools : list (string * hpool) }.
Definition alloc (o : obj) (s : hst) : nat * hst :=
  (length (hs_heap s), HSt (hs_heap s ++ [o]) (hs_held s) (hs_cells s) (hs_pools s)).
Definition hold (r : ref) (s : hst) : hst := HSt (hs_heap s) (hs_held s ++ [r]) (hs_cells s) (hs_pools s).
Definition put_heap (h : heap) (s : hst) : hst := HSt h (hs_held s) (hs_cells s) (hs_pools s).
Definition put_cells c (s : hst) : hst := HSt (hs_heap s) (hs_held s) c (hs_pools s).
Definition put_pools p (s : hst) : hst := HSt (hs_heap s) (hs_held s) (hs_cells s) p.
(** x.value[k] = r *)
Definition set_key (a : nat) (k : string) (r : ref) (h : heap) : res heap :=
  match nth_error h a with
  | Some (ODict d) => Ok (replace a (ODict (dict_set k r d)) h)
  | _ => Raise (PyErr "TypeError")
  end.

(** ** Commands. Numbers are positions in [held]. *)
Inductive shape := ShArr (l : list nat) | ShDict (d : list (string * nat)).
Inductive cmd :=
| Flat (v : val)
| New (x : shape)
| Get (i : nat) (path : list val)
| AttrTo (i : nat) (path : list val) (to : target)
| CellGet (c : string) (path : list val)
| CellTo (c : string) (path : list val) (to : target)
| PoolGet (p : string) (key : val) (path : list val)
| PoolTo (p : string) (key : string) (path : list val) (to : target) (init : nat)
| PoolDel (p : string) (key : string)
| Try (body : cmds)
| Fail (e : exn)
| SetKey (i : nat) (key : string) (j : nat)
with cmds := Done_ | Then (c : cmd) (cs : cmds)
with target := ToVal (i : nat) | ToFcn (body : cmds).

Definition M (S A : Type) := S -> res A * S.
Definition mret {S A} (a : A) : M S A := fun s => (Ok a, s).
Definition mraise {S A} (e : exn) : M S A := fun s => (Raise e, s).
Definition mbind {S A B} (m : M S A) (k : A -> M S B) : M S B := fun s =>
  match m s with (Ok a, s') => k a s' | (Raise e, s') => (Raise e, s') end.
Definition mlift {S A} (r : res A) : M S A := fun s => (r, s).
Notation "x <! m ;; k" := (mbind m (fun x => k)) (at level 100, m at next level, right associativity).
Definition at_ {A} (i : nat) (l : list A) : res A := match nth_error l i with Some x => Ok x | None => Raise (PyErr "NameError") end.

(** update, 656-715: new objects along the path, the rest is shared; [leaf] is what happens at its end *)
Definition halloc (o : obj) : M hst ref := fun s => let (a, s') := alloc o s in (Ok (RObj a), s').
Fixpoint hupdate (leaf : ref -> M hst ref) (r : ref) (path : list val) (arrayErr mapErr : Z) : M hst ref :=
  match path with
  | [] => leaf r
  | k :: path' => fun s =>
      match r with
      | RFlat _ => (Raise (PyErr "Exception"), s)
      | RObj a =>
          match nth_error (hs_heap s) a with
          | Some (ODict d) =>
              match k with
              | VStr k =>
                  match assoc k d with
                  | None => match path' with [] => halloc (ODict d) s | _ => (Raise (PFAErr mapErr), s) end
                  | Some x => (x' <! hupdate leaf x path' arrayErr mapErr ;; halloc (ODict (dict_set k x' d))) s
                  end
              | _ => match path' with [] => halloc (ODict d) s | _ => (Raise (PFAErr mapErr), s) end
              end
          | Some (OArr l) =>
              match k with
              | VInt i =>
                  let n := Z.of_nat (length l) in
                  if (((match path' with [] => false | _ => true end) && (n <=? i)) || (i <? 0))%bool then (Raise (PFAErr arrayErr), s)
                  else if n <=? i then halloc (OArr l) s
                  else (x' <! hupdate leaf (nth (Z.to_nat i) l (RFlat VNull)) path' arrayErr mapErr ;;
                        halloc (OArr (replace (Z.to_nat i) x' l))) s
              | _ => (Raise (PyErr "TypeError"), s)
              end
          | None => (Raise (PyErr "Exception"), s)
          end
      end
  end.
Definition hcell_of (c : string) : M hst hcell := fun s => (match assoc c (hs_cells s) with Some x => Ok x | None => Raise (PyErr "KeyError") end, s).
Definition hpool_of (p : string) : M hst hpool := fun s => (match assoc p (hs_pools s) with Some x => Ok x | None => Raise (PyErr "KeyError") end, s).
Definition hcell_put (c : string) (r : ref) : M hst unit := fun s =>
  match assoc c (hs_cells s) with
  | Some x => (Ok tt, put_cells (dict_set c (HCell r (hc_old x) (hc_rollback x)) (hs_cells s)) s)
  | None => (Raise (PyErr "KeyError"), s)
  end.
Definition hheld (i : nat) : M hst ref := fun s => (at_ i (hs_held s), s).
Definition hpush (r : ref) : M hst unit := fun s => (Ok tt, hold r s).
Definition hlast : M hst ref := fun s => (Ok (last (hs_held s) (RFlat VNull)), s).
Definition hset (a : nat) (k : string) (r : ref) : M hst unit := fun s =>
  match set_key a k r (hs_heap s) with Ok h => (Ok tt, put_heap h s) | Raise e => (Raise e, s) end.
Definition hsub (a : nat) (k : string) : M hst (option ref) := fun s =>
  (match nth_error (hs_heap s) a with Some (ODict d) => Ok (assoc k d) | _ => Raise (PyErr "TypeError") end, s).
Definition hnew (x : shape) : M hst ref := fun s =>
  match x with
  | ShArr l => (rs <! mlift (rmapM (fun i => at_ i (hs_held s)) l) ;; halloc (OArr rs)) s
  | ShDict d => (kvs <! mlift (rmapM (fun p => r <- at_ (snd p) (hs_held s) ;; Ok (fst p, r)) d) ;; halloc (ODict kvs)) s
  end.

Fixpoint hrun (c : cmd) : M hst unit :=
  match c with
  | Flat v => if flat v then hpush (RFlat v) else mraise (PyErr "TypeError")
  | New x => r <! hnew x ;; hpush r
  | Get i path => r <! hheld i ;; x <! (fun s => (hget (hs_heap s) r path 2000 2001, s)) ;; hpush x
  | AttrTo i path to => r <! hheld i ;; x <! hupdate (hleaf to) r path 2002 2003 ;; hpush x
  | CellGet c path => q <! hcell_of c ;; x <! (fun s => (hget (hs_heap s) (hc_value q) path 2004 2005, s)) ;; hpush x
  | CellTo c path to =>
      q <! hcell_of c ;; x <! hupdate (hleaf to) (hc_value q) path 2006 2007 ;;
      _ <! hcell_put c x ;; hpush x                                            (* 545-548 *)
  | PoolGet p k path => q <! hpool_of p ;; x <! (fun s => (hget (hs_heap s) (RObj (hp_value q)) (k :: path) 2008 2009, s)) ;; hpush x
  | PoolTo p k path to i =>
      ini <! hheld i ;;
      q <! hpool_of p ;;
      o <! hsub (hp_value q) k ;;                                               (* 595-596 *)
      old <! match o with Some r => mret r | None => _ <! hset (hp_value q) k ini ;; mret ini end ;;
      x <! hupdate (hleaf to) old path 2010 2011 ;;
      q <! hpool_of p ;; _ <! hset (hp_value q) k x ;; hpush x                  (* 597-600 *)
  | PoolDel p k => q <! hpool_of p ;;
      (fun s => match nth_error (hs_heap s) (hp_value q) with
                | Some (ODict d) => (Ok tt, put_heap (replace (hp_value q) (ODict (dict_del k d)) (hs_heap s)) s)
                | _ => (Raise (PyErr "TypeError"), s)
                end)
  | Try body => fun s => match hruns body s with (Ok _, s') => (Ok tt, s') | (Raise _, s') => hpush (RFlat VNull) s' end
  | Fail e => mraise e
  | SetKey i k j =>                                                             (* lib/model/reg.py:500-503 *)
      r <! hheld i ;; x <! hheld j ;;
      match r with RObj a => _ <! hset a k x ;; hpush r | _ => mraise (PyErr "TypeError") end
  end
with hruns (cs : cmds) : M hst unit :=
  match cs with
  | Done_ => mret tt
  | Then c cs' => _ <! hrun c ;; hruns cs'
  end
(** 709-715: the value, or the function called on the old one *)
with hleaf (t : target) (old : ref) : M hst ref :=
  match t with
  | ToVal i => hheld i
  | ToFcn body => _ <! hpush old ;; _ <! hruns body ;; hlast
  end.

(** ** Actions *)
(** maybeSaveBackup, 550-552 and 602-604: a cell keeps the reference, a pool a copy of its dict *)
Definition save_cell (x : hcell) : hcell := HCell (hc_value x) (if hc_rollback x then Some (hc_value x) else hc_old x) (hc_rollback x).
Definition save_pool (x : hpool) (h : heap) : hpool * heap :=
  if hp_rollback x then
    match nth_error h (hp_value x) with
    | Some o => (HPool (hp_value x) (Some (length h)) true, h ++ [o])
    | None => (x, h)
    end
  else (x, h).
Fixpoint save_pools (l : list (string * hpool)) (h : heap) : list (string * hpool) * heap :=
  match l with
  | [] => ([], h)
  | (k, x) :: l' => let (x', h1) := save_pool x h in let (l1, h2) := save_pools l' h1 in ((k, x') :: l1, h2)
  end.
Definition hsave (s : hst) : hst :=
  let (ps, h) := save_pools (hs_pools s) (hs_heap s) in
  HSt h (hs_held s) (map (fun p => (fst p, save_cell (snd p))) (hs_cells s)) ps.
(** maybeRestoreBackup, 554-556 and 606-608 *)
Definition restore_cell (x : hcell) : hcell :=
  if hc_rollback x then match hc_old x with Some r => HCell r (hc_old x) true | None => x end else x.
Definition restore_pool (x : hpool) : hpool :=
  if hp_rollback x then match hp_old x with Some a => HPool a (hp_old x) true | None => x end else x.
Definition hrestore (s : hst) : hst :=
  HSt (hs_heap s) (hs_held s) (map (fun p => (fst p, restore_cell (snd p))) (hs_cells s)) (map (fun p => (fst p, restore_pool (snd p))) (hs_pools s)).
(** a call of action or merge (with backups), or of begin or end (without) *)
Inductive call := Guarded (body : cmds) | Plain (body : cmds).
Definition hcall (c : call) (s : hst) : res unit * hst :=
  match c with
  | Plain body => hruns body s
  | Guarded body => match hruns body (hsave s) with (Ok u, s') => (Ok u, s') | (Raise e, s') => (Raise e, hrestore s') end
  end.
Fixpoint hhistory (cs : list call) (s : hst) : list (res unit) * hst :=
  match cs with
  | [] => ([], s)
  | c :: cs' => let (r, s1) := hcall c s in let (rs, s2) := hhistory cs' s1 in (r :: rs, s2)
  end.
