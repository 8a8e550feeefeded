(** Specification of C71: the same commands on values. There are no objects: a new value never changes an old one. *)
From Verif Require Import Base ScopeModel CoreModel HeapModel.
Open Scope string_scope.
Open Scope list_scope.
Open Scope Z_scope.

Record vcell := VCell { vc_value : val; vc_old : option val; vc_rollback : bool }.
Record vpool := VPool { vp_value : list (string * val); vp_old : option (list (string * val)); vp_rollback : bool }.
Record vst := VSt { vs_held : list val; vs_cells : list (string * vcell); vs_pools : list (string * vpool) }.
Definition vhold (v : val) (s : vst) : vst := VSt (vs_held s ++ [v]) (vs_cells s) (vs_pools s).
Definition vpush (v : val) : M vst unit := fun s => (Ok tt, vhold v s).
Definition vheld (i : nat) : M vst val := fun s => (at_ i (vs_held s), s).
Definition vlast : M vst val := fun s => (Ok (last (vs_held s) VNull), s).
Definition vcell_of (c : string) : M vst vcell := fun s => (match assoc c (vs_cells s) with Some x => Ok x | None => Raise (PyErr "KeyError") end, s).
Definition vpool_of (p : string) : M vst vpool := fun s => (match assoc p (vs_pools s) with Some x => Ok x | None => Raise (PyErr "KeyError") end, s).
Definition vcell_put (c : string) (v : val) : M vst unit := fun s =>
  match assoc c (vs_cells s) with
  | Some x => (Ok tt, VSt (vs_held s) (dict_set c (VCell v (vc_old x) (vc_rollback x)) (vs_cells s)) (vs_pools s))
  | None => (Raise (PyErr "KeyError"), s)
  end.
Definition vpool_put (p : string) (d : list (string * val)) : M vst unit := fun s =>
  match assoc p (vs_pools s) with
  | Some x => (Ok tt, VSt (vs_held s) (vs_cells s) (dict_set p (VPool d (vp_old x) (vp_rollback x)) (vs_pools s)))
  | None => (Raise (PyErr "KeyError"), s)
  end.
(** the value with the part at the end of the path replaced *)
Fixpoint vupdate (leaf : val -> M vst val) (v : val) (path : list val) (arrayErr mapErr : Z) : M vst val :=
  match path with
  | [] => leaf v
  | k :: path' =>
      match v, k with
      | VDict d, VStr k =>
          match assoc k d with
          | None => match path' with [] => mret (VDict d) | _ => mraise (PFAErr mapErr) end
          | Some x => x' <! vupdate leaf x path' arrayErr mapErr ;; mret (VDict (dict_set k x' d))
          end
      | VDict d, _ => match path' with [] => mret (VDict d) | _ => mraise (PFAErr mapErr) end
      | VArr l, VInt i =>
          let n := Z.of_nat (length l) in
          if (((match path' with [] => false | _ => true end) && (n <=? i)) || (i <? 0))%bool then mraise (PFAErr arrayErr)
          else if n <=? i then mret (VArr l)
          else x' <! vupdate leaf (nth (Z.to_nat i) l VNull) path' arrayErr mapErr ;; mret (VArr (replace (Z.to_nat i) x' l))
      | VArr _, _ => mraise (PyErr "TypeError")
      | _, _ => mraise (PyErr "Exception")
      end
  end.
Definition vnew (x : shape) : M vst val := fun s =>
  match x with
  | ShArr l => (vs <! mlift (rmapM (fun i => at_ i (vs_held s)) l) ;; mret (VArr vs)) s
  | ShDict d => (kvs <! mlift (rmapM (fun p => r <- at_ (snd p) (vs_held s) ;; Ok (fst p, r)) d) ;; mret (VDict kvs)) s
  end.
Fixpoint vrun (c : cmd) : M vst unit :=
  match c with
  | Flat v => if flat v then vpush v else mraise (PyErr "TypeError")
  | New x => v <! vnew x ;; vpush v
  | Get i path => v <! vheld i ;; x <! mlift (get_path v path 2000 2001) ;; vpush x
  | AttrTo i path to => v <! vheld i ;; x <! vupdate (vleaf to) v path 2002 2003 ;; vpush x
  | CellGet c path => q <! vcell_of c ;; x <! mlift (get_path (vc_value q) path 2004 2005) ;; vpush x
  | CellTo c path to => q <! vcell_of c ;; x <! vupdate (vleaf to) (vc_value q) path 2006 2007 ;; _ <! vcell_put c x ;; vpush x
  | PoolGet p k path => q <! vpool_of p ;; x <! mlift (get_path (VDict (vp_value q)) (k :: path) 2008 2009) ;; vpush x
  | PoolTo p k path to i =>
      ini <! vheld i ;; q <! vpool_of p ;;
      old <! match assoc k (vp_value q) with Some v => mret v | None => _ <! vpool_put p (dict_set k ini (vp_value q)) ;; mret ini end ;;
      x <! vupdate (vleaf to) old path 2010 2011 ;;
      q <! vpool_of p ;; _ <! vpool_put p (dict_set k x (vp_value q)) ;; vpush x
  | PoolDel p k => q <! vpool_of p ;; vpool_put p (dict_del k (vp_value q))
  | Try body => fun s => match vruns body s with (Ok _, s') => (Ok tt, s') | (Raise _, s') => vpush VNull s' end
  | Fail e => mraise e
  | SetKey i k j =>                    (* a new record with the field set *)
      v <! vheld i ;; x <! vheld j ;; match v with VDict d => vpush (VDict (dict_set k x d)) | _ => mraise (PyErr "TypeError") end
  end
with vruns (cs : cmds) : M vst unit :=
  match cs with
  | Done_ => mret tt
  | Then c cs' => _ <! vrun c ;; vruns cs'
  end
with vleaf (t : target) (old : val) : M vst val :=
  match t with
  | ToVal i => vheld i
  | ToFcn body => _ <! vpush old ;; _ <! vruns body ;; vlast
  end.
Definition vsave (s : vst) : vst :=
  VSt (vs_held s)
      (map (fun p => let x := snd p in (fst p, VCell (vc_value x) (if vc_rollback x then Some (vc_value x) else vc_old x) (vc_rollback x))) (vs_cells s))
      (map (fun p => let x := snd p in (fst p, VPool (vp_value x) (if vp_rollback x then Some (vp_value x) else vp_old x) (vp_rollback x))) (vs_pools s)).
Definition vrestore (s : vst) : vst :=
  VSt (vs_held s)
      (map (fun p => let x := snd p in (fst p, if vc_rollback x then match vc_old x with Some v => VCell v (vc_old x) true | None => x end else x)) (vs_cells s))
      (map (fun p => let x := snd p in (fst p, if vp_rollback x then match vp_old x with Some v => VPool v (vp_old x) true | None => x end else x)) (vs_pools s)).
Definition vcall (c : call) (s : vst) : res unit * vst :=
  match c with
  | Plain body => vruns body s
  | Guarded body => match vruns body (vsave s) with (Ok u, s') => (Ok u, s') | (Raise e, s') => (Raise e, vrestore s') end
  end.
Fixpoint vhistory (cs : list call) (s : vst) : list (res unit) * vst :=
  match cs with
  | [] => ([], s)
  | c :: cs' => let (r, s1) := vcall c s in let (rs, s2) := vhistory cs' s1 in (r :: rs, s2)
  end.

(** ** What a reference stands for *)
(** [own]: the dicts of the pools, which no value refers to *)
Inductive denotes (own : list nat) (h : heap) : ref -> val -> Prop :=
| d_flat v : flat v = true -> denotes own h (RFlat v) v
| d_arr a l vs : ~ In a own -> nth_error h a = Some (OArr l) -> all_denote own h l vs -> denotes own h (RObj a) (VArr vs)
| d_dict a d kvs : ~ In a own -> nth_error h a = Some (ODict d) -> fields_denote own h d kvs -> denotes own h (RObj a) (VDict kvs)
with all_denote (own : list nat) (h : heap) : list ref -> list val -> Prop :=
| a_nil : all_denote own h [] []
| a_cons r v l vs : denotes own h r v -> all_denote own h l vs -> all_denote own h (r :: l) (v :: vs)
with fields_denote (own : list nat) (h : heap) : list (string * ref) -> list (string * val) -> Prop :=
| f_nil : fields_denote own h [] []
| f_cons k r v d kvs : denotes own h r v -> fields_denote own h d kvs -> fields_denote own h ((k, r) :: d) ((k, v) :: kvs).

(** the dicts of the pools: those in use, and the backups while an action runs *)
Definition olds (l : list (string * hpool)) : list nat :=
  flat_map (fun p => if hp_rollback (snd p) then match hp_old (snd p) with Some a => [a] | None => [] end else []) l.
Definition owned (saved : bool) (s : hst) : list nat := map (fun p => hp_value (snd p)) (hs_pools s) ++ (if saved then olds (hs_pools s) else []).
Definition same_old {A B} (D : A -> B -> Prop) (saved rollback : bool) (x : option A) (y : option B) : Prop :=
  if (saved && rollback)%bool then exists a b, x = Some a /\ y = Some b /\ D a b else True.
Definition cell_matches (own : list nat) (h : heap) (saved : bool) (x : hcell) (y : vcell) : Prop :=
  hc_rollback x = vc_rollback y /\ denotes own h (hc_value x) (vc_value y) /\ same_old (denotes own h) saved (hc_rollback x) (hc_old x) (vc_old y).
Definition dict_denotes (own : list nat) (h : heap) (a : nat) (d : list (string * val)) : Prop :=
  exists o, nth_error h a = Some (ODict o) /\ fields_denote own h o d.
Definition pool_matches (own : list nat) (h : heap) (saved : bool) (x : hpool) (y : vpool) : Prop :=
  hp_rollback x = vp_rollback y /\ dict_denotes own h (hp_value x) (vp_value y) /\ same_old (dict_denotes own h) saved (hp_rollback x) (hp_old x) (vp_old y).
Definition named {A B} (R : A -> B -> Prop) (x : string * A) (y : string * B) : Prop := fst x = fst y /\ R (snd x) (snd y).
Record matches (saved : bool) (s : hst) (t : vst) : Prop := {
  m_apart : NoDup (owned saved s);
  m_held : all_denote (owned saved s) (hs_heap s) (hs_held s) (vs_held t);
  m_cells : Forall2 (named (cell_matches (owned saved s) (hs_heap s) saved)) (hs_cells s) (vs_cells t);
  m_pools : Forall2 (named (pool_matches (owned saved s) (hs_heap s) saved)) (hs_pools s) (vs_pools t) }.

(** no in-place update of a value *)
Fixpoint pure (c : cmd) : Prop :=
  match c with
  | SetKey _ _ _ => False
  | AttrTo _ _ t | CellTo _ _ t | PoolTo _ _ _ t _ => pure_to t
  | Try body => pures body
  | _ => True
  end
with pures (cs : cmds) : Prop := match cs with Done_ => True | Then c cs' => pure c /\ pures cs' end
with pure_to (t : target) : Prop := match t with ToVal _ => True | ToFcn body => pures body end.
Definition pure_call (c : call) : Prop := match c with Guarded b | Plain b => pures b end.
