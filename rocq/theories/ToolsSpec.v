(** What indexes, patterns and searches are supposed to mean. *)
From Verif Require Import Base PyNum ScopeModel MapSpec ToolsModel.
Open Scope string_scope.
Open Scope list_scope.
Open Scope Z_scope.

(** Every dict has each key once. *)
Fixpoint tree (v : val) : Prop :=
  match v with
  | VDict d => NoDup (map fst d) /\ (fix all (d : list (string * val)) : Prop := match d with [] => True | kv :: d' => tree (snd kv) /\ all d' end) d
  | VArr l => (fix all (l : list val) : Prop := match l with [] => True | x :: l' => tree x /\ all l' end) l
  | _ => True
  end.
(** [part v p x]: x is the part of v at p. *)
Inductive part : val -> path -> val -> Prop :=
| part_whole v : part v [] v
| part_key d k y p x : In (k, y) d -> part y p x -> part (VDict d) (K k :: p) x
| part_item l n y p x : nth_error l n = Some y -> part y p x -> part (VArr l) (I (Z.of_nat n) :: p) x.
(** The order of a search: inner parts before the whole, keys by their text, items by their position. *)
Definition step_before (a b : step) : Prop :=
  match a, b with K k, K l => str_before k l | I i, I j => i < j | _, _ => False end.
Definition before (p q : path) : Prop :=
  (exists i r, p = q ++ i :: r) \/ (exists c a b p' q', p = c ++ a :: p' /\ q = c ++ b :: q' /\ step_before a b).
(** no position counted from the end *)
Definition plain (p : path) : Prop := forall i, In (I i) p -> 0 <= i.
(** one index is not inside the other *)
Definition apart (p q : path) : Prop := exists c a b p' q', p = c ++ a :: p' /\ q = c ++ b :: q' /\ a <> b.

(** *** Patterns *)
Definition number (v : val) (n : num) : Prop :=
  match v with VBool b => n = NI (if b then 1 else 0) | VInt z => n = NI z | VFlt f => n = NF f | _ => False end.
(** [matches p v]; marks "@" are ignored. The comparisons are "not greater or equal" and the like, so that NaN passes. *)
Fixpoint matches (p : pat) (v : val) {struct p} : Prop :=
  let entries := fix entries (d : list (string * pat)) (e : list (string * val)) : Prop :=
    match d with [] => True | (k, q) :: d' => (k <> "@" -> exists x, assoc k e = Some x /\ matches q x) /\ entries d' e end in
  let items := fix items (l : list pat) (w : list val) : Prop :=
    match l, w with [], [] => True | q :: l', x :: w' => matches q x /\ items l' w' | _, _ => False end in
  match p with
  | PDict d => exists e, v = VDict e /\ (forall k, k <> "@" -> (In k (map fst d) <-> In k (map fst e))) /\ entries d e
  | PList l => exists w, v = VArr w /\ items l w
  | PStr s => v = VStr s
  | PNum n => exists m, number v m /\ num_eq n m = true
  | PBool b => exists m, number v m /\ num_eq (NI (if b then 1 else 0)) m = true
  | PNull => v = VNull
  | PGroup _ q => matches q v
  | PMin d => exists e, v = VDict e /\ entries d e
  | PStart l => exists w r, v = VArr (w ++ r) /\ items l w
  | PEnd l => exists r w, v = VArr (r ++ w) /\ items l w
  | POr l => (fix some (l : list pat) : Prop := match l with [] => False | q :: l' => matches q v \/ some l' end) l
  | PAnd l => l <> [] /\ (fix every (l : list pat) : Prop := match l with [] => True | q :: l' => matches q v /\ every l' end) l
  | PApprox c e => exists m d, number v m /\ py_sub m c = Ok d /\ num_gt (py_abs d) e = false
  | PLT n => exists m, number v m /\ num_ge m n = false
  | PLE n => exists m, number v m /\ num_gt m n = false
  | PGT n => exists m, number v m /\ num_le m n = false
  | PGE n => exists m, number v m /\ num_lt m n = false
  | PRegEx f _ => exists s, v = VStr s /\ f s = true
  | PAny ts => ts = [] \/ exists t, In t ts /\ instance v t = true
  end.
(** [copy v w]: w is v, but dicts may have lost a mark "@" and have their keys in another order. *)
Inductive copy : val -> val -> Prop :=
| copy_same v : copy v v
| copy_arr l m : Forall2 copy l m -> copy (VArr l) (VArr m)
| copy_dict d e : (forall k, k <> "@" -> (In k (map fst d) <-> In k (map fst e))) -> (In "@" (map fst e) -> In "@" (map fst d)) ->
    (forall k x y, k <> "@" -> In (k, x) d -> In (k, y) e -> copy x y) -> copy (VDict d) (VDict e).
(** no pattern inside replaces text *)
Fixpoint keeps_text (p : pat) : Prop :=
  match p with
  | PRegEx _ (Some _) => False
  | PDict d | PMin d => (fix all (d : list (string * pat)) : Prop := match d with [] => True | kq :: d' => keeps_text (snd kq) /\ all d' end) d
  | PList l | PStart l | PEnd l | POr l | PAnd l => (fix all (l : list pat) : Prop := match l with [] => True | q :: l' => keeps_text q /\ all l' end) l
  | PGroup _ q => keeps_text q
  | _ => True
  end.
(** *** Replacing *)
(** [replaced f v w]: from the leaves upwards, every part is replaced by what f makes of it. *)
Inductive replaced (f : val -> val) : val -> val -> Prop :=
| rep_dict d e : Forall2 (fun kx ky => fst kx = fst ky /\ replaced f (snd kx) (snd ky)) d e -> replaced f (VDict d) (f (VDict e))
| rep_arr l m : Forall2 (replaced f) l m -> replaced f (VArr l) (f (VArr m))
| rep_leaf v : (forall d, v <> VDict d) -> (forall l, v <> VArr l) -> replaced f v (f v).
(** only the parts inside *)
Definition inside (f : val -> val) (v w : val) : Prop :=
  match v with
  | VDict d => exists e, w = VDict e /\ Forall2 (fun kx ky => fst kx = fst ky /\ replaced f (snd kx) (snd ky)) d e
  | VArr l => exists m, w = VArr m /\ Forall2 (replaced f) l m
  | _ => w = v
  end.
(** a document as a pattern *)
Fixpoint literal (v : val) : pat :=
  match v with
  | VNull => PNull
  | VBool b => PBool b
  | VInt z => PNum (NI z)
  | VFlt f => PNum (NF f)
  | VStr s => PStr s
  | VBytes _ => PNull
  | VArr l => PList (map literal l)
  | VDict d => PDict (map (fun kv => (fst kv, literal (snd kv))) d)
  end.
(** a JSON document: no bytes, no NaN *)
Fixpoint json (v : val) : Prop :=
  match v with
  | VBytes _ => False
  | VFlt f => isnan f = false
  | VDict d => (fix all (d : list (string * val)) : Prop := match d with [] => True | kv :: d' => json (snd kv) /\ all d' end) d
  | VArr l => (fix all (l : list val) : Prop := match l with [] => True | x :: l' => json x /\ all l' end) l
  | _ => True
  end.
Definition leaf (v : val) : Prop := (forall d, v <> VDict d) /\ (forall l, v <> VArr l).
(** [within p q]: q is p or a pattern inside it, entries for "@" apart. *)
Inductive within : pat -> pat -> Prop :=
| in_self p : within p p
| in_group n q r : within q r -> within (PGroup n q) r
| in_dict d k q r : k <> "@" -> In (k, q) d -> within q r -> within (PDict d) r
| in_min d k q r : k <> "@" -> In (k, q) d -> within q r -> within (PMin d) r
| in_list l q r : In q l -> within q r -> within (PList l) r
| in_start l q r : In q l -> within q r -> within (PStart l) r
| in_end l q r : In q l -> within q r -> within (PEnd l) r
| in_or l q r : In q l -> within q r -> within (POr l) r
| in_and l q r : In q l -> within q r -> within (PAnd l) r.
(** [binds p g]: a match of p has a group g, whichever way it matches. *)
Inductive binds : pat -> string -> Prop :=
| b_self g q : binds (PGroup g q) g
| b_group n q g : binds q g -> binds (PGroup n q) g
| b_dict d k q g : k <> "@" -> In (k, q) d -> binds q g -> binds (PDict d) g
| b_min d k q g : k <> "@" -> In (k, q) d -> binds q g -> binds (PMin d) g
| b_list l q g : In q l -> binds q g -> binds (PList l) g
| b_start l q g : In q l -> binds q g -> binds (PStart l) g
| b_end l q g : In q l -> binds q g -> binds (PEnd l) g
| b_or l g : l <> [] -> (forall q, In q l -> binds q g) -> binds (POr l) g
| b_and l q g : binds q g -> binds (PAnd (l ++ [q])) g.
