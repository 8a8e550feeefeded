(** What "no update is lost" means. *)
From Verif Require Import Base ScopeModel ConcModel.
Open Scope string_scope.
Open Scope list_scope.

(** Any schedule: a sequence of steps of any threads, with what is observed, oldest first. *)
Inductive execution (s : shared) : list label -> shared -> Prop :=
| ex_nil : execution s [] s
| ex_step t s1 i l s2 : execution s t s1 -> step i s1 = Some (l, s2) -> execution s (t ++ [l]) s2.

(** All threads at the start of their programs, all locks free. *)
Definition start (s : shared) : Prop :=
  (forall i, exists p, threads s i = TRun p) /\
  (forall c, c_lock s c = None) /\ (forall p, p_locklock s p = None) /\ (forall p h, i_lock s p h = None).
Definition finished (s : shared) : Prop := forall i, threads s i = TRun PEnd.

(** The values a computation can return, whatever it reads elsewhere. *)
Inductive yields : comp -> val -> Prop :=
| y_ret v : yields (CRet v) v
| y_cell c k x v : yields (k x) v -> yields (CCell c k) v
| y_item p h k x v : yields (k x) v -> yields (CItem p h k) v.

(** One after the other: starting at v, the updates fs produce the values ws, each from the one before it. *)
Inductive serial : val -> list (val -> comp) -> list val -> Prop :=
| se_nil v : serial v [] []
| se_cons v f w fs ws : yields (f v) w -> serial w fs ws -> serial v (f :: fs) (w :: ws).

(** Observations about one cell, one pool item *)
Fixpoint cell_updates (c : string) (t : list label) : list (val -> comp) :=
  match t with
  | [] => []
  | CellStart _ d f :: t' => if String.eqb d c then f :: cell_updates c t' else cell_updates c t'
  | _ :: t' => cell_updates c t'
  end.
Fixpoint cell_results (c : string) (t : list label) : list val :=
  match t with
  | [] => []
  | CellDone _ d v :: t' => if String.eqb d c then v :: cell_results c t' else cell_results c t'
  | _ :: t' => cell_results c t'
  end.
Definition cell_failed (c : string) (t : list label) : Prop := exists i e, In (CellFail i c e) t.
Fixpoint item_updates (p h : string) (t : list label) : list (val * (val -> comp)) :=
  match t with
  | [] => []
  | ItemStart _ q g init f :: t' =>
      if (String.eqb q p && String.eqb g h)%bool then (init, f) :: item_updates p h t' else item_updates p h t'
  | _ :: t' => item_updates p h t'
  end.
Fixpoint item_results (p h : string) (t : list label) : list val :=
  match t with
  | [] => []
  | ItemDone _ q g v :: t' =>
      if (String.eqb q p && String.eqb g h)%bool then v :: item_results p h t' else item_results p h t'
  | _ :: t' => item_results p h t'
  end.
Definition item_failed (p h : string) (t : list label) : Prop := exists i e, In (ItemFail i p h e) t.
Definition item_deleted (p h : string) (t : list label) : Prop := exists i, In (ItemDel i p h) t.

(** No thread is between the acquisition and the release of the lock. *)
Definition cell_quiet (c : string) (s : shared) : Prop :=
  forall i, match threads s i with
            | TCRead d _ _ | TCComp d _ _ | TCRes d _ | TCRel d _ _ => d <> c
            | _ => True
            end.
Definition item_quiet (p h : string) (s : shared) : Prop :=
  forall i, match threads s i with
            | TPUnl q g _ _ _ | TPTest q g _ _ _ | TPInit q g _ _ _ | TPRead q g _ _ | TPComp q g _ _
            | TPRes q g _ | TPRel q g _ _ => (q, g) <> (p, h)
            | _ => True
            end.

(** The updates of a pool item, one after the other: the first one starts from its init when there is no item. *)
Definition item_serial (o : option val) (us : list (val * (val -> comp))) (ws : list val) : Prop :=
  match o, us with
  | Some v, _ => serial v (map snd us) ws
  | None, [] => ws = []
  | None, (init, _) :: _ => serial init (map snd us) ws
  end.
Definition item_after (o : option val) (ws : list val) : option val :=
  match rev ws with w :: _ => Some w | [] => o end.

(** A thread that applies the functions gs to a cell, one cell-to after the other *)
Fixpoint update_all (c : string) (gs : list (val -> val)) : prog :=
  match gs with
  | [] => PEnd
  | g :: gs' => PCellTo c (fun v => CRet (g v)) (fun _ => update_all c gs')
  end.
(** The part of thread i in a sequence of actions of several threads *)
Definition part {A} (i : nat) (m : list (nat * A)) : list A :=
  map snd (filter (fun x => Nat.eqb (fst x) i) m).
(** m merges the sequences gs: each thread's actions are all there, in its order, and nothing else is. *)
Definition merges {A} (gs : nat -> list A) (m : list (nat * A)) : Prop := forall i, part i m = gs i.
