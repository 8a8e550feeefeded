(** Vocabulary for the engine properties. *)
From Verif Require Import Base ScopeModel CoreModel EngineModel.

(** What is stored, as an observer sees it. *)
Definition cell_value (s : st) (c : string) : option val := option_map c_value (assoc c (s_cells s)).
Definition pool_items (s : st) (p : string) : option (list (string * val)) := option_map p_value (assoc p (s_pools s)).
(** The document declares the cell (pool) with rollback. *)
Definition rollback_cell (D : doc) (c : string) : Prop := exists d, assoc c (d_cells D) = Some d /\ cd_rollback d = true.
Definition rollback_pool (D : doc) (p : string) : Prop := exists d, assoc p (d_pools D) = Some d /\ pd_rollback d = true.
Definition plain_cell (D : doc) (c : string) : Prop := exists d, assoc c (d_cells D) = Some d /\ cd_rollback d = false.
Definition plain_pool (D : doc) (p : string) : Prop := exists d, assoc p (d_pools D) = Some d /\ pd_rollback d = false.

(** [s] is the state of an engine loaded from [D] after some history of calls. *)
Definition reachable (E : env) (D : doc) (s : st) : Prop :=
  exists n cs rs, history E D n cs (load D) = Some (rs, s).

(** The run of the action's body inside a call of action: it starts from a state with the same stored values and
    ends with [r] in [sb]. *)
Definition body_runs (E : env) (D : doc) (n : nat) (input : val) (s : st) (r : res val) (sb : st) : Prop :=
  exists s1,
    s_cells s1 = map_vals save_cell (s_cells s) /\ s_pools s1 = map_vals save_pool (s_pools s) /\
    s_started s1 = s_started s + 1 /\ s_finished s1 = s_finished s /\ s_tally s1 = s_tally s /\
    s_log s1 = s_log s /\ s_emitted s1 = s_emitted s /\
    in_root [action_frame D input s1] (exec E n (d_action D)) s1 = Done r sb.

(** counting calls and outcomes *)
Fixpoint count {A} (p : A -> bool) (l : list A) : Z :=
  match l with [] => 0 | x :: l' => (if p x then 1 else 0) + count p l' end.
Definition enters (D : doc) (c : call) : bool :=
  match c with CAction input => match d_check D input with Ok _ => true | Raise _ => false end | _ => false end.
Definition returns (cr : call * res val) : bool :=
  match cr with (CAction _, Ok _) => true | _ => false end.
