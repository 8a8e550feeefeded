(** Properties C01, C02, C03 and C42: what the engine guarantees over histories of calls. *)
From Verif Require Import Base ScopeModel CoreModel CoreInv EngineModel EngineSpec EngineProofs CoreDemo.
Open Scope string_scope.
Open Scope Z_scope.

(** *** C01 *)
(** After a call of action that raised, every cell and pool declared with rollback holds what it held before the call. *)
Theorem C01_rollback : forall E D s n input e s',
  reachable E D s -> action E D n input s = Done (Raise e) s' ->
  (forall c, rollback_cell D c -> cell_value s' c = cell_value s c) /\
  (forall p, rollback_pool D p -> pool_items s' p = pool_items s p).
Proof.
  intros E D s n input e s' R H. apply reachable_flags in R.
  apply action_cases in H as [(e' & _ & _ & ->)|(inp & rb & sb & _ & Hb & Hs & H)]; [auto|].
  destruct rb as [last|e'].
  { unfold finish in H. destruct (d_method D); discriminate H. }
  destruct H as [_ ->]. destruct Hb as (s1 & Hc & Hp & _ & _ & _ & _ & _ & Hb). apply stable_body in Hb. split.
  - intros c (d & Hd & Hr). destruct (flags_cell D s c d R Hd) as (x & Hx & _ & Hxr).
    destruct (restored_cells s s1 sb c x Hc Hb Hx) as (y & Hy & Hv); [congruence|].
    unfold cell_value. rewrite Hx, Hy. cbn. now rewrite Hv.
  - intros p (d & Hd & Hr). destruct (flags_pool D s p d R Hd) as (x & Hx & _ & Hxr).
    destruct (restored_pools s s1 sb p x Hp Hb Hx) as (y & Hy & Hv); [congruence|].
    unfold pool_items. rewrite Hx, Hy. cbn. now rewrite Hv.
Qed.
Print Assumptions C01_rollback.

(** The others keep whatever the body had stored when it raised. *)
Theorem C01_others_keep_changes : forall E D s n input e s',
  reachable E D s -> action E D n input s = Done (Raise e) s' ->
  s' = s \/
  exists inp sb, d_check D input = Ok inp /\ body_runs E D n inp s (Raise e) sb /\
    (forall c, plain_cell D c -> cell_value s' c = cell_value sb c) /\
    (forall p, plain_pool D p -> pool_items s' p = pool_items sb p).
Proof.
  intros E D s n input e s' R H. apply reachable_flags in R.
  apply action_cases in H as [(e' & _ & _ & ->)|(inp & rb & sb & Hi & Hbr & Hs & H)]; [auto|]. right.
  destruct rb as [last|e'].
  { unfold finish in H. destruct (d_method D); discriminate H. }
  destruct H as [[= <-] ->]. exists inp, sb. split; [exact Hi|]. split; [exact Hbr|].
  destruct Hbr as (s1 & Hc & Hp & _ & _ & _ & _ & _ & Hb). apply stable_body in Hb. split.
  - intros c (d & Hd & Hr). destruct (flags_cell D s c d R Hd) as (x & Hx & _ & Hxr).
    unfold cell_value. rewrite (kept_cells s s1 sb c x Hc Hb Hx); [auto|congruence].
  - intros p (d & Hd & Hr). destruct (flags_pool D s p d R Hd) as (x & Hx & _ & Hxr).
    unfold pool_items. rewrite (kept_pools s s1 sb p x Hp Hb Hx); [auto|congruence].
Qed.
Print Assumptions C01_others_keep_changes.

(** After a call that returned, all the changes made by the body are kept. *)
Theorem C01_success_keeps : forall E D s n input v s',
  action E D n input s = Done (Ok v) s' ->
  exists inp last sb, d_check D input = Ok inp /\ body_runs E D n inp s (Ok last) sb /\
    (forall c, cell_value s' c = cell_value sb c) /\ (forall p, pool_items s' p = pool_items sb p).
Proof.
  intros E D s n input v s' H.
  apply action_cases in H as [(e & _ & H & _)|(inp & rb & sb & Hi & Hbr & Hs & H)]; [discriminate|].
  destruct rb as [last|e]; [|destruct H as [H _]; discriminate].
  exists inp, last, sb. split; [exact Hi|]. split; [exact Hbr|].
  unfold finish in H. destruct (d_method D); injection H as _ ->; split; reflexivity.
Qed.
Print Assumptions C01_success_keeps.

(** The same for merge. *)
Theorem C01_merge_rollback : forall E D s n a b e s',
  reachable E D s -> merge E D n a b s = Done (Raise e) s' ->
  (forall c, rollback_cell D c -> cell_value s' c = cell_value s c) /\
  (forall p, rollback_pool D p -> pool_items s' p = pool_items s p).
Proof.
  intros E D s n a b e s' R H. apply reachable_flags in R. unfold merge in H.
  destruct (d_merge D) as [es|]; [|injection H as _ <-; auto].
  destruct (in_root _ _ _) as [rb sb| |] eqn:Hb; try discriminate. apply stable_body in Hb.
  destruct rb as [|e']; [discriminate|]. injection H as _ <-. split.
  - intros c (d & Hd & Hr). destruct (flags_cell D s c d R Hd) as (x & Hx & _ & Hxr).
    destruct (restored_cells s (save_all (start E D RMerge s)) sb c x eq_refl Hb Hx) as (y & Hy & Hv); [congruence|].
    unfold cell_value. rewrite Hx, Hy. cbn. now rewrite Hv.
  - intros p (d & Hd & Hr). destruct (flags_pool D s p d R Hd) as (x & Hx & _ & Hxr).
    destruct (restored_pools s (save_all (start E D RMerge s)) sb p x eq_refl Hb Hx) as (y & Hy & Hv); [congruence|].
    unfold pool_items. rewrite Hx, Hy. cbn. now rewrite Hv.
Qed.
Print Assumptions C01_merge_rollback.

(** Histories: as long as every action fails, cells and pools with rollback keep their initial contents. *)
Theorem C01_failing_history : forall E D n inputs rs s,
  history E D n (map CAction inputs) (load D) = Some (rs, s) ->
  (forall r, In r rs -> exists e, r = Raise e) ->
  (forall c d, assoc c (d_cells D) = Some d -> cd_rollback d = true -> cell_value s c = Some (cd_init d)) /\
  (forall p d, assoc p (d_pools D) = Some d -> pd_rollback d = true -> pool_items s p = Some (pd_init d)).
Proof.
  intros E D n inputs rs s H Hr.
  assert (G : forall inputs s0 pre rs0, history E D n pre (load D) = Some (rs0, s0) ->
     forall rs s, history E D n (map CAction inputs) s0 = Some (rs, s) -> (forall r, In r rs -> exists e, r = Raise e) ->
     (forall c, rollback_cell D c -> cell_value s c = cell_value s0 c) /\
     (forall p, rollback_pool D p -> pool_items s p = pool_items s0 p)).
  { assert (App : forall cs1 cs2 s0, history E D n (cs1 ++ cs2)%list s0 =
       match history E D n cs1 s0 with
       | Some (rs1, s1) => match history E D n cs2 s1 with Some (rs2, s2) => Some ((rs1 ++ rs2)%list, s2) | None => None end
       | None => None
       end).
    { induction cs1 as [|c cs1 IH]; intros cs2 s0; cbn.
      - destruct (history E D n cs2 s0) as [[? ?]|]; reflexivity.
      - destruct (do_call E D n c s0) as [r s1| |]; auto. rewrite IH.
        destruct (history E D n cs1 s1) as [[? ?]|]; auto. destruct (history E D n cs2 s2) as [[? ?]|]; auto. }
    induction inputs0 as [|i inputs0 IH]; intros s0 pre rs0 Hp rs1 s1 Hh Hf.
    - injection Hh as _ <-. auto.
    - cbn [map history do_call] in Hh. destruct (action E D n i s0) as [r s2| |] eqn:Ha; try discriminate.
      destruct (history E D n (map CAction inputs0) s2) as [[rs2 s3]|] eqn:Hh2; [|discriminate].
      injection Hh as <- <-. destruct (Hf r) as [e ->]; [cbn; auto|].
      destruct (C01_rollback E D s0 n i e s2) as [K1 K2]; [exists n, pre, rs0; exact Hp|exact Ha|].
      destruct (IH s2 (pre ++ [CAction i])%list (rs0 ++ [Raise e])%list) with (rs := rs2) (s := s3) as [L1 L2]; auto.
      + rewrite App, Hp. cbn. now rewrite Ha.
      + intros r Hr2. apply Hf. cbn; auto.
      + split; intros; [rewrite L1, K1|rewrite L2, K2]; auto. }
  destruct (G inputs (load D) [] [] eq_refl rs s H Hr) as [G1 G2]. split.
  - intros c d Hd Hroll. rewrite G1 by (exists d; auto). unfold cell_value. cbn. rewrite assoc_map_vals, Hd. reflexivity.
  - intros p d Hd Hroll. rewrite G2 by (exists d; auto). unfold pool_items. cbn. rewrite assoc_map_vals, Hd. reflexivity.
Qed.
Print Assumptions C01_failing_history.

(** A document that changes two cells and a pool and then fails: "r" and "p" are rolled back, "k" is not. *)
Definition failing_body : list expr :=
  [ECellTo "r" [] (AExpr (ERef "input")); ECellTo "k" [] (AExpr (ERef "input"));
   EPoolTo "p" [str "b"] (AExpr (int 5)) (int 0); EError "no" (Some 3)].
Example C01_example :
  let D := demo_doc MMap failing_body in
  let E := demo_env [] (fun _ => 0) in
  reachable E D (load D) /\ rollback_cell D "r" /\ rollback_pool D "p" /\ plain_cell D "k" /\
  exists s', action E D 5 (VInt 7) (load D) = Done (Raise (UserErr "no" (Some 3))) s' /\
    cell_value s' "r" = Some (VInt 1) /\ pool_items s' "p" = Some [("a", VInt 1)] /\ cell_value s' "k" = Some (VInt 7).
Proof.
  split; [exists 0%nat, [], []; reflexivity|].
  split; [eexists; split; reflexivity|]. split; [eexists; split; reflexivity|]. split; [eexists; split; reflexivity|].
  eexists. split; [vm_compute; reflexivity|]. repeat split.
Qed.

(** *** C02 *)
(** After any history: actionsStarted is the number of calls of action whose input had the declared type, actionsFinished
    the number of those which returned. *)
Theorem C02_counters : forall E D n calls outcomes s,
  history E D n calls (load D) = Some (outcomes, s) ->
  s_started s = count (enters D) calls /\
  s_finished s = count returns (combine calls outcomes) /\
  0 <= s_finished s <= s_started s.
Proof.
  intros E D n calls outcomes s H.
  assert (G : forall cs s0 rs s1, flags_of D s0 -> history E D n cs s0 = Some (rs, s1) ->
     count returns (combine cs rs) <= count (enters D) cs).
  { induction cs as [|c cs IH]; intros s0 rs s1 F Hh; cbn in Hh.
    - injection Hh as <- <-. cbn. lia.
    - destruct (do_call E D n c s0) as [r s2| |] eqn:Hc; try discriminate.
      destruct (history E D n cs s2) as [[rs1 s3]|] eqn:Hh2; [|discriminate]. injection Hh as <- <-.
      assert (count returns (combine cs rs1) <= count (enters D) cs).
      { refine (IH s2 rs1 s3 _ Hh2). exact (do_call_flags _ _ _ _ _ _ _ Hc F). }
      cbn [combine count]. destruct c; cbn [returns enters]; try lia.
      destruct r; [|destruct (d_check D input); lia]. cbn in Hc. unfold action in Hc.
      destruct (d_check D input); [lia|discriminate]. }
  pose proof (G _ _ _ _ (flags_load D) H) as Hle.
  apply history_counts in H as (_ & H1 & H2); [|apply flags_load]. cbn in H1, H2.
  pose proof (count_nonneg returns (combine calls outcomes)). lia.
Qed.
Print Assumptions C02_counters.
(** An input that does not have the declared type is not counted and changes nothing. *)
Theorem C02_rejected_input : forall E D n input e s,
  d_check D input = Raise e -> action E D n input s = Done (Raise e) s.
Proof. intros E D n input e s H. unfold action. now rewrite H. Qed.
Print Assumptions C02_rejected_input.
Example C02_example :
  let D := demo_doc MMap [EIf (ECall "<" [AExpr (ERef "input"); AExpr (int 0)]) [EError "no" None] None; ERef "input"] in
  let E := demo_env [] (fun _ => 0) in
  exists rs s, history E D 9 (map CAction [VInt 1; VInt (-1); VNull; VInt 2]) (load D) = Some (rs, s) /\
    s_started s = 3 /\ s_finished s = 2.
Proof. do 2 eexists. split; [vm_compute; reflexivity|]. split; reflexivity. Qed.

(** *** C03 *)
(** No cell or pool that is both shared and rolled back can be declared; so no engine, whatever calls are made, has one. *)
Definition declared_cell (d : cell_decl) : Prop := exists init sh rb, ast_cell init sh rb = Ok d.
Definition declared_pool (d : pool_decl) : Prop := exists init sh rb, ast_pool init sh rb = Ok d.
Theorem C03_exclusive : forall E D s,
  (forall c d, assoc c (d_cells D) = Some d -> declared_cell d) ->
  (forall p d, assoc p (d_pools D) = Some d -> declared_pool d) ->
  reachable E D s ->
  (forall c x, assoc c (s_cells s) = Some x -> ~ (c_shared x = true /\ c_rollback x = true)) /\
  (forall p x, assoc p (s_pools s) = Some x -> ~ (p_shared x = true /\ p_rollback x = true)).
Proof.
  intros E D s Hc Hp R. apply reachable_flags in R as [F1 F2]. split.
  - intros c x Hx [H1 H2]. pose proof (f_equal (assoc c) F1) as X. rewrite !assoc_map_vals, Hx in X. cbn in X.
    destruct (assoc c (d_cells D)) as [d|] eqn:Hd; [|discriminate]. injection X as X1 X2.
    destruct (Hc c d Hd) as (init & sh & rb & A). unfold ast_cell in A.
    destruct sh, rb; try discriminate; injection A as <-; cbn in *; congruence.
  - intros p x Hx [H1 H2]. pose proof (f_equal (assoc p) F2) as X. rewrite !assoc_map_vals, Hx in X. cbn in X.
    destruct (assoc p (d_pools D)) as [d|] eqn:Hd; [|discriminate]. injection X as X1 X2.
    destruct (Hp p d Hd) as (init & sh & rb & A). unfold ast_pool in A.
    destruct sh, rb; try discriminate; injection A as <-; cbn in *; congruence.
Qed.
Print Assumptions C03_exclusive.
Theorem C03_rejected : forall init items,
  ast_cell init true true = Raise (PyErr "PFASyntaxException") /\ ast_pool items true true = Raise (PyErr "PFASyntaxException").
Proof. split; reflexivity. Qed.
Print Assumptions C03_rejected.
(** Consequence: a rollback never changes the value of a shared cell or pool. *)
Theorem C03_rollback_spares_shared : forall E D s,
  (forall c d, assoc c (d_cells D) = Some d -> declared_cell d) ->
  (forall p d, assoc p (d_pools D) = Some d -> declared_pool d) ->
  reachable E D s ->
  (forall c x, assoc c (s_cells s) = Some x -> c_shared x = true -> assoc c (s_cells (restore_all s)) = Some x) /\
  (forall p x, assoc p (s_pools s) = Some x -> p_shared x = true -> assoc p (s_pools (restore_all s)) = Some x).
Proof.
  intros E D s Hc Hp R. destruct (C03_exclusive E D s Hc Hp R) as [K1 K2]. split.
  - intros c x Hx Hs. cbn. rewrite assoc_map_vals, Hx. cbn. unfold restore_cell.
    destruct (c_rollback x) eqn:Hr; auto. destruct (K1 c x Hx); auto.
  - intros p x Hx Hs. cbn. rewrite assoc_map_vals, Hx. cbn. unfold restore_pool.
    destruct (p_rollback x) eqn:Hr; auto. destruct (K2 p x Hx); auto.
Qed.
Print Assumptions C03_rollback_spares_shared.
Example C03_example : declared_cell (CellDecl (VInt 1) true false) /\ declared_pool (PoolDecl [] false true).
Proof. split; [exists (VInt 1), true, false|exists [], false, true]; reflexivity. Qed.

(** *** C42 *)
(** One call: the body sees the current tally and the input; its value becomes the new tally and is returned; if it
    raises, the tally stays. *)
Theorem C42_one_action : forall E D n input inp s r s',
  d_method D = MFold -> d_check D input = Ok inp -> action E D n input s = Done r s' ->
  (exists sb, body_runs E D n inp s r sb) /\
  scope_get "tally" [action_frame D inp (prepare E D s)] = Ok (s_tally s) /\
  scope_get "input" [action_frame D inp (prepare E D s)] = Ok inp /\
  s_tally s' = match r with Ok v => v | Raise _ => s_tally s end.
Proof.
  intros E D n input inp s r s' Hm Hc H. destruct (fold_action _ _ _ _ _ _ _ _ Hm Hc H) as (rb & sb & Hb & -> & Ht).
  split; [eauto|]. split; [|split; [|exact Ht]].
  - unfold action_frame, tally_vars. rewrite Hm. cbn. unfold version_vars. destruct (d_version D); reflexivity.
  - unfold action_frame, tally_vars. rewrite Hm. cbn. unfold version_vars. destruct (d_version D); reflexivity.
Qed.
Print Assumptions C42_one_action.

(** The action's body computes [f] of the tally and the input (whatever else it does to the state). *)
Definition body_computes (E : env) (D : doc) (n : nat) (f : val -> val -> res val) : Prop :=
  forall s inp, exists sb, in_root [action_frame D inp s] (exec E n (d_action D)) s = Done (f (s_tally s) inp) sb.
(** The left fold, skipping the inputs on which [f] fails: the value after each input. *)
Fixpoint fold_results (f : val -> val -> res val) (t : val) (inputs : list val) : list (res val) :=
  match inputs with
  | [] => []
  | x :: l => f t x :: fold_results f (match f t x with Ok v => v | Raise _ => t end) l
  end.
Theorem C42_fold : forall E D n f inputs,
  d_method D = MFold -> body_computes E D n f -> (forall i, In i inputs -> d_check D i = Ok i) ->
  exists s, history E D n (map CAction inputs) (load D) = Some (fold_results f (d_zero D) inputs, s) /\
    s_tally s = fold_left (fun t x => match f t x with Ok v => v | Raise _ => t end) inputs (d_zero D).
Proof.
  intros E D n f inputs Hm Hb Hc.
  assert (G : forall inputs s0, (forall i, In i inputs -> d_check D i = Ok i) ->
     exists s, history E D n (map CAction inputs) s0 = Some (fold_results f (s_tally s0) inputs, s) /\
       s_tally s = fold_left (fun t x => match f t x with Ok v => v | Raise _ => t end) inputs (s_tally s0)).
  { induction inputs0 as [|x l IH]; intros s0 Hi; [exists s0; auto|].
    cbn [map history do_call fold_results fold_left].
    destruct (Hb (prepare E D s0) x) as [sb Hs]. pose proof (stable_body _ _ _ _ _ _ _ Hs) as St.
    assert (exists s1, action E D n x s0 = Done (f (s_tally s0) x) s1 /\
              s_tally s1 = match f (s_tally s0) x with Ok v => v | Raise _ => s_tally s0 end) as (s1 & Ha & Ht).
    { unfold action. rewrite Hi by (cbn; auto). cbn zeta. rewrite Hs. change (s_tally (prepare E D s0)) with (s_tally s0).
      destruct (f (s_tally s0) x) as [v|e].
      - unfold finish. rewrite Hm. eexists. split; reflexivity.
      - eexists. split; [reflexivity|]. cbn. apply (sb_tally _ _ St). }
    rewrite Ha, <- Ht. destruct (IH s1) as (s & Hh & Hfin); [intros; apply Hi; cbn; auto|].
    rewrite Hh. exists s. split; auto. }
  apply (G inputs (load D) Hc).
Qed.
Print Assumptions C42_fold.
(** If the action never fails, call number k returns the left fold over the first k inputs. *)
Theorem C42_left_fold : forall E D n g inputs k x,
  d_method D = MFold -> body_computes E D n (fun t i => Ok (g t i)) -> (forall i, In i inputs -> d_check D i = Ok i) ->
  nth_error inputs k = Some x ->
  exists rs s, history E D n (map CAction inputs) (load D) = Some (rs, s) /\
    nth_error rs k = Some (Ok (fold_left g (firstn (S k) inputs) (d_zero D))).
Proof.
  intros E D n g inputs k x Hm Hb Hc Hk. destruct (C42_fold E D n _ inputs Hm Hb Hc) as (s & H & _).
  do 2 eexists. split; [exact H|]. generalize (d_zero D). revert inputs Hc Hk H. clear.
  induction k as [|k IH]; intros inputs Hc Hk H z; destruct inputs as [|y l]; try discriminate.
  - reflexivity.
  - cbn [fold_results nth_error firstn fold_left]. cbn in Hk.
    assert (A : forall l k z, nth_error l k = Some x ->
        nth_error (fold_results (fun t i => Ok (g t i)) z l) k = Some (Ok (fold_left g (firstn (S k) l) z))).
    { clear. induction l as [|y l IH]; intros k z Hk; [destruct k; discriminate|].
      destruct k; [reflexivity|]. cbn [fold_results nth_error]. rewrite IH by exact Hk. reflexivity. }
    rewrite A by exact Hk. reflexivity.
Qed.
Print Assumptions C42_left_fold.
(** merge: the value of the merge body becomes the tally and is returned; a failure leaves it. *)
Theorem C42_merge : forall E D n a b s r s',
  merge E D n a b s = Done r s' -> s_tally s' = match r with Ok v => v | Raise _ => s_tally s end.
Proof.
  intros E D n a b s r s' H. unfold merge in H. destruct (d_merge D) as [es|]; [|injection H as <- <-; auto].
  destruct (in_root _ _ _) as [rb sb| |] eqn:Hb; try discriminate. apply stable_body in Hb.
  destruct rb; injection H as <- <-; cbn; auto. apply (sb_tally _ _ Hb).
Qed.
Print Assumptions C42_merge.
Definition sum_doc := demo_doc MFold [add (ERef "tally") (ERef "input")].
Definition sum_step (t i : val) : res val :=
  match t, i with VInt a, VInt b => Ok (VInt (a + b)) | _, _ => Raise (PyErr "TypeError") end.
Example C42_example :
  body_computes (demo_env [] (fun _ => 0)) sum_doc 3 sum_step /\
  fold_results sum_step (VInt 0) [VInt 1; VInt 2; VInt 3] = [Ok (VInt 1); Ok (VInt 3); Ok (VInt 6)].
Proof.
  split; [|reflexivity]. intros s inp.
  destruct (s_tally s) eqn:Ht, inp; eexists; unfold in_root, action_frame, tally_vars; cbn; rewrite Ht; reflexivity.
Qed.
