(** Proofs for C37: documents whose update functions are quiet never wait for a lock they hold. *)
From Verif Require Import Base ScopeModel CoreModel EngineModel CallGraphModel CallGraphSpec CallGraphProofs CallGraphProps CoreInd CoreFlow StaticModel TraverseModel TraverseSpec TraverseProofs.
Open Scope string_scope.
Open Scope list_scope.

(** * Quiet computations leave the locks alone and never block *)
Definition cell_state (kv : string * cell) := (fst kv, c_locked (snd kv)).
Definition pool_state (kv : string * pool) := (fst kv, (p_locklock (snd kv), p_locks (snd kv))).
Definition same_locks (s s' : st) : Prop := map cell_state (s_cells s') = map cell_state (s_cells s) /\ map pool_state (s_pools s') = map pool_state (s_pools s).
Lemma set_state {A B} (g : string * A -> B) (k : string) (x y : A) l : assoc k l = Some x -> g (k, y) = g (k, x) -> map g (dict_set k y l) = map g l.
Proof.
  intros H G. induction l as [|[j z] l IH]; [discriminate|]. cbn [assoc dict_set] in *. destruct (String.eqb k j) eqn:K.
  - apply String.eqb_eq in K. subst j. injection H as ->. cbn [map]. now rewrite G.
  - cbn [map]. now rewrite IH.
Qed.
Lemma free_same s s' : same_locks s s' -> free s -> free s'.
Proof.
  intros [C P] [FC FP]. split.
  - intros c x I. apply (in_map cell_state) in I. rewrite C in I. apply in_map_iff in I. destruct I as ([k y] & Ey & I). unfold cell_state in Ey. cbn in Ey. injection Ey as <- <-. eapply FC; eauto.
  - intros p x I. apply (in_map pool_state) in I. rewrite P in I. apply in_map_iff in I. destruct I as ([k y] & Ey & I). unfold pool_state in Ey. cbn in Ey. injection Ey as <- <- <-. eapply FP; eauto.
Qed.
Lemma same_trans a b c : same_locks a b -> same_locks b c -> same_locks a c.
Proof. intros [A B] [C D]. split; congruence. Qed.
Section Quiet.
  Variable E : env.
  Hypothesis N_body : forall f ps body e, assoc f (e_fcns E) = Some (ps, body) -> In e body -> enum_names E (NE e).
  Variable P : string -> Prop.
  Hypothesis P_body : forall f ps body e c, P f -> assoc f (e_fcns E) = Some (ps, body) -> In e body -> mentions (NE e) c -> P c.
  Hypothesis P_quiet : forall c, P c -> ~ is_update c.
  Theorem quiet_flow n : (forall e, only E P (NE e) -> rel same_locks False (eval E n e)) /\ (forall a vs, only E P (NA a) -> rel same_locks False (apply E n a vs)).
  Proof.
    assert (S : forall s s', s_cells s' = s_cells s -> s_pools s' = s_pools s -> s_trace s' = s_trace s -> same_locks s s') by (intros s s' A B _; split; congruence).
    assert (M : forall n c, In c (own n) -> only E P n -> P c) by (intros k c I [_ H]; apply H, mentions_own, I).
    apply (rel_flow E same_locks False (only E P) P); auto using only_parts; [exact same_trans|..].
    - intros f s F. split; reflexivity.
    - intros k c path to t ks H. exfalso. apply (P_quiet "cell-to"); [apply (M (NE (ECellTo c path to))); [now left|exact H]|now left].
    - intros k p path to init t h tail i H. exfalso. apply (P_quiet "pool-to"); [apply (M (NE (EPoolTo p path to init))); [now left|exact H]|now right].
    - intros p path to init H. apply (M (NE (EPoolTo p path to init))); [now left|exact H].
    - intros p e h H s. unfold upd_pool. destruct (assoc p (s_pools s)) as [x|] eqn:A; [|split; reflexivity]. split; [reflexivity|]. cbn [s_pools set_pools].
      now apply (set_state pool_state _ _ _ _ A).
    - intros p e H. apply (M (NE (EPoolDel p e))); [now left|exact H].
    - intros f args H. apply (M (NE (ECall f args))); [now left|exact H].
    - intros f H. apply (M (NA (ARef f))); [now left|exact H].
    - intros f fills H. apply (M (NA (AFill f fills))); [now left|exact H].
    - intros nm ch args H. split; [exact (everywhere_here _ _ (proj1 H))|]. intros x I. apply (M (NE (ECallUser nm ch args))); [now apply (in_map (fun x => ("u." ++ x)%string))|exact H].
    - intros f ps body F A. apply Forall_forall. intros e I. split; [eapply N_body; eauto|]. intros c Mc. eapply P_body; eauto.
  Qed.
  Lemma quiet_run n es : (forall e, In e es -> only E P (NE e)) -> rel same_locks False (run (eval E n) es).
  Proof.
    assert (B : forall A B (m : EM A) (k : A -> EM B), rel same_locks False m -> (forall a, rel same_locks False (k a)) -> rel same_locks False (bind m k)) by (intros; apply rel_bind; auto; exact same_trans).
    assert (Rt : forall A (a : A), rel same_locks False (ret a)) by (intros A a s; split; reflexivity).
    intros H. unfold run. apply B; [|intros; apply Rt].
    induction es as [|e es IH]; cbn [mapE]; [apply Rt|].
    apply B; [apply quiet_flow; apply H; now left|]. intros v. apply B; [apply IH; intros; apply H; now right|]. intros; apply Rt.
  Qed.
End Quiet.

(** * Documents with quiet update functions *)
Section Live.
  Variable E : env.
  Definition live_here (m : node) : Prop :=
    match m with
    | NE (ECellTo _ _ to) | NE (EPoolTo _ _ to _) => match to with AExpr _ => True | _ => quiet (e_fcns E) (NA to) end
    | NE (ETry es _) => forall e, In e es -> quiet (e_fcns E) (NE e)
    | NE (ECallUser nm choices _) => names_one_of E nm choices
    | _ => True
    end.
  Definition live : node -> Prop := everywhere live_here.
  Record stopping : Prop := {
    st_strict : forall f g avs, e_lib E f = Some (Strict g) -> lib_stops (g avs);
    st_lazy : forall f p, e_lib E f = Some (Lazy p) -> lib_stops p;
    st_ref : forall f avs, lib_stops (e_libref E f avs) }.
  Hypothesis St : stopping.
  Hypothesis L_body : forall f ps body e, assoc f (e_fcns E) = Some (ps, body) -> In e body -> live (NE e).
  Lemma live_enum n : live n -> enum_names E n.
  Proof. intros L m I. specialize (L m I). destruct m as [[]|]; exact L || exact Logic.I. Qed.
  Lemma N_body f ps body e : assoc f (e_fcns E) = Some (ps, body) -> In e body -> enum_names E (NE e).
  Proof. intros A I. apply live_enum. eapply L_body; eauto. Qed.
  Definition J {A} (m : EM A) : Prop := forall s, free s -> match m s with Done (Ok _) s' => free s' | Done (Raise _) _ => True | Blocked => False | OutOfFuel => True end.
  Definition Jx {A} (m : EM A) : Prop := forall s, exists e s', m s = Done (Raise e) s'.
  Lemma J_rel A (m : EM A) : rel same_locks False m -> J m.
  Proof. intros R s F. specialize (R s). destruct (m s) as [[a|e] s'| |]; auto. eapply free_same; eauto. Qed.
  Lemma r_same A (m : EM A) : (forall s, match m s with Done _ s' => s_cells s' = s_cells s /\ s_pools s' = s_pools s | Blocked => False | OutOfFuel => True end) -> rel same_locks False m.
  Proof. intros H s. specialize (H s). destruct (m s); auto. destruct H as [A1 A2]. split; congruence. Qed.
  Lemma r_bind A B (m : EM A) (k : A -> EM B) : rel same_locks False m -> (forall a, rel same_locks False (k a)) -> rel same_locks False (bind m k).
  Proof. apply rel_bind. exact same_trans. Qed.
  Lemma J_bind A B (m : EM A) (k : A -> EM B) : J m -> (forall a, may m a -> J (k a)) -> J (bind m k).
  Proof.
    intros M K s F. unfold bind. specialize (M s F). destruct (m s) as [[a|e] s1| |] eqn:Em; auto.
    assert (Ma : may m a) by (exists s, s1; exact Em). exact (K a Ma s1 M).
  Qed.
  Lemma to_quiet to : live (NA to) -> quiet (e_fcns E) (NA to) -> only E (can_call (e_fcns E) (NA to)) (NA to).
  Proof. intros L Q. split; [now apply live_enum|]. intros c M. now apply can_here. Qed.
  Lemma can_body n f ps body e c : can_call (e_fcns E) n f -> assoc f (e_fcns E) = Some (ps, body) -> In e body -> mentions (NE e) c -> can_call (e_fcns E) n c.
  Proof. intros. eapply can_through; eauto. Qed.
  Lemma app_quiet k to vs : live (NA to) -> quiet (e_fcns E) (NA to) -> rel same_locks False (apply E k to vs).
  Proof.
    intros L Q. apply (quiet_flow E N_body (can_call (e_fcns E) (NA to))); [intros; eapply can_body; eauto|exact Q|now apply to_quiet].
  Qed.
  Lemma leaf_quiet k to t old : live (NA to) -> match to with AExpr _ => True | _ => quiet (e_fcns E) (NA to) end -> from to t ->
    rel same_locks False (update_leaf E (apply E k) t old).
  Proof.
    intros L Q F. assert (RR : forall A (r : res A), rel same_locks False (fun s => Done r s)) by (intros A r s; split; reflexivity).
    destruct to; cbn [from] in F; [destruct F as [v ->]; apply RR|subst t; cbn [update_leaf]..].
    - now apply app_quiet.
    - destruct (assoc _ _); [now apply app_quiet|apply RR].
    - now apply app_quiet.
  Qed.
  Lemma path_quiet k to t : live (NA to) -> match to with AExpr _ => True | _ => quiet (e_fcns E) (NA to) end -> from to t ->
    forall path obj a m, rel same_locks False (update_path (update_leaf E (apply E k) t) obj path a m).
  Proof.
    intros L Q F path obj a m. apply rel_update_path; [intros s s' A B _; split; congruence|exact same_trans|]. intros v. eapply leaf_quiet; eauto.
  Qed.
  Lemma set_in {A} (k : string) (x : A) l j y : In (j, y) (dict_set k x l) -> y = x \/ In (j, y) l.
  Proof.
    induction l as [|[i z] l IH]; cbn [dict_set]; [intros [[= <- <-]|[]]; now left|]. destruct (String.eqb k i); intros [H|H].
    - injection H as <- <-. now left.
    - right. now right.
    - right. now left.
    - destruct (IH H); [now left|right; now right].
  Qed.
  Lemma map_set {A B} (g : A -> B) k x (l : list (string * A)) :
    map (fun kv => (fst kv, g (snd kv))) (dict_set k x l) = dict_set k (g x) (map (fun kv => (fst kv, g (snd kv))) l).
  Proof. induction l as [|[j y] l IH]; [reflexivity|]. cbn [dict_set map fst snd]. destruct (String.eqb k j); cbn [map fst snd]; [reflexivity|now rewrite IH]. Qed.
  Lemma set_set {A} k (x y : A) (l : list (string * A)) : dict_set k x (dict_set k y l) = dict_set k x l.
  Proof. induction l as [|[j z] l IH]; cbn [dict_set]; [now rewrite String.eqb_refl|]. destruct (String.eqb k j) eqn:K; cbn [dict_set]; rewrite K; [reflexivity|now rewrite IH]. Qed.
  Lemma assoc_state {A B} (g : A -> B) k (l : list (string * A)) : assoc k (map (fun kv => (fst kv, g (snd kv))) l) = option_map g (assoc k l).
  Proof. induction l as [|[j y] l IH]; [reflexivity|]. cbn [map assoc fst snd]. destruct (String.eqb k j); [reflexivity|exact IH]. Qed.
  Lemma assoc_set_same {A} k (x : A) l : assoc k (dict_set k x l) = Some x.
  Proof. induction l as [|[j y] l IH]; cbn [dict_set assoc]; [now rewrite String.eqb_refl|]. destruct (String.eqb k j) eqn:K; cbn [assoc]; rewrite K; [reflexivity|exact IH]. Qed.
  Definition pl (x : pool) := (p_locklock x, p_locks x).
  Lemma free_iff s : free s <-> Forall (fun kv => snd kv = false) (map cell_state (s_cells s)) /\ Forall (fun kv => snd kv = (false, [])) (map pool_state (s_pools s)).
  Proof.
    unfold free. rewrite !Forall_map, !Forall_forall. split; intros [A B]; split.
    - intros [c x] I. exact (A c x I).
    - intros [c x] I. cbn. destruct (B c x I) as [-> ->]. reflexivity.
    - intros c x I. exact (A (c, x) I).
    - intros c x I. specialize (B (c, x) I). cbn in B. injection B as -> ->. auto.
  Qed.
  Lemma Forall_set {A} (Q : string * A -> Prop) k x l : (forall j, Q (j, x)) -> Forall Q l -> Forall Q (dict_set k x l).
  Proof. intros H F. rewrite Forall_forall in *. intros [j y] I. apply set_in in I. destruct I as [-> |I]; auto. Qed.
  (** lock, run something quiet, unlock *)
  Lemma cell_bracket c (u : EM val) : rel same_locks False u ->
    J (_ <== upd_cell c (cell_lock true) ;; v <== u ;; _ <== upd_cell c (cell_put v) ;; _ <== upd_cell c (cell_lock false) ;; ret v).
  Proof.
    intros U s F. unfold bind at 1, upd_cell at 1. destruct (assoc c (s_cells s)) as [x0|] eqn:A; [|exact I].
    unfold bind at 1. specialize (U (set_cells (dict_set c (cell_lock true x0) (s_cells s)) s)). destruct (u _) as [[v|e] s1| |]; auto.
    unfold bind at 1, upd_cell at 1. destruct (assoc c (s_cells s1)) as [x1|] eqn:A1; [|exact I].
    unfold bind at 1, upd_cell at 1. cbn [s_cells set_cells]. rewrite assoc_set_same.
    cbn [ret]. destruct U as [UC UP]. cbn [s_cells s_pools set_cells] in UC, UP. apply free_iff in F. apply free_iff. destruct F as [FC FP]. split; cbn [s_cells s_pools set_cells]; [|now rewrite UP].
    unfold cell_state in *. rewrite !(map_set c_locked), UC, !(map_set c_locked), !set_set. apply Forall_set; [reflexivity|exact FC].
  Qed.
  Lemma pool_bracket p h (x : pool) (u : EM val) : p_locks x = [] -> rel same_locks False u ->
    J (_ <== upd_pool p (pool_locks (h :: p_locks x)) ;; v <== u ;; _ <== upd_pool p (fun x => pool_locks (remove_lock h (p_locks x)) x) ;; ret v).
  Proof.
    intros X U s F. unfold bind at 1, upd_pool at 1. destruct (assoc p (s_pools s)) as [x0|] eqn:A; [|exact I].
    unfold bind at 1. specialize (U (set_pools (dict_set p (pool_locks (h :: p_locks x) x0) (s_pools s)) s)). destruct (u _) as [[v|e] s1| |]; auto.
    unfold bind at 1, upd_pool at 1. destruct (assoc p (s_pools s1)) as [x1|] eqn:A1; [|exact I].
    cbn [ret]. destruct U as [UC UP]. cbn [s_cells s_pools set_pools] in UC, UP. apply free_iff in F. apply free_iff. destruct F as [FC FP]. split; cbn [s_cells s_pools set_pools]; [now rewrite UC|].
    assert (K : pl x1 = (p_locklock x0, [h])).
    { pose proof (assoc_state pl p (s_pools s1)) as K. rewrite A1 in K. unfold pool_state in UP. change (map (fun kv => (fst kv, pl (snd kv))) (s_pools s1)) with (map pool_state (s_pools s1)) in K.
      unfold pool_state in K. rewrite UP in K. change (fun kv : string * pool => (fst kv, (p_locklock (snd kv), p_locks (snd kv)))) with (fun kv : string * pool => (fst kv, pl (snd kv))) in K.
      rewrite (map_set pl), assoc_set_same in K. cbn in K. rewrite X in K. unfold pl. now injection K as <- <-. }
    assert (K0 : p_locklock x0 = false).
    { pose proof (assoc_state pl p (s_pools s)) as K0. rewrite A in K0. apply assoc_In in K0. rewrite Forall_forall in FP. specialize (FP _ K0). cbn in FP. unfold pl in FP. now injection FP. }
    assert (K3 : pl (pool_locks (remove_lock h (p_locks x1)) x1) = (false, [])).
    { unfold pl in *. injection K as K1 K2. cbn [p_locklock p_locks pool_locks]. rewrite K1, K2, K0. cbn [remove_lock filter]. now rewrite String.eqb_refl. }
    change pool_state with (fun kv : string * pool => (fst kv, pl (snd kv))) in *. cbn beta in *.
    rewrite (map_set pl), UP, (map_set pl), set_set, K3. apply Forall_set; [reflexivity|exact FP].
  Qed.
  Lemma get_free A (m : EM A) : rel same_locks False m -> forall s, free s -> match m s with Done _ s' => free s' | Blocked => False | OutOfFuel => True end.
  Proof. intros R s F. specialize (R s). destruct (m s); auto. eapply free_same; eauto. Qed.

  Theorem live_flow n : (forall e, live (NE e) -> J (eval E n e)) /\ (forall a vs, live (NA a) -> J (apply E n a vs)).
  Proof.
    assert (Jp : forall A (f : st -> res A), J (fun s => Done (f s) s)) by (intros A f; apply J_rel, r_same; auto).
    apply (flow_eval E (@J) (@Jx) live (fun _ => True) true); auto.
    - intros A. apply J_rel, r_same. exact (fun _ => I).
    - exact J_bind.
    - intros A B m k M K Kx s F. unfold bind, attempt. specialize (M s F). destruct (m s) as [[a|e] s1| |]; auto.
      + exact (K a s1 M).
      + destruct (Kx e s1) as (e' & s2 & ->). exact I.
    - intros A e s. exists e, s. reflexivity.
    - discriminate.
    - intros A fs m M s F. unfold in_frames. specialize (M (set_scopes (fs ++ s_scopes s) s) F). destruct (m _) as [[a|e] s1| |]; auto.
    - intros A fs m M s F. unfold in_root. specialize (M (set_scopes fs s) F). destruct (m _) as [[a|e] s1| |]; auto.
    - intros c. apply J_rel, r_same. intros s. unfold get_cell. destruct (assoc _ _); auto.
    - intros c. apply J_rel, r_same. intros s. unfold get_pool. destruct (assoc _ _); auto.
    - intros bs. apply J_rel, r_same. intros s. cbn. auto.
    - intros bs. apply J_rel, r_same. intros s. unfold set_vars_m. destruct (set_vars _ _). cbn. auto.
    - intros l. apply J_rel, r_same. intros s. cbn. auto.
    - intros l. apply J_rel, r_same. intros s. cbn. auto.
    - apply J_rel, r_same. intros s. unfold check_time. destruct (s_timeout s); auto. destruct (_ <=? _)%Z; auto. cbn zeta. destruct (_ <? _)%Z; auto.
    - apply J_rel, r_same. intros s. cbn. auto.
    - intros f _. apply J_rel, r_same. intros s. cbn. auto.
    - (* try *)
      intros k es flt L _. apply J_rel.
      apply rel_try; [exact same_trans| |].
      + apply (quiet_run E N_body (fun c => exists e, In e es /\ can_call (e_fcns E) (NE e) c)).
        * intros f ps body e c (e0 & I0 & C) A I M. exists e0. split; [exact I0|eapply can_body; eauto].
        * intros c (e0 & I0 & C). exact (everywhere_here _ _ L e0 I0 c C).
        * intros e I0. split; [apply live_enum; apply (everywhere_part _ (NE (ETry es flt))); [cbn [parts]; now apply in_map|exact L]|].
          intros c M. exists e. split; [exact I0|now apply can_here].
      + intros [v|e]; [apply r_same; intros s; cbn; auto|]. apply r_same. intros s. unfold handle. destruct flt; [destruct (in_filter _ _ _) as [[]|]|]; cbn; auto.
    - (* cell-to *)
      intros k c path to t ks L F _. pose proof (everywhere_here _ _ L) as Q. cbn [live_here] in Q.
      assert (Lt : live (NA to)) by (apply (everywhere_part _ (NE (ECellTo c path to))); [cbn [parts]; apply in_or_app; right; now left|exact L]).
      apply J_bind; [apply J_rel, r_same; intros s; cbn; auto|]. intros _ _. intros s Fr. unfold cell_update, bind at 1, get_cell.
      destruct (assoc c (s_cells s)) as [x|] eqn:A; [|exact I]. destruct (c_shared x).
      + pose proof (proj1 Fr c x (assoc_In _ _ _ A)) as K. rewrite K. exact (cell_bracket c _ (path_quiet k to t Lt Q F ks (c_value x) 2006 2007) s Fr).
      + assert (R : rel same_locks False (v <== update_path (update_leaf E (apply E k) t) (c_value x) ks 2006 2007;; _ <== upd_cell c (cell_put v);; ret v)).
        { apply r_bind; [apply path_quiet with (to := to); auto|]. intros v. apply r_bind; [|intros; apply r_same; cbn; auto]. intros s0. unfold upd_cell.
          destruct (assoc c (s_cells s0)) as [y|] eqn:Ay; [|split; reflexivity]. split; [|reflexivity]. cbn [s_cells set_cells]. now apply (set_state cell_state _ _ _ _ Ay). }
        exact (J_rel _ _ R s Fr).
    - (* pool-to *)
      intros k p path to init t h tail i L F _. pose proof (everywhere_here _ _ L) as Q. cbn [live_here] in Q.
      assert (Lt : live (NA to)) by (apply (everywhere_part _ (NE (EPoolTo p path to init))); [cbn [parts]; apply in_or_app; right; now left|exact L]).
      assert (Up : forall g, rel same_locks False (upd_pool p (fun x => pool_put (g x) x))).
      { intros g s0. unfold upd_pool. destruct (assoc p (s_pools s0)) as [y|] eqn:Ay; [|split; reflexivity]. split; [reflexivity|]. cbn [s_pools set_pools]. now apply (set_state pool_state _ _ _ _ Ay). }
      assert (Gp : rel same_locks False (get_pool p)) by (apply r_same; intros s0; unfold get_pool; destruct (assoc _ _); auto).
      assert (R : rel same_locks False (pool_update_body p h (fun old => update_path (update_leaf E (apply E k) t) old tail 2010 2011) i)).
      { unfold pool_update_body. apply r_bind; [exact Gp|]. intros x. apply r_bind; [destruct (has_key _ _); [apply r_same; cbn; auto|apply Up]|]. intros _.
        apply r_bind; [exact Gp|]. intros x'. apply r_bind; [apply path_quiet with (to := to); auto|]. intros v. apply r_bind; [apply Up|]. intros; apply r_same; cbn; auto. }
      intros s Fr. unfold pool_update, bind at 1, get_pool. destruct (assoc p (s_pools s)) as [x|] eqn:A; [|exact I]. destruct (p_shared x); [|exact (J_rel _ _ R s Fr)].
      destruct (proj2 Fr p x (assoc_In _ _ _ A)) as [K1 K2]. rewrite K1, K2. cbn [existsb]. rewrite <- K2. exact (pool_bracket p h x _ K2 R s Fr).
    - intros. apply J_rel, r_same. intros s. cbn. auto.
    - intros p e h L. apply J_rel. intros s0. unfold upd_pool. destruct (assoc p (s_pools s0)) as [y|] eqn:Ay; [|split; reflexivity]. split; [reflexivity|]. cbn [s_pools set_pools]. now apply (set_state pool_state _ _ _ _ Ay).
    - intros. apply J_rel, r_same. intros s. cbn. auto.
    - intros m L. apply Forall_forall. intros q I. now apply (everywhere_part _ m).
    - intros nm ch args L. split; [exact (everywhere_here _ _ L)|auto].
    - intros f ps body _ A. apply Forall_forall. intros e I. eapply L_body; eauto.
    - intros f g avs _ _. apply St.
    - intros f p _ _. apply St.
    - intros f avs _ _. apply St.
  Qed.
  Lemma live_exec n es : (forall e, In e es -> live (NE e)) -> J (exec E n es).
  Proof.
    assert (Jr : forall A (a : A), J (ret a)) by (intros A a; apply J_rel, r_same; cbn; auto).
    intros H. unfold exec, run. apply J_bind; [|intros; apply Jr].
    induction es as [|e es IH]; cbn [mapE]; [apply Jr|].
    apply J_bind; [apply live_flow; apply H; now left|]. intros v _. apply J_bind; [apply IH; intros; apply H; now right|]. intros; apply Jr.
  Qed.
End Live.
