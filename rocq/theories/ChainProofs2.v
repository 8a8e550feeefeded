(** The chained engine as a whole. *)
From Verif Require Import Base ScopeModel ScopeProofs CoreModel EngineModel CoreFuel CoreInd CoreInv ChainModel ChainSpec ChainNames ChainSim ChainProofs.
From Verif Require EngineProofs.
Open Scope string_scope.
Open Scope list_scope.
Open Scope Z_scope.

Lemma chain_inv name ps H : chain name None ps = Ok H ->
  ps <> [] /\ Forall (fun p => f_method p <> MFold) ps /\ h_method H = method_of ps /\ h_fcns H = fill (all_fcns (method_of ps) 0 ps) [] /\
  h_begin H = map keep ["name"; "instance"; "metadata"] ++ all_code f_begin begin_refs 0 ps /\
  h_action H = map keep ["actionsStarted"; "actionsFinished"] ++
    [if is_emit (method_of ps) then ECall ("u." ++ prefix_action 0 (match head_name ps with Some x => x | None => "" end))%string [AExpr (ERef "input")] else nest 0 ps (ERef "input")] /\
  h_end H = map keep ["actionsStarted"; "actionsFinished"] ++ all_code f_end action_refs 0 ps /\
  h_cells H = fill (all_cells 0 ps) [("name", CellDecl (VStr "") false false); ("instance", CellDecl (VInt 0) false false);
                            ("metadata", CellDecl (VDict []) false false); ("actionsStarted", CellDecl (VInt 0) false false);
                            ("actionsFinished", CellDecl (VInt 0) false false)] /\
  h_pools H = fill (all_pools 0 ps) [].
Proof.
  unfold chain. destruct ps as [|p ps]; [discriminate|]. destruct (existsb (fun p => is_fold (f_method p)) (p :: ps)) eqn:Ef; [discriminate|].
  destruct (existsb (fun q => existsb _ _) (p :: ps)); [discriminate|]. intros [= <-]. cbn [h_method h_fcns h_begin h_action h_end h_cells h_pools head_name].
  split; [discriminate|]. split; [|auto 10].
  apply Forall_forall. intros q I X. assert (Y : existsb (fun p => is_fold (f_method p)) (p :: ps) = true) by (apply existsb_exists; exists q; rewrite X; auto). congruence.
Qed.
Lemma looks_all fcns whole ps : forall i, (forall x v, In (x, v) (all_fcns whole i ps) -> assoc x fcns = Some v) -> looks fcns whole i ps.
Proof.
  induction ps as [|p ps IH]; intros i H; cbn [looks]; [exact I|]. cbn [all_fcns] in H. split; [|split].
  - intros f q body I. apply H. apply in_or_app. left. right. apply in_map_iff. exists (f, (q, body)). auto.
  - apply H. apply in_or_app. left. now left.
  - apply IH. intros x v I. apply H. apply in_or_app. now right.
Qed.
Lemma chain_looks name ps H : chain name None ps = Ok H -> Forall dicts ps -> looks (h_fcns H) (method_of ps) 0 ps.
Proof.
  intros Hc Hd. destruct (chain_inv _ _ _ Hc) as (_ & _ & _ & -> & _). apply looks_all. intros x v I.
  rewrite fill_assoc by (now apply fcns_NoDup). rewrite (assoc_In _ _ _ (fcns_NoDup _ _ _ Hd) I). reflexivity.
Qed.

Lemma keep_eval E m x v c s : scope_get x (s_scopes s) = Ok v -> assoc x (s_cells s) = Some c -> c_shared c = false ->
  eval E (S (S m)) (keep x) s = Done (Ok v) (set_cells (dict_set x (cell_put v c) (s_cells s)) (add_trace "cell-to" s)).
Proof.
  intros H1 H2 H3. unfold keep. cbn [eval step mapE ev_arg]. unfold bind, ret. rewrite H1. unfold modify, cell_update, bind, get_cell. cbn [add_trace s_cells].
  rewrite H2. unfold ret. rewrite H3. unfold upd_cell, modify. cbn. rewrite H2. reflexivity.
Qed.
Lemma holds_all_on a b : (forall j nm y, assoc (label j nm ++ y)%string (s_cells b) = assoc (label j nm ++ y)%string (s_cells a)) ->
  s_pools b = s_pools a -> forall ps i ss, holds_all i ps ss a -> holds_all i ps ss b.
Proof.
  intros E1 E2. induction ps as [|p ps IH]; intros i [|s ss]; cbn [holds_all]; auto. intros [[H1 H2] H3]. split; [|auto].
  split; intros c; [unfold prefix_cell; rewrite E1; apply H1|rewrite E2; apply H2].
Qed.
Lemma holds_all_saved E D ps : forall i ss s', holds_all i ps ss s' -> holds_all i ps ss (prepare E D s').
Proof.
  induction ps as [|p ps IH]; intros i [|s ss] s'; cbn [holds_all]; auto. intros [[H1 H2] H3]. split; [|auto]. split; intros c.
  - change (s_cells (prepare E D s')) with (map_vals save_cell (s_cells s')). rewrite assoc_map_vals. specialize (H1 c).
    destruct (assoc c (s_cells s)), (assoc _ (s_cells s')); cbn in *; auto. now apply save_like2.
  - change (s_pools (prepare E D s')) with (map_vals save_pool (s_pools s')). rewrite assoc_map_vals. specialize (H2 c).
    destruct (assoc c (s_pools s)), (assoc _ (s_pools s')); cbn in *; auto. now apply save_pool_like2.
Qed.
Lemma action_mono E D m m' v s r s2 : (m <= m')%nat -> action E D m v s = Done r s2 -> action E D m' v s = Done r s2.
Proof.
  intros Hm. unfold action. destruct (d_check D v); [|auto]. cbn zeta. unfold in_root.
  destruct (exec E m (d_action D) _) as [r1 s1| |] eqn:E1; try discriminate. rewrite (exec_mono E m m' _ _ _ _ Hm E1). auto.
Qed.
Lemma one_mono m m' e vs : forall s r, (m <= m')%nat -> one_engine m e vs s = Some r -> one_engine m' e vs s = Some r.
Proof.
  induction vs as [|v vs IH]; intros s r Hm; cbn [one_engine]; [auto|].
  destruct (action (fst e) (snd e) m v s) as [[w|] s1| |] eqn:E1; try discriminate. rewrite (action_mono _ _ _ _ _ _ _ _ Hm E1).
  destruct (one_engine m e vs s1) as [[o s2]|] eqn:E2; [|discriminate]. now rewrite (IH _ _ Hm E2).
Qed.
Lemma run_cons ev e es s v s1 w s2 : ev e s = Done (Ok v) s1 -> es <> [] -> run ev es s1 = Done (Ok w) s2 -> run ev (e :: es) s = Done (Ok w) s2.
Proof.
  unfold run, bind, ret. cbn [mapE]. unfold bind, ret. intros -> Hn. destruct (mapE ev es s1) as [[vs|] sx| |] eqn:Em; try discriminate. intros [= <- ->]. f_equal. f_equal.
  destruct vs; [|reflexivity]. destruct es; [congruence|]. cbn [mapE] in Em. unfold bind, ret in Em. destruct (ev e0 s1) as [[u|u] su| |]; try discriminate.
  destruct (mapE ev es su) as [[]| |]; discriminate.
Qed.
Lemma run_cons_raise ev e es s v s1 x s2 : ev e s = Done (Ok v) s1 -> run ev es s1 = Done (Raise x) s2 -> run ev (e :: es) s = Done (Raise x) s2.
Proof.
  unfold run, bind, ret. cbn [mapE]. unfold bind, ret. intros ->. destruct (mapE ev es s1) as [[vs|] sx| |] eqn:Em; try discriminate. intros [= <- ->]. reflexivity.
Qed.
Lemma run_one ev e s r s1 : ev e s = Done r s1 -> run ev [e] s = Done r s1.
Proof. unfold run, bind. cbn [mapE]. unfold bind. intros ->. destruct r; reflexivity. Qed.

Section Chain.
  Variable L : env.
  Hypothesis PL : plain_lib L.
  Variables (name : option string) (ps : list pfa) (H : chained).
  Hypothesis Hchain : chain name None ps = Ok H.
  Variables (inst meta : val) (o : options).
  Hypothesis Ho : unlimited o.
  Hypothesis Hdicts : Forall dicts ps.
  Notation E' := (with_fcns L (h_fcns H)).
  Notation D' := (doc_of_chain inst meta o H).
  Notation nm := (VStr (h_name H)).
  Notation engs := (map (eng L nm inst meta o) ps).
  Definition counts : bool := negb (is_emit (method_of ps)).
  Record tied (ss : list st) (s' : st) : Prop := {
    ti_holds : holds_all 0 ps ss s';
    ti_common : forall x, In x common_names -> exists c, assoc x (s_cells s') = Some c /\ c_value c = vals nm inst meta 0 0 x;
    ti_cells : forall x, x = "actionsStarted" \/ x = "actionsFinished" -> exists c, assoc x (s_cells s') = Some c /\ c_shared c = false;
    ti_counts : counts = true -> Forall (fun s => s_started s = s_started s' /\ s_finished s = s_finished s') ss }.

  (** the state when the code of the steps starts: the counters are in their cells *)
  Definition after_keeps (a b : Z) (s s2 : st) : Prop :=
    (forall j nm y, assoc (label j nm ++ y)%string (s_cells s2) = assoc (label j nm ++ y)%string (s_cells s)) /\ s_pools s2 = s_pools s /\
    (forall x, In x common_names -> assoc x (s_cells s2) = assoc x (s_cells s)) /\
    (exists c, assoc "actionsStarted" (s_cells s2) = Some c /\ c_value c = VInt a /\ c_shared c = false) /\
    (exists c, assoc "actionsFinished" (s_cells s2) = Some c /\ c_value c = VInt b /\ c_shared c = false) /\
    s_scopes s2 = s_scopes s /\ s_started s2 = s_started s /\ s_finished s2 = s_finished s /\ s_emitted s2 = s_emitted s /\ s_timeout s2 = s_timeout s.
  Lemma keep_counters a b s : (forall x, x = "actionsStarted" \/ x = "actionsFinished" -> exists c, assoc x (s_cells s) = Some c /\ c_shared c = false) ->
    scope_get "actionsStarted" (s_scopes s) = Ok (VInt a) -> scope_get "actionsFinished" (s_scopes s) = Ok (VInt b) ->
    exists s2, (forall m es r s3, es <> [] -> run (eval E' (S (S m))) es s2 = Done r s3 ->
                 run (eval E' (S (S m))) (map keep ["actionsStarted"; "actionsFinished"] ++ es) s = Done r s3) /\ after_keeps a b s s2.
  Proof.
    intros Hc H1 H2. destruct (Hc "actionsStarted" (or_introl eq_refl)) as (c1 & A1 & B1). destruct (Hc "actionsFinished" (or_intror eq_refl)) as (c2 & A2 & B2).
    pose proof (fun m => keep_eval E' m "actionsStarted" (VInt a) c1 s H1 A1 B1) as K1.
    set (s1 := set_cells (dict_set "actionsStarted" (cell_put (VInt a) c1) (s_cells s)) (add_trace "cell-to" s)) in K1.
    assert (A2' : assoc "actionsFinished" (s_cells s1) = Some c2) by (unfold s1; cbn [set_cells s_cells]; rewrite assoc_set_neq by discriminate; exact A2).
    pose proof (fun m => keep_eval E' m "actionsFinished" (VInt b) c2 s1 H2 A2' B2) as K2.
    set (s2 := set_cells (dict_set "actionsFinished" (cell_put (VInt b) c2) (s_cells s1)) (add_trace "cell-to" s1)) in K2.
    exists s2. split.
    - intros m es r s3 Hn Hr. cbn [map app]. destruct r as [w|x].
      + eapply run_cons; [apply K1|discriminate|]. eapply run_cons; [apply K2|exact Hn|exact Hr].
      + eapply run_cons_raise; [apply K1|]. eapply run_cons_raise; [apply K2|exact Hr].
    - unfold after_keeps. unfold s2, s1. cbn [set_cells s_cells s_pools add_trace s_scopes s_started s_finished s_emitted s_timeout].
      split; [intros j nm' y; rewrite !assoc_set_neq; auto; apply label_given; cbn; auto 10|]. split; [reflexivity|].
      split; [intros x Hx; rewrite !assoc_set_neq; auto; intros ->; cbn in Hx; repeat destruct Hx as [Hx|Hx]; discriminate || contradiction|].
      split; [exists (cell_put (VInt a) c1); rewrite assoc_set_neq by discriminate; now rewrite assoc_set_eq|].
      split; [exists (cell_put (VInt b) c2); now rewrite assoc_set_eq|]. auto 10.
  Qed.
  Lemma glob_after a b ss s fr s2 : tied ss s -> after_keeps a b (set_scopes fr (prepare E' D' s)) s2 -> glob nm inst meta counts a b s2.
  Proof.
    intros Ht (_ & _ & K3 & K4 & K5 & _) x Hx Hk. apply among_In in Hx. cbn in Hx.
    assert (Hcom : In x common_names -> vals nm inst meta 0 0 x = vals nm inst meta a b x -> exists c, assoc x (s_cells s2) = Some c /\ c_value c = vals nm inst meta a b x).
    { intros Hc Hv. rewrite (K3 x Hc). change (s_cells (set_scopes fr (prepare E' D' s))) with (map_vals save_cell (s_cells s)). rewrite assoc_map_vals.
      destruct (ti_common _ _ Ht x Hc) as (c & -> & Hcv). exists (save_cell c). split; [reflexivity|]. unfold save_cell. destruct (c_rollback c); cbn; congruence. }
    destruct Hx as [<-|[<-|[<-|[<-|[<-|[]]]]]]; try (apply Hcom; [cbn; auto|reflexivity]).
    - destruct K4 as (c & ? & ? & _). exists c. auto.
    - destruct K5 as (c & ? & ? & _). exists c. auto.
  Qed.
  Lemma all_map : counts = true -> Forall (fun p => f_method p = MMap) ps.
  Proof.
    destruct (chain_inv _ _ _ Hchain) as (_ & Hf & _). unfold counts, method_of. destruct (existsb _ ps) eqn:Ee; [discriminate|]. intros _.
    rewrite Forall_forall in *. intros p I. specialize (Hf p I). destruct (f_method p) eqn:Em; try congruence.
    assert (X : existsb (fun p => is_emit (f_method p)) ps = true) by (apply existsb_exists; exists p; rewrite Em; auto). congruence.
  Qed.

  Variable n : nat.
  Hypothesis Hmoves : Forall (action_moves counts) ps.
  Theorem chain_action v ss outs ss2 s' : tied ss s' -> pipeline n engs [v] ss = Some (outs, ss2) ->
    exists m r s2', action E' D' m v s' = Done (Ok r) s2' /\ outputs D' r s' s2' = outs /\ tied ss2 s2'.
  Proof.
    intros Ht Hp. pose proof (chain_looks _ _ _ Hchain Hdicts) as Hl.
    destruct (chain_inv _ _ _ Hchain) as (Hne & Hnf & Hme & _ & _ & Hac & _).
    set (s1 := prepare E' D' s'). set (a := s_started s' + 1). set (b := s_finished s').
    set (s1f := set_scopes [action_frame D' v s1] s1).
    assert (AF : action_frame D' v s1 = [("input", v); ("name", nm); ("instance", inst); ("metadata", meta); ("actionsStarted", VInt a); ("actionsFinished", VInt b)]).
    { unfold action_frame, tally_vars. cbn [d_method doc_of_chain]. rewrite Hme. unfold method_of. destruct (existsb _ ps); reflexivity. }
    assert (Hc : forall x, x = "actionsStarted" \/ x = "actionsFinished" -> exists c, assoc x (s_cells s1f) = Some c /\ c_shared c = false).
    { intros x Hx. destruct (ti_cells _ _ Ht x Hx) as (c & A & B). exists (save_cell c). unfold s1f. cbn [set_scopes s_cells].
      change (s_cells s1) with (map_vals save_cell (s_cells s')). rewrite assoc_map_vals, A. split; [reflexivity|]. unfold save_cell. destruct (c_rollback c); auto. }
    assert (G1 : scope_get "actionsStarted" (s_scopes s1f) = Ok (VInt a)) by (unfold s1f; cbn [set_scopes s_scopes]; rewrite AF; reflexivity).
    assert (G2 : scope_get "actionsFinished" (s_scopes s1f) = Ok (VInt b)) by (unfold s1f; cbn [set_scopes s_scopes]; rewrite AF; reflexivity).
    assert (Fin : forall m w s3, run (eval E' (S (S m))) (h_action H) s1f = Done (Ok w) s3 ->
       action E' D' (S (S m)) v s' = Done (Ok (if is_emit (method_of ps) then VNull else w)) (set_finished (s_finished s3 + 1) (set_scopes (s_scopes s1) s3))).
    { intros m w s3 Hr. unfold action. cbn [d_check doc_of_chain d_action]. fold s1. unfold in_root, exec. fold s1f. rewrite Hr. unfold finish. cbn [d_method doc_of_chain].
      rewrite Hme. unfold method_of. destruct (existsb _ ps); reflexivity. }
    destruct (keep_counters a b s1f Hc G1 G2) as (s2 & HK & AK).
    assert (Go : forall e m0 w s3, h_action H = map keep ["actionsStarted"; "actionsFinished"] ++ [e] ->
               eval E' m0 e s2 = Done (Ok w) s3 -> run (eval E' (S (S m0))) (h_action H) s1f = Done (Ok w) s3).
    { intros e m0 w s3 -> He. apply HK; [discriminate|]. apply run_one. eapply eval_mono; [|exact He]. lia. }
    assert (Hs2 : holds_all 0 ps ss s2).
    { destruct AK as (K1 & K2 & _). apply (holds_all_on s1 s2 K1 K2). apply holds_all_saved. apply (ti_holds _ _ Ht). }
    assert (G : glob nm inst meta counts a b s2).
    { apply (glob_after a b ss s' _ s2 Ht AK). }
    assert (T : no_limit s2).
    { destruct AK as (_ & _ & _ & _ & _ & _ & _ & _ & _ & K10). exists (o_action o). split; [rewrite K10; reflexivity|exact Ho]. }
    assert (Ei : forall m, eval E' (S m) (ERef "input") s2 = Done (Ok v) s2).
    { intros m. cbn [eval step]. unfold bind, ret. destruct AK as (_ & _ & _ & _ & _ & -> & _). unfold s1f. cbn [set_scopes s_scopes]. rewrite AF. reflexivity. }
    assert (End : forall s3, holds_all 0 ps ss2 s3 -> keeps 0 (length ps) s2 s3 -> (counts = true -> Forall (fun s => a = s_started s /\ b + 1 = s_finished s) ss2) ->
       tied ss2 (set_finished (s_finished s3 + 1) (set_scopes (s_scopes s1) s3))).
    { intros s3 H3 K Hcn. destruct AK as (K1 & K2 & K3 & K4 & K5 & K6 & K7 & K8 & K9 & K10).
      assert (Kg : forall x, In x engine_names -> assoc x (s_cells s3) = assoc x (s_cells s2)) by (intros x Hx; apply (k_cells _ _ _ _ K); now apply mine_given).
      split.
      - now apply (holds_all_eq 0 ps ss2 s3).
      - intros x Hx. cbn [set_finished set_scopes s_cells]. rewrite Kg by (cbn in Hx |- *; tauto). rewrite (K3 x Hx). unfold s1f. cbn [set_scopes s_cells].
        change (s_cells s1) with (map_vals save_cell (s_cells s')). rewrite assoc_map_vals. destruct (ti_common _ _ Ht x Hx) as (c & -> & Hv).
        exists (save_cell c). split; [reflexivity|]. unfold save_cell. destruct (c_rollback c); exact Hv.
      - intros x Hx. cbn [set_finished set_scopes s_cells]. rewrite Kg by (cbn; destruct Hx as [-> | ->]; auto 10).
        destruct Hx as [-> | ->]; [destruct K4 as (c & ? & _ & ?)|destruct K5 as (c & ? & _ & ?)]; exists c; auto.
      - intros X. cbn [set_finished set_scopes s_started s_finished]. rewrite (k_started _ _ _ _ K), (k_finished _ _ _ _ K), K7, K8.
        specialize (Hcn X). rewrite Forall_forall in *. intros s I. destruct (Hcn s I) as [<- <-]. split; reflexivity. }
    destruct (is_emit (method_of ps)) eqn:Em.
    - assert (Ec : counts = false) by (unfold counts; now rewrite Em).
      assert (Me : method_of ps = MEmit) by (destruct (method_of ps); try discriminate; reflexivity).
      rewrite Ec in *. rewrite Me in Hl.
      destruct ps as [|p qs] eqn:Eps; [congruence|]. rewrite <- Eps in *.
      assert (Hh : head_name ps = Some (f_name p)) by (rewrite Eps; reflexivity). rewrite Hh in Hac.
      assert (Ha : assoc ("u." ++ prefix_action 0 (f_name p))%string (e_fcns E') = Some (["input"], step_body MEmit 0 p (head_name qs))).
      { rewrite Eps in Hl. cbn [looks] in Hl. destruct Hl as (_ & Ha & _). apply has_action. exact Ha. }
      set (sc := add_trace ("u." ++ prefix_action 0 (f_name p))%string s2).
      destruct (tail_good L PL (h_fcns H) nm inst meta o Ho n ps 0 Hmoves Hl v ss outs ss2 sc (S (need n ps)) (f_name p)) as (s3 & X1 & X2 & X3 & X4 & _); auto.
      { now apply (holds_all_eq 0 ps ss s2). }
      { intros x Hx Hk. destruct (G x Hx Hk) as (c & A & B). exists c. split; [exact A|]. rewrite B. apply among_In in Hk. cbn in Hk.
        repeat destruct Hk as [<-|Hk]; try reflexivity. contradiction. }
      assert (Hev : eval E' (S (S (need n ps))) (ECall ("u." ++ prefix_action 0 (f_name p))%string [AExpr (ERef "input")]) s2 = Done (Ok VNull) s3).
      { rewrite (eval_call1 L (h_fcns H) _ _ _ _ (ERef "input") s2 v s2 Ha) by apply Ei. exact X1. }
      exists (S (S (S (S (need n ps))))), VNull. eexists. split; [apply (Fin _ VNull s3); exact (Go _ _ _ _ Hac Hev)|]. split.
      + unfold outputs. cbn [d_method doc_of_chain]. rewrite Hme, Me. cbn [set_finished set_scopes s_emitted]. rewrite X4. unfold sc. cbn [add_trace s_emitted].
        destruct AK as (_ & _ & _ & _ & _ & _ & _ & _ & -> & _). change (s_emitted s1f) with (s_emitted s'). rewrite skipn_app, skipn_all, Nat.sub_diag. reflexivity.
      + apply End; [exact X2| |discriminate]. destruct X3 as [? ? ? ?]. split; auto.
    - assert (Ec : counts = true) by (unfold counts; now rewrite Em). pose proof (all_map Ec) as HM.
      assert (Me : method_of ps = MMap) by (unfold method_of in *; destruct (existsb _ ps); [discriminate|reflexivity]). rewrite Me in Hl. rewrite Ec in *.
      destruct (map_chain L PL (h_fcns H) nm inst meta o Ho n true a b ps 0 (ERef "input") ss s2 s2 n v outs ss2) as (m & w & s3 & X0 & X1 & X2 & X3 & _ & _ & _ & X4); auto.
      { intros _. pose proof (ti_counts _ _ Ht Ec) as Q. rewrite Forall_forall in *. intros s I. destruct (Q s I) as [Q1 Q2]. unfold a, b. now rewrite Q1, Q2. }
      exists (S (S m)), w. eexists. split; [apply (Fin m w s3); exact (Go _ _ _ _ Hac X1)|]. split.
      + unfold outputs. cbn [d_method doc_of_chain]. rewrite Hme, Me. now symmetry.
      + apply End; auto.
  Qed.
  (** a list of values *)
  Theorem chain_actions vs : forall ss outs ss2 s', tied ss s' -> pipeline n engs vs ss = Some (outs, ss2) ->
    exists m s2', one_engine m (E', D') vs s' = Some (outs, s2') /\ tied ss2 s2'.
  Proof.
    induction vs as [|v vs IH]; intros ss outs ss2 s' Ht Hp.
    - destruct (pipeline_nil _ _ _ _ _ Hp) as [-> ->]. exists 0%nat, s'. auto.
    - change (v :: vs) with ([v] ++ vs) in Hp. rewrite pipeline_app in Hp.
      destruct (pipeline n engs [v] ss) as [[o1 ss1]|] eqn:P1; [|discriminate]. destruct (pipeline n engs vs ss1) as [[o2 ssx]|] eqn:P2; [|discriminate]. injection Hp as <- <-.
      destruct (chain_action v ss o1 ss1 s' Ht P1) as (m1 & r & s1' & A1 & A2 & A3). destruct (IH _ _ _ _ A3 P2) as (m2 & s2' & B1 & B2).
      exists (m1 + m2)%nat, s2'. split; [|exact B2]. cbn [one_engine fst snd]. rewrite (action_mono _ _ m1 (m1 + m2) _ _ _ _ (Nat.le_add_r _ _) A1).
      rewrite (one_mono m2 (m1 + m2) _ _ _ _ (Nat.le_add_l _ _) B1). now rewrite A2.
  Qed.
End Chain.
