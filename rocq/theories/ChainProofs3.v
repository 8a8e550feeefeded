(** Failures in chains of maps; the code of begin and end; the loaded chain. *)
From Verif Require Import Base ScopeModel ScopeProofs CoreModel EngineModel CoreFuel CoreInd CoreInv ChainModel ChainSpec ChainNames ChainSim ChainProofs ChainProofs2.
From Verif Require EngineProofs.
Open Scope string_scope.
Open Scope list_scope.
Open Scope Z_scope.

Lemma looks_first fcns ps1 ps2 : forall i, Forall (fun p => f_method p = MMap) ps1 -> looks fcns MMap i (ps1 ++ ps2) -> looks fcns MMap i ps1.
Proof.
  induction ps1 as [|p ps1 IH]; intros i HM; cbn [app looks]; [auto|]. pose proof (Forall_inv HM) as Em. intros (H1 & H2 & H3). split; [|split].
  - intros f q b I. rewrite (H1 f q b I). unfold ctx_of. now rewrite Em.
  - rewrite H2. unfold step_body, ctx_of. now rewrite Em.
  - apply IH; [exact (Forall_inv_tail HM)|exact H3].
Qed.

(** *** The loaded chain *)
Lemma cell_of_step ps : forall i, Forall dicts ps -> forall q p k, nth_error ps k = Some p -> q = (i + k)%nat -> forall c,
  assoc (prefix_cell q (f_name p) c) (all_cells i ps) = assoc c (f_cells p).
Proof.
  intros i HD q p k Hk -> c. pose proof (cells_NoDup i ps HD) as ND.
  assert (Hin : forall d, In (c, d) (f_cells p) -> In (prefix_cell (i + k) (f_name p) c, d) (all_cells i ps)).
  { clear ND HD. revert i k Hk. induction ps as [|p0 ps IH]; intros i [|k]; cbn [nth_error all_cells]; try discriminate; intros Hk d I; apply in_or_app.
    - injection Hk as ->. left. rewrite Nat.add_0_r. apply in_map_iff. exists (c, d). auto.
    - right. replace (i + S k)%nat with (S i + k)%nat by lia. now apply IH. }
  assert (Hout : forall d, In (prefix_cell (i + k) (f_name p) c, d) (all_cells i ps) -> In c (map fst (f_cells p))).
  { clear ND HD Hin. revert i k Hk. induction ps as [|p0 ps IH]; intros i [|k]; cbn [nth_error all_cells]; try discriminate; intros Hk d I; apply in_app_or in I.
    - injection Hk as ->. rewrite Nat.add_0_r in I. destruct I as [I|I].
      + apply in_map_iff in I. destruct I as ([c' d'] & E & I). apply (f_equal fst) in E. cbn [fst] in E. apply append_inj in E. subst. apply in_map_iff. exists (c, d'). auto.
      + exfalso. apply (in_map fst) in I. apply cells_labelled in I. now apply labelled_other in I.
    - destruct I as [I|I].
      + apply in_map_iff in I. destruct I as ([c' d'] & E & _). apply (f_equal fst) in E. cbn [fst] in E. apply label_index in E. lia.
      + replace (i + S k)%nat with (S i + k)%nat in I by lia. now apply (IH (S i) k Hk d). }
  destruct (assoc c (f_cells p)) as [d|] eqn:Ed.
  - apply assoc_In; [exact ND|]. apply Hin. now apply assoc_Some.
  - apply assoc_None. intros I. apply in_map_iff in I. destruct I as ([x d] & E & I). cbn in E. subst x. apply Hout in I. now apply assoc_None in Ed.
Qed.
Lemma pool_of_step ps : forall i, Forall dicts ps -> forall q p k, nth_error ps k = Some p -> q = (i + k)%nat -> forall c,
  assoc (prefix_pool q (f_name p) c) (all_pools i ps) = assoc c (map (fun q => (fst q, fst (snd q))) (f_pools p)).
Proof.
  intros i HD q p k Hk -> c. pose proof (pools_NoDup i ps HD) as ND.
  assert (Hin : forall d, In (c, d) (map (fun q => (fst q, fst (snd q))) (f_pools p)) -> In (prefix_pool (i + k) (f_name p) c, d) (all_pools i ps)).
  { clear ND HD. revert i k Hk. induction ps as [|p0 ps IH]; intros i [|k]; cbn [nth_error all_pools]; try discriminate; intros Hk d I; apply in_or_app.
    - injection Hk as ->. left. rewrite Nat.add_0_r. apply in_map_iff in I. destruct I as (z & E & I). injection E as <- <-. apply in_map_iff. exists z. auto.
    - right. replace (i + S k)%nat with (S i + k)%nat by lia. now apply IH. }
  assert (Hout : forall d, In (prefix_pool (i + k) (f_name p) c, d) (all_pools i ps) -> In c (map fst (map (fun q => (fst q, fst (snd q))) (f_pools p)))).
  { clear ND HD Hin. revert i k Hk. induction ps as [|p0 ps IH]; intros i [|k]; cbn [nth_error all_pools]; try discriminate; intros Hk d I; apply in_app_or in I.
    - injection Hk as ->. rewrite Nat.add_0_r in I. destruct I as [I|I].
      + apply in_map_iff in I. destruct I as (z & E & I). apply (f_equal fst) in E. cbn [fst] in E. apply append_inj in E. subst. rewrite map_map. apply in_map_iff. exists z. auto.
      + exfalso. apply (in_map fst) in I. apply pools_labelled in I. now apply labelled_other in I.
    - destruct I as [I|I].
      + apply in_map_iff in I. destruct I as (z & E & _). apply (f_equal fst) in E. cbn [fst] in E. apply label_index in E. lia.
      + replace (i + S k)%nat with (S i + k)%nat in I by lia. now apply (IH (S i) k Hk d). }
  destruct (assoc c (map _ (f_pools p))) as [d|] eqn:Ed.
  - apply assoc_In; [exact ND|]. apply Hin. now apply assoc_Some.
  - apply assoc_None. intros I. apply in_map_iff in I. destruct I as ([x d] & E & I). cbn in E. subst x. apply Hout in I. now apply assoc_None in Ed.
Qed.
Lemma holds_all_nth ps : forall i ss s', length ss = length ps -> (forall k p s, nth_error ps k = Some p -> nth_error ss k = Some s -> holds (i + k) p s s') -> holds_all i ps ss s'.
Proof.
  induction ps as [|p ps IH]; intros i [|s ss] s'; cbn [length]; try discriminate; intros E Hk; cbn [holds_all]; [exact I|]. split.
  - rewrite <- (Nat.add_0_r i). now apply (Hk 0%nat).
  - apply IH; [congruence|]. intros k q s0 H1 H2. replace (S i + k)%nat with (i + S k)%nat by lia. now apply (Hk (S k)).
Qed.

(** *** The cells of the chain that hold its variables *)
Lemma keep_list E (vals : string -> val) xs : forall s, NoDup xs -> (forall x, In x xs -> scope_get x (s_scopes s) = Ok (vals x)) ->
  (forall x, In x xs -> exists c, assoc x (s_cells s) = Some c /\ c_shared c = false) ->
  exists s2, (forall m, mapE (eval E (S (S m))) (map keep xs) s = Done (Ok (map vals xs)) s2) /\
    (forall x, In x xs -> exists c, assoc x (s_cells s2) = Some c /\ c_value c = vals x /\ c_shared c = false) /\
    (forall y, ~ In y xs -> assoc y (s_cells s2) = assoc y (s_cells s)) /\ s_pools s2 = s_pools s /\ s_scopes s2 = s_scopes s /\
    s_started s2 = s_started s /\ s_finished s2 = s_finished s /\ s_emitted s2 = s_emitted s /\ s_timeout s2 = s_timeout s.
Proof.
  induction xs as [|x xs IH]; intros s ND Hv Hc.
  - exists s. cbn. repeat (split; [now auto|]). reflexivity.
  - apply NoDup_cons_iff in ND. destruct ND as [Hn ND]. destruct (Hc x (or_introl eq_refl)) as (c & A & B).
    pose proof (fun m => keep_eval E m x (vals x) c s (Hv x (or_introl eq_refl)) A B) as K.
    set (s1 := set_cells _ _) in K.
    destruct (IH s1 ND) as (s2 & I1 & I2 & I3 & I4).
    { intros y Hy. apply Hv. now right. }
    { intros y Hy. unfold s1. cbn [set_cells s_cells]. rewrite assoc_set_neq by (intros ->; auto). apply Hc. now right. }
    exists s2. split; [|split; [|split; [|exact I4]]].
    + intros m. cbn [map mapE]. unfold bind, ret. rewrite K, I1. reflexivity.
    + intros y [<-|Hy]; [|now apply I2]. rewrite I3 by exact Hn. unfold s1. cbn [set_cells s_cells]. rewrite assoc_set_eq. exists (cell_put (vals x) c). auto.
    + intros y Hy. rewrite I3 by (intros Q; apply Hy; now right). unfold s1. cbn [set_cells s_cells]. apply assoc_set_neq. intros ->. apply Hy. now left.
Qed.
Lemma mapE_up E m m' es s r s2 : (m <= m')%nat -> mapE (eval E m) es s = Done r s2 -> mapE (eval E m') es s = Done r s2.
Proof. intros Hm X. destruct (le_mapE (eval E m) (eval E m') es (proj1 (le_eval E m m' Hm)) s) as [Y|Y]; congruence. Qed.
Lemma mapE_run ev es s vs s2 : mapE ev es s = Done (Ok vs) s2 -> exists w, run ev es s = Done (Ok w) s2.
Proof. unfold run, bind, ret. intros ->. eauto. Qed.

Lemma begin_mono E D m m' s r s2 : (m <= m')%nat -> begin E D m s = Done r s2 -> begin E D m' s = Done r s2.
Proof.
  intros Hm. unfold begin. destruct (d_begin D) as [|e es]; [auto|]. unfold bind, in_root. set (es' := e :: es). clearbody es'.
  destruct (exec E m es' _) as [r1 s1| |] eqn:E1; try discriminate. now rewrite (exec_mono E m m' _ _ _ _ Hm E1).
Qed.
Lemma end_mono E D m m' s r s2 : (m <= m')%nat -> end_ E D m s = Done r s2 -> end_ E D m' s = Done r s2.
Proof.
  intros Hm. unfold end_. destruct (d_end D) as [|e es]; [auto|]. unfold bind, in_root. set (es' := e :: es). clearbody es'.
  destruct (exec E m es' _) as [r1 s1| |] eqn:E1; try discriminate. now rewrite (exec_mono E m m' _ _ _ _ Hm E1).
Qed.
Lemma dict_set_new {V} k (v : V) d : ~ In k (map fst d) -> dict_set k v d = d ++ [(k, v)].
Proof.
  induction d as [|[a b] d IH]; cbn; [reflexivity|]. intros N. destruct (String.eqb_spec k a) as [->|Ne]; [exfalso; auto|]. now rewrite IH by auto.
Qed.
Lemma fill_app {V} (l : list (string * V)) : forall d, NoDup (map fst l) -> (forall x, In x (map fst l) -> ~ In x (map fst d)) -> fill l d = d ++ l.
Proof.
  unfold fill. induction l as [|[k v] l IH]; intros d ND Hd; cbn [fold_left fst snd]; [now rewrite app_nil_r|].
  cbn in ND. apply NoDup_cons_iff in ND. destruct ND as [Nk ND]. rewrite dict_set_new by (apply Hd; now left). rewrite IH; [now rewrite <- app_assoc|exact ND|].
  intros x I. rewrite map_app, in_app_iff. intros [J|[<-|[]]]; [apply (Hd x); [now right|exact J]|auto].
Qed.
Lemma label_given_in i a x : ~ In (label i a ++ x)%string ["name"; "instance"; "metadata"; "actionsStarted"; "actionsFinished"].
Proof. intros I. exact (label_given i a x _ I eq_refl). Qed.

Section Chain3.
  Variable L : env.
  Hypothesis PL : plain_lib L.
  Variables (name : option string) (ps : list pfa) (H : chained).
  Hypothesis Hchain : chain name None ps = Ok H.
  Variables (inst meta : val) (o : options).
  Hypothesis Ho : unlimited o.
  Hypothesis Hdicts : Forall dicts ps.
  Notation E' := (with_fcns L (h_fcns H)).
  Notation D' := (doc_of_chain inst meta o H).
  Notation nm := (VStr (h_name H)).
  Notation engs := (map (eng L nm inst meta o) ps).
  Notation tied := (tied ps H inst meta).
  Notation counts := (counts ps).
  Definition loads : list st := map (fun p => load (doc_of nm inst meta o p)) ps.
  Lemma load_holds : holds_all 0 ps loads (load D').
  Proof.
    destruct (chain_inv _ _ _ Hchain) as (_ & _ & _ & _ & _ & _ & _ & Hc & Hp).
    apply holds_all_nth; [unfold loads; apply map_length|]. intros k p s Hk Hs. unfold loads in Hs. rewrite nth_error_map, Hk in Hs. injection Hs as <-. cbn [Nat.add].
    split; intros c; cbn [load s_cells s_pools d_cells d_pools doc_of doc_of_chain]; rewrite !assoc_map_vals.
    - rewrite Hc, fill_assoc by now apply cells_NoDup. rewrite (cell_of_step ps 0 Hdicts k p k Hk eq_refl). destruct (assoc c (f_cells p)) as [d|]; cbn [option_map opt_rel].
      + repeat split.
      + match goal with |- context [assoc ?a ?b] => destruct (assoc a b) eqn:Ea end; [|exact I]. exfalso. apply assoc_Some in Ea. apply (in_map fst) in Ea. cbn [map fst] in Ea.
        revert Ea. apply label_given_in.
    - rewrite Hp, fill_assoc by now apply pools_NoDup. rewrite (pool_of_step ps 0 Hdicts k p k Hk eq_refl). destruct (assoc c _) as [d|]; cbn; repeat split.
  Qed.
  Lemma given_cells x : In x engine_names -> exists c, assoc x (s_cells (load D')) = Some c /\ c_shared c = false.
  Proof.
    intros Hx. destruct (chain_inv _ _ _ Hchain) as (_ & _ & _ & _ & _ & _ & _ & Hc & _). cbn [load s_cells d_cells doc_of_chain]. rewrite assoc_map_vals, Hc, fill_assoc by now apply cells_NoDup.
    assert (X : assoc x (all_cells 0 ps) = None).
    { apply assoc_None. intros I. apply cells_labelled in I. destruct I as (j & a & y & _ & ->). exact (label_given _ _ _ _ Hx eq_refl). }
    rewrite X. cbn in Hx. repeat destruct Hx as [<-|Hx]; try (eexists; split; reflexivity). contradiction.
  Qed.

  (** *** begin *)
  Variable n : nat.
  Definition common_frame : frame := frame_let (common_vars D') [].
  Lemma begin_ran qs : forall ss ss2, length ss = length qs -> begin_all n (map (eng L nm inst meta o) qs) ss = Some ss2 ->
    ran L n f_begin (fun _ => common_frame) qs (map (start E' D' RAction) ss) ss2 /\ Forall2 (fun s s2 => s_started s2 = s_started s /\ s_finished s2 = s_finished s) ss ss2.
  Proof.
    induction qs as [|p qs IH]; intros [|s ss] ss2; cbn [length map]; try discriminate; intros Hlen; unfold begin_all; cbn [each].
    - intros [= <-]. cbn. auto.
    - cbn [eng fst snd]. destruct (begin (with_fcns L (f_fcns p)) (doc_of nm inst meta o p) n s) as [[u|] s2| |] eqn:Eb; try discriminate.
      fold (begin_all n). destruct (begin_all n (map (eng L nm inst meta o) qs) ss) as [r|] eqn:Er; [|discriminate]. intros [= <-].
      destruct (IH ss r) as [I1 I2]; [congruence|exact Er|]. cbn [ran].
      assert (X : exists w sx, run (eval (with_fcns L (f_fcns p)) n) (f_begin p) (set_scopes [common_frame] (start E' D' RAction s)) = Done (Ok w) sx /\
                    s_cells s2 = s_cells sx /\ s_pools s2 = s_pools sx /\ s_started s2 = s_started s /\ s_finished s2 = s_finished s).
      { unfold begin in Eb. cbn [d_begin doc_of] in Eb. destruct (f_begin p) as [|e es] eqn:Ef.
        - injection Eb as _ <-. eexists _, _. split; [reflexivity|]. auto.
        - rewrite <- Ef in *. unfold bind, ret, in_root in Eb.
          change (set_scopes [frame_let (common_vars (doc_of nm inst meta o p) ++ version_vars (doc_of nm inst meta o p)) []] (start (with_fcns L (f_fcns p)) (doc_of nm inst meta o p) RAction s))
            with (set_scopes [common_frame] (start E' D' RAction s)) in Eb. unfold exec in Eb.
          destruct (run (eval (with_fcns L (f_fcns p)) n) (f_begin p) (set_scopes [common_frame] (start E' D' RAction s))) as [[w|] sx| |] eqn:Ex; try discriminate.
          injection Eb as _ <-. exists w, sx. repeat (split; [reflexivity|]).
          destruct (pres_exec EngineProofs.stable EngineProofs.stable_closed (with_fcns L (f_fcns p)) n (f_begin p) _ _ _ Ex) as [_ _ St1 St2 _ _ _]. split; [exact St1|exact St2]. }
      destruct X as (w & sx & X1 & X2 & X3 & X4 & X5). split; [|constructor; auto]. split; [|exact I1]. split; [|eauto 6].
      exists (o_action o). split; [reflexivity|exact Ho].
  Qed.
  Lemma holds_all_start qs : forall i ss s', holds_all i qs ss s' -> holds_all i qs (map (start E' D' RAction) ss) s'.
  Proof. induction qs as [|p qs IH]; intros i [|s ss] s'; cbn [holds_all map]; auto. intros [H1 H2]. split; [exact H1|auto]. Qed.
  Theorem chain_begin own ss : (forall i x, own i x = true -> among common_names x = false) -> (forall i j x, i <> j -> own i x = true -> own j x = false) ->
    (forall i j, own i (dollar j) = false) ->
    code_moves own (among common_names) (among common_names) f_begin 0 ps -> begin_all n engs loads = Some ss ->
    exists m s', begin E' D' m (load D') = Done (Ok tt) s' /\ tied ss s' /\ s_emitted s' = [].
  Proof.
    intros Hown Hdis Hdol Hmv Hb. destruct (begin_ran ps loads ss) as [Hran Hcn]; [unfold loads; apply map_length|exact Hb|].
    set (s0 := start E' D' RAction (load D')). set (s1 := set_scopes [common_frame] s0).
    pose proof (chain_looks _ _ _ Hchain Hdicts) as Hl. destruct (chain_inv _ _ _ Hchain) as (Hne & Hnf & Hme & _ & Hbe & _).
    destruct (keep_list E' (vals nm inst meta 0 0) ["name"; "instance"; "metadata"] s1) as (s2 & K1 & K2 & K3 & K4 & K5 & K6 & K7 & K8 & K9).
    { repeat constructor; cbn; intuition discriminate. }
    { intros x Hx. cbn in Hx. repeat destruct Hx as [<-|Hx]; try reflexivity. contradiction. }
    { intros x Hx. apply given_cells. cbn in Hx |- *. tauto. }
    destruct (code_seq L PL (h_fcns H) n own (among common_names) (among common_names) (vals nm inst meta 0 0) f_begin (fun _ => common_frame) common_frame (method_of ps))
      with (ps := ps) (i := 0%nat) (ss := map (start E' D' RAction) loads) (ss2 := ss) (s' := s2) (fr := common_frame) as (ws & s3 & X1 & X2 & X3 & X4 & X5); auto.
    { intros x Hx. apply among_In in Hx. cbn in Hx |- *. tauto. }
    { intros x Hx. apply assoc_None. intros I. assert (X : among common_names x = true); [|congruence]. cbn in I. repeat destruct I as [<-|I]; try reflexivity. contradiction. }
    { apply Forall_forall. intros s _. split.
      - intros x Hx. apply assoc_None. intros I. assert (X : among common_names x = true); [|congruence]. cbn in I. repeat destruct I as [<-|I]; try reflexivity. contradiction.
      - intros x Hx _. apply among_In in Hx. cbn in Hx. repeat destruct Hx as [<-|Hx]; try reflexivity. contradiction. }
    { intros x Hx _. apply among_In in Hx. destruct (K2 x Hx) as (c & A & B & _). eauto. }
    { apply holds_all_start. apply (holds_all_on s1 s2); [|exact K4|apply (holds_all_eq 0 ps loads (load D')); [reflexivity|reflexivity|apply load_holds]].
      intros j a y. apply K3. intros I. apply (label_given_in j a y). cbn in I |- *. tauto. }
    { exists (o_action o). split; [rewrite K9; reflexivity|exact Ho]. }
    exists (S (S n)), (set_scopes [] s3).
    assert (Y : mapE (eval E' (S (S n))) (h_begin H) s1 = Done (Ok (map (vals nm inst meta 0 0) ["name"; "instance"; "metadata"] ++ ws)) s3).
    { rewrite Hbe. eapply mapE_app; [apply K1|]. change begin_refs with (among common_names).
      eapply mapE_up; [|exact X1]. lia. }
    split; [|split].
    - unfold begin. cbn [d_begin doc_of_chain]. destruct (h_begin H) as [|e es] eqn:Eh; [rewrite Hbe in Eh; discriminate|]. rewrite <- Eh in *.
      unfold bind, in_root, exec. change (set_scopes [frame_let (common_vars D' ++ version_vars D') []] (start E' D' RAction (load D'))) with s1.
      destruct (mapE_run _ _ _ _ _ Y) as (w & ->). reflexivity.
    - split.
      + now apply (holds_all_eq 0 ps ss s3).
      + intros x Hx. destruct (K2 x Hx) as (c & A & B & _). exists c. cbn [set_scopes s_cells]. rewrite (k_cells _ _ _ _ X3); [auto|]. apply mine_given. cbn in Hx |- *. tauto.
      + intros x Hx. cbn [set_scopes s_cells]. rewrite (k_cells _ _ _ _ X3) by (apply mine_given; cbn; destruct Hx as [-> | ->]; auto 10).
        rewrite K3 by (cbn; destruct Hx as [-> | ->]; intuition discriminate). apply (given_cells x). cbn. destruct Hx as [-> | ->]; auto 10.
      + intros _. cbn [set_scopes s_started s_finished]. rewrite (k_started _ _ _ _ X3), (k_finished _ _ _ _ X3), K6, K7. change (s_started s1) with 0. change (s_finished s1) with 0.
        clear - Hcn. unfold loads in Hcn. revert ss Hcn. induction ps as [|p qs IH]; intros ss Hcn; inversion_clear Hcn; constructor; auto.
    - cbn [set_scopes s_emitted]. rewrite X5, K8. reflexivity.
  Qed.

  (** *** end *)
  Definition end_frame (s : st) : frame := frame_let (common_vars D' ++ counter_vars s) [].
  Lemma end_ran qs : forall ss ss2, length ss = length qs -> end_all n (map (eng L nm inst meta o) qs) ss = Some ss2 -> Forall (fun p => f_method p <> MFold) qs ->
    ran L n f_end end_frame qs (map (start E' D' RAction) ss) ss2.
  Proof.
    induction qs as [|p qs IH]; intros [|s ss] ss2; cbn [length map]; try discriminate; intros Hlen; unfold end_all; cbn [each].
    - intros [= <-] _. cbn. auto.
    - cbn [eng fst snd]. destruct (end_ (with_fcns L (f_fcns p)) (doc_of nm inst meta o p) n s) as [[u|] s2| |] eqn:Eb; try discriminate.
      fold (end_all n). destruct (end_all n (map (eng L nm inst meta o) qs) ss) as [r|] eqn:Er; [|discriminate]. intros [= <-] HF.
      pose proof (IH ss r ltac:(congruence) Er (Forall_inv_tail HF)) as I1. cbn [ran]. split; [|exact I1]. split; [exists (o_action o); split; [reflexivity|exact Ho]|].
      unfold end_ in Eb. cbn [d_end doc_of] in Eb. destruct (f_end p) as [|e es] eqn:Ef.
      + injection Eb as _ <-. eexists _, _. split; [reflexivity|]. auto.
      + rewrite <- Ef in *. unfold bind, ret, in_root in Eb.
        assert (X : frame_let (common_vars (doc_of nm inst meta o p) ++ counter_vars s ++ version_vars (doc_of nm inst meta o p) ++ tally_vars (doc_of nm inst meta o p) s) []
                    = end_frame (start E' D' RAction s)).
        { unfold tally_vars. cbn [d_method doc_of]. assert (Hx : f_method p <> MFold) by exact (Forall_inv HF). destruct (f_method p); try congruence; reflexivity. }
        rewrite X in Eb. change (start (with_fcns L (f_fcns p)) (doc_of nm inst meta o p) RAction s) with (start E' D' RAction s) in Eb. unfold exec in Eb.
        destruct (run (eval (with_fcns L (f_fcns p)) n) (f_end p) (set_scopes [end_frame (start E' D' RAction s)] (start E' D' RAction s))) as [[w|] sx| |] eqn:Ex; try discriminate.
        injection Eb as _ <-. exists w, sx. auto.
  Qed.
  Theorem chain_end own ss ss2 s' : (forall i x, own i x = true -> among engine_names x = false) -> (forall i j x, i <> j -> own i x = true -> own j x = false) ->
    (forall i j, own i (dollar j) = false) ->
    code_moves own (among engine_names) (known counts) f_end 0 ps -> tied ss s' -> end_all n engs ss = Some ss2 ->
    exists m s2', end_ E' D' m s' = Done (Ok tt) s2' /\ holds_all 0 ps ss2 s2' /\ s_emitted s2' = s_emitted s'.
  Proof.
    intros Hown Hdis Hdol Hmv Ht He. pose proof (chain_looks _ _ _ Hchain Hdicts) as Hl. destruct (chain_inv _ _ _ Hchain) as (Hne & Hnf & Hme & _ & _ & _ & Hen & _).
    assert (Hlen : length ss = length ps).
    { pose proof (ti_holds _ _ _ _ _ _ Ht) as X. clear - X. revert X. generalize 0%nat. revert ss. induction ps as [|p qs IH]; intros [|s ss] i; cbn [holds_all length]; try tauto. intros [_ X]. f_equal. eauto. }
    pose proof (end_ran ps ss ss2 Hlen He Hnf) as Hran.
    set (s0 := start E' D' RAction s'). set (s1 := set_scopes [end_frame s0] s0). set (a := s_started s'). set (b := s_finished s').
    destruct (keep_list E' (vals nm inst meta a b) ["actionsStarted"; "actionsFinished"] s1) as (s2 & K1 & K2 & K3 & K4 & K5 & K6 & K7 & K8 & K9).
    { repeat constructor; cbn; intuition discriminate. }
    { intros x Hx. cbn in Hx. repeat destruct Hx as [<-|Hx]; try reflexivity. contradiction. }
    { intros x Hx. apply (ti_cells _ _ _ _ _ _ Ht). cbn in Hx. intuition. }
    assert (Hin : forall s x, In x (map fst (end_frame s)) -> among engine_names x = true).
    { intros s x I. cbn in I. repeat destruct I as [<-|I]; try reflexivity. contradiction. }
    destruct (code_seq L PL (h_fcns H) n own (among engine_names) (known counts) (vals nm inst meta a b) f_end end_frame (end_frame s0) (method_of ps))
      with (ps := ps) (i := 0%nat) (ss := map (start E' D' RAction) ss) (ss2 := ss2) (s' := s2) (fr := end_frame s0) as (ws & s3 & X1 & X2 & X3 & X4 & X5); auto.
    { intros x Hx. now apply among_In in Hx. }
    { intros x Hx. apply assoc_None. intros I. apply Hin in I. congruence. }
    { pose proof (ti_counts _ _ _ _ _ _ Ht) as Hct. apply Forall_forall. intros s I. apply in_map_iff in I. destruct I as (s4 & <- & I). split.
      - intros x Hx. apply assoc_None. intros J. apply Hin in J. congruence.
      - intros x Hx Hk. unfold known in Hk. apply among_In in Hx. destruct counts.
        + specialize (Hct eq_refl). rewrite Forall_forall in Hct. destruct (Hct s4 I) as [Q1 Q2]. unfold a, b. rewrite <- Q1, <- Q2.
          cbn in Hx. repeat destruct Hx as [<-|Hx]; try reflexivity. contradiction.
        + apply among_In in Hk. cbn in Hk. repeat destruct Hk as [<-|Hk]; try reflexivity. contradiction. }
    { intros x Hx _. apply among_In in Hx. destruct (in_dec string_dec x ["actionsStarted"; "actionsFinished"]) as [I|I].
      - destruct (K2 x I) as (c & A & B & _). eauto.
      - rewrite K3 by exact I. assert (J : In x common_names) by (cbn in Hx, I |- *; tauto). destruct (ti_common _ _ _ _ _ _ Ht x J) as (c & A & B). exists c. split; [exact A|].
        rewrite B. cbn in J. repeat destruct J as [<-|J]; try reflexivity. contradiction. }
    { apply holds_all_start. apply (holds_all_on s1 s2); [|exact K4|apply (holds_all_eq 0 ps ss s'); [reflexivity|reflexivity|apply (ti_holds _ _ _ _ _ _ Ht)]].
      intros j c y. apply K3. intros I. apply (label_given_in j c y). cbn in I |- *. tauto. }
    { exists (o_action o). split; [rewrite K9; reflexivity|exact Ho]. }
    exists (S (S n)), (set_scopes (s_scopes s') s3).
    assert (Y : mapE (eval E' (S (S n))) (h_end H) s1 = Done (Ok (map (vals nm inst meta a b) ["actionsStarted"; "actionsFinished"] ++ ws)) s3).
    { rewrite Hen. eapply mapE_app; [apply K1|]. change action_refs with (among engine_names). eapply mapE_up; [|exact X1]. lia. }
    split; [|split].
    - unfold end_. cbn [d_end doc_of_chain]. destruct (h_end H) as [|e es] eqn:Eh; [rewrite Hen in Eh; discriminate|]. rewrite <- Eh in *.
      unfold bind, in_root, exec.
      assert (X : frame_let (common_vars D' ++ counter_vars s' ++ version_vars D' ++ tally_vars D' s') [] = end_frame s0).
      { unfold tally_vars. cbn [d_method doc_of_chain]. rewrite Hme. unfold method_of. destruct (existsb _ ps); reflexivity. }
      rewrite X. fold s0. fold s1. destruct (mapE_run _ _ _ _ _ Y) as (w & ->). reflexivity.
    - now apply (holds_all_eq 0 ps ss2 s3).
    - cbn [set_scopes s_emitted]. rewrite X5, K8. reflexivity.
  Qed.

  (** *** A step that fails, in a chain of maps *)
  Lemma chain_ready v ss s' : tied ss s' -> let s1 := prepare E' D' s' in
    exists s2, (forall e m0 r s3, h_action H = map keep ["actionsStarted"; "actionsFinished"] ++ [e] -> eval E' m0 e s2 = Done r s3 ->
                  run (eval E' (S (S m0))) (h_action H) (set_scopes [action_frame D' v s1] s1) = Done r s3) /\
      holds_all 0 ps ss s2 /\ glob nm inst meta counts (s_started s' + 1) (s_finished s') s2 /\ no_limit s2 /\
      (forall m, eval E' (S m) (ERef "input") s2 = Done (Ok v) s2).
  Proof.
    intros Ht s1. destruct (chain_inv _ _ _ Hchain) as (Hne & Hnf & Hme & _ & _ & Hac & _).
    set (a := s_started s' + 1). set (b := s_finished s'). set (s1f := set_scopes [action_frame D' v s1] s1).
    assert (AF : action_frame D' v s1 = [("input", v); ("name", nm); ("instance", inst); ("metadata", meta); ("actionsStarted", VInt a); ("actionsFinished", VInt b)]).
    { unfold action_frame, tally_vars. cbn [d_method doc_of_chain]. rewrite Hme. unfold method_of. destruct (existsb _ ps); reflexivity. }
    destruct (keep_counters L H a b s1f) as (s2 & HK & AK).
    { intros x Hx. destruct (ti_cells _ _ _ _ _ _ Ht x Hx) as (c & A & B). exists (save_cell c). unfold s1f. cbn [set_scopes s_cells].
      change (s_cells s1) with (map_vals save_cell (s_cells s')). rewrite assoc_map_vals, A. split; [reflexivity|]. unfold save_cell. destruct (c_rollback c); auto. }
    { unfold s1f; cbn [set_scopes s_scopes]; rewrite AF; reflexivity. }
    { unfold s1f; cbn [set_scopes s_scopes]; rewrite AF; reflexivity. }
    exists s2. split; [|split; [|split; [|split]]].
    - intros e m0 r s3 -> He. apply HK; [discriminate|]. apply run_one. eapply eval_mono; [|exact He]. lia.
    - destruct AK as (K1 & K2 & _). apply (holds_all_on s1 s2 K1 K2). apply holds_all_saved. apply (ti_holds _ _ _ _ _ _ Ht).
    - eapply glob_after; [exact Ht|exact AK].
    - destruct AK as (_ & _ & _ & _ & _ & _ & _ & _ & _ & K10). exists (o_action o). split; [rewrite K10; reflexivity|exact Ho].
    - intros m. cbn [eval step]. unfold bind, ret. destruct AK as (_ & _ & _ & _ & _ & -> & _). unfold s1f. cbn [set_scopes s_scopes]. rewrite AF. reflexivity.
  Qed.
  Theorem chain_failure qs p rest ssa s ssb ssa2 v w x s3 s' : counts = true -> Forall (action_moves true) ps -> ps = qs ++ p :: rest -> length ssa = length qs ->
    tied (ssa ++ s :: ssb) s' -> pipeline n (map (eng L nm inst meta o) qs) [v] ssa = Some ([w], ssa2) ->
    action (fst (eng L nm inst meta o p)) (snd (eng L nm inst meta o p)) n w s = Done (Raise x) s3 ->
    exists m s2', action E' D' m v s' = Done (Raise x) s2' /\ s_started s2' = s_started s' + 1 /\ s_finished s2' = s_finished s'.
  Proof.
    intros Ec Hmv Hps Hlen Ht Hp Ha. pose proof (all_map _ _ _ Hchain Ec) as HM. pose proof (chain_looks _ _ _ Hchain Hdicts) as Hl.
    destruct (chain_inv _ _ _ Hchain) as (Hne & Hnf & Hme & _ & _ & Hac & _).
    assert (Me : method_of ps = MMap) by (unfold counts, method_of in *; destruct (existsb _ ps); [discriminate|reflexivity]).
    rewrite Me in Hl, Hac. cbn [is_emit] in Hac.
    destruct (chain_ready v _ s' Ht) as (s2 & R1 & R2 & R3 & R4 & R5). rewrite Ec in R3. set (a := s_started s' + 1) in *. set (b := s_finished s') in *.
    pose proof (ti_counts _ _ _ _ _ _ Ht Ec) as Hct.
    assert (Hps2 : holds_all 0 qs ssa s2 /\ holds_all (length qs) (p :: rest) (s :: ssb) s2).
    { rewrite Hps in R2. destruct (holds_all_split _ _ _ _ _ R2) as (u1 & u2 & Eu & U1 & U2). cbn [Nat.add] in U2.
      assert (Lu : length u1 = length ssa).
      { rewrite Hlen. clear - U1. revert U1. generalize 0%nat. revert u1. induction qs as [|q qs IH]; intros [|t u1] i; cbn [holds_all length]; try tauto. intros [_ X]. f_equal. eauto. }
      assert (Eq : ssa = u1 /\ s :: ssb = u2).
      { clear - Eu Lu. revert u1 Eu Lu. induction ssa as [|t ssa IH]; intros [|t1 u1]; cbn; try discriminate; auto. intros [= <- Eu] [= Lu]. destruct (IH u1 Eu Lu) as [<- <-]. auto. }
      destruct Eq as [<- <-]. auto. }
    destruct Hps2 as [U1 [U2 U3]].
    assert (HM' := HM). rewrite Hps in HM'. apply Forall_app in HM'. destruct HM' as [HMq HMp]. pose proof (Forall_inv HMp) as Em. cbn beta in Em.
    assert (Hmv' := Hmv). rewrite Hps in Hmv'. apply Forall_app in Hmv'. destruct Hmv' as [Hmq Hmp]. pose proof (Forall_inv Hmp) as Hm1.
    apply Forall_app in Hct. destruct Hct as [Hcq Hcp]. pose proof (Forall_inv Hcp) as [C1 C2].
    assert (Hl' := Hl). rewrite Hps in Hl'. pose proof (looks_first _ qs (p :: rest) 0 HMq Hl') as Hlq. pose proof (looks_app _ _ qs (p :: rest) 0 Hl') as Hlp. cbn [Nat.add] in Hlp.
    destruct (map_chain L PL (h_fcns H) nm inst meta o Ho n true a b qs 0 (ERef "input") ssa s2 s2 n v [w] ssa2) as (m & w' & s4 & X0 & X1 & X2 & X3 & _ & X5 & X6 & _); auto.
    { intros _. rewrite Forall_forall in *. intros t I. destruct (Hcq t I) as [Q1 Q2]. unfold a, b. now rewrite Q1, Q2. }
    injection X0 as <-. destruct Hlp as (Hf & Has & Hlr).
    destruct (engine_call L nm inst meta o n p w s _ s3 Ha) as (r2 & s5 & Er & Q). destruct r2 as [y|y].
    { exfalso. destruct Q as [Q _]; [now rewrite Em|discriminate]. }
    injection Q as <-. set (g := ("u." ++ prefix_action (length qs) (f_name p))%string).
    destruct (map_body L PL (h_fcns H) nm inst meta o Ho true a b (length qs) p (head_name rest) n w s (Raise x) s5 (add_trace g s4) Hm1) as (s6 & Y1 & _); auto.
    { now rewrite Em. }
    { apply (holds_keeps 0 (length qs) (length qs) p s s2); [lia| |exact U2]. apply (keeps_same _ _ _ s4); try reflexivity. exact X3. }
    { apply (glob_eq nm inst meta true a b s4); [reflexivity|]. eapply glob_keeps; [exact X3|exact R3]. }
    { intros _. unfold a, b. now rewrite C1, C2. }
    unfold step_body in Has. cbn [is_emit] in Has.
    apply (run_mono _ _ (n + m)) in Y1; [|lia]. pose proof (call_body L (h_fcns H) _ _ _ _ _ _ _ _ Has Y1) as Y2.
    assert (Y3 : eval E' (S (n + m)) (ECall g [AExpr (nest 0 qs (ERef "input"))]) s2 = Done (Raise x) (set_scopes (s_scopes (add_trace g s4)) s6)).
    { assert (X1' : eval E' (n + m) (nest 0 qs (ERef "input")) s2 = Done (Ok w) s4) by (eapply eval_mono; [|exact X1]; lia).
      unfold g. rewrite (eval_call1 L (h_fcns H) _ _ _ _ _ _ _ _ (has_action L _ _ _ _ _ Has) X1'). exact Y2. }
    destruct (nest_raise L (h_fcns H) rest (S (length qs)) _ _ _ _ _ Hlr Y3) as (m' & Z).
    assert (Z' : eval E' m' (nest 0 ps (ERef "input")) s2 = Done (Raise x) (set_scopes (s_scopes (add_trace g s4)) s6)).
    { rewrite Hps, nest_app. cbn [nest Nat.add]. exact Z. }
    pose proof (R1 _ _ _ _ Hac Z') as ZZ. exists (S (S m')). eexists. unfold action. cbn [d_check doc_of_chain d_action]. unfold in_root, exec. rewrite ZZ. split; [reflexivity|].
    destruct (pres_exec EngineProofs.stable EngineProofs.stable_closed E' (S (S m')) (h_action H) _ _ _ ZZ) as [_ _ St1 St2 _ _ _].
    split; [exact St1|exact St2].
  Qed.
End Chain3.
