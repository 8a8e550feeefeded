(** Type soundness: every expression, by induction on the fuel. *)
From Verif Require Import Base PyNum ScopeModel ScopeSpec ScopeProofs CoreModel TypeModel TypeSpec TypeProofs TypeProofs2 TypeProps TypingModel TypingSpec TypingProofs TypingProofs2.
Open Scope string_scope.
Open Scope list_scope.

Section Sound.
  Variable T : tenv.
  Notation D := (te_defs T).
  Notation ok t v := (has_type true D t v).
  Variable E : env.
  Hypothesis HE : env_typed T E.
  Variable saved : bool.
  Notation hoare := (hoare T saved).
  Notation safe G m t := (hoare (agree T G) m (fun v F => agree T G F /\ ok t v) (agree T G)).
  Let HD : wf_defs D := et_defs T E HE.

  Section Step.
    Variable n : nat.
    Variable ev : expr -> EM val.
    Variable app : arg -> list val -> EM val.
    Hypothesis Hev : forall G e t, typed T G e t -> safe G (ev e) t.
    Hypothesis Hst : forall g G e t g', stmt T g G e t g' ->
      hoare (agree T (g :: G)) (ev e) (fun v F => agree T (g' :: G) F /\ ok t v) (agree T (g :: G)).
    Hypothesis Happ : forall G f ps r vs, arg_typed T G f (AFn ps r) -> Forall2 (fun p v => ok p v) ps vs -> safe G (app f vs) r.

    Hypothesis Hlit : forall P d v, hoare P (ev (ELit d v)) (fun w F => P F /\ w = v) P.

    Lemma h_run g G es t g' : block T g G es t g' ->
      hoare (agree T (g :: G)) (run ev es) (fun v F => agree T (g' :: G) F /\ ok t v) (agree T (g :: G)).
    Proof.
      intros H. apply h_bind with (Q := fun vs F => agree T (g' :: G) F /\ (ok t (last_or_null vs) /\ vs <> [])).
      - revert g t g' H. induction es as [|e es IH]; intros g t g' H; inversion H as [? ? ? ? ? Hs|? ? ? u g1 ? ? ? Hs Hb]; subst; cbn [mapE].
        + eapply h_bind; [apply Hst; eassumption|]. intros v. eapply h_bind; [apply h_ret with (Q := fun vs F => (agree T (g' :: G) F /\ ok t v) /\ vs = []); auto|].
          intros vs. apply h_ret. intros F [[HF Hv] ->]. cbn. repeat split; auto. discriminate.
        + eapply h_bind; [apply Hst; eassumption|]. intros v. apply h_pre. intros Hv.
          apply h_bind with (Q := fun vs F => agree T (g' :: G) F /\ (ok t (last_or_null vs) /\ vs <> [])).
          * eapply h_conseq; [eapply IH; eassumption|auto|auto|]. intros F. apply agree_weaken. eapply stmt_extends; eauto.
          * intros vs. apply h_ret. intros F (HF & Hl & Hn). split; auto. split; [|discriminate]. destruct vs; [easy|exact Hl].
      - intros vs. apply h_ret. intros F (HF & Hl & _). auto.
    Qed.
    (** a block whose scope is that of the expression *)
    Lemma h_run_here g G es t g' : block T g G es t g' -> safe (g :: G) (run ev es) t.
    Proof.
      intros H. eapply h_conseq; [eapply h_run; eassumption|auto| |auto]. intros v F [HF Hv]. split; auto.
      eapply agree_weaken; [|exact HF]. eapply block_extends; eauto.
    Qed.
    (** a block in a new scope *)
    Lemma h_run_new g G es t g' f : block T g G es t g' -> frame_ok T g G f -> safe G (in_frame f (run ev es)) t.
    Proof. intros H Hf. eapply h_in_frame; [eassumption|]. eapply h_run; eassumption. Qed.
    Lemma h_named G bs us : Forall2 (typed T G) (map snd bs) us ->
      hoare (agree T G) (ev_named ev bs)
        (fun vs F => agree T G F /\ exists ws, vs = combine (map fst bs) ws /\ Forall2 (fun t v => ok t v) us ws) (agree T G).
    Proof.
      revert us. unfold ev_named. induction bs as [|[x e] bs IH]; intros us H; inversion H; subst; cbn [mapE].
      - apply h_ret. intros F HF. split; auto. exists []. auto.
      - eapply h_bind with (Q := fun p F => agree T G F /\ exists v, p = (x, v) /\ ok y v).
        + eapply h_bind; [apply Hev; eassumption|]. intros v. apply h_ret. intros F [HF Hv]. eauto.
        + intros p. apply h_pre. intros (v & -> & Hv). eapply h_bind; [eapply IH; eassumption|]. intros vs. apply h_pre.
          intros (ws & -> & Hws). apply h_ret. intros F HF. split; auto. exists (v :: ws). auto.
    Qed.
    Lemma h_exprs G es us : Forall2 (typed T G) es us ->
      hoare (agree T G) (mapE ev es) (fun vs F => agree T G F /\ Forall2 (fun t v => ok t v) us vs) (agree T G).
    Proof. intros H. apply h_mapE. induction H; constructor; auto. Qed.
    Lemma h_keys G path ks : Forall2 (key_typed T G) path ks ->
      hoare (agree T G) (mapE ev path) (fun vs F => agree T G F /\ Forall2 key_val ks vs) (agree T G).
    Proof.
      intros H. apply h_mapE. induction H as [|e k path ks Hk H IH]; constructor; auto. inversion Hk; subst.
      - eapply h_conseq; [eapply Hev; eassumption|auto| |auto]. intros v F [HF Hv]. split; auto.
        match goal with Ht : _ \/ _ |- _ => destruct Ht; subst end; inversion Hv; subst; cbn; eauto.
      - eapply h_conseq; [eapply Hev; eassumption|auto| |auto]. intros v F [HF Hv]. split; auto. inversion Hv; subst; cbn; eauto.
      - (* a literal *)
        apply Hlit.
    Qed.
    Definition aok (G : list ctx) (a : aty) (v : aval) : Prop :=
      match a, v with AT t, AV w => ok t w | AFn ps r, AF f => arg_typed T G f (AFn ps r) | _, _ => False end.
    Lemma aok_shape G atys avs : Forall2 (aok G) atys avs -> Forall2 (arg_shape T) atys avs.
    Proof. induction 1 as [|a v l m H _ IH]; constructor; auto. destruct a, v; auto. exact I. Qed.
    Lemma h_arg G a aty : arg_typed T G a aty -> hoare (agree T G) (ev_arg ev a) (fun v F => agree T G F /\ aok G aty v) (agree T G).
    Proof.
      intros H. destruct a; cbn [ev_arg].
      - inversion H; subst. eapply h_bind; [apply Hev; eassumption|]. intros v. apply h_ret. auto.
      - apply h_ret. intros F HF. split; auto. inversion H; subst; exact H.
      - apply h_ret. intros F HF. split; auto. inversion H; subst; exact H.
      - inversion H.
    Qed.
    Lemma h_args G args atys : Forall2 (arg_typed T G) args atys ->
      hoare (agree T G) (mapE (ev_arg ev) args) (fun vs F => agree T G F /\ Forall2 (aok G) atys vs) (agree T G).
    Proof. intros H. apply h_mapE. induction H; constructor; auto. now apply h_arg. Qed.

    (** *** Library functions *)
    Lemma h_lib G fns lz t lazies args p : lib_typed T fns lz t p ->
      (forall i f, nth_error args i = Some (AF f) -> exists ps r, fns i = Some (ps, r) /\ arg_typed T G f (AFn ps r)) ->
      (forall i e, nth_error lazies i = Some (AExpr e) -> exists u, lz i = Some u /\ typed T G e u) ->
      safe G (run_lib E ev app lazies args p) t.
    Proof.
      intros H Ha Hz. induction H as [v Hv|e|i vs k Hvs Hk IHk Hr IHr|i k Hk IHk Hr IHr|k Hk IHk|k Hk IHk]; cbn [run_lib].
      - apply h_ret. auto.
      - apply h_raise. auto.
      - destruct (nth_error args i) as [[v|f]|] eqn:Hi; try (apply h_raise; auto; fail).
        destruct (Ha i f Hi) as (ps & r & Hf & Hft). eapply h_bind; [apply h_attempt, (Happ G f ps r vs Hft); eauto|].
        intros [v|e]; [apply h_pre; intros Hv; eapply IHk; eauto|apply IHr].
      - destruct (nth_error lazies i) as [[e| | |]|] eqn:Hi; try (apply h_raise; auto; fail).
        destruct (Hz i e Hi) as (u & Hu & Ht). eapply h_bind; [apply h_attempt, (Hev G e u Ht)|].
        intros [v|x]; [apply h_pre; intros Hv; eapply IHk; eauto|apply IHr].
      - eapply h_bind; [apply h_time|]. intros ?. apply IHk.
      - eapply h_bind; [apply h_draw|]. intros z. apply IHk.
    Qed.
    Lemma Forall2_nth {A B} (R : A -> B -> Prop) l m : Forall2 R l m -> forall i b, nth_error m i = Some b -> exists a, nth_error l i = Some a /\ R a b.
    Proof. induction 1; intros [|i] b Hb; cbn in *; try discriminate; [injection Hb as <-; eauto|eauto]. Qed.
    Lemma Forall2_nth_l {A B} (R : A -> B -> Prop) l m : Forall2 R l m -> forall i a, nth_error l i = Some a -> exists b, nth_error m i = Some b /\ R a b.
    Proof. induction 1; intros [|i] a Ha; cbn in *; try discriminate; [injection Ha as <-; eauto|eauto]. Qed.
    Lemma no_functions (vs : list val) i f : nth_error (map AV vs) i = Some (AF f) -> False.
    Proof. intros H. apply nth_error_In in H. apply in_map_iff in H. destruct H as (v & H & _). discriminate. Qed.
    Lemma no_lazies {A} i (e : A) : nth_error [] i = Some e -> False.
    Proof. destruct i; discriminate. Qed.

    (** *** User functions *)
    Lemma sub_all pts us vs : Forall2 (sub T) pts us -> Forall2 (fun t v => ok t v) us vs -> Forall2 (fun t v => ok t v) pts vs.
    Proof.
      intros H. revert vs. induction H as [|p u pts us Hpu H IH]; intros vs Hv; inversion Hv; subst; constructor; auto.
      eapply sub_ok; eauto.
    Qed.
    Lemma exc_or_sub r t v : t = TExc \/ sub T r t -> ok t v -> ok r v.
    Proof. intros [->|H] Hv; [now apply exc_empty in Hv|]. eapply sub_ok; eauto. Qed.
    Lemma h_call_user P f pts r vs : te_fcns T f = Some (pts, r) -> Forall2 (fun t v => ok t v) pts vs ->
      hoare P (call_user E ev f vs) (fun v F => P F /\ ok r v) P.
    Proof.
      intros Hf Hv. unfold call_user. destruct (assoc f (e_fcns E)) as [[ps body]|] eqn:Ha; [|apply h_raise; auto].
      destruct (et_fcns T E HE f ps body pts r Ha Hf) as (Hl & Hn & t & g' & Hb & Ht). rewrite zip_combine.
      apply h_conseq with (P := P) (Q := fun v F => P F /\ ok t v) (X := P); auto.
      - apply (h_root T saved (combine ps pts) g' _ _ P (fun v => ok t v)); [apply frame_new; eauto|eapply h_run; eauto].
      - intros v F [HF Hv']. split; auto. eapply exc_or_sub; eauto.
    Qed.
    Lemma h_app_step G f ps r vs : arg_typed T G f (AFn ps r) -> Forall2 (fun p v => ok p v) ps vs -> safe G (step_app E ev app f vs) r.
    Proof.
      intros H Hv. inversion H; subst; cbn [step_app].
      - rewrite zip_combine. eapply h_conseq; [eapply h_run_new; [eassumption|]|auto| |auto].
        + apply frame_new; eauto.
        + intros v F [HF Hv']. split; auto. eapply exc_or_sub; eauto.
      - eapply h_bind; [apply h_trace|]. intros ?. destruct (assoc f0 (e_fcns E)) as [[xs body]|] eqn:Ha.
        + match goal with Hf : te_fcns _ _ = Some _ |- _ => destruct (et_fcns T E HE f0 xs body ps r Ha Hf) as (Hl & Hn & t & g' & Hb & Ht) end.
          rewrite zip_combine. apply h_conseq with (P := agree T G) (Q := fun v F => agree T G F /\ ok t v) (X := agree T G); auto.
          * apply (h_in_frame_root T saved (combine xs ps) g' _ _ (agree T G) (fun v => ok t v)); [apply frame_new; eauto|eapply h_run; eauto].
          * intros v F [HF Hv']. split; auto. eapply exc_or_sub; eauto.
        + exfalso. apply (et_known T E HE) in Ha. congruence.
      - eapply h_bind; [apply h_trace|]. intros ?.
        match goal with Hf : te_fcns _ _ = None |- _ => apply (et_known T E HE) in Hf; rewrite Hf end.
        eapply h_lib; [eapply (et_ref T E HE); eassumption| |].
        + intros i g Hi. now apply no_functions in Hi.
        + intros i e Hi. now apply no_lazies in Hi.
    Qed.

    (** *** Updates *)
    Lemma h_leaf G u a to : replaces T u a -> aok G a to -> forall old, ok u old -> safe G (update_leaf E app to old) u.
    Proof.
      intros Hr Ha old Ho. destruct Hr as [u t Hs|u p r Hp Hs]; destruct to as [v|f]; try (now destruct Ha); cbn [update_leaf].
      - apply h_ret. intros F HF. split; auto. eapply sub_ok; eauto.
      - assert (Hc : safe G (app f [old]) u).
        { eapply h_conseq; [apply (Happ G f [p] r [old] Ha)|auto| |auto].
          - repeat constructor. eapply sub_ok; eauto.
          - intros v F [HF Hv]. split; auto. eapply sub_ok; eauto. }
        destruct f; auto. destruct assoc; auto. apply h_raise; auto.
    Qed.

    (** *** Branches *)
    Lemma h_conds G its us els keep t : Forall2 (case_typed T G) its us -> safe G els t ->
      (forall u v, In u us -> ok u v -> ok t (if keep : bool then v else VNull)) -> safe G (conds ev its els keep) t.
    Proof.
      intros H He. induction H as [|c u its us Hc H IH]; intros Ht; cbn [conds]; [exact He|]. inversion Hc; subst.
      eapply h_bind; [eapply h_in_frame; [apply frame_nil|apply Hev; eassumption]|]. intros b. apply h_pre. intros Hb.
      destruct (truthy b).
      - eapply h_bind; [eapply h_run_new; [eassumption|apply frame_nil]|]. intros v. apply h_pre. intros Hv.
        apply h_ret. intros F HF. split; auto. eapply Ht; [now left|exact Hv].
      - apply IH. intros u' v Hu. apply Ht. now right.
    Qed.

    (** *** Loops *)
    Lemma frame_back g g' G f : extends g g' G -> frame_ok T g' G f -> frame_ok T g G f.
    Proof. apply frame_weaken. Qed.
    Lemma h_while G p es u g' : typed T ([] :: [] :: G) p TBool -> block T [] G es u g' -> forall m pf bf,
      frame_ok T [] ([] :: G) pf -> frame_ok T [] G bf -> safe G (while_loop E ev m p es pf bf) TNull.
    Proof.
      intros Hp Hb. induction m as [|m IH]; intros pf bf Hpf Hbf; cbn [while_loop]; [apply h_fuel|].
      eapply h_bind; [eapply h_frame2; [exact Hpf|exact Hbf|apply Hev; exact Hp]|]. intros [b fs]. apply h_pre.
      intros (Hbv & f1 & f2 & E1 & H1 & H2). cbn in E1. subst fs. cbn [nth]. destruct (truthy b).
      - eapply h_bind; [apply h_time|]. intros ?. eapply h_bind; [eapply h_frame; [exact H2|eapply h_run; eassumption]|].
        intros r. apply h_pre. intros (_ & f' & Ef & Hf'). rewrite Ef. cbn [nth]. apply IH; auto.
        eapply frame_weaken; [|exact Hf']. eapply block_extends; eauto.
      - apply h_ret. intros F HF. split; auto. constructor.
    Qed.
    Lemma h_until G p es u g' : typed T ([] :: g' :: G) p TBool -> block T [] G es u g' -> forall m pf bf,
      frame_ok T [] (g' :: G) pf -> frame_ok T [] G bf -> safe G (until_loop E ev m es p pf bf) TNull.
    Proof.
      intros Hp Hb. induction m as [|m IH]; intros pf bf Hpf Hbf; cbn [until_loop]; [apply h_fuel|].
      eapply h_bind; [apply h_time|]. intros ?. eapply h_bind; [eapply h_frame; [exact Hbf|eapply h_run; eassumption]|].
      intros r. apply h_pre. intros (_ & f' & Ef & Hf'). rewrite Ef. cbn [nth].
      eapply h_bind; [eapply h_frame2; [exact Hpf|exact Hf'|apply Hev; exact Hp]|]. intros [b fs]. apply h_pre.
      intros (Hbv & f1 & f2 & E1 & H1 & H2). cbn in E1. subst fs. cbn [nth]. destruct (truthy b).
      - apply h_ret. intros F HF. split; auto. constructor.
      - apply IH; auto. eapply frame_weaken; [|exact H2]. eapply block_extends; eauto.
    Qed.
    Lemma h_set G bs us : Forall2 (typed T G) (map snd bs) us -> same_frame (map fst bs) G = true -> NoDup (map fst bs) ->
      (forall x u, In (x, u) (combine (map fst bs) us) -> exists t, look G x = Some t /\ sub T t u) ->
      hoare (agree T G) (vs <== ev_named ev bs ;; set_vars_m vs) (fun _ F => agree T G F) (agree T G).
    Proof.
      intros Hb Hs Hn Ht. eapply h_bind; [apply h_named; exact Hb|]. intros vs. apply h_pre. intros (ws & -> & Hws).
      assert (Hl : length (map fst bs) = length us) by (apply Forall2_len in Hb; rewrite map_length in *; congruence).
      assert (Hl' : length (map fst bs) = length ws) by (rewrite Hl; eapply Forall2_len; eauto).
      assert (Hval : forall x v, In (x, v) (combine (map fst bs) ws) -> exists t, look G x = Some t /\ ok t v).
      { clear Hb Hs Hn. revert Hl Hl' Ht. generalize (map fst bs). clear bs. intros xs. revert us ws Hws.
        induction xs as [|x0 xs IHx]; intros us ws Hws Hl Hl' Ht x v; [easy|].
        destruct Hws as [|u0 v0 us ws H0 Hws]; [easy|]. cbn. intros [[= -> ->]|Hi].
        - destruct (Ht x u0) as (t & H1 & H2); [now left|]. exists t. split; auto. eapply sub_ok; eauto.
        - eapply (IHx us ws); eauto. intros y w Hy. apply Ht. now right. }
      intros s r s' F R Hsc HA Ho Hd. unfold set_vars_m, set_vars in Hd. rewrite Hsc in Hd.
      destruct (set_agree T (combine (map fst bs) ws) G F R (length (F ++ R))) as (F' & E1 & HF'); auto.
      - rewrite app_length. lia.
      - rewrite combine_keys by auto. exact Hs.
      - rewrite E1 in Hd. injection Hd as <- <-. exists F'. split; [reflexivity|]. split; [destruct Ho; now constructor|auto].
    Qed.
    Lemma h_let g G bs us : Forall2 (typed T (g :: G)) (map snd bs) us -> NoDup (map fst bs) ->
      hoare (agree T (g :: G)) (vs <== ev_named ev bs ;; let_vars vs) (fun _ F => agree T ((combine (map fst bs) us ++ g) :: G) F) (agree T (g :: G)).
    Proof.
      intros Hb Hn. eapply h_bind; [apply h_named; exact Hb|]. intros vs. apply h_pre. intros (ws & -> & Hws).
      assert (Hl : length (map fst bs) = length us) by (apply Forall2_len in Hb; rewrite map_length in *; congruence).
      intros s r s' F R Hsc HA Ho [= <- <-]. destruct F as [|f F]; [easy|]. destruct HA as [Hf HA].
      exists (frame_let (combine (map fst bs) ws) f :: F). cbn. rewrite Hsc. split; [reflexivity|].
      split; [destruct Ho; now constructor|]. split; auto. apply frame_let_ok; auto.
    Qed.
    Lemma h_for G init us p upd ws es u g' : Forall2 (typed T ([] :: G)) (map snd init) us -> NoDup (map fst init) ->
      typed T ([] :: combine (map fst init) us :: G) p TBool ->
      block T [] (combine (map fst init) us :: G) es u g' ->
      Forall2 (typed T (combine (map fst init) us :: G)) (map snd upd) ws -> same_frame (map fst upd) (combine (map fst init) us :: G) = true ->
      NoDup (map fst upd) ->
      (forall x w, In (x, w) (combine (map fst upd) ws) -> exists t, look (combine (map fst init) us :: G) x = Some t /\ sub T t w) ->
      forall m pf bf lf, frame_ok T [] (combine (map fst init) us :: G) pf -> frame_ok T [] (combine (map fst init) us :: G) bf ->
        frame_ok T (combine (map fst init) us) G lf -> safe G (for_loop E ev m p upd es pf bf lf) TNull.
    Proof.
      intros Hi Hn Hp Hb Hu Hs Hnu Ht. set (gl := combine (map fst init) us) in *.
      induction m as [|m IH]; intros pf bf lf Hpf Hbf Hlf; cbn [for_loop]; [apply h_fuel|].
      eapply h_bind; [eapply h_frame2; [exact Hpf|exact Hlf|apply Hev; exact Hp]|]. intros [b fs]. apply h_pre.
      intros (Hbv & f1 & f2 & E1 & H1 & H2). cbn in E1. subst fs. cbn [nth]. destruct (truthy b).
      - eapply h_bind; [apply h_time|]. intros ?.
        eapply h_bind; [eapply h_frame2; [exact Hbf|exact H2|eapply h_run; eassumption]|]. intros r. apply h_pre.
        intros (_ & f3 & f4 & E2 & H3 & H4). rewrite E2. cbn [nth].
        eapply h_bind; [eapply (h_frame T saved gl gl G f4 _ (fun _ => True)); [exact H4|]|].
        + eapply h_conseq; [eapply h_set; eassumption|auto|auto|auto].
        + intros r2. apply h_pre. intros (_ & f5 & E3 & H5). rewrite E3. cbn [nth]. apply IH; auto.
          eapply frame_weaken; [|exact H3]. eapply block_extends; eauto.
      - apply h_ret. intros F HF. split; auto. constructor.
    Qed.
    Lemma h_each G xs ts es u g' : NoDup xs -> length xs = length ts -> block T [] (combine xs ts :: G) es u g' -> forall items bf lf,
      (forall bs, In bs items -> exists vs, bs = combine xs vs /\ Forall2 (fun t v => ok t v) ts vs) ->
      frame_ok T [] (combine xs ts :: G) bf -> (forall x, has_key x lf = true -> has_key x (combine xs ts) = true \/ look G x = None) ->
      safe G (each_loop E ev items es bf lf) TNull.
    Proof.
      intros Hn Hl Hb. induction items as [|bs items IH]; intros bf lf Hi Hbf Hlf; cbn [each_loop].
      - apply h_ret. intros F HF. split; auto. constructor.
      - destruct (Hi bs) as (vs & -> & Hvs); [now left|]. eapply h_bind; [apply h_time|]. intros ?.
        eapply h_bind; [eapply h_frame2; [exact Hbf|apply frame_again; eauto|eapply h_run; eassumption]|]. intros r. apply h_pre.
        intros (_ & f3 & f4 & E2 & H3 & H4). rewrite E2. cbn [nth]. apply IH.
        + intros bs Hbs. apply Hi. now right.
        + eapply frame_weaken; [|exact H3]. eapply block_extends; eauto.
        + apply H4.
    Qed.

    (** *** "cast" *)
    Lemma h_cast_partial G fu v cs us : Forall2 (cast_case T G) cs us -> safe G (cast_cases E ev fu true v cs) TNull.
    Proof.
      intros H. induction H as [|c u cs us Hc H IH]; cbn [cast_cases]; [apply h_ret; intros; split; auto; constructor|].
      inversion Hc; subst. destruct cast_value as [w|]; auto. destruct (e_decode E s w) as [c|e] eqn:Hd.
      - eapply h_bind; [eapply h_run_new; [eassumption|]|intros o; apply h_ret; intros F [HF _]; split; auto; constructor].
        apply (frame_new T [x] [te_schema T s] [c]); auto; [repeat constructor; auto|]. repeat constructor. eapply (et_decode T E HE); eauto.
      - destruct e; auto; try (apply h_raise; auto; fail). destruct String.eqb; auto. apply h_raise; auto.
    Qed.
    Lemma h_cast G fu v t cs : forall us, Forall2 (cast_case T G) cs us -> joins T t us ->
      (exists s w c, In s (map (fun c => snd (fst c)) cs) /\ cast_value fu v (e_tyname E s) = Some w /\ e_decode E s w = Ok c) ->
      safe G (cast_cases E ev fu false v cs) t.
    Proof.
      induction cs as [|c cs IH]; intros us H Hj (s & w & c' & Hs & Hw & Hc'); [destruct Hs|]. inversion H as [|? u ? us' Hc Hcs]; subst.
      destruct c as [[x s0] body]. cbn [cast_cases].
      assert (Hj' : joins T t us') by (intros z Hz; apply Hj; now right).
      assert (Next : s <> s0 \/ (cast_value fu v (e_tyname E s0) = Some w /\ e_decode E s0 w = Ok c')) by (destruct (string_dec s s0); [subst; auto|auto]).
      assert (Rest : s <> s0 -> safe G (cast_cases E ev fu false v cs) t).
      { intros ne. eapply IH; eauto. exists s, w, c'. split; auto. destruct Hs as [Hs|Hs]; auto. cbn in Hs. congruence. }
      destruct (cast_value fu v (e_tyname E s0)) as [w0|] eqn:Hw0.
      - destruct (e_decode E s0 w0) as [c|e] eqn:Hd.
        + inversion Hc; subst. eapply h_bind; [eapply h_run_new; [eassumption|]|].
          * apply (frame_new T [x] [te_schema T s0] [c]); auto; [repeat constructor; auto|]. repeat constructor. eapply (et_decode T E HE); eauto.
          * intros o. apply h_pre. intros Ho. apply h_ret. intros F HF. split; auto. apply (joins_ok T t (u :: us') u o); auto. now left.
        + destruct Next as [ne|[Ea Eb]]; [|injection Ea as ->; congruence]. specialize (Rest ne).
          destruct e; auto; try (apply h_raise; auto; fail). destruct String.eqb; auto. apply h_raise; auto.
      - destruct Next as [ne|[Ea Eb]]; [|discriminate]. auto.
    Qed.

    Lemma forget G (m : EM unit) : hoare (agree T G) m (fun _ F => agree T G F) (agree T G) -> safe G (_ <== m ;; ret VNull) TNull.
    Proof. intros H. eapply h_bind; [exact H|]. intros ?. apply h_ret. intros F HF. split; auto. constructor. Qed.
    Lemma bind_assoc {A B C} (m : EM A) (k : A -> EM B) (l : B -> EM C) s : bind (bind m k) l s = bind m (fun a => bind (k a) l) s.
    Proof. unfold bind. now destruct (m s) as [[?|?] ?| |]. Qed.
    Lemma h_ext {A} (m m' : EM A) P Q X : (forall s, m s = m' s) -> hoare P m Q X -> hoare P m' Q X.
    Proof. intros He H s r s' F R Hs Hp Ho Hd. rewrite <- He in Hd. eapply H; eauto. Qed.
    Lemma nn_values G bs ms : Forall2 (nn_case T G) bs ms ->
      hoare (agree T G) (mapE (fun b => v <== ev (snd b) ;; ret (fst b, v)) bs)
        (fun vs F => agree T G F /\ (forallb (fun b => negb (is_null (snd b))) vs = true ->
           exists ws, map (fun b => (fst (fst b), untag (snd (fst b)) (snd b))) vs = combine (map (fun b => fst (fst b)) bs) ws /\
             Forall2 (fun t v => ok t v) ms ws)) (agree T G).
    Proof.
      intros H. induction H as [|b m bs ms Hb H IH]; cbn [mapE].
      - apply h_ret. intros F HF. split; auto. intros _. exists []. auto.
      - inversion Hb; subst. eapply h_bind with (Q := fun p F => agree T G F /\ exists v, p = (x, tyname m, v) /\ ok (TUnion ts) v).
        + eapply h_bind; [apply Hev; eassumption|]. intros v. apply h_ret. intros F [HF Hv]. eauto.
        + intros p. apply h_pre. intros (v & -> & Hv). eapply h_bind; [exact IH|]. intros vs. apply h_pre. intros Hvs.
          apply h_ret. intros F HF. split; auto. cbn. intros Hz. apply andb_prop in Hz. destruct Hz as [Hz1 Hz2].
          destruct (Hvs Hz2) as (ws & E1 & Hws). apply Bool.negb_true_iff in Hz1.
          exists (untag (tyname m) v :: ws). rewrite E1. split; auto. constructor; auto. eapply untag_ok; eauto.
    Qed.
    Lemma unpack_frame fmt bs G : NoDup (map fst fmt) -> Forall2 (fun f b => fst b = fst f /\ ok (te_fmt T (snd f)) (snd b)) fmt bs ->
      frame_ok T (map (fun f => (fst f, te_fmt T (snd f))) fmt) G (frame_let bs []).
    Proof.
      intros Hn H.
      assert (E1 : map (fun f : string * string => (fst f, te_fmt T (snd f))) fmt = combine (map fst fmt) (map (fun f => te_fmt T (snd f)) fmt)).
      { clear. induction fmt; cbn; congruence. }
      assert (E2 : bs = combine (map fst fmt) (map snd bs)).
      { clear Hn E1. induction H as [|f [k v] fmt bs [Hk _] H IH]; cbn in *; congruence. }
      rewrite E1, E2. apply frame_new; auto; [now rewrite !map_length|]. clear Hn E1 E2.
      induction H as [|f b fmt bs [_ Hb] H IH]; cbn; constructor; auto.
    Qed.
    Lemma frame_let_In bs : forall f x v, In (x, v) (frame_let bs f) -> In (x, v) bs \/ In (x, v) f.
    Proof.
      induction bs as [|[y w] bs IH]; intros f x v H; cbn in *; auto. destruct (IH _ _ _ H) as [H1|H1]; auto.
      apply set_in' in H1. destruct H1 as [[-> ->]|H1]; auto.
    Qed.
    Lemma combine_In_ok (xs : list string) us ws : Forall2 (fun t v => ok t v) us ws -> forall x v, In (x, v) (combine xs ws) ->
      exists u, In (x, u) (combine xs us) /\ ok u v.
    Proof.
      intros H. revert xs. induction H as [|u w us ws H0 H IH]; intros [|y xs] x v; cbn; try easy. intros [[= -> ->]|Hi]; eauto.
      destruct (IH _ _ _ Hi) as (u1 & H1 & H2). eauto.
    Qed.

    Lemma h_step G e t : typed T G e t -> safe G (step E n ev app e) t.
    Proof.
      intros H. destruct H; cbn [step].
      - (* literal *) apply h_ret. auto.
      - (* doc *) apply h_ret. intros F HF. split; auto. constructor.
      - (* variable *)
        intros s r s' F R Hs HA Ho [= <- <-]. rewrite Hs. destruct (agree_get T G x t F R H HA) as (v & Hv & Ht). exists F.
        rewrite Hv. auto.
      - (* user function *)
        destruct (assoc f (e_fcns E)) as [body|] eqn:Ha; [|apply (et_known T E HE) in Ha; congruence].
        eapply h_bind; [apply (h_args G args (map AT us))|].
        + clear - H0. induction H0; constructor; auto.
        + intros avs. apply h_pre. intros Hav. eapply h_bind; [apply h_trace|]. intros ?.
          eapply h_call_user; [eassumption|]. eapply sub_all; [eassumption|].
          clear - Hav. revert avs Hav. induction us as [|u us IH]; intros avs Hav; inversion Hav as [|? a ? ? Ha Hr]; subst; constructor; auto.
          destruct a; [exact Ha|destruct Ha].
      - (* emit *)
        match goal with Hf : te_fcns T "emit" = None |- _ => apply (et_known T E HE) in Hf; rewrite Hf end. rewrite String.eqb_refl.
        eapply h_bind; [apply (h_args G [AExpr e] [AT u]); repeat constructor; assumption|].
        intros avs. apply h_pre. intros Hav. inversion Hav as [|? a ? ? Ha Hr]; subst. inversion Hr; subst. destruct a as [v|]; [|destruct Ha].
        eapply h_bind; [apply h_trace|]. intros ?. apply forget. apply h_modify; auto.
        intros s [O1 O2 O3]. constructor; auto. cbn. intros w Hw. apply in_app_or in Hw. destruct Hw as [Hw|[<-|[]]]; auto.
        eapply sub_ok; eauto.
      - (* library function *)
        match goal with Hf : te_fcns T f = None |- _ => apply (et_known T E HE) in Hf; rewrite Hf end.
        destruct (String.eqb_spec f "emit") as [->|_]; [easy|]. destruct (e_lib E f) as [[g|p]|] eqn:Hl; [| |apply h_raise; auto].
        + eapply h_bind; [apply (h_args G args atys); eassumption|]. intros avs. apply h_pre. intros Hav.
          eapply h_bind; [apply h_trace|]. intros ?. eapply h_lib; [eapply (et_strict T E HE); eauto; eapply aok_shape; eauto| |].
          * intros i g0 Hi. destruct (Forall2_nth _ _ _ Hav i _ Hi) as (ax & Ha & Hok). unfold fcn_of. rewrite Ha.
            destruct ax; [destruct Hok|]. eauto.
          * intros i e0 Hi. now apply no_lazies in Hi.
        + eapply h_bind; [apply h_trace|]. intros ?. eapply h_lib; [eapply (et_lazy T E HE); eauto| |].
          * intros i g0 Hi. now apply no_lazies in Hi.
          * intros i e0 Hi. match goal with Hf : Forall2 _ args _ |- _ => destruct (Forall2_nth_l _ _ _ Hf i _ Hi) as (ax & Ha & Hok) end.
            inversion Hok; subst. unfold val_of. rewrite Ha. eauto.
      - (* user function chosen by an enum *)
        eapply h_bind; [apply Hev; eassumption|]. intros nm. apply h_pre. intros Hnm. inversion Hnm; subst.
        destruct has_key; [|apply h_raise; auto].
        eapply h_bind; [apply h_exprs; eassumption|]. intros vs. apply h_pre. intros Hvs. eapply h_bind; [apply h_trace|]. intros ?.
        match goal with Hc : forall s, In s ss -> _, Hi : In ?x ss |- _ => destruct (Hc x Hi) as (pts & ret & Hf & Hs & Ht) end.
        eapply h_conseq; [eapply (h_call_user (agree T G)); [eassumption|eapply sub_all; eassumption]|auto| |auto].
        intros v F [HF Hv]. split; auto. eapply sub_ok; eauto.
      - (* new record *)
        eapply h_bind; [apply h_named; eassumption|]. intros kvs. apply h_pre. intros (ws & -> & Hws). apply h_ret. intros F HF. split; auto.
        match goal with Hb : Forall2 (typed _ _) _ _ |- _ => assert (Hl : length (map fst bs) = length us) by (apply Forall2_len in Hb; rewrite map_length in *; congruence) end.
        assert (Hl' : length (map fst bs) = length ws) by (rewrite Hl; eapply Forall2_len; eauto).
        assert (Kw := combine_keys (map fst bs) ws Hl').
        assert (Has : forall f, In f (fields_of D n0) -> exists v, assoc (f_name f) (frame_let (combine (map fst bs) ws) []) = Some v /\ ok (f_type f) v).
        { intros f Hf. assert (Hx : In (f_name f) (map fst bs)) by (apply H0; now apply in_map).
          rewrite <- Kw in Hx. unfold keys in Hx. apply in_map_iff in Hx. destruct Hx as ([k v] & Ek & Hi). cbn in Ek. subst k.
          exists v. split; [apply frame_let_in; [now rewrite Kw|exact Hi]|].
          destruct (combine_In_ok _ _ _ Hws _ _ Hi) as (u & Hu & Hok). eapply sub_ok; eauto. }
        constructor.
        + intros f Hf. destruct (Has f Hf) as (v & Hv & _). unfold has_key. now rewrite Hv.
        + intros k v Hk. apply frame_let_In in Hk. destruct Hk as [Hk|[]]. apply H0. rewrite <- Kw. unfold keys. now apply (in_map fst) in Hk.
        + intros f Hf. destruct (Has f Hf) as (v & Hv & Ho). unfold lookup. now rewrite Hv.
      - (* new map *)
        eapply h_bind; [apply h_named; eassumption|]. intros kvs. apply h_pre. intros (ws & -> & Hws). apply h_ret. intros F HF. split; auto.
        constructor. intros k v Hk. apply frame_let_In in Hk. destruct Hk as [Hk|[]].
        destruct (combine_In_ok _ _ _ Hws _ _ Hk) as (u & Hu & Hok). apply in_combine_r in Hu.
        match goal with Hf : Forall (sub T t) us |- _ => rewrite Forall_forall in Hf; eapply sub_ok; [exact HD|apply (Hf u Hu)|exact Hok] end.
      - (* new array *)
        eapply h_bind; [apply h_exprs; eassumption|]. intros vs. apply h_pre. intros Hvs. apply h_ret. intros F HF. split; auto.
        constructor. intros v Hv. apply In_nth_error in Hv. destruct Hv as [i Hi]. destruct (Forall2_nth _ _ _ Hvs i v Hi) as (u & Hu & Hok).
        apply nth_error_In in Hu. match goal with Hf : Forall (sub T t) us |- _ => rewrite Forall_forall in Hf; eapply sub_ok; [exact HD|apply (Hf u Hu)|exact Hok] end.
      - (* do *)
        eapply h_conseq; [eapply h_run_here; eassumption|auto| |auto]. intros v F [HF Hv]. split; auto. now apply value_type_ok.
      - (* set *)
        eapply h_ext; [|apply forget; eapply h_set; eassumption]. intros s. apply bind_assoc.
      - (* attr *)
        eapply h_bind; [apply Hev; eassumption|]. intros v. apply h_pre. intros Hv.
        eapply h_bind; [apply h_keys; eassumption|]. intros ws. apply h_pre. intros Hw. apply h_lift. intros F HF.
        destruct get_path eqn:Hg; auto. split; auto. eapply get_path_ok; eauto.
      - (* attr to *)
        eapply h_bind; [apply Hev; eassumption|]. intros v. apply h_pre. intros Hv.
        eapply h_bind; [apply h_keys; eassumption|]. intros ws. apply h_pre. intros Hw.
        eapply h_bind; [apply h_arg; eassumption|]. intros f. apply h_pre. intros Hf.
        eapply h_update; eauto. eapply h_leaf; eauto.
      - (* cell *)
        eapply h_bind; [eapply h_get_cell; eassumption|]. intros x. apply h_pre. intros [Hx ?].
        eapply h_bind; [apply h_keys; eassumption|]. intros ws. apply h_pre. intros Hw. apply h_lift. intros F HF.
        destruct get_path eqn:Hg; auto. split; auto. eapply get_path_ok; eauto.
      - (* cell to *)
        eapply h_bind; [apply h_keys; eassumption|]. intros ws. apply h_pre. intros Hw.
        eapply h_bind; [apply h_arg; eassumption|]. intros f. apply h_pre. intros Hf.
        eapply h_bind; [apply h_trace|]. intros ?. eapply h_cell_update; eauto. intros old Hold.
        eapply h_update; eauto. eapply h_leaf; eauto.
      - (* pool *)
        eapply h_bind; [eapply h_get_pool; eassumption|]. intros x0. apply h_pre. intros ?.
        eapply h_bind; [apply h_keys; eassumption|]. intros ws. apply h_pre. intros Hw.
        eapply h_bind; [eapply h_get_pool; eassumption|]. intros x. apply h_pre. intros [Hx ?]. apply h_lift. intros F HF.
        destruct get_path eqn:Hg; auto. split; auto. eapply get_path_ok; eauto. constructor. auto.
      - (* pool to *)
        eapply h_bind; [apply h_keys; eassumption|]. intros ws. apply h_pre. intros Hw.
        eapply h_bind; [apply h_arg; eassumption|]. intros f. apply h_pre. intros Hf.
        eapply h_bind; [apply Hev; eassumption|]. intros iv. apply h_pre. intros Hi.
        eapply h_bind; [apply h_trace|]. intros ?. inversion Hw as [|? w ? ws' Hk Hks]; subst.
        destruct w; try (apply h_raise; auto; fail). eapply h_pool_update; eauto; [eapply sub_ok; eauto|]. intros old Hold.
        eapply h_update; eauto. eapply h_leaf; eauto.
      - (* pool del *)
        eapply h_bind; [apply Hev; eassumption|]. intros k. apply h_pre. intros Hk.
        eapply h_bind; [apply h_trace|]. intros ?. inversion Hk; subst. apply forget. eapply h_upd_pool; eauto.
        intros x [H1 H2]. split; auto. cbn. intros j y Hj. apply dict_del_In in Hj. eauto.
      - (* if *)
        eapply h_conds with (us := [u]); [repeat constructor; econstructor; eassumption|apply h_ret; intros; split; auto; constructor|].
        intros. constructor.
      - eapply h_conds with (us := [u]); [repeat constructor; econstructor; eassumption| |].
        + eapply h_conseq; [eapply h_run_new; [eassumption|apply frame_nil]|auto| |auto]. intros v F [HF Hv]. split; auto.
          eapply joins_ok; [exact HD|eassumption| |exact Hv]. right. now left.
        + intros u0 v [<-|[]] Hv. eapply joins_ok; [exact HD|eassumption| |exact Hv]. now left.
      - (* cond *)
        eapply h_conds; [eassumption|apply h_ret; intros; split; auto; constructor|]. intros. constructor.
      - eapply h_conds; [eassumption| |].
        + eapply h_conseq; [eapply h_run_new; [eassumption|apply frame_nil]|auto| |auto]. intros v F [HF Hv]. split; auto.
          eapply joins_ok; [exact HD|eassumption| |exact Hv]. now left.
        + intros u0 v Hu Hv. eapply joins_ok; [exact HD|eassumption| |exact Hv]. now right.
      - (* while *) eapply h_while; eauto; apply frame_nil.
      - (* do until *) eapply h_until; eauto; apply frame_nil.
      - (* for *)
        eapply h_bind; [eapply (h_frame T saved [] (combine (map fst init) us) G [] _ (fun _ => True)); [apply frame_nil|]|].
        + eapply h_conseq; [eapply h_let; eassumption|auto| |auto]. intros a F HF. rewrite app_nil_r in HF. auto.
        + intros r. apply h_pre. intros (_ & lf & Ef & Hlf). rewrite Ef. cbn [nth]. eapply h_for; eauto; apply frame_nil.
      - (* foreach *)
        eapply h_bind; [apply Hev; eassumption|]. intros v. apply h_pre. intros Hv. inversion Hv; subst.
        eapply (h_each G [x] [t]); eauto; [repeat constructor; auto| |apply frame_nil|intros; discriminate].
        intros bs Hb. apply in_map_iff in Hb. destruct Hb as (y & <- & Hy). exists [y]. split; auto.
      - (* forkeyval *)
        eapply h_bind; [apply Hev; eassumption|]. intros m. apply h_pre. intros Hm. inversion Hm; subst.
        eapply (h_each G [k; v] [TString; t]); eauto; [| |apply frame_nil|intros; discriminate].
        + repeat constructor; auto. intros [Eq|[]]. congruence.
        + intros bs Hb. apply in_map_iff in Hb. destruct Hb as ([k1 y] & <- & Hy). exists [VStr k1; y]. split; auto.
          repeat constructor. eauto.
      - (* cast *) eapply h_bind; [apply Hev; eassumption|]. intros v. apply h_pre. intros Hv. eapply h_cast_partial; eauto.
      - eapply h_bind; [apply Hev; eassumption|]. intros v. apply h_pre. intros Hv. eapply h_cast; eauto. eapply (et_exh T E HE); eauto.
      - (* upcast *) eapply h_conseq; [apply Hev; eassumption|auto| |auto]. intros v F [HF Hv]. split; auto. eapply sub_ok; eauto.
      - eapply h_bind; [apply Hev; eassumption|]. intros v. apply h_pre. intros Hv. apply h_ret. intros F HF. split; auto.
        assert (Hvt : ok t v) by (eapply sub_ok; eauto). destruct v; cbn [is_null]; try (apply ht_member with t; assumption);
          (apply ht_tagged with t; auto; [intros ->; inversion Hvt|constructor]).
      - (* ifnotnull *)
        eapply h_bind; [apply nn_values; eassumption|]. intros vs. apply h_pre. intros Hvs. destruct forallb eqn:Hz.
        + destruct (Hvs eq_refl) as (ws & E1 & Hws). rewrite E1.
          eapply h_bind; [eapply h_run_new; [eassumption|]|intros v; apply h_ret; intros F [HF _]; split; auto; constructor].
          apply frame_new; auto. match goal with Hb : Forall2 (nn_case _ _) _ _ |- _ => apply Forall2_len in Hb; now rewrite map_length end.
        + apply h_ret. intros; split; auto; constructor.
      - eapply h_bind; [apply nn_values; eassumption|]. intros vs. apply h_pre. intros Hvs. destruct forallb eqn:Hz.
        + destruct (Hvs eq_refl) as (ws & E1 & Hws). rewrite E1. eapply h_bind; [eapply h_run_new; [eassumption|]|].
          * apply frame_new; auto. match goal with Hb : Forall2 (nn_case _ _) _ _ |- _ => apply Forall2_len in Hb; now rewrite map_length end.
          * intros v. apply h_ret. intros F [HF Hv]. split; auto. eapply joins_ok; [exact HD|eassumption| |exact Hv]. now left.
        + cbn [or_else]. eapply h_conseq; [eapply h_run_here; eassumption|auto| |auto]. intros v F [HF Hv]. split; auto.
          eapply joins_ok; [exact HD|eassumption| |exact Hv]. right. now left.
      - (* pack *)
        eapply h_bind; [apply h_exprs; eassumption|]. intros vs. apply h_pre. intros Hvs. apply h_lift. intros F HF.
        destruct e_pack eqn:Hp; auto. split; auto. eapply (et_pack T E HE); eauto.
      - (* unpack *)
        eapply h_bind; [apply Hev; eassumption|]. intros b. apply h_pre. intros Hb. destruct e_unpack as [bs|] eqn:Hu.
        + apply (et_unpack T E HE) in Hu.
          eapply h_bind; [eapply h_run_new; [eassumption|now apply unpack_frame]|intros v; apply h_ret; intros F [HF _]; split; auto; constructor].
        + apply h_ret. intros; split; auto; constructor.
      - eapply h_bind; [apply Hev; eassumption|]. intros b. apply h_pre. intros Hb. destruct e_unpack as [bs|] eqn:Hu.
        + apply (et_unpack T E HE) in Hu. eapply h_bind; [eapply h_run_new; [eassumption|now apply unpack_frame]|].
          intros v. apply h_ret. intros F [HF Hv]. split; auto. eapply joins_ok; [exact HD|eassumption| |exact Hv]. now left.
        + cbn [or_else]. eapply h_conseq; [eapply h_run_here; eassumption|auto| |auto]. intros v F [HF Hv]. split; auto.
          eapply joins_ok; [exact HD|eassumption| |exact Hv]. right. now left.
      - (* error *) apply h_raise. auto.
      - (* try *)
        eapply h_bind; [apply h_attempt; eapply h_run_here; eassumption|]. intros [v|x].
        + apply h_ret. intros F [HF Hv]. split; auto. now apply try_type_ok.
        + unfold handle. destruct flt as [l|]; [destruct (in_filter E x l) as [[|]|]|]; try (apply h_raise; auto; fail);
            apply h_ret; intros F HF; split; auto; apply try_type_null.
      - (* log *)
        eapply h_bind; [apply h_exprs; eassumption|]. intros vs. apply h_pre. intros Hvs. apply forget. apply h_modify; auto.
        intros s [O1 O2 O3]. now constructor.
    Qed.
    Lemma h_step_stmt g G e t g' : stmt T g G e t g' ->
      hoare (agree T (g :: G)) (step E n ev app e) (fun v F => agree T (g' :: G) F /\ ok t v) (agree T (g :: G)).
    Proof.
      intros H. inversion H; subst; [now apply h_step|]. cbn [step].
      eapply h_ext; [intros s; apply bind_assoc|]. eapply h_bind; [eapply h_let; eassumption|]. intros ?. apply h_ret.
      intros F HF. split; auto. constructor.
    Qed.
    Lemma h_step_lit P d v : hoare P (step E n ev app (ELit d v)) (fun w F => P F /\ w = v) P.
    Proof. apply h_ret. auto. Qed.
  End Step.

  Theorem sound n : (forall G e t, typed T G e t -> safe G (eval E n e) t) /\
    (forall g G e t g', stmt T g G e t g' ->
      hoare (agree T (g :: G)) (eval E n e) (fun v F => agree T (g' :: G) F /\ ok t v) (agree T (g :: G))) /\
    (forall G f ps r vs, arg_typed T G f (AFn ps r) -> Forall2 (fun p v => ok p v) ps vs -> safe G (apply E n f vs) r) /\
    (forall P d v, hoare P (eval E n (ELit d v)) (fun w F => P F /\ w = v) P).
  Proof.
    induction n as [|n (IH1 & IH2 & IH3 & IH4)].
    - repeat split; intros; apply h_fuel.
    - repeat split; intros; cbn [eval apply].
      + now apply h_step.
      + now apply h_step_stmt.
      + eapply h_app_step; eauto.
      + apply h_step_lit.
  Qed.
  Lemma sound_block n g G es t g' : block T g G es t g' ->
    hoare (agree T (g :: G)) (exec E n es) (fun v F => agree T (g' :: G) F /\ ok t v) (agree T (g :: G)).
  Proof. destruct (sound n) as (_ & H & _). intros Hb. now apply h_run with (ev := eval E n). Qed.
End Sound.
