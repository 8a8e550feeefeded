(** Type soundness of whole documents. *)
From Verif Require Import Base PyNum ScopeModel ScopeSpec ScopeProofs CoreModel EngineModel EngineSpec EngineProofs TypeModel TypeSpec TypeProofs TypeProofs2 TypeProps
  TypingModel TypingSpec TypingProofs TypingProofs2 TypingProofs3.
Open Scope string_scope.
Open Scope list_scope.

Section Engine.
  Variable T : tenv.
  Notation D := (te_defs T).
  Notation ok t v := (has_type true D t v).
  Variable E : env.
  Hypothesis HE : env_typed T E.
  Variable Dc : doc.
  Variable it : ty.
  Hypothesis HD : doc_typed T Dc it.

  Lemma in_map_vals {A B} (f : A -> B) l k y : In (k, y) (map_vals f l) -> exists x, In (k, x) l /\ y = f x.
  Proof. unfold map_vals. intros H. apply in_map_iff in H. destruct H as ([j x] & [= <- <-] & Hi). eauto. Qed.
  Lemma saved_ok s : st_ok T false s -> st_ok T true (save_all s).
  Proof.
    intros [O1 O2 O3]. constructor; auto; cbn.
    - intros c x Hc. apply in_map_vals in Hc. destruct Hc as (y & Hy & ->). destruct (O1 _ _ Hy) as (t & Ht & Hv & _). exists t. split; auto.
      unfold save_cell. destruct (c_rollback y) eqn:Hr; split; cbn; auto. intros _. congruence.
    - intros c x Hc. apply in_map_vals in Hc. destruct Hc as (y & Hy & ->). destruct (O2 _ _ Hy) as (t & Ht & Hv & _). exists t. split; auto.
      unfold save_pool. destruct (p_rollback y) eqn:Hr; split; cbn; auto. intros _. congruence.
  Qed.
  Lemma restored_ok s : st_ok T true s -> st_ok T false (restore_all s).
  Proof.
    intros [O1 O2 O3]. constructor; auto; cbn.
    - intros c x Hc. apply in_map_vals in Hc. destruct Hc as (y & Hy & ->). destruct (O1 _ _ Hy) as (t & Ht & Hv & Ho). exists t. split; auto.
      unfold restore_cell. destruct (c_rollback y) eqn:Hr; split; cbn; try (intros ?; discriminate); eauto.
    - intros c x Hc. apply in_map_vals in Hc. destruct Hc as (y & Hy & ->). destruct (O2 _ _ Hy) as (t & Ht & Hv & Ho). exists t. split; auto.
      unfold restore_pool. destruct (p_rollback y) eqn:Hr; split; cbn; try (intros ?; discriminate); eauto.
  Qed.
  Lemma unsaved_ok s : st_ok T true s -> st_ok T false s.
  Proof.
    intros [O1 O2 O3]. constructor; auto.
    - intros c x Hc. destruct (O1 _ _ Hc) as (t & Ht & Hv & _). exists t. split; auto. split; auto. discriminate.
    - intros c x Hc. destruct (O2 _ _ Hc) as (t & Ht & Hv & _). exists t. split; auto. split; auto. discriminate.
  Qed.
  Lemma load_ok : engine_ok T Dc (load Dc).
  Proof.
    split; [constructor; cbn|intros Hm; cbn; now apply (dt_zero _ _ _ HD)].
    - intros c x Hc. apply in_map_vals in Hc. destruct Hc as (y & Hy & ->). destruct (dt_cells _ _ _ HD _ _ Hy) as (t & Ht & Hv).
      exists t. split; auto. split; cbn; auto. discriminate.
    - intros c x Hc. apply in_map_vals in Hc. destruct Hc as (y & Hy & ->). destruct (dt_pools _ _ _ HD _ _ Hy) as (t & Ht & Hv).
      exists t. split; auto. split; cbn; auto. discriminate.
    - easy.
  Qed.

  (** a frame of variables with their types *)
  Lemma vars_ok (g : ctx) (bs : list (string * val)) : map fst g = map fst bs -> NoDup (map fst bs) ->
    Forall2 (fun t v => ok t v) (map snd g) (map snd bs) -> frame_ok T g [] (frame_let bs []).
  Proof.
    intros Hk Hn Hv.
    assert (Eg : forall A (l : list (string * A)), l = combine (map fst l) (map snd l)).
    { intros A l. induction l as [|[k x] l IH]; cbn; congruence. }
    rewrite (Eg _ g), (Eg _ bs), Hk. apply frame_new; auto. rewrite <- Hk. now rewrite !map_length.
  Qed.
  Lemma counters_ok s : long_range (s_started s) -> long_range (s_finished s) ->
    Forall2 (fun t v => ok t v) (map snd counter_types) (map snd (counter_vars s)).
  Proof. intros H1 H2. constructor; [exact (ht_long _ _ _ H1)|]. constructor; [exact (ht_long _ _ _ H2)|]. constructor. Qed.
  Lemma common_ok : Forall2 (fun t v => ok t v) (map snd common_types) (map snd (common_vars Dc)).
  Proof. destruct HD. repeat constructor; auto. Qed.
  Lemma version_ok : Forall2 (fun t v => ok t v) (map snd (version_types Dc)) (map snd (version_vars Dc)).
  Proof. unfold version_types, version_vars. destruct (d_version Dc) eqn:Hv; repeat constructor. now apply (dt_version _ _ _ HD). Qed.
  Lemma tally_ok s : (d_method Dc = MFold -> ok (te_out T) (s_tally s)) ->
    Forall2 (fun t v => ok t v) (map snd (tally_types T Dc)) (map snd (tally_vars Dc s)).
  Proof. unfold tally_types, tally_vars. destruct (d_method Dc); repeat constructor; auto. Qed.

  Lemma routine_ok saved n g bs es P s r s' : routine_typed T g es P -> frame_ok T g [] (frame_let bs []) -> st_ok T saved s ->
    in_root [frame_let bs []] (exec E n es) s = Done r s' ->
    st_ok T saved s' /\ forall v, r = Ok v -> exists t, P t /\ ok t v.
  Proof.
    intros (t & g' & Hb & Hp) Hf Ho Hd.
    pose proof (h_root T saved g g' (frame_let bs []) (exec E n es) (fun _ => True) (fun v => ok t v) Hf
                  (sound_block T E HE saved n g [] es t g' Hb) []) as H.
    destruct (H s r s' [] (s_scopes s) eq_refl I Ho Hd) as (F' & _ & H2 & H3). split; auto. intros v ->. exists t. split; auto. apply H3.
  Qed.
  Lemma start_ok saved rt s : st_ok T saved s -> st_ok T saved (start E Dc rt s).
  Proof. intros [O1 O2 O3]. now constructor. Qed.
  Lemma output_ok t v : output_type T t -> ok t v -> ok (te_out T) v.
  Proof. apply exc_or_sub with (E := E); auto. Qed.
  Lemma tally_kept es n fs s r s' : in_root fs (exec E n es) s = Done r s' -> s_tally s' = s_tally s.
  Proof. intros H. apply stable_body in H. apply (sb_tally _ _ H). Qed.

  Ltac names := unfold version_types, version_vars, tally_types, tally_vars; destruct (d_version Dc); destruct (d_method Dc); reflexivity.
  Ltac distinct := unfold version_types, version_vars, tally_types, tally_vars; destruct (d_version Dc); destruct (d_method Dc); cbn;
    repeat (constructor; [cbn; intuition discriminate|]); constructor.
  Lemma call_typed n c s r s' : engine_ok T Dc s -> long_range (s_started s + 1) -> long_range (s_started s) -> long_range (s_finished s) -> call_ok T c ->
    do_call E Dc n c s = Done r s' -> engine_ok T Dc s' /\ outcome_ok T Dc c r.
  Proof.
    intros [Ho Ht] R0 R1 R2 Hc Hd. destruct c as [|input|one two|]; cbn [do_call] in Hd.
    - (* begin *)
      unfold bind at 1 in Hd. unfold begin in Hd. destruct (d_begin Dc) as [|e es] eqn:Hb.
      { injection Hd as <- <-. split; [split; auto|]. now intros v [= <-]. }
      destruct (dt_begin _ _ _ HD) as [C|Hr]; [congruence|]. rewrite Hb in Hr. unfold bind at 1 in Hd.
      destruct (in_root _ _ _) as [r1 s1| |] eqn:Hi; try discriminate.
      pose proof (tally_kept _ _ _ _ _ _ Hi) as Hk. cbn in Hk.
      apply (routine_ok false) with (g := common_types ++ version_types Dc) (P := any_type) in Hi; auto; [| |now apply start_ok].
      + destruct Hi as [H1 _]. destruct r1; injection Hd as <- <-; (split; [split; [auto|intros Hm; rewrite Hk; auto]|]); intros v Hv; cbn; congruence.
      + apply vars_ok; [names|distinct|]. rewrite !map_app. apply Forall2_app; [apply common_ok|apply version_ok].
    - (* action *)
      unfold action in Hd. destruct (d_check Dc input) as [inp|e] eqn:Hch; [|injection Hd as <- <-; split; [split; auto|intros v; discriminate]].
      cbv zeta in Hd. destruct (in_root _ _ _) as [r1 s1| |] eqn:Hi; try discriminate.
      pose proof (tally_kept _ _ _ _ _ _ Hi) as Hk. cbn in Hk.
      assert (Hp : st_ok T true (prepare E Dc s)).
      { unfold prepare. apply (start_ok false RAction) in Ho. apply saved_ok in Ho. destruct Ho. now constructor. }
      unfold action_frame in Hi.
      eapply (routine_ok true) in Hi; [|apply (dt_action _ _ _ HD)| |exact Hp].
      + destruct Hi as [H1 H2]. destruct r1 as [last|e].
        * destruct (H2 last eq_refl) as (t & Hpt & Hlt). unfold finish in Hd. destruct (d_method Dc) eqn:Hm; injection Hd as <- <-.
          -- split; [split; [apply unsaved_ok in H1; destruct H1; now constructor|intros Hx; congruence]|]. intros v [= <-]. cbn. rewrite Hm. eapply output_ok; eauto.
          -- split; [split; [apply unsaved_ok in H1; destruct H1; now constructor|intros Hx; congruence]|]. intros v [= <-]. cbn. now rewrite Hm.
          -- split; [split; [apply unsaved_ok in H1; destruct H1; now constructor|]|].
             ++ intros _. cbn. eapply output_ok; eauto.
             ++ intros v [= <-]. cbn. rewrite Hm. eapply output_ok; eauto.
        * injection Hd as <- <-. split; [split; [now apply restored_ok|]|intros v; discriminate]. intros Hm. cbn. rewrite Hk. auto.
      + apply vars_ok; [names|distinct|]. rewrite !map_app.
        apply (Forall2_app (l1 := map snd (("input", it) :: common_types)) (l1' := map snd (("input", inp) :: common_vars Dc))).
        * cbn [map]. constructor; [now apply (dt_check _ _ _ HD) in Hch|apply common_ok].
        * apply Forall2_app; [now apply counters_ok|]. apply Forall2_app; [apply version_ok|now apply tally_ok].
    - (* merge *)
      unfold merge in Hd. destruct (d_merge Dc) as [es|] eqn:Hmg; [|injection Hd as <- <-; split; [split; auto|intros v; discriminate]].
      cbv zeta in Hd. destruct (in_root _ _ _) as [r1 s1| |] eqn:Hi; try discriminate.
      pose proof (tally_kept _ _ _ _ _ _ Hi) as Hk. cbn in Hk. destruct Hc as [Hc1 Hc2].
      eapply (routine_ok true) in Hi; [|apply (dt_merge _ _ _ HD es Hmg)| |apply saved_ok, start_ok, Ho].
      + destruct Hi as [H1 H2]. destruct r1 as [last|e]; injection Hd as <- <-.
        * destruct (H2 last eq_refl) as (t & Hpt & Hlt). assert (Hl : ok (te_out T) last) by (eapply output_ok; eauto). split; [split; [apply unsaved_ok in H1; destruct H1; now constructor|auto]|].
          intros v [= <-]. exact Hl.
        * split; [split; [now apply restored_ok|]|intros v; discriminate]. intros Hm. cbn. rewrite Hk. auto.
      + apply vars_ok; [names|distinct|]. rewrite !map_app.
        apply (Forall2_app (l1 := map snd (("tallyOne", te_out T) :: ("tallyTwo", te_out T) :: common_types))
                 (l1' := map snd (("tallyOne", one) :: ("tallyTwo", two) :: common_vars Dc))).
        * cbn [map]. constructor; auto. constructor; auto. apply common_ok.
        * apply version_ok.
    - (* end *)
      unfold bind at 1 in Hd. unfold end_ in Hd. destruct (d_end Dc) as [|e es] eqn:Hb.
      { injection Hd as <- <-. split; [split; auto|]. now intros v [= <-]. }
      destruct (dt_end _ _ _ HD) as [C|Hr]; [congruence|]. rewrite Hb in Hr. unfold bind at 1 in Hd.
      destruct (in_root _ _ _) as [r1 s1| |] eqn:Hi; try discriminate.
      pose proof (tally_kept _ _ _ _ _ _ Hi) as Hk. cbn in Hk.
      eapply (routine_ok false) in Hi; [|exact Hr| |now apply start_ok].
      + destruct Hi as [H1 _]. destruct r1; injection Hd as <- <-; (split; [split; [auto|intros Hm; rewrite Hk; auto]|]); intros v Hv; cbn; congruence.
      + apply vars_ok; [names|distinct|]. rewrite !map_app. apply Forall2_app; [apply common_ok|].
        apply Forall2_app; [now apply counters_ok|]. apply Forall2_app; [apply version_ok|now apply tally_ok].
  Qed.
End Engine.
