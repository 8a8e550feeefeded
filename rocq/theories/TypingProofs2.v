(** Type soundness of one step of evaluation. *)
From Verif Require Import Base PyNum ScopeModel ScopeSpec ScopeProofs CoreModel TypeModel TypeSpec TypeProofs TypeProofs2 TypeProps TypingModel TypingSpec TypingProofs.
Open Scope string_scope.
Open Scope list_scope.

Section Steps.
  Variable T : tenv.
  Notation D := (te_defs T).
  Notation ok t v := (has_type true D t v).
  Variable E : env.
  Hypothesis HE : env_typed T E.
  Variable saved : bool.
  Notation hoare := (hoare T saved).

  Lemma stmt_extends g G e t g' : stmt T g G e t g' -> extends g g' G.
  Proof.
    intros H. inversion H as [|g0 G0 bs us Hb Hn Hv]; subst; [apply extends_refl|].
    assert (Hl : length (map fst bs) = length us) by (apply Forall2_len in Hb; rewrite map_length in *; congruence).
    assert (Ku := combine_keys (map fst bs) us Hl). split.
    - intros x u Hx. rewrite assoc_app. destruct (assoc x (combine _ us)) as [w|] eqn:Ha; auto.
      apply assoc_In in Ha. apply (in_map fst) in Ha. change (In x (keys (combine (map fst bs) us))) in Ha. rewrite Ku in Ha.
      specialize (Hv x Ha). cbn in Hv. rewrite Hx in Hv. discriminate.
    - intros x Hx. apply has_key_assoc in Hx. rewrite assoc_app in Hx. destruct (assoc x (combine _ us)) as [w|] eqn:Ha.
      + right. apply assoc_In in Ha. apply (in_map fst) in Ha. change (In x (keys (combine (map fst bs) us))) in Ha. rewrite Ku in Ha.
        specialize (Hv x Ha). cbn in Hv. destruct (assoc x g); [discriminate|auto].
      + left. now apply has_key_assoc.
  Qed.
  Lemma block_extends es : forall g G t g', block T g G es t g' -> extends g g' G.
  Proof.
    induction es as [|e es IH]; intros g G t g' H; inversion H; subst; [eapply stmt_extends; eauto|].
    eapply extends_trans; [eapply stmt_extends; eauto|eauto].
  Qed.

  (** *** The state *)
  Lemma h_get_cell c t (P : list frame -> Prop) : te_cells T c = Some t -> hoare P (get_cell c) (fun x F => P F /\ cell_ok T saved t x) P.
  Proof.
    intros Hc s r s' F R Hs Hp Ho Hd. unfold get_cell in Hd. destruct (assoc c (s_cells s)) as [x|] eqn:Ha; injection Hd as <- <-; exists F; auto.
    split; auto. split; auto. split; auto. apply assoc_In in Ha. destruct (ok_cells _ _ _ Ho _ _ Ha) as (u & H1 & H2). congruence.
  Qed.
  Lemma h_get_pool p t (P : list frame -> Prop) : te_pools T p = Some t -> hoare P (get_pool p) (fun x F => P F /\ pool_ok T saved t x) P.
  Proof.
    intros Hc s r s' F R Hs Hp Ho Hd. unfold get_pool in Hd. destruct (assoc p (s_pools s)) as [x|] eqn:Ha; injection Hd as <- <-; exists F; auto.
    split; auto. split; auto. split; auto. apply assoc_In in Ha. destruct (ok_pools _ _ _ Ho _ _ Ha) as (u & H1 & H2). congruence.
  Qed.
  Lemma h_upd_cell c t f (P : list frame -> Prop) : te_cells T c = Some t -> (forall x, cell_ok T saved t x -> cell_ok T saved t (f x)) ->
    hoare P (upd_cell c f) (fun _ F => P F) P.
  Proof.
    intros Hc Hf s r s' F R Hs Hp Ho Hd. unfold upd_cell in Hd. destruct (assoc c (s_cells s)) as [x|] eqn:Ha; injection Hd as <- <-; exists F; auto.
    split; auto. split; auto. destruct Ho as [O1 O2 O3]. constructor; auto. intros k y Hk. cbn in Hk. apply set_in' in Hk.
    destruct Hk as [[-> ->]|Hk]; auto. exists t. split; auto. apply Hf. apply assoc_In in Ha. destruct (O1 _ _ Ha) as (u & H1 & H2). congruence.
  Qed.
  Lemma h_upd_pool p t f (P : list frame -> Prop) : te_pools T p = Some t -> (forall x, pool_ok T saved t x -> pool_ok T saved t (f x)) ->
    hoare P (upd_pool p f) (fun _ F => P F) P.
  Proof.
    intros Hc Hf s r s' F R Hs Hp Ho Hd. unfold upd_pool in Hd. destruct (assoc p (s_pools s)) as [x|] eqn:Ha; injection Hd as <- <-; exists F; auto.
    split; auto. split; auto. destruct Ho as [O1 O2 O3]. constructor; auto. intros k y Hk. cbn in Hk. apply set_in' in Hk.
    destruct Hk as [[-> ->]|Hk]; auto. exists t. split; auto. apply Hf. apply assoc_In in Ha. destruct (O2 _ _ Ha) as (u & H1 & H2). congruence.
  Qed.
  Lemma h_trace f (P X : list frame -> Prop) : hoare P (modify (add_trace f)) (fun _ => P) X.
  Proof. apply h_modify; auto. intros s [O1 O2 O3]. now constructor. Qed.
  Lemma h_time (P : list frame -> Prop) : hoare P (check_time E) (fun _ => P) P.
  Proof.
    intros s r s' F R Hs Hp Ho Hd. unfold check_time in Hd. exists F.
    destruct s_timeout as [z|]; [destruct (z <=? 0)%Z; [|destruct (z <? _)%Z]|]; injection Hd as <- <-; split; auto; split; auto; destruct Ho; now constructor.
  Qed.
  Lemma h_draw (P X : list frame -> Prop) : hoare P (draw E) (fun _ => P) X.
  Proof. intros s r s' F R Hs Hp Ho [= <- <-]. exists F. split; auto. split; auto. destruct Ho; now constructor. Qed.
  Lemma cell_put_ok t v x : ok t v -> cell_ok T saved t x -> cell_ok T saved t (cell_put v x).
  Proof. intros Hv [H1 H2]. split; auto. Qed.
  Lemma h_cell_update c t upd (P : list frame -> Prop) : te_cells T c = Some t ->
    (forall old, ok t old -> hoare P (upd old) (fun v F => P F /\ ok t v) P) ->
    hoare P (cell_update c upd) (fun v F => P F /\ ok t v) P.
  Proof.
    intros Hc Hu. eapply h_bind; [apply h_get_cell; eauto|]. intros x. apply h_pre. intros [Hx _].
    destruct (c_shared x); [destruct (c_locked x); [apply h_blocked|]|].
    - eapply h_bind; [eapply h_upd_cell; eauto|]. intros u1.
      eapply h_bind; [apply Hu, Hx|]. intros v. apply h_pre. intros Hv.
      eapply h_bind; [eapply h_upd_cell; eauto; intros; now apply cell_put_ok|]. intros ?.
      eapply h_bind; [eapply h_upd_cell; eauto|]. intros ?. apply h_ret. auto.
    - eapply h_bind; [apply Hu, Hx|]. intros v. apply h_pre. intros Hv.
      eapply h_bind; [eapply h_upd_cell; eauto; intros; now apply cell_put_ok|]. intros ?. apply h_ret. auto.
  Qed.
  Lemma pool_put_ok t h v x : ok t v -> pool_ok T saved t x -> pool_ok T saved t (pool_put (dict_set h v (p_value x)) x).
  Proof. intros Hv [H1 H2]. split; auto. cbn. intros k w Hk. apply set_in' in Hk. destruct Hk as [[-> ->]|Hk]; eauto. Qed.
  Lemma h_pool_rest p t h upd old (P : list frame -> Prop) : te_pools T p = Some t -> ok t old ->
    (forall old, ok t old -> hoare P (upd old) (fun v F => P F /\ ok t v) P) ->
    hoare P (v <== upd old ;; _ <== upd_pool p (fun x => pool_put (dict_set h v (p_value x)) x) ;; ret v) (fun v F => P F /\ ok t v) P.
  Proof.
    intros Hc Ho Hu. eapply h_bind; [apply Hu, Ho|]. intros v. apply h_pre. intros Hv.
    eapply h_bind; [eapply h_upd_pool; eauto; intros; now apply pool_put_ok|]. intros ?. apply h_ret. auto.
  Qed.
  Lemma h_pool_body p t h upd init (P : list frame -> Prop) : te_pools T p = Some t -> ok t init ->
    (forall old, ok t old -> hoare P (upd old) (fun v F => P F /\ ok t v) P) ->
    hoare P (pool_update_body p h upd init) (fun v F => P F /\ ok t v) P.
  Proof.
    intros Hc Hi Hu s r s' F R Hs Hp Ho Hd. unfold pool_update_body in Hd. unfold bind at 1 in Hd. unfold get_pool at 1 in Hd.
    destruct (assoc p (s_pools s)) as [x|] eqn:Ha; [|injection Hd as <- <-; exists F; auto].
    assert (Hx : pool_ok T saved t x) by (destruct (ok_pools _ _ _ Ho _ _ (assoc_In _ _ _ Ha)) as (u & H1 & H2); congruence).
    unfold bind at 1 in Hd. destruct (has_key h (p_value x)) eqn:Hk.
    - cbn [ret] in Hd. unfold bind at 1 in Hd. unfold get_pool at 1 in Hd. rewrite Ha in Hd. unfold has_key in Hk.
      destruct (assoc h (p_value x)) as [old|] eqn:Hold; [|discriminate].
      eapply (h_pool_rest p t h upd old P); eauto. destruct Hx as [Hx _]. apply assoc_In in Hold. eauto.
    - unfold upd_pool at 1 in Hd. rewrite Ha in Hd. unfold bind at 1 in Hd. unfold get_pool at 1 in Hd.
      cbn [s_pools set_pools] in Hd. rewrite assoc_set_eq in Hd. cbn [p_value pool_put] in Hd. rewrite assoc_set_eq in Hd.
      eapply (h_pool_rest p t h upd init P); [eauto|eauto|eauto| | |  |exact Hd]; [exact Hs|exact Hp|].
      destruct Ho as [O1 O2 O3]. constructor; auto. intros k y Hy. cbn in Hy. apply set_in' in Hy. destruct Hy as [[-> ->]|Hy]; auto.
      exists t. split; auto. now apply pool_put_ok.
  Qed.
  Lemma h_pool_update p t h upd init (P : list frame -> Prop) : te_pools T p = Some t -> ok t init ->
    (forall old, ok t old -> hoare P (upd old) (fun v F => P F /\ ok t v) P) ->
    hoare P (pool_update p h upd init) (fun v F => P F /\ ok t v) P.
  Proof.
    intros Hc Hi Hu. eapply h_bind; [apply h_get_pool; eauto|]. intros x. apply h_pre. intros Hx.
    destruct (p_shared x); [|eapply h_pool_body; eauto]. destruct (p_locklock x); [apply h_blocked|]. destruct existsb; [apply h_blocked|].
    eapply h_bind; [eapply h_upd_pool; eauto|]. intros ?. eapply h_bind; [eapply h_pool_body; eauto|]. intros v. apply h_pre. intros Hv.
    eapply h_bind; [eapply h_upd_pool; eauto|]. intros ?. apply h_ret. auto.
  Qed.
  Lemma dict_del_In {A} k (d : list (string * A)) j y : In (j, y) (dict_del k d) -> In (j, y) d.
  Proof. induction d as [|[i z] d IH]; cbn; auto. destruct String.eqb; cbn; intuition. Qed.

  (** *** "ifnotnull" *)
  Lemma untag_ok ts m v : not_null_member ts m -> clear T m -> ok (TUnion ts) v -> is_null v = false -> ok m (untag (tyname m) v).
  Proof.
    intros (Hm & Hn & Hall) Hc Hv Hz. inversion Hv as [| | | | | | | | | | | | | | |ts0 u v0 Hu Huv|ts0 u g v0 _ Hu Hun Hg Huv]; subst.
    - destruct (Hall u Hu) as [->| ->]; [inversion Huv; subst; discriminate|].
      destruct m; try (now destruct Hc); inversion Huv; subst; auto. cbn [untag].
      destruct d as [|[k w] [|]]; auto. match goal with |- context[String.eqb k ?b] => destruct (String.eqb_spec k b) as [->|ne] end; auto.
      exfalso. apply Hc. match goal with H : forall k v, In (k, v) _ -> In k _ |- _ => apply (H _ w) end. now left.
    - destruct (Hall u Hu) as [->| ->]; [easy|]. cbn [untag].
      assert (g = tyname m) as ->.
      { inversion Hg as [|a b Hw]; subst; auto. destruct Hw; now destruct Hc. }
      now rewrite String.eqb_refl.
  Qed.
End Steps.
