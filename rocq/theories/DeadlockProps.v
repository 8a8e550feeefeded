(** Property C37: documents that could deadlock with themselves are rejected. *)
From Verif Require Import Base ScopeModel CoreModel EngineModel CallGraphModel CallGraphSpec CallGraphProofs CallGraphProps CoreDemo CoreInd CoreFlow StaticModel StaticScope StaticProps TraverseModel TraverseSpec TraverseProofs TraverseProps DeadlockProofs.
Open Scope string_scope.
Open Scope list_scope.
Open Scope Z_scope.

(** What the check does refuse: a "cell-to" or "pool-to" anywhere outside the merge section whose function is a reference to
    a function with side effects in the call graph, or an inline function in which a "cell-to" or "pool-to" occurs or such
    a function is called. *)
Definition visited (fcns : list (string * (list string * list expr))) (D : doc) (m : node) : Prop :=
  exists e, In e (d_begin D ++ d_action D ++ d_end D ++ concat (map (fun f => snd (snd f)) fcns)) /\ inside (NE e) m.
Definition effects (g : call_graph) (f : string) : Prop := reaches g f "cell-to" \/ reaches g f "pool-to" \/ reaches g f "pool-del".
Definition bad_function (g : call_graph) (to : arg) : Prop :=
  match to with
  | AExpr _ => False
  | ARef f | AFill f _ => effects g f
  | AFcn _ body => exists e m, In e body /\ inside (NE e) m
      /\ match m with NE (ECellTo _ _ _) | NE (EPoolTo _ _ _ _) => True | NE (ECall f _) => effects g f | _ => False end
  end.
Definition updates_with (m : node) (to : arg) : Prop := (exists c path, m = NE (ECellTo c path to)) \/ (exists p path init, m = NE (EPoolTo p path to init)).
Lemma quiet_name_ok g f : quiet_name g f = true <-> ~ effects g f.
Proof.
  unfold quiet_name, effects. rewrite <- C34_hasSideEffects. unfold has_side_effects. destruct (calledBy_iff g f) as (r & -> & _). destruct (_ || _)%bool; split; intros H; try reflexivity; try discriminate; intuition congruence.
Qed.
Lemma to_ok_iff g to : to_ok g to = true <-> ~ bad_function g to.
Proof.
  destruct to as [e|ps body|f|f fills]; cbn [to_ok bad_function]; [tauto| |apply quiet_name_ok..].
  rewrite forallb_forall. split.
  - intros H (e & m & I & M & B). assert (K : In m (flat collect body)) by (eapply in_flat; [exact I|]; apply (collect_inside (NE e) m M); destruct m as [|]; [exact Logic.I|contradiction]).
    specialize (H m K). destruct m as [[]|]; try contradiction; try discriminate. now apply quiet_name_ok in H.
  - intros H m I. apply flat_in in I. destruct I as (e & I & M). destruct (collect_only (NE e) m M) as [K|(k & K & its & el & it & -> & _ & ->)]; [|reflexivity].
    destruct m as [[]|]; try reflexivity.
    + apply quiet_name_ok. intros B. apply H. do 2 eexists. split; [exact I|split; [exact K|exact B]].
    + exfalso. apply H. do 2 eexists. split; [exact I|split; [exact K|exact Logic.I]].
    + exfalso. apply H. do 2 eexists. split; [exact I|split; [exact K|exact Logic.I]].
Qed.
Lemma visited_iff fcns D m : is_ast m -> visited fcns D m -> In m (collect_doc fcns D).
Proof.
  intros A (e & I & H). pose proof (collect_inside (NE e) m H A) as K. cbn [collect_node] in K. unfold collect_doc.
  repeat (apply in_app_or in I; destruct I as [I|I]).
  - apply in_or_app. left. eapply in_flat; eauto.
  - apply in_or_app. right. apply in_or_app. left. eapply in_flat; eauto.
  - do 2 (apply in_or_app; right). apply in_or_app. left. eapply in_flat; eauto.
  - do 3 (apply in_or_app; right). apply in_concat in I. destruct I as (body & B & I). apply in_map_iff in B. destruct B as (f & <- & B).
    eapply in_flat; [exact B|]. unfold collect_fcn. cbn [collect_arg]. right. eapply in_flat; eauto.
Qed.
Lemma visited_back fcns D m : In m (collect_doc fcns D) -> visited fcns D m \/ (exists p t el, m = NE (EIf p t el)) \/ exists a, m = NA a.
Proof.
  assert (B : forall es, In m (flat collect es) -> (exists e, In e es /\ inside (NE e) m) \/ exists p t el, m = NE (EIf p t el)).
  { intros es I. apply flat_in in I. destruct I as (e & I & M). destruct (collect_only (NE e) m M) as [K|(k & K & its & el & it & -> & _ & ->)]; [left; eauto|right; eauto]. }
  intros I. unfold collect_doc in I. repeat (apply in_app_or in I; destruct I as [I|I]).
  1-3: destruct (B _ I) as [(e & J & M)|K]; [left; exists e; split; [rewrite !in_app_iff; auto|exact M]|right; left; exact K].
  apply flat_in in I. destruct I as (f & J & M). unfold collect_fcn in M. cbn [collect_arg] in M. destruct M as [<-|M]; [right; right; eauto|].
  destruct (B _ M) as [(e & J' & M')|K]; [left; exists e; split; [|exact M']|right; left; exact K].
  rewrite !in_app_iff. do 3 right. apply in_concat. exists (snd (snd f)). split; [|exact J']. now apply (in_map (fun f => snd (snd f))).
Qed.
Theorem C37_check : forall fcns D,
  check_for_deadlock fcns D = false <-> exists m to, visited fcns D m /\ updates_with m to /\ bad_function (graph_of fcns D) to.
Proof.
  intros fcns D. rewrite <- Bool.not_true_iff_false. unfold check_for_deadlock. rewrite forallb_forall. split.
  - intros H. destruct (existsb (fun m => match m with NE (ECellTo _ _ to) | NE (EPoolTo _ _ to _) => negb (to_ok (graph_of fcns D) to) | _ => false end) (collect_doc fcns D)) eqn:X.
    + apply existsb_exists in X. destruct X as (m & I & X). assert (V : visited fcns D m).
      { destruct (visited_back _ _ _ I) as [V|[(p & t & el & ->)|(a & ->)]]; [exact V|discriminate..]. }
      assert (D1 : forall to, negb (to_ok (graph_of fcns D) to) = true -> bad_function (graph_of fcns D) to).
      { intros to T. apply Bool.negb_true_iff in T. assert (NN : ~ ~ bad_function (graph_of fcns D) to) by (intros N; apply to_ok_iff in N; congruence).
        destruct to as [e|ps body|f|f fills]; cbn [bad_function to_ok] in *; [discriminate T| | |].
        - assert (W : existsb (fun n => negb match n with NE (ECellTo _ _ _) | NE (EPoolTo _ _ _ _) => false | NE (ECall f _) => quiet_name (graph_of fcns D) f | _ => true end) (flat collect body) = true).
          { clear - T. induction (flat collect body) as [|x l IH]; [discriminate|]. cbn [forallb existsb] in *. apply Bool.andb_false_iff in T. destruct T as [-> |T]; [reflexivity|rewrite (IH T); apply Bool.orb_true_r]. }
          apply existsb_exists in W. destruct W as (k & K & W). apply flat_in in K. destruct K as (e & J & K). exists e, k. split; [exact J|].
          destruct (collect_only (NE e) k K) as [K'|(k' & K' & its & el & it & -> & _ & ->)]; [|discriminate]. split; [exact K'|].
          destruct k as [[]|]; try discriminate; auto. apply Bool.negb_true_iff in W. unfold quiet_name, has_side_effects in W. unfold effects. rewrite <- C34_hasSideEffects. unfold has_side_effects.
          destruct (calledBy_iff (graph_of fcns D) f) as (r & R & _). rewrite R in *. apply Bool.negb_false_iff in W. now rewrite W.
        - unfold effects. rewrite <- C34_hasSideEffects. unfold quiet_name in T. unfold has_side_effects in *. destruct (calledBy_iff (graph_of fcns D) f) as (r & R & _). rewrite R in *. apply Bool.negb_false_iff in T. now rewrite T.
        - unfold effects. rewrite <- C34_hasSideEffects. unfold quiet_name in T. unfold has_side_effects in *. destruct (calledBy_iff (graph_of fcns D) f) as (r & R & _). rewrite R in *. apply Bool.negb_false_iff in T. now rewrite T. }
      destruct m as [[]|]; try discriminate; eexists; eexists; (split; [exact V|split; [|apply D1; exact X]]); [left; eauto|right; eauto].
    + exfalso. apply H. intros m I. destruct m as [[]|]; try reflexivity; destruct (to_ok (graph_of fcns D) to) eqn:T; try reflexivity;
        (assert (Y : existsb (fun m => match m with NE (ECellTo _ _ to) | NE (EPoolTo _ _ to _) => negb (to_ok (graph_of fcns D) to) | _ => false end) (collect_doc fcns D) = true);
         [apply existsb_exists; eexists; split; [exact I|cbn; now rewrite T]|congruence]).
  - intros (m & to & V & U & B) H. assert (A : is_ast m) by (destruct U as [(c & path & ->)|(p & path & init & ->)]; exact I).
    specialize (H m (visited_iff _ _ _ A V)). destruct U as [(c & path & ->)|(p & path & init & ->)]; apply to_ok_iff in H; contradiction.
Qed.

(** ** Accepted documents do not block, as far as the check can see *)
(** what the check does not look at: functions passed on to other functions, fills and "call" inside the update function;
    "try" around updates, which may go on after a failed update whose lock is still held *)
Definition plain_update (fcns : list (string * (list string * list expr))) : node -> Prop := everywhere (fun m =>
  match m with
  | NE (ECellTo _ _ to) | NE (EPoolTo _ _ to _) =>
      match to with
      | AFill _ fills => forall p c, In p fills -> ~ mentions (NA (snd p)) c
      | AFcn _ body => forall e k, In e body -> inside (NE e) k -> match k with NE (ECallUser _ _ _) | NA (ARef _) | NA (AFill _ _) => False | _ => True end
      | _ => True
      end
  | NE (ETry es _) => forall e, In e es -> quiet fcns (NE e)
  | _ => True
  end).
(** no function is called "cell-to" or "pool-to" *)
Definition proper : node -> Prop := everywhere (fun m =>
  match m with NE (ECall f _) | NA (ARef f) | NA (AFill f _) => ~ is_update f | _ => True end).
Record seen (E : env) (e : expr) : Prop := {
  seen_enum : enum_names E (NE e);
  seen_all : nothing_forgotten (NE e);
  seen_plain : plain_update (e_fcns E) (NE e);
  seen_proper : proper (NE e) }.
Section Reach.
  Variable E : env.
  Variable D : doc.
  Hypothesis U : u_names (e_fcns E).
  Hypothesis N : Forall (fun e => nothing_forgotten (NE e)) (doc_top (e_fcns E) D).
  Let g := graph_of (e_fcns E) D.
  Lemma entries : forall f ps body e c, assoc f (e_fcns E) = Some (ps, body) -> In e body -> mentions (NE e) c -> calls_directly g f c.
  Proof. apply C36_entries_partial; [exact U|exact N]. Qed.
  Lemma can_reach n c : can_call (e_fcns E) n c -> mentions n c \/ exists f, mentions n f /\ reaches g f c.
  Proof.
    induction 1 as [n c H|n f ps body e c H IH A I K]; [now left|]. right. pose proof (entries _ _ _ _ _ A I K) as Dc. destruct IH as [IH|(f' & F & k & R)].
    - exists f. split; [exact IH|]. exists 0%nat. econstructor; [exact Dc|constructor].
    - exists f'. split; [exact F|]. exists (k + 1)%nat. apply (chain_trans g f' (Datatypes.S k) f 1); [exact R|]. econstructor; [exact Dc|constructor].
  Qed.
  Lemma quiet_by n : (forall f, mentions n f -> ~ is_update f /\ ~ effects g f) -> quiet (e_fcns E) n.
  Proof.
    intros H c K. destruct (can_reach n c K) as [K'|(f & F & R)]; [now apply H|]. destruct (H f F) as [_ Q]. intros [-> | ->]; apply Q; unfold effects; auto.
  Qed.
End Reach.
Section Accepted.
  Variable E : env.
  Variable D : doc.
  Hypothesis U : u_names (e_fcns E).
  Hypothesis M : d_merge D = None.
  Hypothesis S : Forall (seen E) (doc_top (e_fcns E) D).
  Hypothesis C : check_for_deadlock (e_fcns E) D = true.
  Let g := graph_of (e_fcns E) D.
  Lemma all_seen e : In e (doc_top (e_fcns E) D) -> seen E e.
  Proof. rewrite Forall_forall in S. auto. Qed.
  Lemma seen_nf : Forall (fun e => nothing_forgotten (NE e)) (doc_top (e_fcns E) D).
  Proof. eapply Forall_impl; [|exact S]. intros e K. apply K. Qed.
  Lemma to_quiet e to m : In e (doc_top (e_fcns E) D) -> inside (NE e) m -> updates_with m to -> match to with AExpr _ => True | _ => quiet (e_fcns E) (NA to) end.
  Proof.
    intros I K UW. destruct (all_seen e I) as [_ _ SP SN]. assert (Is : is_ast m) by (destruct UW as [(c & path & ->)|(p & path & init & ->)]; exact Logic.I).
    assert (V : visited (e_fcns E) D m) by (exists e; split; [unfold doc_top in I; rewrite M in I; exact I|exact K]).
    assert (NB : ~ bad_function g to).
    { intros B. assert (X : check_for_deadlock (e_fcns E) D = false) by (apply C37_check; eauto). congruence. }
    assert (Pl := SP m K). assert (It : inside m (NA to)).
    { apply part_inside. destruct UW as [(c & path & ->)|(p & path & init & ->)]; cbn [parts]; apply in_or_app; right; now left. }
    assert (Pr : proper (NA to)) by (eapply everywhere_inside; [|exact SN]; eapply inside_trans; eauto).
    destruct to as [e'|ps body|f|f fills]; [exact Logic.I|apply (quiet_by E D U seen_nf)..].
    - intros f (k & Ik & O). apply inside_inv in Ik. destruct Ik as [-> |(q & Iq & Ik)]; [contradiction|]. cbn [parts] in Iq. apply in_map_iff in Iq. destruct Iq as (b & <- & Ib).
      assert (Pb : match k with NE (ECallUser _ _ _) | NA (ARef _) | NA (AFill _ _) => False | _ => True end).
      { destruct UW as [(c & path & ->)|(p & path & init & ->)]; exact (Pl b k Ib Ik). }
      assert (Pk := Pr k (in_part (NA (AFcn ps body)) (NE b) k ltac:(cbn [parts]; now apply in_map) Ik)).
      destruct k as [[]|[]]; try contradiction; cbn [own] in O.
      + destruct O as [<-|[]]. split; [exact Pk|]. intros B. apply NB. cbn [bad_function]. do 2 eexists. split; [exact Ib|split; [exact Ik|exact B]].
      + exfalso. apply NB. cbn [bad_function]. do 2 eexists. split; [exact Ib|split; [exact Ik|exact Logic.I]].
      + exfalso. apply NB. cbn [bad_function]. do 2 eexists. split; [exact Ib|split; [exact Ik|exact Logic.I]].
      + destruct O as [<-|[]]. split; [intros [X|X]; discriminate|]. intros B. unfold effects, reaches in B.
        assert (NC : forall k h, chain g "pool-del" (Datatypes.S k) h -> False).
        { intros k h X. inversion X as [|? ? ? ? Y Z]; subst. destruct Y as (cs & Y & _). unfold g, graph_of in Y. rewrite M in Y. cbn [app assoc String.eqb Ascii.eqb Bool.eqb] in Y.
          rewrite (assoc_mapsnd (fun p => body_calls (snd p))) in Y. destruct (assoc "pool-del" (e_fcns E)) as [[ps' b']|] eqn:Ap; [|discriminate].
          apply in_assoc in Ap. destruct (U "pool-del") as [x X']; [apply in_map_iff; eexists; split; [|exact Ap]; reflexivity|discriminate]. }
        destruct B as [(n & B)|[(n & B)|(n & B)]]; now apply NC in B.
    - intros f' (k & Ik & O). apply inside_inv in Ik. destruct Ik as [-> |(q & [] & _)]. destruct O as [<-|[]]. split; [exact (Pr _ (in_self _))|exact NB].
    - intros f' (k & Ik & O). apply inside_inv in Ik. destruct Ik as [-> |(q & Iq & Ik)].
      + destruct O as [<-|[]]. split; [exact (Pr _ (in_self _))|exact NB].
      + exfalso. cbn [parts] in Iq. apply in_map_iff in Iq. destruct Iq as (b & <- & Ib).
        assert (X : ~ mentions (NA (snd b)) f') by (destruct UW as [(c & path & ->)|(p & path & init & ->)]; exact (Pl b f' Ib)). apply X. exists k. auto.
  Qed.
  Lemma seen_live e : In e (doc_top (e_fcns E) D) -> live E (NE e).
  Proof.
    intros I m K. destruct (all_seen e I) as [SE _ SP _]. specialize (SE m K). specialize (SP m K). destruct m as [[]|]; try exact Logic.I; cbn [live_here].
    - exact SE.
    - eapply (to_quiet e); eauto. left. eauto.
    - eapply (to_quiet e); eauto. right. eauto.
    - exact SP.
  Qed.
  Hypothesis St : stopping E.
  Lemma body_live f ps body e : assoc f (e_fcns E) = Some (ps, body) -> In e body -> live E (NE e).
  Proof.
    intros A I. apply seen_live. unfold doc_top. rewrite !in_app_iff. do 4 right. apply in_concat. exists body. split; [|exact I]. apply in_map_iff. exists (f, (ps, body)). split; [reflexivity|now apply in_assoc].
  Qed.
  Lemma free_keep s s' : s_cells s' = s_cells s -> s_pools s' = s_pools s -> free s -> free s'.
  Proof. intros A B F. unfold free. now rewrite A, B. Qed.
  Lemma free_save s : free s -> free (save_all s).
  Proof.
    intros [F1 F2]. unfold save_all, map_vals. split; cbn [s_cells s_pools set_cells set_pools]; intros k x I; apply in_map_iff in I; destruct I as ([j y] & Ey & I); injection Ey as <- <-; cbn [snd] in *.
    - specialize (F1 _ _ I). unfold save_cell. now destruct (c_rollback y).
    - specialize (F2 _ _ I). unfold save_pool. now destruct (p_rollback y).
  Qed.
  Lemma call_live n cl s : free s -> match do_call E D n cl s with Done (Ok _) s' => free s' | Blocked => False | _ => True end.
  Proof.
    intros F.
    assert (X : forall fs es s, es = section_of D cl -> free s -> match in_root fs (exec E n es) s with Done (Ok _) s' => free s' | Blocked => False | _ => True end).
    { intros fs es s0 -> F0. unfold in_root. assert (L := live_exec E St body_live n (section_of D cl)). specialize (L ltac:(intros e I; apply seen_live; unfold doc_top; destruct cl; cbn [section_of] in I; rewrite !in_app_iff; auto) (set_scopes fs s0) F0).
      destruct (exec E n (section_of D cl) (set_scopes fs s0)) as [[v|x] s1| |]; auto. }
    destruct cl as [|input|a b|]; cbn [do_call section_of] in *.
    - unfold bind at 1, begin. destruct (d_begin D) as [|e es] eqn:B; [exact F|].
      unfold bind. match goal with |- context [in_root ?f ?m ?t] => specialize (X f _ t eq_refl F); destruct (in_root f m t) as [[v|x] s1| |] end; cbn; auto.
    - unfold action. destruct (d_check D input) as [inp|x]; [|exact Logic.I]. cbn zeta.
      assert (Fp : free (prepare E D s)) by (apply (free_save (start E D RAction s)); exact F).
      specialize (X [action_frame D inp (prepare E D s)] _ (prepare E D s) eq_refl Fp).
      destruct (in_root _ _ _) as [[v|x] s1| |]; auto. unfold finish. destruct (d_method D); exact X.
    - unfold merge. rewrite M. exact Logic.I.
    - unfold bind at 1, end_. destruct (d_end D) as [|e es] eqn:B; [exact F|].
      unfold bind. match goal with |- context [in_root ?f ?m ?t] => specialize (X f _ t eq_refl F); destruct (in_root f m t) as [[v|x] s1| |] end; cbn; auto.
  Qed.
  Lemma load_free : free (load D).
  Proof. split; cbn [load s_cells s_pools]; intros k x I; apply in_map_iff in I; destruct I as ([j y] & Ey & I); injection Ey as <- <-; cbn; auto. Qed.
End Accepted.
(** After any history of successful calls, no call of an accepted document waits for a lock (every lock is free again). *)
Theorem C37_accepted_partial : forall E D n cs rs s cl,
  u_names (e_fcns E) -> d_merge D = None -> stopping E -> Forall (seen E) (doc_top (e_fcns E) D) -> check_for_deadlock (e_fcns E) D = true ->
  history E D n cs (load D) = Some (rs, s) -> Forall (fun r => exists v, r = Ok v) rs ->
  free s /\ do_call E D n cl s <> Blocked.
Proof.
  intros E D n cs rs s cl U M St S C H R.
  assert (L : forall c s0, free s0 -> match do_call E D n c s0 with Done (Ok _) s' => free s' | Blocked => False | _ => True end) by (intros; now apply call_live).
  assert (F : free s).
  { pose proof (load_free D) as F0. revert F0 rs s H R. generalize (load D). induction cs as [|c cs IH]; intros s0 F0 rs s H R; cbn [history] in H; [now injection H as <- <-|].
    pose proof (L c s0 F0) as L1. destruct (do_call E D n c s0) as [r s1| |]; try discriminate. destruct (history E D n cs s1) as [[rs' s2]|] eqn:H2; [|discriminate]. injection H as <- <-.
    inversion R as [|? ? [v ->] R']; subst. exact (IH s1 L1 rs' s2 H2 R'). }
  split; [exact F|]. specialize (L cl s F). destruct (do_call E D n cl s); congruence || contradiction.
Qed.

(** ** Examples *)
Definition update_b (f : string) : bool := (String.eqb f "cell-to" || String.eqb f "pool-to")%bool.
Lemma update_b_ok f : update_b f = false -> ~ is_update f.
Proof. unfold update_b. intros H [-> | ->]; discriminate. Qed.
Definition proper_b (e : expr) : bool :=
  forallb (fun m => match m with NE (ECall f _) | NA (ARef f) | NA (AFill f _) => negb (update_b f) | _ => true end) (collect e).
Definition plain_b (g : call_graph) (e : expr) : bool :=
  forallb (fun m =>
    match m with
    | NE (ECellTo _ _ to) | NE (EPoolTo _ _ to _) =>
        match to with
        | AFill _ fills => forallb (fun p => match names_in (NA (snd p)) with [] => true | _ => false end) fills
        | AFcn _ body => forallb (fun k => match k with NE (ECallUser _ _ _) | NA (ARef _) | NA (AFill _ _) => false | _ => true end) (flat collect body)
        | _ => true
        end
    | NE (ETry es _) => forallb (fun e => forallb (fun f => negb (update_b f) && quiet_name g f)%bool (names_in (NE e))) es
    | _ => true
    end) (collect e).
Definition seen_b (g : call_graph) (e : expr) : bool := (literal_names e && forgets_nothing e && proper_b e && plain_b g e)%bool.
Lemma seen_b_ok E D : u_names (e_fcns E) -> forallb (seen_b (graph_of (e_fcns E) D)) (doc_top (e_fcns E) D) = true -> Forall (seen E) (doc_top (e_fcns E) D).
Proof.
  intros U H. rewrite forallb_forall in H.
  assert (N : Forall (fun e => nothing_forgotten (NE e)) (doc_top (e_fcns E) D)).
  { apply Forall_forall. intros e I. specialize (H e I). apply Bool.andb_true_iff in H. destruct H as [H _]. apply Bool.andb_true_iff in H. destruct H as [H _]. apply Bool.andb_true_iff in H. destruct H as [_ H]. now apply forgets_nothing_ok. }
  apply Forall_forall. intros e I. specialize (H e I). apply Bool.andb_true_iff in H. destruct H as [H H4]. apply Bool.andb_true_iff in H. destruct H as [H H3]. apply Bool.andb_true_iff in H. destruct H as [H1 H2].
  split; [now apply literal_names_ok|now apply forgets_nothing_ok| |].
  - intros m K. unfold plain_b in H4. rewrite forallb_forall in H4. destruct m as [q|a]; [|exact Logic.I]. specialize (H4 _ (collect_inside (NE e) (NE q) K Logic.I)).
    assert (T : forall to, match to with
        | AFill _ fills => forallb (fun p => match names_in (NA (snd p)) with [] => true | _ => false end) fills
        | AFcn _ body => forallb (fun k => match k with NE (ECallUser _ _ _) | NA (ARef _) | NA (AFill _ _) => false | _ => true end) (flat collect body)
        | _ => true
        end = true -> match to with
      | AFill _ fills => forall p c, In p fills -> ~ mentions (NA (snd p)) c
      | AFcn _ body => forall e k, In e body -> inside (NE e) k -> match k with NE (ECallUser _ _ _) | NA (ARef _) | NA (AFill _ _) => False | _ => True end
      | _ => True
      end).
    { intros to T. destruct to as [|ps body|f|f fills]; auto; rewrite forallb_forall in T.
      - intros b k Ib Ik. destruct k as [[]|[]]; try exact Logic.I; (specialize (T _ (in_flat collect body b _ Ib (collect_inside (NE b) _ Ik Logic.I))); discriminate).
      - intros p c Ip Mp. specialize (T p Ip). apply mentions_names in Mp. destruct (names_in (NA (snd p))); [contradiction|discriminate]. }
    destruct q; try exact Logic.I; try (now apply T).
    intros b Ib. rewrite forallb_forall in H4. specialize (H4 b Ib). rewrite forallb_forall in H4. apply (quiet_by E D U N). intros f Mf. apply mentions_names in Mf. specialize (H4 f Mf).
    apply Bool.andb_true_iff in H4. destruct H4 as [A B]. split; [apply update_b_ok; now destruct (update_b f)|now apply quiet_name_ok].
  - intros m K. unfold proper_b in H3. rewrite forallb_forall in H3. destruct m as [[]|[]]; try exact Logic.I; (specialize (H3 _ (collect_inside (NE e) _ K Logic.I)); apply update_b_ok; cbn in H3; now apply Bool.negb_true_iff in H3).
Qed.
Lemma demo_stopping fcns time : stopping (demo_env fcns time).
Proof.
  split.
  - intros f g avs H. cbn [demo_env e_lib] in H. unfold demo_lib in H.
    destruct (String.eqb f "+"); [injection H as <-; destruct avs as [|[[]|] [|[[]|] [|]]]; exact I|].
    destruct (String.eqb f "<"); [injection H as <-; destruct avs as [|[[]|] [|[[]|] [|]]]; exact I|].
    destruct (String.eqb f "apply"); [injection H as <-|destruct (String.eqb f "&&"); discriminate].
    destruct avs as [|[v|a] [|[w|b] [|]]]; cbn; auto. split; [eauto|auto].
  - intros f p H. cbn [demo_env e_lib] in H. unfold demo_lib in H.
    destruct (String.eqb f "+"); [discriminate|]. destruct (String.eqb f "<"); [discriminate|]. destruct (String.eqb f "apply"); [discriminate|].
    destruct (String.eqb f "&&"); [|discriminate]. injection H as <-. cbn. split; [eauto|]. intros v. destruct v as [|[]| | | | | |]; cbn; auto. split; [eauto|auto].
  - intros f avs. exact I.
Qed.
(** a shared cell and a shared pool *)
Definition shared_doc (body : list expr) (merge : option (list expr)) : doc := {|
  d_method := MFold; d_begin := []; d_action := body; d_end := []; d_merge := merge; d_zero := VInt 0;
  d_cells := [("k", CellDecl (VInt 1) true false)]; d_pools := [("p", PoolDecl [("a", VInt 1)] true false)];
  d_name := VStr "demo"; d_instance := VInt 0; d_metadata := VDict []; d_version := None;
  d_check := fun v => match v with VInt _ => Ok v | _ => Raise AvroErr end; d_options := no_limit |}.
Definition lock_env : env := demo_env
  [("u.inc", (["x"], [add (ERef "x") (int 1)])); ("u.add", (["x"; "y"], [add (ERef "x") (ERef "y")]));
   ("u.upd", (["x"], [ECellTo "k" [] (ARef "u.inc"); ERef "x"]));
   ("u.hide", (["x"], [EAttrGet (ENewObj [("a", ECall "u.upd" [AExpr (ERef "x")])]) [str "a"]]))] (fun _ => 0).
Definition lock_env' : env := demo_env
  [("u.inc", (["x"], [add (ERef "x") (int 1)])); ("u.add", (["x"; "y"], [add (ERef "x") (ERef "y")]));
   ("u.upd", (["x"], [ECellTo "k" [] (ARef "u.inc"); ERef "x"]))] (fun _ => 0).
Definition live_doc : doc := shared_doc
  [ECall "apply" [ARef "u.upd"; AExpr (ERef "input")];
   ECellTo "k" [] (AFcn ["x"] [ECall "u.inc" [AExpr (add (ERef "x") (ECellGet "k" []))]]);
   EPoolTo "p" [str "b"] (AFill "u.add" [("y", AExpr (ERef "input"))]) (int 0);
   ETry [ECall "u.inc" [AExpr (str "no")]] None;
   ECellTo "k" [] (AExpr (ECellTo "k" [] (ARef "u.inc")))] None.
Example C37_example :
  u_names (e_fcns lock_env') /\ d_merge live_doc = None /\ stopping lock_env' /\ Forall (seen lock_env') (doc_top (e_fcns lock_env') live_doc)
  /\ check_for_deadlock (e_fcns lock_env') live_doc = true /\ accepted lock_env' demo_arity live_doc
  /\ exists s, history lock_env' live_doc 30 [CAction (VInt 3); CAction (VInt 4)] (load live_doc) = Some ([Ok (VInt 6); Ok (VInt 16)], s).
Proof.
  assert (U : u_names (e_fcns lock_env')) by (intros f I; repeat (destruct I as [<-|I]; [eexists; reflexivity|]); contradiction).
  split; [exact U|]. split; [reflexivity|]. split; [apply demo_stopping|]. split; [apply seen_b_ok; [exact U|reflexivity]|]. split; [reflexivity|]. split; [reflexivity|]. eexists. vm_compute. reflexivity.
Qed.
(** the check refuses a function that updates through others, and an inline update *)
Example C37_refuses :
  check_for_deadlock (e_fcns lock_env) (shared_doc [ECellTo "k" [] (ARef "u.upd")] None) = false
  /\ check_for_deadlock (e_fcns lock_env) (shared_doc [EIf (ERef "input") [EPoolTo "p" [str "a"] (AFcn ["x"] [ECall "u.upd" [AExpr (ERef "x")]]) (int 0)] None] None) = false.
Proof. split; reflexivity. Qed.

(** Documents that pass the check, and the scoping rules, and wait forever for a lock they hold: *)
Definition deadlocks : list (doc * call) :=
  [ (* the update function passes a function with side effects to a library function *)
    (shared_doc [ECellTo "k" [] (AFcn ["x"] [ECall "apply" [ARef "u.upd"; AExpr (ERef "x")]])] None, CAction (VInt 1));
    (* it uses "call" *)
    (shared_doc [ECellTo "k" [] (AFcn ["x"] [ECallUser (str "upd") ["upd"] [ERef "x"]])] None, CAction (VInt 1));
    (* it is a reference with a fill that updates the cell *)
    (shared_doc [ECellTo "k" [] (AFill "u.add" [("y", AExpr (ECellTo "k" [] (AExpr (int 5))))])] None, CAction (VInt 1));
    (* its call is hidden from the call graph in an "attr" expression *)
    (shared_doc [ECellTo "k" [] (ARef "u.hide")] None, CAction (VInt 1));
    (* it occurs in the merge section *)
    (shared_doc [ERef "input"] (Some [ECellTo "k" [] (ARef "u.upd")]), CMerge (VInt 1) (VInt 2));
    (* a failed update is caught, and its lock never released *)
    (shared_doc [ETry [ECellTo "k" [] (AFcn ["x"] [EError "failed" None])] None; ECellTo "k" [] (AExpr (int 1))] None, CAction (VInt 1)) ].
Theorem C37_refuted : Forall (fun w => accepted lock_env demo_arity (fst w) /\ check_for_deadlock (e_fcns lock_env) (fst w) = true
  /\ do_call lock_env (fst w) 30 (snd w) (load (fst w)) = Blocked) deadlocks.
Proof. unfold deadlocks. repeat (apply Forall_cons; [repeat split|]); try apply Forall_nil; vm_compute; reflexivity. Qed.
Print Assumptions C37_check.
Print Assumptions C37_accepted_partial.
Print Assumptions C37_refuted.
