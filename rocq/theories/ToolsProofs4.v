(** Lemmas for C92, continued: the groups of a match. *)
From Verif Require Import Base PyNum ScopeModel MapModel MapSpec MapProofs ToolsModel ToolsSpec ToolsProofs ToolsProofs2 ToolsProofs3.
Open Scope string_scope.
Open Scope list_scope.
Open Scope Z_scope.
(** a group of a match of p in h *)
Definition origin (p : pat) (h : val) (g : string) (x : val) : Prop :=
  exists q i y, within p (PGroup g q) /\ part h i y /\ matches q y /\ (keeps_text q -> copy y x).
Definition from (p : pat) : Prop := forall h m, tree h -> getmatch p h = Ok (Some m) -> forall g x, In (g, x) (m_groups m) -> origin p h g x.
Definition bound (p : pat) : Prop := forall h m, getmatch p h = Ok (Some m) -> forall g, binds p g -> In g (map fst (m_groups m)).
Lemma update_in h : forall a g x, In (g, x) (update a h) -> In (g, x) a \/ In (g, x) h.
Proof.
  induction h as [|[k y] h IH]; intros a g x H; cbn in H; [auto|]. destruct (IH _ _ _ H) as [H1|H1]; [|cbn; auto].
  destruct (set_in _ _ _ _ _ H1) as [[-> ->]|H2]; cbn; auto.
Qed.
Lemma update_keys h : forall a g, In g (map fst (update a h)) <-> In g (map fst a) \/ In g (map fst h).
Proof. induction h as [|[k y] h IH]; intros a g; cbn; [tauto|]. unfold update in IH. rewrite IH, set_keys. cbn. intuition congruence. Qed.
Lemma entries_from d e (Q : string -> val -> Prop) : Forall (fun kx => tree (snd kx)) e ->
  Forall (fun kq => from (snd kq)) d ->
  (forall k q x g y, k <> "@" -> In (k, q) d -> In (k, x) e -> origin q x g y -> Q g y) ->
  forall out m, (forall g y, In (g, y) (m_groups out) -> Q g y) -> g_entries d e out = Ok (Some m) -> forall g y, In (g, y) (m_groups m) -> Q g y.
Proof.
  intros T F. induction F as [|[k q] d Hq F IH]; intros HQ out m Ho; cbn [g_entries]; [now intros [= <-]|].
  destruct (String.eqb_spec k "@") as [->|Ne]; [apply IH; [|exact Ho]; intros; eapply HQ; eauto; now right|].
  destruct (assoc k e) as [x|] eqn:Ex; [|discriminate]. destruct (getmatch q x) as [[m0|]|] eqn:G; try discriminate. cbn [rbind].
  apply assoc_some_in in Ex. apply IH; [intros; eapply HQ; eauto; now right|]. intros g y Hy. unfold add_key in Hy. cbn in Hy. apply update_in in Hy.
  destruct Hy as [Hy|Hy]; [auto|]. eapply (HQ k q x); eauto; [now left|]. eapply Hq; eauto. rewrite Forall_forall in T. apply (T _ Ex).
Qed.
Lemma items_from l (Q : string -> val -> Prop) : Forall from l -> forall w, Forall tree w ->
  (forall q x g y, In q l -> In x w -> origin q x g y -> Q g y) ->
  forall out m, (forall g y, In (g, y) (m_groups out) -> Q g y) -> g_items l w out = Ok (Some m) -> forall g y, In (g, y) (m_groups m) -> Q g y.
Proof.
  induction 1 as [|q l Hq F IH]; intros [|x w] T HQ out m Ho; cbn [g_items]; try discriminate; try now intros [= <-].
  inversion T; subst. destruct (getmatch q x) as [[m0|]|] eqn:G; try discriminate. cbn [rbind].
  apply IH; [assumption|intros q0 x0 g0 y0 H0 H3 H4; apply (HQ q0 x0); [now right|now right|exact H4]|]. intros g y Hy. unfold add_item in Hy. cbn in Hy. apply update_in in Hy.
  destruct Hy as [Hy|Hy]; [auto|]. apply (HQ q x); [now left|now left|]. eapply Hq; eauto.
Qed.
Lemma origin_key p d q k x g y : In (k, x) d -> (forall r, within q r -> within p r) -> origin q x g y -> origin p (VDict d) g y.
Proof. intros Hk W (r & i & z & Wr & Hz & M). exists r, (K k :: i), z. split; [auto|]. split; [now apply (part_key _ _ x)|exact M]. Qed.
Lemma origin_item p l q x g y : In x l -> (forall r, within q r -> within p r) -> origin q x g y -> origin p (VArr l) g y.
Proof.
  intros Hk W (r & i & z & Wr & Hz & M). apply In_nth_error in Hk. destruct Hk as [n Hn]. exists r, (I (Z.of_nat n) :: i), z.
  split; [auto|]. split; [now apply (part_item _ _ x)|exact M].
Qed.
Lemma getmatch_from p : from p.
Proof.
  induction p as [d F|l F|n q IH|d F|l F|l F|l F|l F|p Hp] using pat_ind'; intros h m T.
  - rewrite getmatch_dict. destruct h as [| | | | | | |e]; try discriminate. apply tree_dict in T. destruct T as [N T].
    destruct (_ && _)%bool; [|discriminate]. intros H g x. apply (entries_from d e (origin (PDict d) (VDict e)) T F) with (3 := H); [|intros ? ? []].
    intros k q y g' z Nk Hq Hy. eapply origin_key; [exact Hy|]. intros r Hr. eapply in_dict; eauto.
  - rewrite getmatch_list. destruct h as [| | | | | |w|]; try discriminate. apply tree_arr in T.
    destruct (Nat.eqb _ _); [|discriminate]. intros H g x. apply (items_from l (origin (PList l) (VArr w)) F w T) with (3 := H); [|intros ? ? []].
    intros q y g' z Hq Hy. eapply origin_item; [exact Hy|]. intros r Hr. eapply in_list; eauto.
  - cbn [getmatch]. destruct (is_matcher q); [|discriminate]. destruct (getmatch q h) as [[m0|]|] eqn:G; try discriminate. cbn [rbind].
    intros [= <-]. cbn. intros g x Hg. destruct (set_in _ _ _ _ _ Hg) as [[-> ->]|H1].
    + exists q, [], h. split; [apply in_self|]. split; [constructor|]. split; [apply (getmatch_agrees q h _ G); discriminate|].
      intros Kt. rewrite (getmatch_kept q Kt h m0 G). now apply (getmatch_copies q).
    + destruct (IH h m0 T G g x H1) as (r & i & y & W & R). exists r, i, y. split; [now apply in_group|exact R].
  - rewrite getmatch_min. destruct h as [| | | | | | |e]; try discriminate. apply tree_dict in T. destruct T as [N T].
    destruct (no_key_missing d e); [|discriminate]. intros H g x. apply (entries_from d e (origin (PMin d) (VDict e)) T F) with (3 := H); [|intros ? ? []].
    intros k q y g' z Nk Hq Hy. eapply origin_key; [exact Hy|]. intros r Hr. eapply in_min; eauto.
  - destruct h as [| | | | | |w|]; try discriminate. cbn [getmatch]. destruct (_ <? _)%nat; [discriminate|]. apply tree_arr in T.
    intros H. change (r <- g_items l w (Mt (VArr []) (VArr []) []) ;;
               Ok (match r with
                   | Some m => let rest := skipn (length l) w in
                               Some (Mt (VArr (list_of (m_orig m) ++ rest)) (VArr (list_of (m_mod m) ++ rest)) (m_groups m))
                   | None => None
                   end) = Ok (Some m)) in H.
    destruct (g_items l w _) as [[m0|]|] eqn:G; try discriminate. cbn [rbind] in H. injection H as <-. cbn [m_groups]. intros g x.
    apply (items_from l (origin (PStart l) (VArr w)) F w T) with (3 := G); [|intros ? ? []].
    intros q y g' z Hq Hy. eapply origin_item; [exact Hy|]. intros r Hr. eapply in_start; eauto.
  - destruct h as [| | | | | |w|]; try discriminate. cbn [getmatch]. destruct (_ <? _)%nat; [discriminate|]. apply tree_arr in T. cbv zeta.
    set (k := (length w - length l)%nat). intros H. change (r <- g_items l (skipn k w) (Mt (VArr []) (VArr []) []) ;;
               Ok (match r with
                   | Some m => Some (Mt (VArr (firstn k w ++ list_of (m_orig m))) (VArr (firstn k w ++ list_of (m_mod m))) (m_groups m))
                   | None => None
                   end) = Ok (Some m)) in H.
    destruct (g_items l _ _) as [[m0|]|] eqn:G; try discriminate. cbn [rbind] in H. injection H as <-. cbn [m_groups]. intros g x.
    assert (Hk : forall y, In y (skipn k w) -> In y w) by (intros y Hy; rewrite <- (firstn_skipn k w); apply in_app_iff; auto).
    apply (items_from l (origin (PEnd l) (VArr w)) F (skipn k w)) with (4 := G); [|intros q y g' z Hq Hy|intros ? ? []].
    + rewrite Forall_forall in *. auto.
    + eapply origin_item; [apply Hk, Hy|]. intros r Hr. eapply in_end; eauto.
  - rewrite getmatch_or. intros H g x Hx.
    assert (A : exists q, In q l /\ origin q h g x).
    { induction F as [|q l Hq F IH]; cbn [g_some] in H; [discriminate|]. destruct (getmatch q h) as [[m0|]|] eqn:G; try discriminate; cbn [rbind] in H.
      - injection H as <-. exists q. split; [now left|]. eapply Hq; eauto.
      - destruct (IH H) as (q' & Hq' & O). exists q'. split; [now right|exact O]. }
    destruct A as (q & Hq & r & i & y & W & R). exists r, i, y. split; [eapply in_or; eauto|exact R].
  - rewrite getmatch_and. intros H g x Hx.
    assert (A : exists q, In q l /\ origin q h g x).
    { assert (B : forall last, g_every h l last = Ok (Some m) -> last = Some m \/ exists q, In q l /\ origin q h g x).
      { clear H. induction F as [|q l Hq F IH]; intros last; cbn [g_every]; [intros [= ->]; auto|].
        destruct (getmatch q h) as [[m0|]|] eqn:G; try discriminate; cbn [rbind]. intros H. right. destruct (IH _ H) as [[= ->]|(q' & Hq' & O)].
        - exists q. split; [now left|]. eapply Hq; eauto.
        - exists q'. split; [now right|exact O]. }
      destruct (B _ H) as [?|?]; [discriminate|assumption]. }
    destruct A as (q & Hq & r & i & y & W & R). exists r, i, y. split; [eapply in_and; eauto|exact R].
  - destruct p; try (now destruct Hp); cbn [getmatch]; try (intros H; apply found_copy in H; subst m; intros ? ? []).
    + destruct (as_num h); [|discriminate]. destruct (py_sub n central); [|discriminate]. cbn [rbind]. intros H. apply found_copy in H. subst m. intros ? ? [].
    + destruct h; try discriminate. destruct (matched s); [|discriminate]. intros [= <-]. intros ? ? [].
Qed.
Lemma entries_bound d e : Forall (fun kq => bound (snd kq)) d -> forall out m, g_entries d e out = Ok (Some m) ->
  forall g, (In g (map fst (m_groups out)) \/ exists k q, k <> "@" /\ In (k, q) d /\ binds q g) -> In g (map fst (m_groups m)).
Proof.
  induction 1 as [|[k q] d Hq F IH]; intros out m; cbn [g_entries].
  - intros [= <-] g [H|(? & ? & _ & [] & _)]. exact H.
  - destruct (String.eqb_spec k "@") as [->|Ne].
    + intros H g [Hg|(k' & q' & Nk & [[= <- <-]|Hi] & B)]; [eapply IH; eauto|congruence|eapply IH; eauto 6].
    + destruct (assoc k e) as [x|]; [|discriminate]. destruct (getmatch q x) as [[m0|]|] eqn:G; try discriminate. cbn [rbind]. intros H g Hg.
      eapply IH; [exact H|]. unfold add_key. cbn. rewrite update_keys. destruct Hg as [Hg|(k' & q' & Nk & [[= <- <-]|Hi] & B)]; eauto 8.
Qed.
Lemma items_bound l : Forall bound l -> forall w out m, g_items l w out = Ok (Some m) ->
  forall g, (In g (map fst (m_groups out)) \/ exists q, In q l /\ binds q g) -> In g (map fst (m_groups m)).
Proof.
  induction 1 as [|q l Hq F IH]; intros w out m; cbn [g_items].
  - intros [= <-] g [H|(? & [] & _)]. exact H.
  - destruct w as [|x w]; [discriminate|]. destruct (getmatch q x) as [[m0|]|] eqn:G; try discriminate. cbn [rbind]. intros H g Hg.
    eapply IH; [exact H|]. unfold add_item. cbn. rewrite update_keys. destruct Hg as [Hg|(q' & [<-|Hi] & B)]; eauto.
Qed.
Lemma getmatch_bound p : bound p.
Proof.
  induction p as [d F|l F|n q IH|d F|l F|l F|l F|l F|p Hp] using pat_ind'; intros h m.
  - rewrite getmatch_dict. destruct h; try discriminate. destruct (_ && _)%bool; [|discriminate]. intros H g B. inversion B; subst.
    eapply entries_bound; eauto 8.
  - rewrite getmatch_list. destruct h; try discriminate. destruct (Nat.eqb _ _); [|discriminate]. intros H g B. inversion B; subst. eapply items_bound; eauto.
  - cbn [getmatch]. destruct (is_matcher q); [|discriminate]. destruct (getmatch q h) as [[m0|]|] eqn:G; try discriminate. cbn [rbind].
    intros [= <-]. cbn. intros g B. rewrite set_keys. inversion B; subst; [auto|]. right. eapply IH; eauto.
  - rewrite getmatch_min. destruct h; try discriminate. destruct (no_key_missing _ _); [|discriminate]. intros H g B. inversion B; subst.
    eapply entries_bound; eauto 8.
  - destruct h as [| | | | | |w|]; try discriminate. cbn [getmatch]. destruct (_ <? _)%nat; [discriminate|].
    intros H. change (r <- g_items l w (Mt (VArr []) (VArr []) []) ;;
               Ok (match r with
                   | Some m => let rest := skipn (length l) w in
                               Some (Mt (VArr (list_of (m_orig m) ++ rest)) (VArr (list_of (m_mod m) ++ rest)) (m_groups m))
                   | None => None
                   end) = Ok (Some m)) in H.
    destruct (g_items l w _) as [[m0|]|] eqn:G; try discriminate. cbn [rbind] in H. injection H as <-. cbn [m_groups]. intros g B. inversion B; subst.
    eapply items_bound; eauto.
  - destruct h as [| | | | | |w|]; try discriminate. cbn [getmatch]. destruct (_ <? _)%nat; [discriminate|]. cbv zeta.
    set (k := (length w - length l)%nat). intros H. change (r <- g_items l (skipn k w) (Mt (VArr []) (VArr []) []) ;;
               Ok (match r with
                   | Some m => Some (Mt (VArr (firstn k w ++ list_of (m_orig m))) (VArr (firstn k w ++ list_of (m_mod m))) (m_groups m))
                   | None => None
                   end) = Ok (Some m)) in H.
    destruct (g_items l _ _) as [[m0|]|] eqn:G; try discriminate. cbn [rbind] in H. injection H as <-. cbn [m_groups]. intros g B. inversion B; subst.
    eapply items_bound; eauto.
  - rewrite getmatch_or. intros H g B. inversion B as [| | | | | | |l' g' _ Hall|]; subst. clear B.
    induction F as [|q l Hq F IH]; cbn [g_some] in H; [discriminate|]. destruct (getmatch q h) as [[m0|]|] eqn:G; try discriminate; cbn [rbind] in H.
    + injection H as <-. eapply Hq; eauto. apply Hall. now left.
    + apply IH; [exact H|]. intros q' Hq'. apply Hall. now right.
  - rewrite getmatch_and. intros H g B. inversion B as [| | | | | | | |l' q g' Bq]; subst. clear B. apply Forall_app in F. destruct F as [_ F]. inversion F as [|? ? Hq _]; subst. clear F.
    revert H. generalize (@None mt). induction l' as [|r l' IH]; intros last; cbn [app g_every].
    + destruct (getmatch q h) as [[m0|]|] eqn:G; try discriminate; cbn [rbind g_every]. intros [= ->]. eapply Hq; eauto.
    + destruct (getmatch r h) as [[m0|]|] eqn:G; try discriminate; cbn [rbind]. apply IH.
  - intros _ g B. destruct p; try (now destruct Hp); inversion B.
Qed.
