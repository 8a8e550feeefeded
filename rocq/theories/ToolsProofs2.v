(** Lemmas for C92, continued: copies, the order of a search, indexes. *)
From Coq Require Import Permutation Sorting.Sorted.
From Verif Require Import Base PyNum ScopeModel MapModel MapSpec MapProofs ToolsModel ToolsSpec ToolsProofs.
Open Scope string_scope.
Open Scope list_scope.
Open Scope Z_scope.

(** *** What a match holds *)
Definition copies (q : pat) : Prop := forall h m, tree h -> getmatch q h = Ok (Some m) -> copy h (m_orig m).
Lemma entries_copy d e : Forall (fun kq => copies (snd kq)) d -> NoDup (map fst e) -> Forall (fun kx => tree (snd kx)) e ->
  forall out o m, m_orig out = VDict o -> (forall k y, In (k, y) o -> k <> "@" /\ exists x, In (k, x) e /\ copy x y) ->
  g_entries d e out = Ok (Some m) ->
  exists o', m_orig m = VDict o' /\ (forall k, In k (map fst o') <-> In k (map fst o) \/ (k <> "@" /\ In k (map fst d))) /\
    (forall k y, In (k, y) o' -> k <> "@" /\ exists x, In (k, x) e /\ copy x y).
Proof.
  intros F N T. induction F as [|[k q] d Hq F IH]; intros out o m Eo Ho; cbn [g_entries].
  - intros [= <-]. exists o. split; [exact Eo|]. split; [|exact Ho]. intros k. cbn. tauto.
  - destruct (String.eqb_spec k "@") as [->|Ne].
    + intros H. destruct (IH _ _ _ Eo Ho H) as (o' & E' & K' & H'). exists o'. split; [exact E'|]. split; [|exact H'].
      intros k. rewrite K'. cbn. intuition congruence.
    + destruct (assoc k e) as [x|] eqn:Ex; [|discriminate]. destruct (getmatch q x) as [[m0|]|] eqn:G; try discriminate. cbn [rbind].
      apply assoc_some_in in Ex. assert (Tx : tree x) by (rewrite Forall_forall in T; apply (T (k, x)); exact Ex).
      pose proof (Hq x m0 Tx G) as Hc. intros H. destruct (IH (add_key k m0 out) (dict_set k (m_orig m0) o) m) as (o' & E' & K' & H'); [| |exact H|].
      * unfold add_key. cbn. now rewrite Eo.
      * intros j y Hy. destruct (set_in _ _ _ _ _ Hy) as [[-> ->]|Hj]; [|auto]. split; [exact Ne|]. exists x. auto.
      * exists o'. split; [exact E'|]. split; [|exact H']. intros j. rewrite K', set_keys. cbn. intuition congruence.
Qed.
Lemma items_copy l : Forall copies l -> forall w out o m, Forall tree w -> length w = length l -> m_orig out = VArr o ->
  g_items l w out = Ok (Some m) -> exists o', m_orig m = VArr (o ++ o') /\ Forall2 copy w o'.
Proof.
  induction 1 as [|q l Hq F IH]; intros [|x w] out o m T L Eo; try discriminate; cbn [g_items].
  - intros [= <-]. exists []. rewrite app_nil_r. auto.
  - inversion T; subst. destruct (getmatch q x) as [[m0|]|] eqn:G; try discriminate. cbn [rbind]. intros H.
    destruct (IH w (add_item m0 out) (o ++ [m_orig m0]) m H2 ltac:(now injection L)) as (o' & E' & F'); [unfold add_item; cbn; now rewrite Eo|exact H|].
    exists (m_orig m0 :: o'). rewrite <- app_assoc in E'. split; [exact E'|]. constructor; [eapply Hq; eauto|exact F'].
Qed.
Lemma copy_refl_all l : Forall2 copy l l.
Proof. induction l; constructor; [constructor|assumption]. Qed.
Lemma found_copy b h m : found b h = Ok (Some m) -> m = whole h.
Proof. unfold found. destruct b; intros [= <-]; reflexivity. Qed.
Lemma getmatch_copies p : copies p.
Proof.
  induction p as [d F|l F|n q IH|d F|l F|l F|l F|l F|p Hp] using pat_ind'; intros h m T.
  - rewrite getmatch_dict. destruct h as [| | | | | | |e]; try discriminate. apply tree_dict in T. destruct T as [N T].
    destruct (_ && _)%bool eqn:Ks; [|discriminate]. apply Bool.andb_true_iff in Ks. destruct Ks as [K1 K2].
    pose proof (proj1 (missing_spec _ _) K1) as K3. pose proof (proj1 (missing_spec _ _) K2) as K4. intros H.
    destruct (entries_copy d e F N T (Mt (VDict []) (VDict []) []) [] m eq_refl ltac:(intros ? ? []) H) as (o & -> & Ho & Hy).
    apply copy_dict.
    + intros k Nk. rewrite Ho. cbn. split; [intros Hk; right; split; auto|]. intros [[]|[_ Hk]]. auto.
    + rewrite Ho. cbn. intuition congruence.
    + intros k x y Nk Hx Hk. destruct (Hy k y Hk) as (_ & x' & Hx' & C). apply (in_assoc _ _ _ N) in Hx, Hx'. congruence.
  - rewrite getmatch_list. destruct h as [| | | | | |w|]; try discriminate. apply tree_arr in T.
    destruct (Nat.eqb_spec (length l) (length w)) as [L|L]; [|discriminate]. intros H.
    destruct (items_copy l F w (Mt (VArr []) (VArr []) []) [] m T (eq_sym L) eq_refl H) as (o & -> & C). now apply copy_arr.
  - cbn [getmatch]. destruct (is_matcher q); [|discriminate]. destruct (getmatch q h) as [[m0|]|] eqn:G; try discriminate. cbn [rbind].
    intros [= <-]. cbn. eapply IH; eauto.
  - rewrite getmatch_min. destruct h as [| | | | | | |e]; try discriminate. apply tree_dict in T. destruct T as [N T].
    destruct (no_key_missing d e) eqn:Ks; [|discriminate]. pose proof (proj1 (missing_spec _ _) Ks) as K3. intros H.
    destruct (entries_copy d e F N T (Mt (VDict (unmarked e)) (VDict (unmarked e)) []) (unmarked e) m eq_refl) with (2 := H) as (o & -> & Ho & Hy).
    { intros k y Hy. apply unmarked_in in Hy. destruct Hy as [Hy Nk]. split; [exact Nk|]. exists y. split; [exact Hy|constructor]. }
    assert (U : forall k, In k (map fst (unmarked e)) <-> In k (map fst e) /\ k <> "@").
    { intros k. rewrite !in_map_fst. split; [intros (x & Hx); apply unmarked_in in Hx; destruct Hx; eauto|]. intros [(x & Hx) Nk]. exists x. now apply unmarked_in. }
    apply copy_dict.
    + intros k Nk. rewrite Ho, U. split; [auto|]. intros [[Hk _]|[_ Hk]]; auto.
    + rewrite Ho, U. intuition congruence.
    + intros k x y Nk Hx Hk. destruct (Hy k y Hk) as (_ & x' & Hx' & C). apply (in_assoc _ _ _ N) in Hx, Hx'. congruence.
  - change (getmatch (PStart l) h) with
      (match h with
       | VArr w => if (length w <? length l)%nat then Ok None
          else r <- g_items l w (Mt (VArr []) (VArr []) []) ;;
               Ok (match r with
                   | Some m => let rest := skipn (length l) w in
                               Some (Mt (VArr (list_of (m_orig m) ++ rest)) (VArr (list_of (m_mod m) ++ rest)) (m_groups m))
                   | None => None
                   end)
       | _ => Ok None end).
    destruct h as [| | | | | |w|]; try discriminate. apply tree_arr in T. destruct (Nat.ltb_spec (length w) (length l)) as [L|L]; [discriminate|].
    assert (Lf : length (firstn (length l) w) = length l) by (apply firstn_length_le; exact L).
    pose proof (firstn_skipn (length l) w) as Ew. rewrite <- Ew at 1. rewrite (items_skip l _ _ _ Lf).
    rewrite <- Ew in T. apply Forall_app in T. destruct T as [T _].
    destruct (g_items l (firstn (length l) w) _) as [[m0|]|] eqn:G; try discriminate. cbn [rbind]. intros [= <-].
    destruct (items_copy l F _ (Mt (VArr []) (VArr []) []) [] m0 T Lf eq_refl G) as (o & E & C). cbn [m_orig]. rewrite E. cbn [list_of app].
    apply copy_arr. rewrite <- Ew at 1. apply Forall2_app; [exact C|apply copy_refl_all].
  - change (getmatch (PEnd l) h) with
      (match h with
       | VArr w => if (length w <? length l)%nat then Ok None
          else let k := (length w - length l)%nat in
               r <- g_items l (skipn k w) (Mt (VArr []) (VArr []) []) ;;
               Ok (match r with
                   | Some m => Some (Mt (VArr (firstn k w ++ list_of (m_orig m))) (VArr (firstn k w ++ list_of (m_mod m))) (m_groups m))
                   | None => None
                   end)
       | _ => Ok None end).
    destruct h as [| | | | | |w|]; try discriminate. apply tree_arr in T. destruct (Nat.ltb_spec (length w) (length l)) as [L|L]; [discriminate|].
    cbv zeta. remember (length w - length l)%nat as k eqn:Ek. assert (Lf : length (skipn k w) = length l) by (rewrite skipn_length; lia).
    pose proof (firstn_skipn k w) as Ew. rewrite <- Ew in T. apply Forall_app_r in T.
    destruct (g_items l (skipn k w) _) as [[m0|]|] eqn:G; try discriminate. cbn [rbind]. intros [= <-].
    destruct (items_copy l F _ (Mt (VArr []) (VArr []) []) [] m0 T Lf eq_refl G) as (o & E & C). cbn [m_orig]. rewrite E. cbn [list_of app].
    apply copy_arr. rewrite <- Ew at 1. apply Forall2_app; [apply copy_refl_all|exact C].
  - rewrite getmatch_or. induction F as [|q l Hq F IH]; cbn [g_some]; [discriminate|].
    destruct (getmatch q h) as [[m0|]|] eqn:G; try discriminate; cbn [rbind]; [intros [= <-]; eapply Hq; eauto|exact IH].
  - rewrite getmatch_and. assert (A : forall last, (forall m0, last = Some m0 -> copy h (m_orig m0)) -> g_every h l last = Ok (Some m) -> copy h (m_orig m)).
    { induction F as [|q l Hq F IH]; intros last Hl; cbn [g_every]; [intros [= ->]; auto|].
      destruct (getmatch q h) as [[m0|]|] eqn:G; try discriminate; cbn [rbind]. apply IH. intros m1 [= <-]. eapply Hq; eauto. }
    apply A. discriminate.
  - destruct p; try (now destruct Hp); cbn [getmatch]; try (intros H; apply found_copy in H; subst m; constructor).
    + destruct (as_num h); [|discriminate]. destruct (py_sub n central); [|discriminate]. cbn [rbind]. intros H. apply found_copy in H. subst m. constructor.
    + destruct h; try discriminate. destruct (matched s); [|discriminate]. intros [= <-]. constructor.
Qed.

Definition kept (q : pat) : Prop := keeps_text q -> forall h m, getmatch q h = Ok (Some m) -> m_mod m = m_orig m.
Lemma entries_kept d e : Forall (fun kq => kept (snd kq)) d -> Forall (fun kq => keeps_text (snd kq)) d ->
  forall out m, m_mod out = m_orig out -> g_entries d e out = Ok (Some m) -> m_mod m = m_orig m.
Proof.
  induction 1 as [|[k q] d Hq F IH]; intros Kt out m Eo; cbn [g_entries]; [now intros [= <-]|]. inversion Kt; subst.
  destruct (String.eqb k "@"); [now apply IH|]. destruct (assoc k e) as [x|]; [|discriminate].
  destruct (getmatch q x) as [[m0|]|] eqn:G; try discriminate. cbn [rbind]. apply IH; [assumption|]. unfold add_key. cbn.
  now rewrite (Hq H1 x m0 G), Eo.
Qed.
Lemma items_kept l : Forall kept l -> Forall keeps_text l -> forall w out m, m_mod out = m_orig out -> g_items l w out = Ok (Some m) -> m_mod m = m_orig m.
Proof.
  induction 1 as [|q l Hq F IH]; intros Kt w out m Eo; cbn [g_items]; [now intros [= <-]|]. inversion Kt; subst.
  destruct w as [|x w]; [discriminate|]. destruct (getmatch q x) as [[m0|]|] eqn:G; try discriminate. cbn [rbind]. apply IH; [assumption|].
  unfold add_item. cbn. now rewrite (Hq H1 x m0 G), Eo.
Qed.
Lemma all_fst (P : pat -> Prop) (d : list (string * pat)) :
  (fix all (d : list (string * pat)) : Prop := match d with [] => True | kq :: d' => P (snd kq) /\ all d' end) d -> Forall (fun kq => P (snd kq)) d.
Proof. induction d as [|kq d IH]; constructor; [apply H|apply IH, H]. Qed.
Lemma all_list (P : pat -> Prop) (l : list pat) :
  (fix all (l : list pat) : Prop := match l with [] => True | q :: l' => P q /\ all l' end) l -> Forall P l.
Proof. induction l as [|q l IH]; constructor; [apply H|apply IH, H]. Qed.
Lemma getmatch_kept p : kept p.
Proof.
  induction p as [d F|l F|n q IH|d F|l F|l F|l F|l F|p Hp] using pat_ind'; intros Kt h m.
  - apply (all_fst keeps_text) in Kt. rewrite getmatch_dict. destruct h; try discriminate. destruct (_ && _)%bool; [|discriminate]. now apply entries_kept.
  - apply (all_list keeps_text) in Kt. rewrite getmatch_list. destruct h; try discriminate. destruct (Nat.eqb _ _); [|discriminate]. now apply items_kept.
  - cbn [getmatch]. destruct (is_matcher q); [|discriminate]. destruct (getmatch q h) as [[m0|]|] eqn:G; try discriminate. cbn [rbind].
    intros [= <-]. cbn. eapply IH; eauto.
  - apply (all_fst keeps_text) in Kt. rewrite getmatch_min. destruct h; try discriminate. destruct (no_key_missing _ _); [|discriminate]. now apply entries_kept.
  - apply (all_list keeps_text) in Kt. destruct h as [| | | | | |w|]; try discriminate. cbn [getmatch]. destruct (_ <? _)%nat; [discriminate|].
    fold g_items. intros H. change (r <- g_items l w (Mt (VArr []) (VArr []) []) ;;
               Ok (match r with
                   | Some m => let rest := skipn (length l) w in
                               Some (Mt (VArr (list_of (m_orig m) ++ rest)) (VArr (list_of (m_mod m) ++ rest)) (m_groups m))
                   | None => None
                   end) = Ok (Some m)) in H.
    destruct (g_items l w _) as [[m0|]|] eqn:G; try discriminate. cbn [rbind] in H. injection H as <-. cbn. now rewrite (items_kept l F Kt w (Mt (VArr []) (VArr []) []) m0 eq_refl G).
  - apply (all_list keeps_text) in Kt. destruct h as [| | | | | |w|]; try discriminate. cbn [getmatch]. destruct (_ <? _)%nat; [discriminate|]. cbv zeta.
    set (k := (length w - length l)%nat). intros H. change (r <- g_items l (skipn k w) (Mt (VArr []) (VArr []) []) ;;
               Ok (match r with
                   | Some m => Some (Mt (VArr (firstn k w ++ list_of (m_orig m))) (VArr (firstn k w ++ list_of (m_mod m))) (m_groups m))
                   | None => None
                   end) = Ok (Some m)) in H.
    destruct (g_items l _ _) as [[m0|]|] eqn:G; try discriminate. cbn [rbind] in H. injection H as <-. cbn. now rewrite (items_kept l F Kt _ (Mt (VArr []) (VArr []) []) m0 eq_refl G).
  - apply (all_list keeps_text) in Kt. rewrite getmatch_or. induction F as [|q l Hq F IH]; cbn [g_some]; [discriminate|]. inversion Kt; subst.
    destruct (getmatch q h) as [[m0|]|] eqn:G; try discriminate; cbn [rbind]; [intros [= <-]; eapply Hq; eauto|now apply IH].
  - apply (all_list keeps_text) in Kt. rewrite getmatch_and.
    assert (A : forall last, (forall m0, last = Some m0 -> m_mod m0 = m_orig m0) -> g_every h l last = Ok (Some m) -> m_mod m = m_orig m).
    { induction F as [|q l Hq F IH]; intros last Hl; cbn [g_every]; [intros [= ->]; auto|]. inversion Kt; subst.
      destruct (getmatch q h) as [[m0|]|] eqn:G; try discriminate; cbn [rbind]. apply IH; [assumption|]. intros m1 [= <-]. eapply Hq; eauto. }
    apply A. discriminate.
  - destruct p; try (now destruct Hp); cbn [getmatch]; try (intros H; apply found_copy in H; subst m; reflexivity).
    + destruct (as_num h); [|discriminate]. destruct (py_sub n central); [|discriminate]. cbn [rbind]. intros H. apply found_copy in H. now subst m.
    + destruct h; try discriminate. destruct (matched s); [|discriminate]. intros [= <-]. destruct sub; [destruct Kt|reflexivity].
Qed.
