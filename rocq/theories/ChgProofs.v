(** Lemmas for C103: how the document changes while it is searched. *)
From Coq Require Import Permutation.
From Verif Require Import Base PyNum ScopeModel ToolsModel ToolsSpec ToolsProofs ToolsProofs2 ToolsProofs3 InspModel InspSpec InspProofs ChgModel ChgSpec.
Open Scope string_scope.
Open Scope list_scope.
Open Scope Z_scope.

Section Generic.
  Variable body : path -> val * mode -> res (val * mode).
  Variable Inv : mode -> Prop.
  Variable R : val -> val -> Prop.
  Hypothesis B : forall root a x m root' m', reach root a x -> a <> [] -> Inv m -> body a (root, m) = Ok (root', m') -> exists y, R x y /\ root' = write root a y /\ Inv m'.
  Definition arr_through (a : path) : list val -> Z -> list (val * mode -> res (val * mode)) :=
    fix go (l : list val) (i : Z) := match l with [] => [] | x :: l' => through body x (a ++ [I i]) :: go l' (i + 1) end.
  Lemma through_dict d a s : through body (VDict d) a s = (t <- runs (map snd (by_key (map (fun kv => (fst kv, through body (snd kv) (a ++ [K (fst kv)]))) d))) s ;; body a t).
  Proof using Type. reflexivity. Qed.
  Lemma through_arr l a s : through body (VArr l) a s = (t <- runs (arr_through a l 0) s ;; body a t).
  Proof using Type. reflexivity. Qed.
  Definition goes (v : val) : Prop := forall root a m root' m', reach root a v -> a <> [] -> Inv m -> through body v a (root, m) = Ok (root', m') ->
    exists w, upward R v w /\ root' = write root a w /\ Inv m'.
  Definition some_done (done : list string) (d e : list (string * val)) : Prop :=
    Forall2 (fun kx ky => fst kx = fst ky /\ (In (fst kx) done -> upward R (snd kx) (snd ky)) /\ (~ In (fst kx) done -> snd ky = snd kx)) d e.
  Lemma done_assoc done d e k x : NoDup (map fst d) -> some_done done d e -> ~ In k done -> In (k, x) d -> assoc k e = Some x.
  Proof using Type.
    intros N H Nk. revert N. induction H as [|[j y] [j' z] d e (Ej & _ & H2) H IH]; cbn in *; intros N; [intros []|]. subst j'. inversion N; subst.
    intros [[= -> ->]|Hk]; [rewrite String.eqb_refl; now rewrite H2|]. destruct (String.eqb_spec k j) as [->|Ne]; [|auto].
    exfalso. apply H3. apply in_map_fst. eauto.
  Qed.
  Lemma done_more done d e k : ~ In k (map fst d) -> some_done done d e -> some_done (k :: done) d e.
  Proof using Type.
    intros N H. eapply Forall2_impl_in; [|exact H]. intros [j x] [j' y] Hj (Ej & H1 & H2). cbn in *. split; [exact Ej|].
    split; [intros [->|C]; [exfalso; apply N, in_map_fst; eauto|auto]|]. intros C. apply H2. tauto.
  Qed.
  Lemma done_set done d e k x w : NoDup (map fst d) -> some_done done d e -> ~ In k done -> In (k, x) d -> upward R x w -> some_done (k :: done) d (dict_set k w e).
  Proof using Type.
    intros N H Nk. revert N. induction H as [|[j y] [j' z] d e (Ej & H1 & H2) H IH]; cbn in *; intros N; [intros []|]. subst j'. inversion N as [|? ? N1 N2]; subst.
    intros [[= -> ->]|Hk] U.
    - rewrite String.eqb_refl. constructor; cbn.
      + split; [reflexivity|]. split; [auto|]. intros C. exfalso. apply C. now left.
      + now apply done_more.
    - destruct (String.eqb_spec k j) as [->|Ne]; [exfalso; apply N1; apply in_map_fst; eauto|]. constructor; cbn.
      + split; [reflexivity|]. split; [intros [->|Hj]; [congruence|auto]|]. intros C. apply H2. tauto.
      + now apply IH.
  Qed.
  Lemma runs_dict d a root : NoDup (map fst d) -> Forall (fun kx => goes (snd kx)) d -> reach root a (VDict d) ->
    forall l done e m s', some_done done d e -> NoDup (map fst l) -> (forall k g, In (k, g) l -> ~ In k done /\ exists x, In (k, x) d /\ g = through body x (a ++ [K k])) -> Inv m ->
    runs (map snd l) (write root a (VDict e), m) = Ok s' ->
    exists e' m', s' = (write root a (VDict e'), m') /\ Inv m' /\ forall done', (forall k, In k done' <-> In k done \/ In k (map fst l)) -> some_done done' d e'.
  Proof using Type.
    intros Nd F Rr. rewrite Forall_forall in F. induction l as [|[k g] l IH]; intros done e m s' He Nl Hl Hm E.
    - injection E as <-. exists e, m. split; [reflexivity|]. split; [exact Hm|]. intros done' E. eapply Forall2_impl_in; [|exact He]. intros [j x] [j' y] _ (Ej & H1 & H2). cbn in *. split; [exact Ej|].
      split; intros H; [apply H1; apply E in H; tauto|apply H2; intros C; apply H, E; auto].
    - inversion Nl; subst. destruct (Hl k g (or_introl eq_refl)) as (Nk & x & Hx & ->). cbn [map snd runs] in E.
      pose proof (done_assoc _ _ _ _ _ Nd He Nk Hx) as Ex.
      assert (R0 : reach (write root a (VDict e)) (a ++ [K k]) x).
      { eapply reach_app; [eapply reach_write; eassumption|]. econstructor; [exact Ex|constructor]. }
      destruct (through body x (a ++ [K k]) (write root a (VDict e), m)) as [[root1 m1]|] eqn:E1; cbn [rbind] in E; [|discriminate].
      destruct (F (k, x) Hx _ _ _ _ _ R0 ltac:(destruct a; discriminate) Hm E1) as (w & Hw & -> & Hm1). cbn [snd] in Hw.
      rewrite (write_app _ _ _ _ _ (reach_write _ _ _ (VDict e) Rr)), (write_write _ _ _ _ _ Rr), (write_key _ _ _ _ _ Ex) in E. cbn [write] in E.
      destruct (IH (k :: done) (dict_set k w e) m1 s') as (e' & m' & E' & Hm' & P').
      + eapply done_set; eauto.
      + assumption.
      + intros j g Hj. destruct (Hl j g (or_intror Hj)) as (Nj & y & Hy & Eg). split; [|eauto]. intros [->|C]; [|auto]. apply H1. apply in_map_fst. eauto.
      + exact Hm1.
      + exact E.
      + exists e', m'. split; [exact E'|]. split; [exact Hm'|]. intros done' Ed. apply P'. intros j. rewrite Ed. cbn. tauto.
  Qed.
  Lemma runs_arr a root l0 : reach root a (VArr l0) ->
    forall l done ws m s', Forall goes l -> Forall2 (upward R) done ws -> Inv m ->
    runs (arr_through a l (Z.of_nat (length done))) (write root a (VArr (ws ++ l)), m) = Ok s' ->
    exists n m', s' = (write root a (VArr n), m') /\ Inv m' /\ Forall2 (upward R) (done ++ l) n.
  Proof using Type.
    intros Rr. induction l as [|x l IH]; intros done ws m s' F H Hm E.
    - injection E as <-. exists ws, m. rewrite !app_nil_r. auto.
    - inversion F; subst. cbn [arr_through runs] in E. fold (arr_through a) in E. assert (L : length done = length ws) by (clear - H; induction H; cbn; congruence).
      assert (Ex : nth_error (ws ++ x :: l) (length done) = Some x) by (rewrite L, nth_error_app2, Nat.sub_diag by lia; reflexivity).
      assert (R0 : reach (write root a (VArr (ws ++ x :: l))) (a ++ [I (Z.of_nat (length done))]) x).
      { eapply reach_app; [eapply reach_write; eassumption|]. econstructor; [exact Ex|constructor]. }
      destruct (through body x (a ++ [I (Z.of_nat (length done))]) (write root a (VArr (ws ++ x :: l)), m)) as [[root1 m1]|] eqn:E1; cbn [rbind] in E; [|discriminate].
      destruct (H2 _ _ _ _ _ R0 ltac:(destruct a; discriminate) Hm E1) as (w & Hw & -> & Hm1).
      rewrite (write_app _ _ _ _ _ (reach_write _ _ _ (VArr (ws ++ x :: l)) Rr)), (write_write _ _ _ _ _ Rr), (write_item _ _ _ _ _ Ex) in E. cbn [write] in E.
      assert (Es : set_nth (length done) w (ws ++ x :: l) = (ws ++ [w]) ++ l).
      { rewrite L, <- app_assoc. clear. induction ws as [|y ws IH]; [reflexivity|]. cbn. now rewrite IH. }
      rewrite Es in E. destruct (IH (done ++ [x]) (ws ++ [w]) m1 s' H3) as (n & m' & En & Hm' & Hn); [apply Forall2_app; auto|exact Hm1| |].
      + rewrite app_length. cbn [length]. replace (Z.of_nat (length done + 1)) with (Z.of_nat (length done) + 1) by lia. exact E.
      + exists n, m'. rewrite <- app_assoc in Hn. auto.
  Qed.
  Lemma inner v : tree v -> forall root a m s', reach root a v -> Inv m -> (forall kx d, v = VDict d -> In kx d -> goes (snd kx)) -> (forall x l, v = VArr l -> In x l -> goes x) ->
    through body v a (root, m) = Ok s' -> exists w m1, within R v w /\ Inv m1 /\ body a (write root a w, m1) = Ok s'.
  Proof using Type.
    intros Tv root a m s' Rr Hm Hd Hl E. destruct v as [| | | | | |l|d];
      try (eexists _, m; split; [reflexivity|]; rewrite (write_same _ _ _ Rr); split; [exact Hm | exact E]).
    - rewrite through_arr in E. destruct (runs (arr_through a l 0) (root, m)) as [t|] eqn:E1; cbn [rbind] in E; [|discriminate].
      destruct (runs_arr a root l Rr l [] [] m t) as (n & m' & -> & Hm' & Hn); [apply Forall_forall; eauto|constructor|exact Hm|cbn [length app]; rewrite (write_same _ _ _ Rr); exact E1|].
      exists (VArr n), m'. split; [exists n; auto|]. auto.
    - rewrite through_dict in E. apply tree_dict in Tv. destruct Tv as [N _]. set (g := fun kv : string * val => (fst kv, through body (snd kv) (a ++ [K (fst kv)]))) in E.
      assert (Pm : Permutation (map fst (by_key (map g d))) (map fst d)).
      { rewrite (Permutation_map fst (by_key_perm (map g d))), map_map. reflexivity. }
      destruct (runs (map snd (by_key (map g d))) (root, m)) as [t|] eqn:E1; cbn [rbind] in E; [|discriminate].
      destruct (runs_dict d a root N) with (l := by_key (map g d)) (done := @nil string) (e := d) (m := m) (s' := t) as (e & m' & -> & Hm' & He).
      + apply Forall_forall. intros kx Hk. eapply Hd; eauto.
      + exact Rr.
      + clear. induction d as [|kx d IH]; constructor; [|exact IH]. split; [reflexivity|]. split; [intros []|reflexivity].
      + eapply Permutation_NoDup; [apply Permutation_sym, Pm|exact N].
      + intros k h Hk. split; [intros []|]. apply (Permutation_in _ (by_key_perm _)) in Hk. apply in_map_iff in Hk. destruct Hk as ([j x] & [= <- <-] & Hk). eauto.
      + exact Hm.
      + rewrite (write_same _ _ _ Rr). exact E1.
      + exists (VDict e), m'. split; [|auto]. exists e. split; [reflexivity|].
        specialize (He (map fst d)). eapply Forall2_impl_in; [|apply He].
        * intros [j x] [j' y] Hin (Ej & H1 & _). split; [exact Ej|]. apply H1. now apply (in_map fst) in Hin.
        * intros k. split; [intros Hk; right; eapply Permutation_in; [apply Permutation_sym, Pm|exact Hk]|]. intros [[]|Hk]. eapply Permutation_in; [exact Pm|exact Hk].
  Qed.
  Lemma within_upward v w y : within R v w -> R w y -> upward R v y.
  Proof using Type.
    destruct v; cbn; try (intros -> H; apply up_leaf; [discriminate | discriminate | exact H]).
    - intros (m & -> & H) Hy. eapply up_arr; eassumption.
    - intros (e & -> & H) Hy. eapply up_dict; eassumption.
  Qed.
  Lemma goes_below : forall v, tree v -> goes v.
  Proof using B.
    assert (Last : forall v root a m root' m', tree v -> reach root a v -> a <> [] -> Inv m -> (forall kx d, v = VDict d -> In kx d -> goes (snd kx)) -> (forall x l, v = VArr l -> In x l -> goes x) ->
      through body v a (root, m) = Ok (root', m') -> exists w, upward R v w /\ root' = write root a w /\ Inv m').
    { intros v root a m root' m' Tv Rr Na Hm Hd Hl E. destruct (inner v Tv root a m _ Rr Hm Hd Hl E) as (w & m1 & Hw & Hm1 & E1).
      destruct (B _ _ _ _ _ _ (reach_write _ _ _ w Rr) Na Hm1 E1) as (y & Hy & -> & Hm'). exists y. split; [eapply within_upward; eassumption|]. split; [apply (write_write _ _ _ _ _ Rr) | exact Hm']. }
    induction v as [d F|l F|v Hd Hl] using val_ind2; intros Tv root a m root' m' Rr Na Hm E.
    - rewrite Forall_forall in F. pose proof Tv as Tv'. apply tree_dict in Tv'. destruct Tv' as [_ Td]. rewrite Forall_forall in Td.
      eapply (Last (VDict d)); eauto; [intros kx d' [= <-] Hk; apply F; auto|discriminate].
    - rewrite Forall_forall in F. pose proof Tv as Tv'. apply tree_arr in Tv'. rewrite Forall_forall in Tv'.
      eapply (Last (VArr l)); eauto; [discriminate|intros x l' [= <-] Hx; apply F; auto].
    - eapply (Last v); eauto; [intros kx d -> ; now destruct (Hd d)|intros x l ->; now destruct (Hl l)].
  Qed.
  Lemma goes_root v m s' : tree v -> Inv m -> through body v [] (v, m) = Ok s' -> exists w m1, within R v w /\ Inv m1 /\ body [] (w, m1) = Ok s'.
  Proof using B.
    intros Tv Hm E. destruct (inner v Tv v [] m s' (reach_whole v) Hm) as (w & m1 & Hw & Hm1 & E1); [| |exact E|eauto].
    - intros kx d -> Hk. apply goes_below. apply tree_dict in Tv. destruct Tv as [_ Td]. rewrite Forall_forall in Td. auto.
    - intros x l -> Hx. apply goes_below. apply tree_arr in Tv. rewrite Forall_forall in Tv. auto.
  Qed.
End Generic.

(** *** Replacements *)
Lemma all_res_spec {A C} (f : A -> res C) (P : A -> C -> Prop) l : Forall (fun a => forall b, f a = Ok b -> P a b) l -> forall bs, all_res f l = Ok bs -> Forall2 P l bs.
Proof.
  induction 1 as [|a l H F IH]; intros bs E; cbn in E; [injection E as <-; constructor|].
  destruct (f a) as [b|] eqn:Fa; cbn in E; [|discriminate]. destruct (all_res f l) as [cs|] eqn:L; cbn in E; [|discriminate]. injection E as <-. constructor; auto.
Qed.
Definition fills (c : cmd) : Prop := sound c -> forall r g y, replacement c = Ok r -> replace r g = Ok y -> filled g c y.
Lemma all_of_in (P : cmd -> Prop) l : all_of P l -> forall c, In c l -> P c.
Proof. induction l as [|a l IH]; cbn; intros H c []; [subst; apply H | apply IH; tauto]. Qed.
Lemma all_pairs_in (P : cmd -> Prop) l : all_pairs P l -> forall k c, In (k, c) l -> P c.
Proof. induction l as [|[j a] l IH]; cbn; intros H k c []; [injection H0 as -> ->; apply H | eapply IH; [apply H | eassumption]]. Qed.
Lemma replacement_fills : forall c, fills c.
Proof.
  apply cmd_all.
  - intros c L S r g y E Er. destruct c as [s|s|[z|f]| | | | | | | |]; try contradiction; cbn in E; try discriminate; injection E as <-; cbn in Er; injection Er as <-; cbn; auto.
    destruct (String.eqb_spec s "null"); [auto|]. destruct (String.eqb_spec s "true"); [auto|]. destruct (String.eqb_spec s "false"); [auto|]. tauto.
  - intros l e F S r g y E Er. destruct S as [N S]. cbn in E. destruct e; [discriminate|].
    destruct (all_res (fun kc : string * cmd => let (k, c) := kc in r <- replacement c ;; Ok (k, r)) l) as [d|] eqn:L; cbn in E; [|discriminate]. injection E as <-.
    apply (all_res_spec _ (fun (kc : string * cmd) (kr : string * repl) => fst kc = fst kr /\ replacement (snd kc) = Ok (snd kr))) in L.
    2:{ apply Forall_forall. intros [k c] _ [k' r'] H. cbn in *. destruct (replacement c) as [r0|]; cbn in H; [|discriminate]. injection H as <- <-. auto. }
    assert (Nd : map fst d = map fst l) by (clear - L; induction L as [|? ? ? ? [H _]]; cbn; congruence).
    unfold dict_of_pairs in Er. rewrite (dict_of_nodup _ d []) in Er by (cbn; rewrite Nd; exact N). cbn [app replace] in Er.
    destruct (all_res (fun kr : string * repl => let (k, r) := kr in v <- replace r g ;; Ok (k, v)) d) as [w|] eqn:W; cbn in Er; [|discriminate]. injection Er as <-.
    apply (all_res_spec _ (fun (kr : string * repl) (kv : string * val) => fst kr = fst kv /\ replace (snd kr) g = Ok (snd kv))) in W.
    2:{ apply Forall_forall. intros [k c] _ [k' r'] H. cbn in *. destruct (replace c g) as [r0|]; cbn in H; [|discriminate]. injection H as <- <-. auto. }
    exists w. split; [reflexivity|]. clear N Nd. revert w W S. induction L as [|[k c] [k' r'] l d [H1 H2] L IH]; intros w W S; inversion W as [|? [k2 v] ? w' [W1 W2] W3]; subst; cbn; [exact Logic.I|].
    cbn in *. inversion F as [|? ? Fc Fl]; subst. destruct S as [S1 S2]. split; [auto|]. split; [eapply Fc; eauto | apply IH; auto].
  - intros l b a F S r g y E Er. cbn in S, E. destruct b, a; try discriminate. destruct (all_res replacement l) as [d|] eqn:L; cbn in E; [|discriminate]. injection E as <-.
    cbn in Er. destruct (all_res (fun r => replace r g) d) as [w|] eqn:W; cbn in Er; [|discriminate]. injection Er as <-.
    apply (all_res_spec _ (fun c r => replacement c = Ok r)) in L; [|apply Forall_forall; auto]. apply (all_res_spec _ (fun r v => replace r g = Ok v)) in W; [|apply Forall_forall; auto].
    exists w. split; [reflexivity|]. revert w W S. induction L as [|c r' l d H L IH]; intros w W S; inversion W; subst; cbn; [exact Logic.I|].
    inversion F as [|? ? Fc Fl]; subst. destruct S as [S1 S2]. split; [eapply Fc; eauto | apply IH; auto].
  - intros l F S r g y E Er. destruct l as [|[|[| |[z|f]| | | | | | | |] [|]] [|]]; cbn in E; try discriminate. injection E as <-. cbn in *. destruct (assoc (int_name z) g); congruence.
Qed.

(** *** The body of the loop *)
Lemma visit_maybe p c r : sound c -> replacement c = Ok r -> forall root a x m root' m', reach root a x -> a <> [] -> True -> visit p r a (root, m) = Ok (root', m') ->
  exists y, maybe p c x y /\ root' = write root a y /\ True.
Proof.
  intros S E root a x m root' m' Rr Na _ V. unfold visit in V. cbn [fst snd] in V.
  assert (Same : root' = root -> exists y, maybe p c x y /\ root' = write root a y /\ True) by (intros ->; exists x; split; [left; reflexivity|]; split; [symmetry; apply write_same, Rr | exact Logic.I]).
  rewrite (reach_get _ _ _ Rr) in V. cbn [rbind] in V.
  assert (Put : forall mt y, getmatch p x = Ok (Some mt) -> replace r (m_groups mt) = Ok y -> root' = write root a y -> exists y, maybe p c x y /\ root' = write root a y /\ True).
  { intros mt y G Y ->. exists y. split; [|auto]. right. split; [apply (getmatch_agrees p x _ G); discriminate|]. exists mt. split; [exact G|]. eapply replacement_fills; eassumption. }
  destruct m as [l| | |]; try (injection V as <- <-; auto; fail); (destruct (getmatch p x) as [[mt|]|] eqn:G; cbn [rbind] in V; [|injection V as <- <-; auto|discriminate]);
  (destruct (replace r (m_groups mt)) as [y|] eqn:Y; cbn [rbind] in V; [|discriminate]).
  - destruct (reply l) as [[an l']|]; cbn [rbind fst snd] in V; [|discriminate].
    destruct an; rewrite ?(assigned_write _ _ _ _ Rr Na) in V; cbn [rbind] in V; injection V as <- <-; eauto.
  - rewrite (assigned_write _ _ _ _ Rr Na) in V; cbn [rbind] in V; injection V as <- <-; eauto.
Qed.
Definition eager (m : mode) : Prop := match m with Silent => True | Asking l => forall a, In a l -> a = Yes \/ a = All \/ a = Unclear | _ => False end.
Lemma reply_in l a l' : reply l = Ok (a, l') -> In a l /\ a <> Unclear /\ forall b, In b l' -> In b l.
Proof.
  induction l as [|c l IH]; cbn; [discriminate|]. destruct c; intros E; try (injection E as <- <-; repeat split; auto; discriminate). destruct (IH E) as (H1 & H2 & H3). auto.
Qed.
Lemma visit_surely p c r : sound c -> replacement c = Ok r -> forall root a x m root' m', reach root a x -> a <> [] -> eager m -> visit p r a (root, m) = Ok (root', m') ->
  exists y, surely p c x y /\ root' = write root a y /\ eager m'.
Proof.
  intros S E root a x m root' m' Rr Na Hm V. unfold visit in V. cbn [fst snd] in V. rewrite (reach_get _ _ _ Rr) in V. cbn [rbind] in V.
  assert (Same : getmatch p x = Ok None -> eager m' -> root' = root -> exists y, surely p c x y /\ root' = write root a y /\ eager m').
  { intros G Hm' ->. exists x. split; [left; split; [|reflexivity]; intros M; apply (getmatch_agrees p x _ G) in M; congruence|]. split; [symmetry; apply write_same, Rr | exact Hm']. }
  assert (Put : forall mt y, getmatch p x = Ok (Some mt) -> replace r (m_groups mt) = Ok y -> eager m' -> root' = write root a y -> exists y, surely p c x y /\ root' = write root a y /\ eager m').
  { intros mt y G Y Hm' ->. exists y. split; [|auto]. right. split; [apply (getmatch_agrees p x _ G); discriminate|]. exists mt. split; [exact G|]. eapply replacement_fills; eassumption. }
  destruct m as [l| | |]; try contradiction; (destruct (getmatch p x) as [[mt|]|] eqn:G; cbn [rbind] in V; [|injection V as <- <-; auto|discriminate]);
  (destruct (replace r (m_groups mt)) as [y|] eqn:Y; cbn [rbind] in V; [|discriminate]).
  - destruct (reply l) as [[an l']|] eqn:Q; cbn [rbind fst snd] in V; [|discriminate]. destruct (reply_in _ _ _ Q) as (Q1 & Q2 & Q3). cbn in Hm.
    destruct (Hm an Q1) as [ -> |[ -> | -> ]]; [| |congruence]; rewrite (assigned_write _ _ _ _ Rr Na) in V; cbn [rbind] in V; injection V as <- <-; eapply Put; eauto; cbn; auto.
  - rewrite (assigned_write _ _ _ _ Rr Na) in V; cbn [rbind] in V; injection V as <- <-; eauto.
Qed.
Definition reluctant (m : mode) : Prop := match m with Silent => False | Asking l => forall a, In a l -> a <> Yes /\ a <> All | _ => True end.
Lemma visit_never p r : forall root a x m root' m', reach root a x -> a <> [] -> reluctant m -> visit p r a (root, m) = Ok (root', m') -> exists y, y = x /\ root' = write root a y /\ reluctant m'.
Proof.
  intros root a x m root' m' Rr Na Hm V. unfold visit in V. cbn [fst snd] in V. rewrite (reach_get _ _ _ Rr) in V. cbn [rbind] in V.
  assert (Same : root' = root -> reluctant m' -> exists y, y = x /\ root' = write root a y /\ reluctant m') by (intros -> Hm'; exists x; split; [reflexivity|]; split; [symmetry; apply write_same, Rr | exact Hm']).
  destruct m as [l| | |]; try contradiction; try (injection V as <- <-; auto; fail). destruct (getmatch p x) as [[mt|]|]; cbn [rbind] in V; [|injection V as <- <-; auto|discriminate].
  destruct (replace r (m_groups mt)) as [y|]; cbn [rbind] in V; [|discriminate]. destruct (reply l) as [[an l']|] eqn:Q; cbn [rbind fst snd] in V; [|discriminate].
  destruct (reply_in _ _ _ Q) as (Q1 & Q2 & Q3). cbn in Hm. destruct (Hm an Q1) as [N1 N2]. destruct an; try congruence; injection V as <- <-; apply Same; auto; cbn; auto.
Qed.
Lemma upward_eq v w : upward (fun x y => y = x) v w -> w = v.
Proof.
  revert w. induction v as [d F|l F|v Hd Hl] using val_ind2; intros w U.
  - inversion U as [d' e y H E E1 E2| |? ? Hd]; subst; [|now destruct (Hd d)]. f_equal. clear U. induction H as [|[k x] [j y] d e [H1 H2] H IH]; [reflexivity|]. inversion F; subst. cbn in *. subst. f_equal; [f_equal; auto | auto].
  - inversion U as [|l' n y H E E1 E2|? ? ? Hl]; subst; [|now destruct (Hl l)]. f_equal. clear U. induction H as [|x y l n H1 H IH]; [reflexivity|]. inversion F; subst. f_equal; auto.
  - inversion U; subst; [now destruct (Hd d) | now destruct (Hl l) | reflexivity].
Qed.
Lemma within_eq v w : within (fun x y => y = x) v w -> w = v.
Proof. intros H. apply upward_eq. eapply within_upward; [exact H | reflexivity]. Qed.
(** the whole is never replaced *)
Lemma visit_whole p r w m s' : visit p r [] (w, m) = Ok s' -> fst s' = w.
Proof.
  unfold visit. cbn [fst snd get rbind]. destruct m; try (intros [= <-]; reflexivity); (destruct (getmatch p w) as [[mt|]|]; cbn [rbind]; [|intros [= <-]; reflexivity|discriminate]);
  (destruct (replace r (m_groups mt)); cbn [rbind]; [|discriminate]); [|discriminate].
  destruct (reply l) as [[an l']|]; cbn [rbind fst snd]; [|discriminate]. destruct an; cbn; try discriminate; intros [= <-]; reflexivity.
Qed.
