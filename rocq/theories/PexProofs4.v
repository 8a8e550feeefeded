(** Programs are worth what the Python code is worth; line numbers; subscripts. *)
From Verif Require Import Base PyNum ScopeModel ScopeProofs ChainModel PexModel PexSpec PexProofs PexProofs2 PexProofs3.
Open Scope string_scope.
Open Scope list_scope.

Section Values.
  Variable V : Type.
  Variable lit : val -> V.
  Variable text : string -> V.
  Variable fn : string -> list V -> option V.
  Variable get : V -> V -> option V.
  Variable truth : V -> option bool.
  Variable of_bool : bool -> V.
  Variable cellv poolv : string -> option V.
  Hypothesis TB : forall b, truth (of_bool b) = Some b.
  Variable st : state.
  Notation meaning := (meaning V lit text fn get truth of_bool cellv poolv).
  Notation python := (python V lit text fn get truth of_bool cellv poolv st).
  Notation step := (step V lit text fn get truth of_bool cellv poolv st).
  Notation steps := (steps V lit text fn get truth of_bool cellv poolv st).
  Notation run1 := (run1 V lit text fn get truth of_bool cellv poolv).
  Notation run := (run V lit text fn get truth of_bool cellv poolv).
  Lemma all_some_map l vs : all_some V l = Some vs -> l = map Some vs.
  Proof. revert vs. induction l as [|[x|] l IH]; intros vs H; cbn in H; try discriminate; [now injection H as <-|]. destruct (all_some V l) as [r|]; [|discriminate]. injection H as <-. cbn. f_equal. now apply IH. Qed.
  Lemma map_all_some vs : all_some V (map Some vs) = Some vs.
  Proof. induction vs as [|v vs IH]; [reflexivity|]. cbn. now rewrite IH. Qed.
  Lemma run1_ok env k d vs : (k = "let" /\ forallb (fun kx => negb (has_key (fst kx) env)) d = true) \/ (k = "set" /\ forallb (fun kx => has_key (fst kx) env) d = true) ->
    map (fun kx => meaning (fun s => assoc s env) (snd kx)) d = map Some vs -> run1 env (VDict [(k, VDict d)]) = Some (fill V (combine (map fst d) vs) env).
  Proof.
    intros H E. cbn [PexSpec.run1]. rewrite E, map_all_some. destruct H as [[-> H]|[-> H]]; rewrite H; cbn; [reflexivity|]. reflexivity.
  Qed.
  Lemma combine_self (d : list (string * V)) : combine (map fst d) (map snd d) = d.
  Proof. induction d as [|[k x] d IH]; [reflexivity|]. cbn. now rewrite IH. Qed.
  Lemma step_run env symbols s symbols' j env' : statement st symbols s = Ok (symbols', j) -> fits_statement st s -> named s -> (forall x, In x symbols <-> has_key x env = true) ->
    step env s = Some env' -> run1 env (strip j) = Some env' /\ (forall x, In x symbols' <-> has_key x env' = true).
  Proof.
    intros E F N K H. unfold statement in E. unfold PexSpec.step in H. destruct s as [n targets rhs|n]; [|discriminate]. destruct targets as [|t [|? ?]]; try (now destruct rhs); [destruct t; try discriminate|destruct t; now destruct rhs].
    - cbn in F, N. destruct (python (fun x => assoc x env) rhs) as [v|] eqn:Ev; [|discriminate]. injection H as <-.
      destruct (proj1 (value V lit text fn get truth of_bool cellv poolv TB st (fun x => assoc x env) rhs) F) as (jv & Ej & Hj). rewrite Ej in E. cbn [rbind] in E. injection E as <- <-.
      split; [|intros x; rewrite has_set, <- K; cbn; split; intros [->|Hx]; auto].
      rewrite strip_let; [|now destruct (memb s symbols)|cbn; intuition congruence]. rewrite (run1_ok env _ _ [v]); [reflexivity| |cbn; now rewrite (Hj v Ev)].
      cbn [vmap map forallb fst snd]. destruct (memb s symbols) eqn:M.
      + right. split; [reflexivity|]. apply memb_in, K in M. now rewrite M.
      + left. split; [reflexivity|]. apply memb_false in M. rewrite K in M. now destruct (has_key s env).
    - destruct rhs; try discriminate. cbn in F, N. rewrite names_of_list in *. destruct (name_list l) as [names|] eqn:En; [|discriminate]. destruct F as [_ F].
      destruct (all_some V (map (python (fun x => assoc x env)) l0)) as [vs|] eqn:Evs; [|discriminate]. destruct (Nat.eqb_spec (length names) (length vs)) as [L|]; [|discriminate].
      injection H as <-. destruct (assign_tuple st symbols names l0 0 0 []) as [r|] eqn:Ea; [|discriminate]. cbn [rbind] in E.
      assert (Lv : length vs = length l0). { pose proof (f_equal (@length _) (all_some_map _ _ Evs)) as Q. rewrite !map_length in Q. now symmetry. }
      apply assign_spec in Ea as (js & sy' & le' & se & -> & L1 & L2 & Hl & Hs & S1 & S2 & S3 & S4). specialize (L2 ltac:(lia)).
      assert (M : map (fun j => meaning (fun x => assoc x env) (strip j)) js = map Some vs).
      { destruct (good_list V lit text fn get truth of_bool cellv poolv st (fun x => assoc x env) l0) as (js' & Ej & Hj); [apply Forall_forall; intros x _; apply value; exact TB|exact F|].
        rewrite L2 in Ej. injection Ej as <-. apply all_some_map. eapply all_some_le; eauto. }
      set (D := fill val (combine names js) []) in *.
      assert (Lj : length js = length names) by (apply (f_equal (@length _)) in M; rewrite !map_length in M; lia).
      assert (Kn : forall A (q : list A), length q = length names -> map fst (combine names q) = names).
      { clear. intros A. induction names as [|x names IH]; intros [|y q] H; cbn in *; try discriminate; f_equal. apply IH. lia. }
      rewrite (Kn _ js Lj) in *.
      assert (KD : forall x, In x (map fst (vmap strip D)) <-> In x names) by (intros x; rewrite vmap_keys; unfold D; rewrite fill_keys, Kn by auto; cbn; tauto).
      set (D' := fill V (combine names vs) []).
      assert (Q : vmap (fun j => meaning (fun x => assoc x env) (strip j)) D = vmap Some D').
      { unfold D, D'. rewrite !vmap_fill, !vmap_combine, M. reflexivity. }
      assert (RR : forall k, (k = "let" /\ forallb (fun kx => negb (has_key (fst kx) env)) (vmap strip D) = true) \/ (k = "set" /\ forallb (fun kx => has_key (fst kx) env) (vmap strip D) = true) ->
        run1 env (VDict [(k, VDict (vmap strip D))]) = Some (fill V (combine names vs) env)).
      { intros k Hk. rewrite (run1_ok env k (vmap strip D) (map snd D') Hk).
        - f_equal. rewrite vmap_keys. replace (map fst D) with (map fst D'); [rewrite combine_self; apply fill_twice|]. apply (f_equal (map fst)) in Q. rewrite !vmap_keys in Q. now symmetry.
        - apply (f_equal (map snd)) in Q. unfold vmap in *. rewrite !map_map in Q. cbn [fst snd] in Q. rewrite !map_map. exact Q. }
      split.
      + pose proof (fill_no_at names js N) as Na. fold D in Na.
        destruct le' as [|le'], se as [|se]; try discriminate; injection E as <- <-; rewrite strip_let by (auto; discriminate); apply RR.
        * right. split; [reflexivity|]. apply forallb_forall. intros [k x] Hx. apply K, S3; [lia|]. apply KD. apply in_map_iff. now exists (k, x).
        * left. split; [reflexivity|]. apply forallb_forall. intros [k x] Hx. destruct (has_key (fst (k, x)) env) eqn:Hk; [|reflexivity]. exfalso. apply K in Hk. revert Hk. apply S2; [lia|]. apply KD. apply in_map_iff. now exists (k, x).
      + intros x. match goal with |- _ <-> has_key x ?e = true => change e with (fill V (combine names vs) env) end. rewrite fill_has, Kn by auto. rewrite <- K. destruct le' as [|le'], se as [|se]; try discriminate; injection E as <- <-; apply S1.
  Qed.
  Theorem steps_run : forall prog symbols docs env env', statements st symbols prog = Ok docs -> Forall (fits_statement st) prog -> Forall named prog -> (forall x, In x symbols <-> has_key x env = true) ->
    steps env prog = Some env' -> run env (map strip docs) = Some env'.
  Proof.
    induction prog as [|s prog IH]; intros symbols docs env env' H F N K P; cbn [statements] in H; [injection H as <-; exact P|].
    destruct (statement st symbols s) as [[sy j]|] eqn:E; [|discriminate]. cbn [rbind fst snd] in H. destruct (statements st sy prog) as [js|] eqn:Es; [|discriminate]. injection H as <-.
    inversion F as [|? ? Fs Fr]; inversion N as [|? ? Ns Nr]; subst. cbn [PexSpec.steps] in P. destruct (step env s) as [env1|] eqn:E1; [|discriminate].
    destruct (step_run env symbols s sy j env1 E Fs Ns K E1) as [R K1]. cbn [map PexSpec.run]. rewrite R. eapply IH; eauto.
  Qed.
End Values.

(** *** subscripts *)
Lemma literal_no_sub st e : forall j, literal st e = Ok j -> ~ subscripted e.
Proof.
  induction e as [| | | | | | | |n l IH| | | | | |n l IH| |] using pex_ind2; intros j H'; try (intros []); try discriminate.
  - cbn [literal] in H'. match type of H' with rbind ?g _ = _ => destruct g as [d|] eqn:H; [|discriminate] end. clear H'. generalize dependent (@nil (string * val)). intros out H S. revert out H. cbn [subscripted] in S.
    induction l as [|[k x] l IHl]; [destruct S|]. inversion IH as [|? ? Ix Il]; subst. intros out H. cbn [snd] in Ix.
    destruct (match k with PStr _ s => Ok s | PName _ s => match assoc s (st_subs st) with Some (VStr t) => Ok t | _ => no_equivalent end | _ => no_equivalent end) as [kk|] eqn:Ek; [|discriminate]. cbn [rbind] in H.
    destruct (literal st x) as [v|] eqn:Ev; [|discriminate]. cbn [rbind] in H. destruct S as [S|S]; [exact (Ix v eq_refl S)|]. exact (IHl Il S _ H).
  - cbn [literal] in H'. intros S. cbn [subscripted] in S. assert (H0 : exists l', (fix go (l : list pex) := match l with [] => Ok [] | x :: l' => y <- literal st x ;; ys <- go l' ;; Ok (y :: ys) end) l = Ok l').
    { destruct ((fix go (l : list pex) := match l with [] => Ok [] | x :: l' => y <- literal st x ;; ys <- go l' ;; Ok (y :: ys) end) l) as [l'|]; [now exists l'|discriminate]. }
    clear H'. destruct H0 as [l' H]. revert l' H. induction l as [|x l IHl]; [destruct S|]. inversion IH as [|? ? Ix Il]; subst. intros l' H. destruct (literal st x) as [v|] eqn:Ev; [|discriminate]. cbn [rbind] in H.
    destruct S as [S|S]; [exact (Ix v eq_refl S)|]. match type of H with rbind ?g _ = _ => destruct g as [ys|] eqn:Eg; [|discriminate] end. exact (IHl Il S _ eq_refl).
Qed.
Lemma each_sub l : (fix go (l : list pex) : Prop := match l with [] => False | x :: l' => subscripted x \/ go l' end) l <-> Exists subscripted l.
Proof. induction l as [|x l IH]; [split; [intros []|intros H; inversion H]|]. rewrite IH. split; [intros [H|H]; [now constructor|now apply Exists_cons_tl]|intros H; inversion H; auto]. Qed.
Lemma pairs_sub {A} (l : list (A * pex)) : (fix go (l : list (A * pex)) : Prop := match l with [] => False | (_, x) :: l' => subscripted x \/ go l' end) l <-> Exists (fun ax => subscripted (snd ax)) l.
Proof. induction l as [|[a x] l IH]; [split; [intros []|intros H; inversion H]|]. rewrite IH. split; [intros [H|H]; [now constructor|now apply Exists_cons_tl]|intros H; inversion H; auto]. Qed.
Section Subscripts.
  Variable st : state.
  Hypothesis I : st_index st = false.
  Notation ex := (expression st).
  Definition clean (e : pex) : Prop := forall j, ex e = Ok j -> ~ subscripted e.
  Lemma clean_list l js : Forall clean l -> rmapM ex l = Ok js -> ~ Exists subscripted l.
  Proof. intros C H. apply rmapM_ok_Forall2 in H. induction H as [|x j l js E _ IH]; intros S; inversion S; inversion C; subst; [eapply H4; eauto|]. now apply IH. Qed.
  Lemma no_subscripts e : clean e /\ forall path j, unfold st e path = Ok j -> ~ subscripted e.
  Proof.
    assert (B : forall e, (match e with PName _ _ | PAttr _ _ _ | PSub _ _ _ | PSlice _ _ => False | _ => True end) -> clean e -> clean e /\ forall path j, unfold st e path = Ok j -> ~ subscripted e).
    { intros e0 N C. split; [exact C|]. intros path j H. rewrite un_other in H by auto. unfold based in H. destruct (ex e0) as [v|] eqn:E; [|discriminate]. now apply (C v). }
    induction e using pex_ind2.
    - apply B; [exact Logic.I|]. intros j _ [].
    - apply B; [exact Logic.I|]. intros j _ [].
    - apply B; [exact Logic.I|]. intros j _ [].
    - split; [intros j _ []|intros path j _ []].
    - apply B; [exact Logic.I|]. intros j E S. cbn [subscripted] in S. rewrite each_sub in S. rewrite ex_bool in E. destruct l as [|x [|y rest]]; try discriminate.
      inversion H as [|? ? [Cx _] H']; inversion H' as [|? ? [Cy _] Hr]; subst. destruct (ex x) as [jx|] eqn:Ex; [|discriminate]. cbn [rbind] in E. destruct (ex y) as [jy|] eqn:Ey; [|discriminate]. cbn [rbind] in E.
      inversion S as [? ? S'|? ? S']; subst; [now apply (Cx jx)|]. inversion S' as [? ? S2|? ? S2]; subst; [now apply (Cy jy)|]. revert E. generalize (form st n [(if a then "&&" else "||", VArr [jx; jy])]).
      clear - S2 Hr. induction rest as [|z rest IH]; intros out E; [inversion S2|]. cbn [fold_bool] in E. inversion Hr as [|? ? [Cz _] Hr']; subst. destruct (ex z) as [jz|] eqn:Ez; [|discriminate]. cbn [rbind] in E.
      inversion S2; subst; [now apply (Cz jz)|]. eapply IH; eauto.
    - apply B; [exact Logic.I|]. destruct IHe1 as [C1 _], IHe2 as [C2 _]. intros j E. rewrite ex_bin in E. destruct (bin_name o); [|discriminate]. cbn [rbind] in E. destruct (ex e1) as [j1|] eqn:E1; [|discriminate]. cbn [rbind] in E.
      destruct (ex e2) as [j2|] eqn:E2; [|discriminate]. intros [S|S]; [now apply (C1 j1)|now apply (C2 j2)].
    - apply B; [exact Logic.I|]. destruct IHe as [C _]. intros j E. rewrite ex_un in E. destruct (un_name o); [|discriminate]. cbn [rbind] in E. destruct (ex e) as [j1|] eqn:E1; [|discriminate]. now apply (C j1).
    - apply B; [exact Logic.I|]. destruct IHe1 as [C1 _], IHe2 as [C2 _], IHe3 as [C3 _]. intros j E. rewrite ex_if in E. destruct (ex e1) as [j1|] eqn:E1; [|discriminate]. cbn [rbind] in E. destruct (ex e2) as [j2|] eqn:E2; [|discriminate]. cbn [rbind] in E.
      destruct (ex e3) as [j3|] eqn:E3; [|discriminate]. intros [S|[S|S]]; [now apply (C1 j1)|now apply (C2 j2)|now apply (C3 j3)].
    - apply B; [exact Logic.I|]. intros j E. apply (literal_no_sub st _ j). exact E.
    - apply B; [exact Logic.I|]. destruct IHe as [C _]. intros j E S. cbn [subscripted] in S. rewrite pairs_sub in S. rewrite ex_cmp in E. destruct r as [|[op c] r]; [discriminate|].
      inversion H as [|? ? [Cc _] Hr]; subst. cbn [snd] in Cc. destruct (ex c) as [jc|] eqn:Ec; [|discriminate]. cbn [rbind] in E. destruct (cmp_name op); [|discriminate]. cbn [rbind] in E. destruct (ex e) as [j1|] eqn:E1; [|discriminate]. cbn [rbind] in E.
      destruct S as [S|S]; [now apply (C j1)|]. inversion S as [? ? S'|? ? S']; subst; [now apply (Cc jc)|]. revert E. generalize (form st n [(a, VArr [j1; jc])]). generalize jc. clear - S' Hr.
      induction r as [|[op z] rest IH]; intros last out E; [inversion S'|]. cbn [fold_cmp] in E. inversion Hr as [|? ? [Cz _] Hr']; subst. cbn [snd] in Cz. destruct (ex z) as [jz|] eqn:Ez; [|discriminate]. cbn [rbind] in E.
      destruct (cmp_name op); [|discriminate]. cbn [rbind] in E. inversion S'; subst; [now apply (Cz jz)|]. eapply IH; eauto.
    - apply B; [exact Logic.I|]. intros j E S. cbn [subscripted] in S. rewrite each_sub, pairs_sub in S. rewrite ex_call in E. destruct (unfold_name e); [|discriminate]. cbn [rbind] in E. destruct (rmapM ex args) as [js|] eqn:Ea; [|discriminate]. cbn [rbind] in E.
      destruct S as [S|S]; [revert S; eapply clean_list; eauto; apply Forall_forall; intros x Hx; rewrite Forall_forall in H; now apply H|].
      destruct (fold_kwds st kwds _) as [out|] eqn:Ek; [|discriminate]. clear E. revert Ek. generalize [(call_name a, unwrap (call_name a) (one_arg js))]. clear - S H0.
      induction kwds as [|[k z] rest IH]; intros o E; [inversion S|]. cbn [fold_kwds] in E. inversion H0 as [|? ? [Cz _] Hr']; subst. cbn [snd] in Cz. destruct (ex z) as [jz|] eqn:Ez; [|discriminate]. cbn [rbind] in E.
      inversion S; subst; [now apply (Cz jz)|]. eapply IH; eauto.
    - destruct IHe as [_ U]. split; [intros j E; exact (U _ j E)|intros path j E; exact (U _ j E)].
    - split; [intros j E|intros path j E]; unfold expression, unfold in E; cbn [both] in E; rewrite I in E; discriminate.
    - split; [intros j E|intros path j E]; discriminate E.
    - apply B; [exact Logic.I|]. intros j E. apply (literal_no_sub st _ j). exact E.
    - apply B; [exact Logic.I|]. intros j E S. cbn [subscripted] in S. rewrite each_sub in S. rewrite ex_tuple in E. destruct (rmapM ex l) as [js|] eqn:Ea; [|discriminate]. revert S. eapply clean_list; eauto. apply Forall_forall. intros x Hx. rewrite Forall_forall in H. now apply H.
    - apply B; [exact Logic.I|]. intros j _ [].
  Qed.
End Subscripts.
