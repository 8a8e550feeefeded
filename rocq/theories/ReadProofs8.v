(** Well-formed documents read back, and what the reader gives is a well-formed document (C45, C46). *)
From Verif Require Import Base PyNum ScopeModel ReadModel ReadSpec ReadSpec2 ReadProofs ReadProofs2 ReadProofs3 ReadProofs6 ReadProofs7.
From Coq Require Import Ascii.
Open Scope string_scope.
Open Scope list_scope.
Open Scope Z_scope.

Section Docs.
  Context (E : outside).
  Hypothesis B64 : base64_inverse E.

  Lemma fcn_wf n v a : read_fcn (read E n) v = Ok a -> well_formed a /\ exists p r b, a = AFcnDef p r b.
  Proof using.
    destruct v as [| | | | | | |d]; try discriminate. cbn [read_fcn]. intros H.
    destruct (rmapM (fcn_field (read E n)) (unmarked d)) as [fs|] eqn:R; cbn [rbind] in H; [|discriminate].
    destruct (assoc "params" fs) as [[| | | | | |ps| | | |]|] eqn:A1; try discriminate.
    destruct (assoc "ret" fs) as [[r| | | | | | | | | |]|] eqn:A2; try discriminate.
    destruct (assoc "do" fs) as [[| |b| | | | | | | |]|] eqn:A3; try discriminate.
    destruct b as [|b0 bs]; [discriminate|]. cbn [some rbind] in H. injection H as <-.
    apply assoc_In in A1, A2, A3.
    destruct (rmapM_in _ _ _ _ R A1) as ([k1 v1] & _ & X1). destruct (rmapM_in _ _ _ _ R A2) as ([k2 v2] & _ & X2).
    destruct (rmapM_in _ _ _ _ R A3) as ([k3 v3] & _ & X3). clear R A1 A2 A3. unfold fcn_field in X1, X2, X3.
    destruct (String.eqb k1 "params").
    2: { destruct (String.eqb k1 "ret"); [discriminate|]. destruct (String.eqb k1 "do"); [|discriminate]. destruct (read_body (read E n) v1); discriminate. }
    destruct (read_array read_param v1) as [ps'|] eqn:P; cbn [rbind] in X1; [|discriminate]. injection X1 as _ ->.
    destruct (String.eqb k2 "params"). { destruct (read_array read_param v2); discriminate. }
    destruct (String.eqb k2 "ret").
    2: { destruct (String.eqb k2 "do"); [|discriminate]. destruct (read_body (read E n) v2); discriminate. }
    injection X2 as _ <-.
    destruct (String.eqb k3 "params"). { destruct (read_array read_param v3); discriminate. }
    destruct (String.eqb k3 "ret"); [discriminate|]. destruct (String.eqb k3 "do"); [|discriminate].
    destruct (read_body (read E n) v3) as [b'|] eqn:B; cbn [rbind] in X3; [|discriminate]. injection X3 as _ ->.
    destruct v1 as [| | | | | |l|]; try discriminate. cbn [read_array] in P. apply (body_wf _ (read_wf E n)) in B as [X W].
    split; [|eauto]. apply wf_intro; [|exact W]. split; [|split; [apply strip_clean|split; [discriminate|exact X]]].
    intros x t I. destruct (rmapM_in _ _ _ _ P I) as (w & _ & Rw). eapply param_wf; eauto.
  Qed.
  Lemma flags_ok {A} (sh rb : bool) (x : A) r : (if (sh && rb)%bool then syntax else Ok x) = Ok r -> r = x /\ ~ (sh = true /\ rb = true).
  Proof using. destruct sh, rb; cbn [andb]; intros H; try discriminate; injection H as <-; split; auto; intros []; congruence. Qed.
  Lemma cell_wf v x : read_cell v = Ok x -> cell_shape x.
  Proof using.
    destruct v as [| | | | | | |d0]; try discriminate. cbn [read_cell]. set (d := unmarked d0). intros H.
    repeat match type of H with rbind ?m _ = Ok _ => let G := fresh "G" in destruct m eqn:G; cbn [rbind] in H; [|discriminate H] end.
    destruct (known_keys d); [|discriminate]. destruct (assoc "type" d) as [t|]; [|discriminate]. destruct (assoc "init" d) as [i|]; [|discriminate].
    match type of H with rbind ?m _ = Ok _ => destruct m as [ini|] eqn:I; cbn [rbind] in H; [|discriminate] end.
    apply flags_ok in H as [-> F]. split; [apply strip_clean|]. split; [exact F|]. cbn [ce_init ce_source].
    destruct (String.eqb a1 "avro") eqn:Q1; cbn [orb] in I.
    { destruct (strip i); try discriminate. injection I as <-. right. now apply String.eqb_eq. }
    destruct (String.eqb a1 "json") eqn:Q2.
    { destruct (strip i); try discriminate. injection I as <-. left. now apply String.eqb_eq. }
    destruct (String.eqb a1 "embedded") eqn:Q3; [|discriminate]. injection I as <-. split; [apply strip_clean|now apply String.eqb_eq].
  Qed.
  Lemma json_map_wf v m : json_map v = Ok m -> forall k u, In (k, u) m -> k <> "@" /\ clean u.
  Proof using.
    destruct v as [| | | | | | |d]; try discriminate. cbn [json_map]. intros H. injection H as <-. intros k u I.
    apply in_map_iff in I as ((k' & u') & Eq & I). injection Eq as -> <-. apply unmarked_in in I as [_ I]. split; [auto|apply strip_clean].
  Qed.
  Lemma pool_wf v x : read_pool v = Ok x -> pool_shape x.
  Proof using.
    destruct v as [| | | | | | |d0]; try discriminate. cbn [read_pool]. set (d := unmarked d0). intros H.
    repeat match type of H with rbind ?m _ = Ok _ => let G := fresh "G" in destruct m eqn:G; cbn [rbind] in H; [|discriminate H] end.
    destruct (known_keys d); [|discriminate]. destruct (assoc "type" d) as [t|]; [|discriminate].
    destruct (_ || _)%bool; [discriminate|]. destruct (String.eqb a1 "embedded") eqn:Q; [|discriminate].
    apply flags_ok in H as [-> F]. split; [apply strip_clean|]. split; [exact F|]. split; [now apply String.eqb_eq|]. cbn [po_init].
    destruct (assoc "init" d); [eapply json_map_wf; eauto|]. injection G2 as <-. intros k u [].
  Qed.

  Theorem doc_wf n fresh v c : read_doc E n fresh v = Ok c -> well_formed_doc c.
  Proof using.
    destruct v as [| | | | | | |d0]; try discriminate. cbn [read_doc]. set (d := unmarked d0). intros H.
    destruct (forallb _ (keys d)); [|discriminate].
    repeat match type of H with rbind ?m _ = Ok _ => let G := fresh "G" in destruct m eqn:G; cbn [rbind] in H; [|discriminate H] end.
    rename a into name, a0 into method, a1 into input, a2 into output, a3 into bgn, a4 into action, a5 into fin, a6 into fcns,
      a7 into zero, a8 into merge, a9 into cells, a10 into pools, a11 into seed, a12 into doc, a13 into version, a14 into metadata, a15 into options.
    destruct input as [i|]; [|discriminate]. destruct output as [o|]; [|discriminate]. destruct action as [a|]; [|discriminate].
    destruct (match assoc "@" d0 with Some (VStr _) | Some VNull | None => true | Some _ => false end); [|discriminate].
    destruct (some a) as [a'|] eqn:Na; cbn [rbind] in H; [|discriminate]. apply some_ok in Na as [-> Na].
    destruct (if String.eqb (dflt method "map") "fold" then _ else _) eqn:Fold in H; [|discriminate]. injection H as <-.
    assert (Body : forall k d l, opt_field k (read_body (read E n)) d = Ok l -> exprs (dflt l []) /\ forall x, In x (dflt l []) -> well_formed x).
    { intros k d1 [l|] Gx; [|split; intros ? []]. apply opt_ok in Gx as [w Gx]. now apply (body_wf _ (read_wf E n)) in Gx. }
    apply Body in G3 as [B1 B2]. apply Body in G4 as [B3 B4]. apply Body in G5 as [B5 B6]. apply Body in G8 as [B7 B8].
    assert (Fc : forall k f, In (k, f) (dflt fcns []) -> function_name k /\ well_formed f /\ exists p r b, f = AFcnDef p r b).
    { intros k f I. destruct fcns as [l|]; [|destruct I]. cbn [dflt] in I. apply opt_ok in G6 as [w R]. destruct w as [| | | | | | |fd]; try discriminate.
      destruct (named_in _ _ _ _ _ _ R I) as (V & N & w & Rw). split; [now apply function_iff|]. eapply fcn_wf; eauto. }
    assert (Me : exists m0, dflt method "map" = m0 /\ In m0 ["map"; "emit"; "fold"]).
    { exists (dflt method "map"). split; [auto|]. destruct method as [s|]; [|left; reflexivity]. cbn [dflt]. apply opt_ok in G0 as [w R]. unfold read_method in R.
      destruct (read_string w) as [s'|]; cbn [rbind] in R; [|discriminate]. destruct (_ || _)%bool eqn:O in R; [|discriminate]. injection R as ->.
      rewrite !orb_true_iff, !String.eqb_eq in O. cbn [In]. intuition auto. }
    unfold well_formed_doc. cbn [co_method co_input co_output co_begin co_action co_end co_fcns co_zero co_merge co_cells co_pools co_seed co_version co_metadata co_options].
    split. { destruct Me as (? & -> & ?); auto. }
    split. { apply opt_ok in G1 as [w R]. injection R as <-. apply strip_clean. }
    split. { apply opt_ok in G2 as [w R]. injection R as <-. apply strip_clean. }
    split; [exact B1|]. split; [split; [exact Na|exact B3]|]. split; [exact B5|].
    split. { intros x I. rewrite !in_app_iff in I. destruct I as [I|[I|[I|[I|I]]]]; auto.
      { apply in_map_iff in I as ((k & f) & <- & I). now apply Fc in I. } }
    split. { intros k f I. apply Fc in I. tauto. }
    split. { intros M. rewrite M in Fold. cbn [String.eqb Ascii.eqb Bool.eqb] in Fold. destruct zero as [z|]; [|discriminate]. destruct merge as [m|]; [|discriminate].
      destruct m as [|m0 ms]; [discriminate|]. apply opt_ok in G7 as [w R]. injection R as <-.
      split; [eexists; split; [reflexivity|apply strip_clean]|]. eexists. split; [reflexivity|]. split; [discriminate|exact B7]. }
    split. { intros M. apply String.eqb_neq in M. rewrite M in Fold. destruct zero, merge; try discriminate; auto. }
    split. { intros k x I. destruct cells as [l|]; [|destruct I]. cbn [dflt] in I. apply opt_ok in G9 as [w R]. destruct w as [| | | | | | |fd]; try discriminate.
      destruct (named_in _ _ _ _ _ _ R I) as (V & N & w & Rw). split; [now apply symbol_iff|]. eapply cell_wf; eauto. }
    split. { intros k x I. destruct pools as [l|]; [|destruct I]. cbn [dflt] in I. apply opt_ok in G10 as [w R]. destruct w as [| | | | | | |fd]; try discriminate.
      destruct (named_in _ _ _ _ _ _ R I) as (V & N & w & Rw). split; [now apply symbol_iff|]. eapply pool_wf; eauto. }
    split. { intros v ->. apply opt_ok in G11 as [w R]. eapply long_ok; eauto. }
    split. { intros v ->. apply opt_ok in G13 as [w R]. eapply int_ok; eauto. }
    split. { destruct metadata as [l|]; [|intros ? ? []]. apply opt_ok in G14 as [w R]. now apply map_keys in R. }
    intros k v I. destruct options as [l|]; [|destruct I]. apply opt_ok in G15 as [w R]. eapply json_map_wf; eauto.
  Qed.

  Notation RT := (RT E).
  Lemma fcn_RT p r b : (forall x t, In (x, t) p -> symbol x /\ clean t) -> clean r -> is_body b -> (forall a, In a b -> RT a) ->
    ev (fun m => read_fcn (read E m) (write E (AFcnDef p r b)) = Ok (AFcnDef p r b)).
  Proof using.
    intros P R [Ne X] T. generalize (exprs_ev E b T X). apply ev_mono. intros m Y. cbn [write].
    unfold read_fcn. change (unmarked [("params", ?x); ?y; ?z]) with [("params", x); y; z].
    cbn [rmapM]. unfold fcn_field at 1. cbn [String.eqb Ascii.eqb Bool.eqb read_array].
    rewrite rmapM_back.
    2: { apply Forall_forall. intros [x t] I. destruct (P x t I) as [Sx Ct]. cbn [read_param].
         rewrite unmarked_id; [|intros k2 v2 [Eq|[]]; injection Eq as <- _; now apply symbol_mark].
         apply symbol_iff in Sx. now rewrite Sx, clean_strip. }
    cbn [rbind]. unfold fcn_field at 1. cbn [String.eqb Ascii.eqb Bool.eqb rbind]. unfold fcn_field at 1. cbn [String.eqb Ascii.eqb Bool.eqb read_body].
    rewrite Y. cbn [rbind assoc String.eqb Ascii.eqb Bool.eqb]. rewrite some_id by auto. cbn [rbind]. now rewrite clean_strip.
  Qed.
  Lemma cell_RT x : cell_shape x -> ce_source x = "embedded" -> read_cell (write_cell E x) = Ok x.
  Proof using.
    destruct x as [t [v|u] sh rb src]; unfold cell_shape; cbn [ce_type ce_init ce_shared ce_rollback ce_source]; intros (Ct & F & I) Q; [|subst src; destruct I; discriminate].
    subst src. destruct I as [Cv _].
    unfold write_cell, write_source. cbn [ce_type ce_init ce_shared ce_rollback ce_source String.eqb Ascii.eqb Bool.eqb app]. unfold read_cell.
    change (unmarked ?l) with l. unfold flag, source_of. cbn [assoc String.eqb Ascii.eqb Bool.eqb rbind].
    change (known_keys _) with true. cbn [orb rbind]. rewrite !clean_strip by auto. destruct sh, rb; try reflexivity. exfalso. auto.
  Qed.
  Lemma json_map_id m : (forall k u, In (k, u) m -> k <> "@" /\ clean u) -> json_map (VDict m) = Ok m.
  Proof using.
    intros H. cbn [json_map]. rewrite unmarked_id by (intros k u I; now apply H in I). f_equal. rewrite <- (map_id m) at 2.
    apply map_ext_in. intros [k u] I. cbn [fst snd]. f_equal. apply clean_strip. now apply H in I.
  Qed.
  Lemma pool_RT x : pool_shape x -> read_pool (write_pool x) = Ok x.
  Proof using.
    destruct x as [t i sh rb src]. unfold pool_shape; cbn [po_type po_init po_shared po_rollback po_source]. intros (Ct & F & -> & I).
    unfold write_pool, write_source. cbn [po_type po_init po_shared po_rollback po_source String.eqb Ascii.eqb Bool.eqb app]. unfold read_pool.
    change (unmarked (("type", ?t) :: ?l)) with (("type", t) :: l). unfold flag, source_of. cbn [assoc String.eqb Ascii.eqb Bool.eqb rbind].
    rewrite json_map_id by auto. cbn [rbind]. change (known_keys _) with true. cbn [orb]. rewrite clean_strip by auto. destruct sh, rb; try reflexivity. exfalso. auto.
  Qed.
  Lemma texts_RT m : no_mark m -> read_map read_string (VDict (mapv VStr m)) = Ok m.
  Proof using.
    intros N. cbn [read_map]. rewrite unmarked_id.
    - unfold mapv. apply (rmapM_back (fun p => x <- read_string (snd p) ;; Ok (fst p, x)) (fun p => (fst p, VStr (snd p)))).
      apply Forall_forall. intros [k s] _. reflexivity.
    - intros k v I. apply in_map_iff in I as ((k' & s) & Eq & I). injection Eq as -> _. eapply N; eauto.
  Qed.

  Theorem doc_RT c : well_formed_doc c -> plain_doc c -> ev (fun m => forall fresh, read_doc E m fresh (write_doc E c) = Ok c).
  Proof using B64.
    intros (Me & Ci & Co & Xb & [Na Xa] & Xe & W & Fc & Fo & Nf & Ce & Po & Se & Ve & Mt & Op) [P S].
    assert (T : forall a, In a (co_begin c ++ co_action c ++ co_end c ++ map snd (co_fcns c) ++ opt_list (co_merge c)) -> RT a).
    { intros a I. apply well_formed_RT; auto. }
    assert (Xm : exprs (opt_list (co_merge c))).
    { destruct (string_dec (co_method c) "fold") as [M|M]; [|destruct (Nf M) as [_ ->]; intros ? []].
      destruct (Fo M) as [_ (m & -> & _ & X)]. exact X. }
    assert (Ev : forall l, (forall a, In a l -> In a (co_begin c ++ co_action c ++ co_end c ++ map snd (co_fcns c) ++ opt_list (co_merge c))) -> exprs l ->
      ev (fun m => read_body (read E m) (VArr (map (write E) l)) = Ok l)).
    { intros l I X. exact (exprs_ev E l (fun a J => T a (I a J)) X). }
    pose proof (Ev (co_begin c) ltac:(intros a I; rewrite !in_app_iff; auto) Xb) as Fb.
    pose proof (Ev (co_action c) ltac:(intros a I; rewrite !in_app_iff; auto) Xa) as Fa.
    pose proof (Ev (co_end c) ltac:(intros a I; rewrite !in_app_iff; auto) Xe) as Fe.
    pose proof (Ev (opt_list (co_merge c)) ltac:(intros a I; rewrite !in_app_iff; auto) Xm) as Fm. clear Ev.
    assert (Ff : ev (fun m => Forall (fun p => valid_function (fst p) = true /\ fst p <> "@" /\ read_fcn (read E m) (write E (snd p)) = Ok (snd p)) (co_fcns c))).
    { apply ev_Forall. apply Forall_forall. intros [k x] I. cbn [fst snd]. destruct (Fc k x I) as (V & p & r & b & ->).
      assert (J : In (AFcnDef p r b) (co_begin c ++ co_action c ++ co_end c ++ map snd (co_fcns c) ++ opt_list (co_merge c))).
      { rewrite !in_app_iff. do 3 right. left. apply in_map_iff. eexists; split; [|exact I]. reflexivity. }
      destruct (W _ J _ (within_here _)) as (Pp & Cr & Bb).
      assert (Tb : forall a, In a b -> RT a).
      { intros a Ia. apply well_formed_RT; auto.
        - intros q Wq. apply (W _ J). eapply within_part; [|exact Wq]. exact Ia.
        - intros q Wq. apply (P _ J). eapply within_part; [|exact Wq]. exact Ia. }
      generalize (fcn_RT p r b Pp Cr Bb Tb). apply ev_mono. intros m Y. split; [now apply function_iff|]. split; [now apply function_mark|exact Y]. }
    generalize (ev_and _ _ Fb (ev_and _ _ Fa (ev_and _ _ Fe (ev_and _ _ Fm Ff)))). apply ev_mono.
    intros m (Yb & Ya & Ye & Ym & Yf) fresh. clear Fb Fa Fe Fm Ff.
    change (write_doc E c) with (VDict (entries E c)). unfold read_doc. rewrite (entries_unmarked E), (entries_keys E).
    rewrite (opt_at "name" _ _ _ (co_name c) (at_name E c) eq_refl). cbn [rbind].
    rewrite (opt_at "method" _ _ _ (co_method c) (at_method E c)).
    2: { cbn [In] in Me. unfold read_method. cbn [read_string rbind]. destruct Me as [<-|[<-|[<-|[]]]]; reflexivity. }
    cbn [rbind].
    rewrite (opt_at "input" _ _ _ (co_input c) (at_input E c)) by now rewrite clean_strip.
    cbn [rbind].
    rewrite (opt_at "output" _ _ _ (co_output c) (at_output E c)) by now rewrite clean_strip.
    cbn [rbind].
    rewrite (opt_kept "begin" _ _ _ _ (at_begin E c) (fun _ => Yb)). cbn [rbind].
    rewrite (opt_at "action" _ _ _ (co_action c) (at_action E c) Ya). cbn [rbind].
    rewrite (opt_kept "end" _ _ _ _ (at_end E c) (fun _ => Ye)). cbn [rbind].
    rewrite (opt_kept "fcns" _ _ _ _ (at_fcns E c)).
    2: { intros _. cbn [read_fcns]. apply named_back. intros k x I. rewrite Forall_forall in Yf. exact (Yf _ I). }
    cbn [rbind].
    assert (Zr : opt_field "zero" (fun v => Ok (strip v)) (entries E c) = Ok (co_zero c)).
    { unfold opt_field. rewrite at_zero. destruct (string_dec (co_method c) "fold") as [M|M].
      - destruct (Fo M) as [(z & -> & Cz) _]. cbn [rbind]. now rewrite clean_strip.
      - destruct (Nf M) as [-> _]. reflexivity. }
    rewrite Zr. cbn [rbind].
    assert (Mr : opt_field "merge" (read_body (read E m)) (entries E c) = Ok (co_merge c)).
    { unfold opt_field. rewrite at_merge. destruct (co_merge c) as [l|]; [|reflexivity]. cbn [option_map opt_list] in *. now rewrite Ym. }
    rewrite Mr. cbn [rbind].
    rewrite (opt_kept "cells" _ _ _ _ (at_cells E c)).
    2: { intros _. cbn [read_cells]. apply named_back. intros k x I. destruct (Ce _ _ I) as [Sk Cx]. split; [now apply symbol_iff|].
         split; [now apply symbol_mark|]. apply cell_RT; auto. eapply S; eauto. }
    cbn [rbind].
    rewrite (opt_kept "pools" _ _ _ _ (at_pools E c)).
    2: { intros _. cbn [read_pools]. apply named_back. intros k x I. destruct (Po _ _ I) as [Sk Cx]. split; [now apply symbol_iff|].
         split; [now apply symbol_mark|]. now apply pool_RT. }
    cbn [rbind].
    assert (Sr : opt_field "randseed" read_long (entries E c) = Ok (co_seed c)).
    { unfold opt_field. rewrite at_seed. destruct (co_seed c) as [z|]; [|reflexivity]. now rewrite read_long_ok by auto. }
    rewrite Sr. cbn [rbind].
    assert (Dr : opt_field "doc" read_string (entries E c) = Ok (co_doc c)).
    { unfold opt_field. rewrite at_doc. destruct (co_doc c); reflexivity. }
    rewrite Dr. cbn [rbind].
    assert (Vr : opt_field "version" read_int (entries E c) = Ok (co_version c)).
    { unfold opt_field. rewrite at_version. destruct (co_version c) as [z|]; [|reflexivity]. now rewrite read_int_ok by auto. }
    rewrite Vr. cbn [rbind].
    rewrite (opt_kept "metadata" _ _ _ _ (at_metadata E c)) by (intros _; now apply texts_RT).
    cbn [rbind].
    rewrite (opt_kept "options" _ _ _ _ (at_options E c)) by (intros _; now apply json_map_id).
    cbn [rbind]. rewrite at_mark, (some_id _ Na). cbn [rbind dflt].
    assert (Fold : (if String.eqb (co_method c) "fold"
                    then match co_zero c, co_merge c with Some _, Some (_ :: _) => true | _, _ => false end
                    else match co_zero c, co_merge c with None, None => true | _, _ => false end) = true).
    { destruct (String.eqb_spec (co_method c) "fold") as [M|M].
      - destruct (Fo M) as [(z & -> & _) (l & -> & Nl & _)]. destruct l; [congruence|reflexivity].
      - destruct (Nf M) as [-> ->]. reflexivity. }
    rewrite Fold. rewrite !dflt_kept. now destruct c.
  Qed.
End Docs.
