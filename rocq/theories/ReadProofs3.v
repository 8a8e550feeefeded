(** Documents read back from what the writer makes of them (C45). *)
From Verif Require Import Base PyNum ScopeModel ReadModel ReadSpec ReadProofs ReadProofs2.
From Coq Require Import Ascii.
Open Scope string_scope.
Open Scope list_scope.
Open Scope Z_scope.

Lemma assoc_app {A} k (l1 l2 : list (string * A)) : assoc k (l1 ++ l2) = match assoc k l1 with Some v => Some v | None => assoc k l2 end.
Proof. induction l1 as [|[k' v] l1 IH]; [reflexivity|]. cbn [app assoc]. destruct (String.eqb k k'); auto. Qed.
Lemma assoc_unless {A} k k' (f : list A -> val) l : String.eqb k k' = false -> assoc k (unless_empty k' f l) = None.
Proof. intros H. destruct l; [reflexivity|]. cbn [unless_empty assoc]. now rewrite H. Qed.
Lemma assoc_dict_if {A} k k' (f : A -> val) o : String.eqb k k' = false -> assoc k (dict_if k' f o) = None.
Proof. intros H. destruct o; [|reflexivity]. cbn [dict_if assoc]. now rewrite H. Qed.
Lemma assoc_unless_same {A} k (f : list A -> val) l : assoc k (unless_empty k f l) = match l with [] => None | _ => Some (f l) end.
Proof. destruct l; [reflexivity|]. cbn [unless_empty assoc]. now rewrite String.eqb_refl. Qed.
Lemma assoc_dict_if_same {A} k (f : A -> val) o : assoc k (dict_if k f o) = match o with None => None | Some x => Some (f x) end.
Proof. destruct o; [|reflexivity]. cbn [dict_if assoc]. now rewrite String.eqb_refl. Qed.
Lemma in_unless {A} k (f : list A -> val) l p : In p (unless_empty k f l) -> fst p = k.
Proof. destruct l; intros H; [destruct H|]. destruct H as [<-|[]]. reflexivity. Qed.
Lemma in_dict_if {A} k (f : A -> val) o p : In p (dict_if k f o) -> fst p = k.
Proof. destruct o; intros H; [|destruct H]. destruct H as [<-|[]]. reflexivity. Qed.
Lemma last_some {A} (x : option A) : match x with Some v => Some v | None => None end = x.
Proof. now destruct x. Qed.

Section Docs.
  Context (E : outside).
  Hypothesis B64 : base64_inverse E.

  (** the entries of a written document *)
  Definition entries (c : config) : list (string * val) := match write_doc E c with VDict d => d | _ => [] end.
  Lemma entries_known c k v : In (k, v) (entries c) -> In k top_keys.
  Proof.
    unfold entries, write_doc. rewrite !in_app_iff. intros H.
    repeat match type of H with
           | _ \/ _ => destruct H as [H|H]
           | In _ (unless_empty _ _ _) => apply in_unless in H; cbn [fst] in H; subst
           | In _ (dict_if _ _ _) => apply in_dict_if in H; cbn [fst] in H; subst
           | In _ _ => cbn [In] in H
           | _ = _ => injection H as <- _
           | False => destruct H
           end; cbn [top_keys In]; tauto.
  Qed.
  Lemma entries_unmarked c : unmarked (entries c) = entries c.
  Proof. apply unmarked_id. intros k v H ->. apply entries_known in H. cbn [top_keys In] in H. intuition discriminate. Qed.
  Lemma entries_keys c : forallb (fun k => existsb (String.eqb k) top_keys) (keys (entries c)) = true.
  Proof.
    apply forallb_forall. intros k H. apply in_map_iff in H as ((k' & v) & <- & H). apply entries_known in H. cbn [fst].
    apply existsb_exists. exists k'. split; [auto|apply String.eqb_refl].
  Qed.
  Ltac look :=
    unfold entries, write_doc; rewrite !assoc_app;
    repeat first [ rewrite assoc_unless by reflexivity | rewrite assoc_dict_if by reflexivity | rewrite assoc_unless_same | rewrite assoc_dict_if_same ];
    cbn [assoc String.eqb Ascii.eqb Bool.eqb];
    repeat first [ rewrite assoc_unless by reflexivity | rewrite assoc_dict_if by reflexivity | rewrite assoc_unless_same | rewrite assoc_dict_if_same ];
    repeat match goal with |- context [match match ?l with _ => _ end with _ => _ end] => destruct l end; reflexivity.
  Definition nonempty {A} (f : list A -> val) (l : list A) : option val := match l with [] => None | _ => Some (f l) end.
  Let many := fun l => VArr (map (write E) l).
  Lemma at_name c : assoc "name" (entries c) = Some (VStr (co_name c)). Proof. look. Qed.
  Lemma at_method c : assoc "method" (entries c) = Some (VStr (co_method c)). Proof. look. Qed.
  Lemma at_input c : assoc "input" (entries c) = Some (co_input c). Proof. look. Qed.
  Lemma at_output c : assoc "output" (entries c) = Some (co_output c). Proof. look. Qed.
  Lemma at_action c : assoc "action" (entries c) = Some (many (co_action c)). Proof. look. Qed.
  Lemma at_begin c : assoc "begin" (entries c) = nonempty many (co_begin c). Proof. look. Qed.
  Lemma at_end c : assoc "end" (entries c) = nonempty many (co_end c). Proof. look. Qed.
  Lemma at_fcns c : assoc "fcns" (entries c) = nonempty (fun l => VDict (mapv (write E) l)) (co_fcns c). Proof. look. Qed.
  Lemma at_cells c : assoc "cells" (entries c) = nonempty (fun l => VDict (mapv (write_cell E) l)) (co_cells c). Proof. look. Qed.
  Lemma at_pools c : assoc "pools" (entries c) = nonempty (fun l => VDict (mapv write_pool l)) (co_pools c). Proof. look. Qed.
  Lemma at_zero c : assoc "zero" (entries c) = co_zero c. Proof. look. Qed.
  Lemma at_merge c : assoc "merge" (entries c) = option_map many (co_merge c). Proof. look. Qed.
  Lemma at_seed c : assoc "randseed" (entries c) = co_seed c. Proof. look. Qed.
  Lemma at_doc c : assoc "doc" (entries c) = option_map VStr (co_doc c). Proof. look. Qed.
  Lemma at_version c : assoc "version" (entries c) = co_version c. Proof. look. Qed.
  Lemma at_metadata c : assoc "metadata" (entries c) = nonempty (fun l => VDict (mapv VStr l)) (co_metadata c). Proof. look. Qed.
  Lemma at_options c : assoc "options" (entries c) = nonempty VDict (co_options c). Proof. look. Qed.
  Lemma at_mark c : assoc "@" (entries c) = None. Proof. look. Qed.

  (** the parts of a document that was read *)
  Lemma named_in {A} valid (f : val -> res A) d l k a : read_named valid f d = Ok l -> In (k, a) l ->
    valid k = true /\ k <> "@" /\ exists v, f v = Ok a.
  Proof.
    unfold read_named. intros H I. destruct (forallb valid (keys (unmarked d))) eqn:F; [|discriminate].
    destruct (rmapM_in _ _ _ _ H I) as ([k' v] & J & X). cbn [fst snd] in X. destruct (f v) eqn:Fv; cbn [rbind] in X; [|discriminate].
    injection X as -> ->. rewrite forallb_forall in F. split; [apply F; apply in_map_iff; exists (k, v); auto|].
    apply unmarked_in in J as [_ J]. eauto.
  Qed.
  Lemma named_back {A} valid (f : val -> res A) (g : A -> val) l :
    (forall k a, In (k, a) l -> valid k = true /\ k <> "@" /\ f (g a) = Ok a) -> read_named valid f (mapv g l) = Ok l.
  Proof.
    intros H. unfold read_named, mapv. rewrite unmarked_id.
    2: { intros k v I. apply in_map_iff in I as ((k' & a) & Eq & I). injection Eq as -> _. now destruct (H _ _ I) as (_ & ? & _). }
    replace (forallb valid _) with true.
    2: { symmetry. apply forallb_forall. intros k I. unfold keys in I. rewrite map_map in I. apply in_map_iff in I as ((k' & a) & <- & I). now destruct (H _ _ I). }
    apply rmapM_back. apply Forall_forall. intros [k a] I. cbn [fst snd]. destruct (H _ _ I) as (_ & _ & ->). reflexivity.
  Qed.
  Lemma read_long_twice v y : read_long v = Ok y -> read_long y = Ok y.
  Proof. intros R. destruct v; cbn in R; try discriminate; [injection R as <-; auto|]. destruct (_ && _)%bool eqn:C in R; [|discriminate]. injection R as <-. cbn. now rewrite C. Qed.
  Lemma read_int_twice v y : read_int v = Ok y -> read_int y = Ok y.
  Proof. intros R. destruct v; cbn in R; try discriminate; [injection R as <-; auto|]. destruct (_ && _)%bool eqn:C in R; [|discriminate]. injection R as <-. cbn. now rewrite C. Qed.
  Lemma json_map_twice v m : json_map v = Ok m -> json_map (VDict m) = Ok m.
  Proof.
    destruct v as [| | | | | | |d]; try discriminate. cbn [json_map]. intros H. injection H as <-. f_equal. rewrite unmarked_id.
    - rewrite map_map. apply map_ext. intros [k v]. cbn [fst snd]. now rewrite strip_twice.
    - intros k v I. apply in_map_iff in I as ((k' & v') & Eq & I). injection Eq as -> _. now apply unmarked_in in I as [_ I].
  Qed.
  Lemma texts_back v m : read_map read_string v = Ok m -> read_map read_string (VDict (mapv VStr m)) = Ok m.
  Proof.
    destruct v as [| | | | | | |d]; try discriminate. cbn [read_map]. intros H. unfold mapv. rewrite unmarked_id.
    - apply rmapM_back. apply Forall_forall. intros [k a] I. reflexivity.
    - intros k w I. apply in_map_iff in I as ((k' & v') & Eq & I). injection Eq as -> _.
      destruct (rmapM_in _ _ _ _ H I) as ([k2 v2] & J & X). cbn [fst snd] in X. destruct (read_string v2); cbn [rbind] in X; [|discriminate].
      injection X as -> ->. now apply unmarked_in in J as [_ J].
  Qed.
  Lemma cell_back v x : read_cell v = Ok x -> ce_source x = "embedded" -> read_cell (write_cell E x) = Ok x.
  Proof.
    destruct v as [| | | | | | |d0]; try discriminate. cbn [read_cell]. set (d := unmarked d0). intros H S.
    destruct (flag "shared" d) as [sh|]; cbn [rbind] in H; [|discriminate]. destruct (flag "rollback" d) as [rb|]; cbn [rbind] in H; [|discriminate].
    destruct (source_of d) as [src|]; cbn [rbind] in H; [|discriminate]. destruct (known_keys d); [|discriminate].
    destruct (assoc "type" d) as [t|]; [|discriminate]. destruct (assoc "init" d) as [i|]; [|discriminate].
    destruct (if (String.eqb src "avro" || String.eqb src "json")%bool then _ else _) as [ini|] eqn:I in H; cbn [rbind] in H; [|discriminate].
    destruct (sh && rb)%bool eqn:C; [discriminate|]. injection H as <-. cbn [ce_source] in S. subst src.
    cbn [String.eqb Ascii.eqb Bool.eqb orb] in I. injection I as <-.
    unfold write_cell. cbn [ce_type ce_init ce_shared ce_rollback ce_source write_source String.eqb Ascii.eqb Bool.eqb app].
    unfold read_cell. change (unmarked ?l) with l. unfold flag, source_of. cbn [assoc String.eqb Ascii.eqb Bool.eqb rbind].
    change (known_keys _) with true. cbn [orb]. rewrite C. cbn [rbind]. now rewrite !strip_twice.
  Qed.
  Lemma pool_back v x : read_pool v = Ok x -> read_pool (write_pool x) = Ok x.
  Proof.
    destruct v as [| | | | | | |d0]; try discriminate. cbn [read_pool]. set (d := unmarked d0). intros H.
    destruct (flag "shared" d) as [sh|]; cbn [rbind] in H; [|discriminate]. destruct (flag "rollback" d) as [rb|]; cbn [rbind] in H; [|discriminate].
    destruct (source_of d) as [src|]; cbn [rbind] in H; [|discriminate].
    destruct (match assoc "init" d with Some i => json_map i | None => Ok [] end) as [ini|] eqn:I; cbn [rbind] in H; [|discriminate].
    destruct (known_keys d); [|discriminate].
    destruct (assoc "type" d) as [t|]; [|discriminate].
    destruct (String.eqb src "avro" || String.eqb src "json")%bool; [discriminate|].
    destruct (String.eqb_spec src "embedded") as [->|]; [|discriminate].
    destruct (sh && rb)%bool eqn:C; [discriminate|]. injection H as <-.
    assert (J : json_map (VDict ini) = Ok ini). { destruct (assoc "init" d); [eapply json_map_twice; eauto|]. injection I as <-. reflexivity. }
    unfold write_pool. cbn [po_type po_init po_shared po_rollback po_source write_source String.eqb Ascii.eqb Bool.eqb app].
    unfold read_pool. change (unmarked [("type", ?a); ?b; ?c; ?e]) with [("type", a); b; c; e].
    unfold flag, source_of. cbn [assoc String.eqb Ascii.eqb Bool.eqb rbind]. rewrite J. cbn [rbind].
    change (known_keys _) with true. cbn [orb]. rewrite C. now rewrite strip_twice.
  Qed.
  Lemma fcn_back n v a : read_fcn (read E n) v = Ok a -> plain_ints a -> ev (fun m => read_fcn (read E m) (write E a) = Ok a).
  Proof using B64.
    destruct v as [| | | | | | |d]; try discriminate. cbn [read_fcn]. intros H T.
    destruct (rmapM (fcn_field (read E n)) (unmarked d)) as [fs|] eqn:R; cbn [rbind] in H; [|discriminate].
    destruct (assoc "params" fs) as [[| | | | | |ps| | | |]|] eqn:A1; try discriminate.
    destruct (assoc "ret" fs) as [[r| | | | | | | | | |]|] eqn:A2; try discriminate.
    destruct (assoc "do" fs) as [[| |b| | | | | | | |]|] eqn:A3; try discriminate.
    destruct b as [|b0 bs]; [discriminate|]. cbn [some rbind] in H. injection H as <-.
    apply assoc_In in A1, A2, A3.
    destruct (rmapM_in _ _ _ _ R A1) as ([k1 v1] & _ & X1). destruct (rmapM_in _ _ _ _ R A2) as ([k2 v2] & _ & X2).
    destruct (rmapM_in _ _ _ _ R A3) as ([k3 v3] & _ & X3). clear R A1 A2 A3. unfold fcn_field in X1, X2, X3.
    destruct (String.eqb k1 "params").
    2: { destruct (String.eqb k1 "ret"); [discriminate|]. destruct (String.eqb k1 "do"); [|discriminate]. destruct (read_body (read E n) v1); discriminate. }
    destruct (read_array read_param v1) as [ps'|] eqn:P; cbn [rbind] in X1; [|discriminate]. injection X1 as _ ->.
    destruct (String.eqb k2 "params"). { destruct (read_array read_param v2); discriminate. }
    destruct (String.eqb k2 "ret").
    2: { destruct (String.eqb k2 "do"); [|discriminate]. destruct (read_body (read E n) v2); discriminate. }
    injection X2 as _ <-.
    destruct (String.eqb k3 "params"). { destruct (read_array read_param v3); discriminate. }
    destruct (String.eqb k3 "ret"); [discriminate|]. destruct (String.eqb k3 "do"); [|discriminate].
    destruct (read_body (read E n) v3) as [b'|] eqn:B; cbn [rbind] in X3; [|discriminate]. injection X3 as _ ->.
    destruct v1 as [| | | | | |l|]; try discriminate. cbn [read_array] in P.
    assert (P' : rmapM read_param (map (fun p => VDict [p]) ps) = Ok ps).
    { apply rmapM_back. apply Forall_forall. intros p I. destruct (rmapM_in _ _ _ _ P I) as (w & _ & X). eapply param_back; eauto. }
    assert (Tb : forall a, In a (b0 :: bs) -> plain_ints a) by (intros a I; apply (tame_part _ _ T); exact I).
    generalize (body_back E (read E n) (read_back E B64 n) _ _ B Tb). apply ev_mono. intros m X. cbn [write].
    unfold read_fcn. change (unmarked [("params", ?x); ?y; ?z]) with [("params", x); y; z].
    cbn [rmapM]. unfold fcn_field at 1. cbn [String.eqb Ascii.eqb Bool.eqb read_array]. rewrite P'. cbn [rbind].
    unfold fcn_field at 1. cbn [String.eqb Ascii.eqb Bool.eqb rbind]. unfold fcn_field at 1. cbn [String.eqb Ascii.eqb Bool.eqb].
    rewrite X. cbn [rbind assoc String.eqb Ascii.eqb Bool.eqb some]. now rewrite strip_twice.
  Qed.

  Definition kept {A} (l : list A) : option (list A) := match l with [] => None | _ => Some l end.
  Lemma dflt_kept {A} (l : list A) : dflt (kept l) [] = l.
  Proof. now destruct l. Qed.
  Lemma opt_ok {A} k (f : val -> res A) d x : opt_field k f d = Ok (Some x) -> exists v, f v = Ok x.
  Proof. unfold opt_field. destruct (assoc k d) as [v|]; [|discriminate]. destruct (f v) eqn:Fv; cbn [rbind]; [|discriminate]. intros H. injection H as <-. eauto. Qed.
  Lemma opt_at {A} k (f : val -> res A) d v x : assoc k d = Some v -> f v = Ok x -> opt_field k f d = Ok (Some x).
  Proof. unfold opt_field. now intros -> ->. Qed.
  Lemma opt_kept {A} k (f : val -> res (list A)) d g l : assoc k d = nonempty g l -> (l <> [] -> f (g l) = Ok l) -> opt_field k f d = Ok (kept l).
  Proof. unfold opt_field. intros ->. destruct l; [reflexivity|]. cbn [nonempty kept]. intros ->; [reflexivity|discriminate]. Qed.
  Lemma body_field n k d (o : option (list node)) : opt_field k (read_body (read E n)) d = Ok o -> (forall a, In a (dflt o []) -> plain_ints a) ->
    ev (fun m => dflt o [] <> [] -> read_body (read E m) (many (dflt o [])) = Ok (dflt o [])).
  Proof using B64.
    intros H T. destruct o as [l|]; [|apply ev_all; intros m X; now destruct X]. cbn [dflt] in *. apply opt_ok in H as [v H].
    generalize (body_back E (read E n) (read_back E B64 n) _ _ H T). apply ev_mono. auto.
  Qed.

  (** Every document that was read, with plain integers and its data in it, reads back from what the writer makes of it. *)
  Theorem doc_back n fresh v c : read_doc E n fresh v = Ok c -> plain_doc c ->
    ev (fun m => forall fresh', read_doc E m fresh' (write_doc E c) = Ok c).
  Proof using B64.
    destruct v as [| | | | | | |d0]; try discriminate. cbn [read_doc]. set (d := unmarked d0). intros H [P S].
    destruct (forallb _ (keys d)); [|discriminate].
    repeat match type of H with rbind ?m _ = Ok _ => let G := fresh "G" in destruct m eqn:G; cbn [rbind] in H; [|discriminate H] end.
    rename a into name, a0 into method, a1 into input, a2 into output, a3 into bgn, a4 into action, a5 into fin, a6 into fcns,
      a7 into zero, a8 into merge, a9 into cells, a10 into pools, a11 into seed, a12 into doc, a13 into version, a14 into metadata, a15 into options.
    destruct input as [i|]; [|discriminate]. destruct output as [o|]; [|discriminate]. destruct action as [a|]; [|discriminate].
    destruct (match assoc "@" d0 with Some (VStr _) | Some VNull | None => true | Some _ => false end); [|discriminate].
    destruct (some a) as [a'|] eqn:Na; cbn [rbind] in H; [|discriminate]. apply some_ok in Na as [-> Na].
    destruct (if String.eqb (dflt method "map") "fold" then _ else _) eqn:Fold in H; [|discriminate].
    injection H as <-. set (c := Config _ _ _ _ _ _ _ _ _ _ _ _ _ _ _ _ _) in *.
    pose proof (body_field n "begin" d bgn G3) as Fb.
    pose proof (body_field n "action" d (Some a) G4) as Fa.
    pose proof (body_field n "end" d fin G5) as Fe.
    pose proof (body_field n "merge" d merge G8) as Fm.
    specialize (Fb ltac:(intros x I; apply P; unfold c; cbn [co_begin]; rewrite !in_app_iff; auto)).
    specialize (Fa ltac:(intros x I; apply P; unfold c; cbn [co_action]; rewrite !in_app_iff; auto)).
    specialize (Fe ltac:(intros x I; apply P; unfold c; cbn [co_end]; rewrite !in_app_iff; auto)).
    specialize (Fm ltac:(intros x I; apply P; unfold c; cbn [co_merge]; rewrite !in_app_iff; destruct merge; cbn [dflt opt_list In] in *; tauto)).
    assert (Ff : ev (fun m => Forall (fun p => valid_function (fst p) = true /\ fst p <> "@" /\ read_fcn (read E m) (write E (snd p)) = Ok (snd p)) (co_fcns c))).
    { apply ev_Forall. apply Forall_forall. intros [k x] I. cbn [fst snd]. unfold c in I; cbn [co_fcns] in I.
      destruct fcns as [l|]; [|destruct I]. cbn [dflt] in I. apply opt_ok in G6 as [w R]. destruct w as [| | | | | | |fd]; try discriminate.
      destruct (named_in _ _ _ _ _ _ R I) as (V & N & w & Rw).
      assert (Tx : plain_ints x). { apply P. unfold c; cbn [co_fcns dflt]. rewrite !in_app_iff. do 3 right. left. apply in_map_iff. exists (k, x). auto. }
      generalize (fcn_back _ _ _ Rw Tx). apply ev_mono. auto. }
    generalize (ev_and _ _ Fb (ev_and _ _ Fa (ev_and _ _ Fe (ev_and _ _ Fm Ff)))). apply ev_mono.
    intros m (Xb & Xa & Xe & Xm & Xf) fresh'. clear Fb Fa Fe Fm Ff.
    change (write_doc E c) with (VDict (entries c)). unfold read_doc. rewrite entries_unmarked, entries_keys.
    rewrite (opt_at "name" _ _ _ (co_name c) (at_name c) eq_refl). cbn [rbind].
    rewrite (opt_at "method" _ _ _ (co_method c) (at_method c)).
    2: { unfold c; cbn [co_method]. destruct method as [s|]; [|reflexivity]. cbn [dflt]. apply opt_ok in G0 as [w R]. unfold read_method in *.
         destruct (read_string w) as [s'|]; cbn [rbind read_string] in *; [|discriminate]. destruct (_ || _)%bool eqn:O in R; [|discriminate]. injection R as ->. now rewrite O. }
    cbn [rbind].
    rewrite (opt_at "input" _ _ _ (co_input c) (at_input c)).
    2: { unfold c; cbn [co_input]. apply opt_ok in G1 as [w R]. injection R as <-. now rewrite strip_twice. }
    cbn [rbind].
    rewrite (opt_at "output" _ _ _ (co_output c) (at_output c)).
    2: { unfold c; cbn [co_output]. apply opt_ok in G2 as [w R]. injection R as <-. now rewrite strip_twice. }
    cbn [rbind].
    rewrite (opt_kept "begin" _ _ _ _ (at_begin c) Xb). cbn [rbind].
    rewrite (opt_at "action" _ _ _ (co_action c) (at_action c)).
    2: { apply Xa. exact Na. }
    cbn [rbind].
    rewrite (opt_kept "end" _ _ _ _ (at_end c) Xe). cbn [rbind].
    rewrite (opt_kept "fcns" _ _ _ _ (at_fcns c)).
    2: { intros _. cbn [read_fcns]. apply named_back. intros k x I. rewrite Forall_forall in Xf. exact (Xf _ I). }
    cbn [rbind].
    assert (Zr : opt_field "zero" (fun v => Ok (strip v)) (entries c) = Ok (co_zero c)).
    { unfold opt_field. rewrite at_zero. unfold c; cbn [co_zero]. destruct zero as [z|]; [|reflexivity]. apply opt_ok in G7 as [w R]. injection R as <-. cbn [rbind]. now rewrite strip_twice. }
    rewrite Zr. cbn [rbind].
    assert (Mr : opt_field "merge" (read_body (read E m)) (entries c) = Ok (co_merge c)).
    { unfold opt_field. rewrite at_merge. unfold c; cbn [co_merge]. destruct merge as [l|]; [|reflexivity]. cbn [option_map dflt] in *.
      destruct l as [|x l]; [|rewrite Xm by discriminate; reflexivity].
      destruct (String.eqb (dflt method "map") "fold"), zero; discriminate. }
    rewrite Mr. cbn [rbind].
    rewrite (opt_kept "cells" _ _ _ _ (at_cells c)).
    2: { intros _. cbn [read_cells]. apply named_back. intros k x I. specialize (S _ _ I). unfold c in I; cbn [co_cells] in I.
         destruct cells as [l|]; [|destruct I]. cbn [dflt] in I. apply opt_ok in G9 as [w R]. destruct w as [| | | | | | |fd]; try discriminate.
         destruct (named_in _ _ _ _ _ _ R I) as (V & N & w & Rw). repeat (split; auto). eapply cell_back; eauto. }
    cbn [rbind].
    rewrite (opt_kept "pools" _ _ _ _ (at_pools c)).
    2: { intros _. cbn [read_pools]. apply named_back. intros k x I. unfold c in I; cbn [co_pools] in I.
         destruct pools as [l|]; [|destruct I]. cbn [dflt] in I. apply opt_ok in G10 as [w R]. destruct w as [| | | | | | |fd]; try discriminate.
         destruct (named_in _ _ _ _ _ _ R I) as (V & N & w & Rw). repeat (split; auto). eapply pool_back; eauto. }
    cbn [rbind].
    assert (Sr : opt_field "randseed" read_long (entries c) = Ok (co_seed c)).
    { unfold opt_field. rewrite at_seed. unfold c; cbn [co_seed]. destruct seed as [z|]; [|reflexivity]. apply opt_ok in G11 as [w R]. now rewrite (read_long_twice _ _ R). }
    rewrite Sr. cbn [rbind].
    assert (Dr : opt_field "doc" read_string (entries c) = Ok (co_doc c)).
    { unfold opt_field. rewrite at_doc. destruct (co_doc c); reflexivity. }
    rewrite Dr. cbn [rbind].
    assert (Vr : opt_field "version" read_int (entries c) = Ok (co_version c)).
    { unfold opt_field. rewrite at_version. unfold c; cbn [co_version]. destruct version as [z|]; [|reflexivity]. apply opt_ok in G13 as [w R]. now rewrite (read_int_twice _ _ R). }
    rewrite Vr. cbn [rbind].
    rewrite (opt_kept "metadata" _ _ _ _ (at_metadata c)).
    2: { intros _. unfold c; cbn [co_metadata]. destruct metadata as [l|]; [|reflexivity]. apply opt_ok in G14 as [w R]. eapply texts_back; eauto. }
    cbn [rbind].
    rewrite (opt_kept "options" _ _ _ _ (at_options c)).
    2: { intros _. unfold c; cbn [co_options]. destruct options as [l|]; [|reflexivity]. apply opt_ok in G15 as [w R]. eapply json_map_twice; eauto. }
    cbn [rbind]. rewrite at_mark. unfold c at 1; cbn [co_action]. rewrite (some_id a Na). cbn [rbind dflt].
    unfold c; cbn [co_method co_zero co_merge]. rewrite Fold. rewrite !dflt_kept. reflexivity.
  Qed.
End Docs.
