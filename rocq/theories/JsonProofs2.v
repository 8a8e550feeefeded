(** Proofs about JsonModel: input checking. *)
From Verif Require Import Base PyNum PyNumProofs NumOrder ScopeModel TypeModel TypeSpec TypeProofs TypeProofs2 JsonModel JsonSpec JsonFuel JsonProofs.
Open Scope string_scope.
Open Scope list_scope.

Lemma vta_ok {A} (r : res A) a : value_error_as_type_error r = Ok a -> r = Ok a.
Proof. unfold value_error_as_type_error. destruct r as [|[]]; try discriminate; auto. destruct (String.eqb _ _); discriminate. Qed.
Lemma first_checked_ok f ts w : first_checked f ts = Ok w -> exists t x, In t ts /\ f t = Ok x /\ w = wrap (tyname t) x.
Proof.
  induction ts as [|t ts IH]; cbn; [discriminate|]. destruct (f t) as [x|[]] eqn:E; try discriminate.
  - intros H. injection H as <-. exists t, x. auto.
  - destruct (String.eqb _ _); [|discriminate]. intros H. destruct (IH H) as (t' & x & Ht & E1 & E2). eauto 6.
Qed.
Lemma list_as_map_ok f l w : list_as_map f l = Ok w -> w = VDict [].
Proof.
  destruct l as [|k l]; cbn; [congruence|]. destruct (as_index k); [|discriminate]. destruct (nth_py _ _); [|discriminate].
  destruct (f v); discriminate.
Qed.
(** the list of a non-empty array is checked elementwise *)
Lemma rmapM_keys (f : field -> res (string * val)) fs out : rmapM f fs = Ok out -> (forall a b, f a = Ok b -> fst b = f_name a) -> map fst out = map f_name fs.
Proof. intros H K. apply rmapM_ok_Forall2 in H. induction H; cbn; [reflexivity|]. f_equal; auto. Qed.
Lemma check_null_other n P D t : wf t -> is_union t = false -> t <> TNull -> check (S n) P D VNull t = type_error.
Proof. destruct t; cbn; try reflexivity; try discriminate; tauto. Qed.
Lemma first_checked_null n P D ts : (forall t, In t ts -> wf t /\ is_union t = false) -> In TNull ts -> (forall t, In t ts -> tyname t = "null" -> t = TNull) ->
  first_checked (fun t => check (S n) P D VNull t) ts = Ok VNull.
Proof.
  intros W H N. induction ts as [|t ts IH]; [destruct H|]. cbn [first_checked].
  assert (Ht : t = TNull \/ t <> TNull) by (destruct t; auto; right; discriminate).
  destruct Ht as [->|Ht]; [reflexivity|]. rewrite check_null_other; auto; try (apply W; now left). cbn.
  apply IH; [intros; apply W; now right| |intros; apply N; auto; now right]. destruct H as [->|H]; [congruence|exact H].
Qed.

Section Check.
  Variables (P : parsers) (D : defs).
  Hypothesis WD : wf_defs D.
  Hypothesis UD : defs_sat uniq D.
  Hypothesis ND : defs_sat null_names D.
  Lemma check_shape n : forall t v w, wf t -> null_names t -> check n P D v t = Ok w -> shape n D t w.
  Proof.
    induction n as [|n IH]; intros t v w W Nn H; [discriminate|]. cbn [check] in H. cbn [shape].
    destruct t; try (now destruct W).
    - destruct v; try discriminate; [injection H as <-; exact I|]. destruct (String.eqb _ _); [injection H as <-; exact I|discriminate].
    - destruct v; try discriminate; [injection H as <-; exact I|]. repeat (destruct (String.eqb _ _); [injection H as <-; exact I|]). discriminate.
    - destruct v; try discriminate; try (injection H as <-; exact I). destruct (value_error_as_type_error _); [|discriminate]. injection H as <-. exact I.
    - destruct v; try discriminate; try (injection H as <-; exact I). destruct (value_error_as_type_error _); [|discriminate]. injection H as <-. exact I.
    - destruct v; try discriminate; try (injection H as <-; exact I).
      + cbn [to_float] in H. destruct (py_float z); [|discriminate]. injection H as <-. exact I.
      + destruct (value_error_as_type_error _); [|discriminate]. injection H as <-. exact I.
    - destruct v; try discriminate; try (injection H as <-; exact I).
      + cbn [to_float] in H. destruct (py_float z); [|discriminate]. injection H as <-. exact I.
      + destruct (value_error_as_type_error _); [|discriminate]. injection H as <-. exact I.
    - destruct v; try discriminate; injection H as <-; exact I.
    - destruct v; try discriminate; injection H as <-; exact I.
    - destruct v; try discriminate; injection H as <-; exact I.
    - destruct v; try discriminate; injection H as <-; exact I.
    - match type of H with match ?e with Some _ => _ | None => _ end = _ => destruct e as [l|]; [|discriminate] end.
      destruct (rmapM _ l) as [l'|] eqn:E; cbn [rbind] in H; [|discriminate]. injection H as <-.
      intros x Hx. destruct (rmapM_in _ _ _ _ E Hx) as (y & _ & Ey). eapply IH; eauto.
    - destruct v; try discriminate.
      + destruct s; [|discriminate]. injection H as <-. intros k x [].
      + apply list_as_map_ok in H as ->. intros k x [].
      + apply list_as_map_ok in H as ->. intros k x [].
      + destruct (on_values _ d) as [l'|] eqn:E; cbn [rbind] in H; [|discriminate]. injection H as <-.
        intros k x Hx. destruct (on_values_in _ _ _ _ _ E Hx) as (y & _ & Ey). eapply IH; eauto.
    - destruct v; try discriminate;
        try (destruct (fields_of D name) eqn:Ef; [injection H as <-; constructor|discriminate]).
      destruct (rmapM _ _) as [out|] eqn:E; cbn [rbind] in H; [|discriminate]. injection H as <-.
      destruct (WD name) as [_ Wf]. pose proof (ND name) as NDn. apply rmapM_ok_Forall2 in E. clear - E IH Wf NDn.
      induction E as [|f kx fs out Hf E IHE]; constructor.
      + destruct (assoc (f_name f) d) as [x|]; [|discriminate]. destruct (check n P D x (f_type f)) as [y|] eqn:Ec; cbn in Hf; [|discriminate].
        injection Hf as <-. split; [reflexivity|]. eapply IH; eauto; [apply Wf|apply NDn]; now left.
      + apply IHE; intros; [apply Wf|apply NDn]; now right.
    - pose proof (proj1 (wf_union _) W) as Wm. pose proof (proj1 (null_names_union _) Nn) as Nm.
      assert (K : forall t x w', In t types -> check n P D x t = Ok w' ->
                match wrap (tyname t) w' with
                | VNull => In TNull types /\ n <> O
                | VDict [(tag, x)] => exists t', In t' types /\ tyname t' = tag /\ t' <> TNull /\ shape n D t' x
                | _ => False
                end).
      { intros t x w' Ht Hc. destruct (Wm t Ht) as [Wt Ut]. destruct (Nm t Ht) as [N1 N2].
        unfold wrap. destruct (String.eqb_spec (tyname t) "null") as [E|E].
        - rewrite (N1 E) in *. destruct n; [discriminate|]. cbn [check] in Hc. destruct x; try discriminate.
          + injection Hc as <-. split; [exact Ht|discriminate].
          + destruct (String.eqb s "null"); [injection Hc as <-; split; [exact Ht|discriminate]|discriminate].
        - exists t. split; [exact Ht|]. split; [reflexivity|]. split; [intros ->; now apply E|]. eapply IH; eauto. }
      assert (Kf : forall v0, first_checked (fun t' => check n P D v0 t') types = Ok w ->
                match w with
                | VNull => In TNull types /\ n <> O
                | VDict [(tag, x)] => exists t', In t' types /\ tyname t' = tag /\ t' <> TNull /\ shape n D t' x
                | _ => False
                end).
      { intros v0 Hf. apply first_checked_ok in Hf as (t & x & Ht & Ec & ->). eapply K; eauto. }
      destruct v as [| | | | | | |[|[g x] [|]]]; try (apply Kf in H; exact H).
      destruct (named g types) as [t|] eqn:En; [|discriminate]. apply named_In in En as [Ht <-].
      destruct (check n P D x t) as [y|] eqn:Ec; cbn [rbind] in H; [|discriminate]. injection H as <-. eapply K; eauto.
  Qed.
  (** a value of the right shape is checked to itself *)
  Lemma shape_fix n : forall t w, wf t -> uniq t -> null_names t -> shape n D t w -> check n P D w t = Ok w.
  Proof.
    induction n as [|n IH]; intros t w W U Nn H; [destruct H|]. cbn [check]. cbn [shape] in H.
    destruct t; try (now destruct W).
    - destruct w; try tauto.
    - destruct w; try tauto.
    - destruct w; try tauto.
    - destruct w; try tauto.
    - destruct w; try tauto.
    - destruct w; try tauto.
    - destruct w; try tauto.
    - destruct w; try tauto.
    - destruct w; try tauto.
    - destruct w; try tauto.
    - destruct w; try tauto. assert (E : rmapM (fun x => check n P D x t) l = Ok l); [|rewrite E; reflexivity].
      induction l as [|x l IHl]; [reflexivity|]. cbn [rmapM]. rewrite (IH t x) by (auto; apply H; now left). cbn [rbind].
      rewrite IHl by (intros; apply H; now right). reflexivity.
    - destruct w; try tauto. assert (E : on_values (fun x => check n P D x t) d = Ok d); [|rewrite E; reflexivity].
      unfold on_values. induction d as [|[k x] d IHl]; [reflexivity|]. cbn [rmapM fst snd]. rewrite (IH t x) by (auto; eapply H; now left). cbn [rbind].
      rewrite IHl by (intros; eapply H; right; eassumption). reflexivity.
    - destruct w; try tauto. destruct (WD name) as [Nd Wf]. pose proof (ND name) as NDn. pose proof (UD name) as UDn.
      remember (fields_of D name) as fs eqn:Efs.
      assert (Ek : map fst d = map f_name fs) by (clear - H; induction H as [|f kx ? ? [E _]]; cbn; congruence).
      assert (Nd' : NoDup (map fst d)) by congruence.
      assert (E : forall full, (forall kx, In kx d -> assoc (fst kx) full = Some (snd kx)) ->
                rmapM (fun f => match assoc (f_name f) full with
                                | Some x => w <- check n P D x (f_type f) ;; Ok (f_name f, w)
                                | None => type_error
                                end) fs = Ok d).
      { intros full L. clear - H IH Wf NDn UDn L. induction H as [|f [k x] fs d [E Hx] F IHF]; [reflexivity|].
        cbn [fst snd] in *. subst k. cbn [rmapM]. pose proof (L _ (or_introl eq_refl)) as La. cbn [fst snd] in La. rewrite La.
        rewrite (IH (f_type f) x) by (first [apply Wf; now left|apply UDn; now left|apply NDn; now left|exact Hx]). cbn [rbind].
        rewrite IHF; [reflexivity|intros; apply Wf; now right|intros ? Hi; apply NDn; now right|intros ? Hi; apply UDn; now right|intros; apply L; now right]. }
      rewrite (E d); [reflexivity|]. intros [k x] Hk. now apply NoDup_assoc.
    - pose proof (proj1 (wf_union _) W) as Wm. pose proof (proj1 (null_names_union _) Nn) as Nm. apply uniq_union in U as [Nd U].
      rewrite Forall_forall in U. destruct w as [| | | | | | |[|[g x] [|]]]; try tauto.
      + destruct H as [H Hn]. destruct n as [|n]; [congruence|]. apply first_checked_null; auto. intros t Ht. apply Nm, Ht.
      + destruct H as (t & Ht & <- & Hn & Hx). rewrite named_uniq by auto. rewrite (IH t x) by (auto; try apply Wm; try apply Nm; auto). cbn [rbind].
        unfold wrap. destruct (String.eqb_spec (tyname t) "null") as [E|E]; [|reflexivity]. destruct Hn. now apply (Nm t Ht).
  Qed.
End Check.
