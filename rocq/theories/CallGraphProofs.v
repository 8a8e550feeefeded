From Verif Require Import Base CallGraphModel CallGraphSpec.

Lemma inb_In x l : inb x l = true <-> In x l.
Proof.
  induction l; cbn; [intuition congruence|]. destruct (String.eqb_spec x a) as [->|N]; split; auto.
  - intros H. right. apply IHl; auto.
  - intros [->|H]; [congruence|]. apply IHl; auto.
Qed.
Lemma inb_nIn x l : inb x l = false <-> ~ In x l.
Proof. rewrite <- inb_In. destruct (inb x l); intuition congruence. Qed.

Section G.
  Variable g : call_graph.
  Lemma chain_trans f n c m h : chain g f n c -> chain g c m h -> chain g f (n + m) h.
  Proof. induction 1; cbn; auto. intros. econstructor; eauto. Qed.
  (** keys of g outside the exclude list: termination measure *)
  Definition free (e : list string) : list string := filter (fun k => negb (inb k e)) (keys g).
  Lemma free_cons f e : In f (keys g) -> ~ In f e -> (length (free (f :: e)) < length (free e))%nat.
  Proof.
    intros H N. unfold free. revert H. generalize (keys g) as ks.
    assert (forall ks, length (filter (fun k => negb (inb k (f :: e))) ks) <= length (filter (fun k => negb (inb k e)) ks))%nat as L.
    { induction ks; cbn in *; auto. destruct (String.eqb a f); cbn; destruct (inb a e); cbn; lia. }
    induction ks as [|k ks IH]; cbn; [tauto|]. intros [->|H].
    - rewrite String.eqb_refl. cbn. apply inb_nIn in N. rewrite N. cbn. specialize (L ks). cbn in L. lia.
    - specialize (IH H). destruct (String.eqb k f); cbn; destruct (inb k e); cbn in *; lia.
  Qed.
  Lemma assoc_keys f cs : assoc f g = Some cs -> In f (keys g).
  Proof. intros H. apply assoc_In in H. apply in_map_iff. exists (f, cs). auto. Qed.

  (** ** calledBy *)
  Lemma calledBy_total fuel e f : (length (free e) < fuel)%nat -> calledBy fuel g e f <> None.
  Proof.
    revert e f. induction fuel; intros e f H; [lia|]. cbn.
    destruct (inb f e) eqn:E; [congruence|]. destruct (assoc f g) as [cs|] eqn:A; [|congruence].
    apply inb_nIn in E. pose proof (free_cons f e (assoc_keys _ _ A) E).
    match goal with |- context [match ?X with Some _ => _ | None => None end] => destruct X eqn:G end; [congruence|].
    exfalso. revert G. generalize cs as l. induction l; cbn; [congruence|].
    destruct (calledBy fuel g (f :: e) a) eqn:C; [|exfalso; eapply IHfuel; [|eauto]; lia].
    match goal with |- context [match ?X with Some _ => _ | None => None end] => destruct X end; congruence.
  Qed.
  Lemma calledBy_unfold fuel e f r : calledBy (S fuel) g e f = Some r ->
    (In f e /\ r = []) \/ (~ In f e /\ assoc f g = None /\ r = []) \/
    (~ In f e /\ exists cs, assoc f g = Some cs /\
       (forall x, In x r <-> In x cs \/ exists c r', In c cs /\ calledBy fuel g (f :: e) c = Some r' /\ In x r') /\
       (forall c, In c cs -> calledBy fuel g (f :: e) c <> None)).
  Proof.
    cbn. destruct (inb f e) eqn:E.
    { intros H. injection H as <-. apply inb_In in E. auto. }
    apply inb_nIn in E. destruct (assoc f g) as [cs|]; [|intros H; injection H as <-; auto].
    match goal with |- context [match ?X with Some _ => _ | None => None end] => destruct X as [nl|] eqn:G end; [|discriminate].
    intros H. injection H as <-. right. right. split; auto. exists cs. split; auto.
    assert ((forall x, In x nl <-> exists c r', In c cs /\ calledBy fuel g (f :: e) c = Some r' /\ In x r') /\
            (forall c, In c cs -> calledBy fuel g (f :: e) c <> None)) as [G1 G2].
    { revert nl G. generalize cs as l. induction l as [|c l IH]; cbn; intros nl G.
      - injection G as <-. split; [|tauto]. intros x. split; [intros []|]. intros (? & ? & [] & _).
      - destruct (calledBy fuel g (f :: e) c) as [r|] eqn:C; [|discriminate].
        match goal with G : context [match ?X with Some _ => _ | None => None end] |- _ => destruct X as [nl'|] eqn:G' end; [|discriminate].
        injection G as <-. destruct (IH nl' eq_refl) as [I1 I2]. split.
        + intros x. rewrite in_app_iff, I1. split.
          * intros [H|(c' & r' & H1 & H2 & H3)]; eauto 7.
          * intros (c' & r' & [->|H1] & H2 & H3); [left; congruence|eauto 7].
        + intros c' [->|H']; auto. congruence. }
    split; auto. intros x. rewrite in_app_iff, G1. tauto.
  Qed.
  Lemma calledBy_sound fuel : forall e f r c, calledBy fuel g e f = Some r -> In c r -> reaches g f c.
  Proof.
    induction fuel; intros e f r c H I; [discriminate|].
    apply calledBy_unfold in H as [(_ & ->)|[(_ & _ & ->)|(N & cs & A & X & _)]]; try (destruct I; fail).
    apply X in I as [I|(c' & r' & I1 & I2 & I3)].
    - exists 0%nat. econstructor; [exists cs; eauto|]. constructor.
    - destruct (IHfuel _ _ _ _ I2 I3) as (n & C). exists (S n). econstructor; [exists cs; eauto|]. auto.
  Qed.

  (** paths: f followed by the nodes of l (each calling the next), ending in c *)
  Fixpoint path (f : string) (l : list string) (c : string) : Prop :=
    match l with
    | [] => calls_directly g f c
    | h :: l' => calls_directly g f h /\ path h l' c
    end.
  Lemma chain_path f n c : chain g f (S n) c -> exists l, path f l c.
  Proof.
    revert f. induction n; intros f H; inversion H as [|f' c' n' h' D C]; subst.
    - exists []. inversion C; subst. auto.
    - destruct (IHn _ C) as (l & P). exists (c' :: l). split; auto.
  Qed.
  Lemma path_app f l1 h l2 c : path f (l1 ++ h :: l2) c <-> path f l1 h /\ path h l2 c.
  Proof. revert f. induction l1; cbn; intros; [tauto|]. rewrite IHl1. tauto. Qed.
  (** remove loops: the nodes f :: l can be made distinct *)
  Lemma path_simple l : forall f c, path f l c -> exists l', path f l' c /\ NoDup (f :: l').
  Proof.
    assert (forall n l f c, (length l <= n)%nat -> path f l c -> exists l', path f l' c /\ NoDup (f :: l')) as G.
    { induction n; intros l0 f c L P.
      - destruct l0; [|cbn in L; lia]. exists []. split; auto. repeat constructor; auto.
      - destruct l0 as [|h l0]. { exists []. split; auto. repeat constructor; auto. }
        destruct P as [P1 P2]. cbn in L.
        destruct (IHn l0 h c) as (l' & P' & N); [lia|auto|].
        destruct (in_dec string_dec f (h :: l')) as [I|I].
        + (* f occurs in the simple path: cut *)
          destruct I as [->|I]. { exists l'. auto. }
          apply in_split in I as (l1 & l2 & ->). apply path_app in P' as [_ P'].
          exists l2. split; auto.
          change (h :: l1 ++ f :: l2) with ((h :: l1) ++ f :: l2) in N. apply NoDup_remove in N.
          apply NoDup_cons; [|]. { intros I. apply (proj2 N). apply in_app_iff. auto. }
          destruct N as [N _]. clear - N. induction (h :: l1); auto. inversion N; auto.
        + exists (h :: l'). split; [split; auto|]. constructor; auto. }
    intros. eapply G; eauto.
  Qed.
  Lemma calledBy_complete l : forall fuel e f c r, path f l c -> NoDup (f :: l) -> (forall x, In x (f :: l) -> ~ In x e) ->
    calledBy fuel g e f = Some r -> In c r.
  Proof.
    induction l as [|h l IH]; intros fuel e f c r P N D H; (destruct fuel; [discriminate|]);
    apply calledBy_unfold in H as [(I & ->)|[(_ & A & ->)|(_ & cs & A & X & T)]].
    - exfalso. apply (D f); [left; auto|auto].
    - destruct P as (cs & A' & _). congruence.
    - apply X. left. destruct P as (cs' & A' & I). congruence.
    - exfalso. apply (D f); [left; auto|auto].
    - destruct P as ((cs & A' & _) & _). congruence.
    - apply X. right. destruct P as [(cs' & A' & I) P]. assert (cs' = cs) by congruence. subst cs'.
      destruct (calledBy fuel g (f :: e) h) as [r'|] eqn:C; [|exfalso; eapply T; eauto].
      exists h, r'. split; auto. split; auto. inversion N as [|? ? N1 N2]; subst.
      eapply IH; eauto. intros x Hx [<-|Hx2]; [contradiction|]. apply (D x); auto. right; auto.
  Qed.
  Theorem calledBy_iff f : exists r, called_by g f = Some r /\ forall c, In c r <-> reaches g f c.
  Proof.
    unfold called_by. destruct (calledBy (S (length g)) g [] f) as [r|] eqn:C.
    - exists r. split; auto. intros c. split; [eapply calledBy_sound; eauto|].
      intros (n & H). apply chain_path in H as (l & P). apply path_simple in P as (l' & P & N).
      eapply calledBy_complete; eauto; intros ? _ [].
    - exfalso. eapply calledBy_total; [|eauto]. unfold free.
      assert (forall (ks : list string), length (filter (fun k => negb (inb k [])) ks) <= length ks)%nat as L.
      { intros ks. induction ks; cbn in *; lia. }
      specialize (L (keys g)). unfold keys in *. rewrite map_length in L. lia.
  Qed.

  (** ** callDepth *)
  Definition depth_le (a b : depth) : Prop :=
    match a, b with _, Inf => True | Fin a, Fin b => (a <= b)%nat | Inf, Fin _ => False end.
  Lemma depth_le_refl a : depth_le a a. Proof. destruct a; cbn; auto. Qed.
  Lemma depth_le_trans a b c : depth_le a b -> depth_le b c -> depth_le a c.
  Proof. destruct a, b, c; cbn; try tauto; lia. Qed.
  Lemma max_step d m : let m' := if depth_gt d m then d else m in depth_le d m' /\ depth_le m m' /\ (m' = d \/ m' = m).
  Proof.
    unfold depth_gt. destruct d as [a|], m as [b|]; cbv zeta; try (cbn; auto; fail). destruct (Nat.ltb_spec b a); cbn [depth_le]; repeat split; auto; lia.
  Qed.
  Lemma callDepth_total fuel e s f : (length (free e) < fuel)%nat -> callDepth fuel g e s f <> None.
  Proof.
    revert e s f. induction fuel; intros e s f H; [lia|]. cbn.
    destruct (inb f e) eqn:E; [congruence|]. destruct (assoc f g) as [cs|] eqn:A; [|congruence].
    apply inb_nIn in E. pose proof (free_cons f e (assoc_keys _ _ A) E).
    generalize (Fin s) as d0. generalize cs as l. induction l as [|c l IH]; intros d0; [congruence|].
    destruct (callDepth fuel g (f :: e) (S s) c) eqn:C; [|exfalso; eapply IHfuel; [|eauto]; lia].
    apply IH.
  Qed.
  Lemma callDepth_unfold fuel e s f d : callDepth (S fuel) g e s f = Some d ->
    (In f e /\ d = Inf) \/ (~ In f e /\ assoc f g = None /\ d = Fin s) \/
    (~ In f e /\ exists cs, assoc f g = Some cs /\ depth_le (Fin s) d /\
       (forall c, In c cs -> exists dc, callDepth fuel g (f :: e) (S s) c = Some dc /\ depth_le dc d) /\
       (d = Fin s \/ exists c, In c cs /\ callDepth fuel g (f :: e) (S s) c = Some d)).
  Proof.
    cbn [callDepth]. destruct (inb f e) eqn:E.
    { intros H. injection H as <-. apply inb_In in E. auto. }
    apply inb_nIn in E. destruct (assoc f g) as [cs|]; [|intros H; injection H as <-; auto].
    intros H. right. right. split; auto. exists cs. split; auto.
    revert d H. generalize (Fin s) as d0. generalize cs as l. induction l as [|c l IH]; intros d0 d H.
    - injection H as <-. split; [apply depth_le_refl|]. split; [intros ? []|auto].
    - destruct (callDepth fuel g (f :: e) (S s) c) as [dc|] eqn:C; [|discriminate].
      destruct (max_step dc d0) as (M1 & M2 & M3). apply IH in H as (H1 & H2 & H3).
      split; [eapply depth_le_trans; eauto|]. split.
      + intros c' [<-|H']; auto. exists dc. split; auto. eapply depth_le_trans; eauto.
      + destruct H3 as [->|(c' & I & H3)].
        * destruct M3 as [->| ->]; auto. right. exists c. split; [left; auto|auto].
        * right. exists c'. split; [right; auto|auto].
  Qed.
  (* finite: bounds every chain, and is attained *)
  Lemma callDepth_fin fuel : forall e s f n, callDepth fuel g e s f = Some (Fin n) ->
    (forall k c, chain g f k c -> (s + k <= n)%nat) /\ (exists k c, chain g f k c /\ n = (s + k)%nat).
  Proof.
    induction fuel; intros e s f n H; [discriminate|].
    apply callDepth_unfold in H as [(_ & H)|[(_ & A & H)|(_ & cs & A & L & B & D)]]; [discriminate| |].
    - injection H as ->. split.
      + intros k c C. inversion C; subst; [lia|]. destruct H as (cs & A' & _). congruence.
      + exists 0%nat, f. split; [constructor|lia].
    - split.
      + intros k c C. inversion C as [|? c' k' ? D1 D2]; subst; [cbn in L; lia|].
        destruct D1 as (cs' & A' & I). assert (cs' = cs) by congruence. subst.
        destruct (B c' I) as (dc & C1 & C2). destruct dc as [m|]; [|cbn in C2; tauto]. cbn in C2.
        destruct (IHfuel _ _ _ _ C1) as [G _]. apply G in D2. lia.
      + destruct D as [D|(c & I & D)].
        * injection D as ->. exists 0%nat, f. split; [constructor|lia].
        * apply IHfuel in D as [_ (k & h & C & ->)]. exists (S k), h. split; [|lia].
          econstructor; eauto. exists cs; auto.
  Qed.
  Lemma callDepth_inf fuel : forall e s f, callDepth fuel g e s f = Some Inf ->
    exists k c, chain g f k c /\ (In c e \/ reaches g c c).
  Proof.
    induction fuel; intros e s f H; [discriminate|].
    apply callDepth_unfold in H as [(I & _)|[(_ & _ & H)|(_ & cs & A & _ & _ & [D|(c & I & D)])]]; try discriminate.
    - exists 0%nat, f. split; [constructor|auto].
    - apply IHfuel in D as (k & h & C & [[<-|J]|R]).
      + exists 0%nat, f. split; [constructor|]. right. exists k. econstructor; [exists cs; eauto|eauto].
      + exists (S k), h. split; auto. econstructor; eauto. exists cs; auto.
      + exists (S k), h. split; auto. econstructor; eauto. exists cs; auto.
  Qed.
  Lemma cycle_long c : reaches g c c -> forall n, exists k, (n <= k)%nat /\ chain g c k c.
  Proof.
    intros (m & C) n. induction n as [|n (k & L & Ck)].
    - exists 0%nat. split; [lia|constructor].
    - exists (S m + k)%nat. split; [lia|]. eapply chain_trans; eauto.
  Qed.
  Theorem callDepth_spec f : exists d, call_depth g f = Some d /\
    (d = Inf <-> exists k c, chain g f k c /\ reaches g c c) /\
    (forall n, d = Fin n <-> (forall k c, chain g f k c -> (k <= n)%nat) /\ (exists c, chain g f n c)).
  Proof.
    unfold call_depth. destruct (callDepth (S (length g)) g [] 0 f) as [d|] eqn:C.
    - exists d. split; auto.
      assert (G1 : d = Inf -> exists k c, chain g f k c /\ reaches g c c).
      { intros ->. apply callDepth_inf in C as (k & c & H & [[]|R]). eauto. }
      assert (G2 : forall n, d = Fin n -> (forall k c, chain g f k c -> (k <= n)%nat) /\ (exists c, chain g f n c)).
      { intros n ->. apply callDepth_fin in C as [H1 (k & c & H2 & H3)]. cbn in H3. subst n. split; [|eauto].
        intros k' c' H. apply H1 in H. auto. }
      split; [split; auto|].
      + intros (k & c & H & R). destruct d as [n|]; auto. exfalso. destruct (G2 n eq_refl) as [B _].
        destruct (cycle_long c R (S n)) as (m & L & H'). pose proof (B _ _ (chain_trans _ _ _ _ _ H H')). lia.
      + intros n. split; auto. intros [B (c & H)]. destruct d as [m|].
        * destruct (G2 m eq_refl) as [B' (c' & H')]. apply B in H'. apply B' in H. f_equal. lia.
        * exfalso. destruct (G1 eq_refl) as (k & h & H1 & R).
          destruct (cycle_long h R (S n)) as (j & L & H'). pose proof (B _ _ (chain_trans _ _ _ _ _ H1 H')). lia.
    - exfalso. eapply callDepth_total; [|eauto]. unfold free.
      assert (forall (ks : list string), length (filter (fun k => negb (inb k [])) ks) <= length ks)%nat as L.
      { intros ks. induction ks; cbn in *; lia. }
      specialize (L (keys g)). unfold keys in *. rewrite map_length in L. lia.
  Qed.
End G.
