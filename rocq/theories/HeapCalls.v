(** Actions, backups and histories of calls on heaps (C71). *)
From Coq Require Import Lia.
From Verif Require Import Base ScopeModel CoreModel HeapModel HeapSpec HeapProofs.
Open Scope string_scope.
Open Scope list_scope.
Open Scope Z_scope.

Definition vsave_cell (x : vcell) : vcell := VCell (vc_value x) (if vc_rollback x then Some (vc_value x) else vc_old x) (vc_rollback x).
Definition vsave_pool (x : vpool) : vpool := VPool (vp_value x) (if vp_rollback x then Some (vp_value x) else vp_old x) (vp_rollback x).
Definition vrestore_cell (x : vcell) : vcell := if vc_rollback x then match vc_old x with Some v => VCell v (vc_old x) true | None => x end else x.
Definition vrestore_pool (x : vpool) : vpool := if vp_rollback x then match vp_old x with Some v => VPool v (vp_old x) true | None => x end else x.
Definition on_snd {A B C} (f : B -> C) (p : A * B) : A * C := (fst p, f (snd p)).
Definition vals (l : list (string * hpool)) : list nat := map (fun p => hp_value (snd p)) l.

Lemma carries_cell own h own' h' saved x y : carries own h own' h' -> cell_matches own h saved x y -> cell_matches own' h' saved x y.
Proof.
  intros C (R & V & O). destruct (denotes_carries _ _ _ _ C) as (D1 & _). split; [auto|]. split; [auto|].
  unfold same_old in *. destruct (saved && _)%bool; auto. destruct O as (a & b & ? & ? & ?). exists a, b; auto.
Qed.

(** ** Saving *)
Lemma save_pools_ok own h0 l l' : Forall2 (named (pool_matches own h0 false)) l l' -> forall z ls h1, save_pools l (h0 ++ z) = (ls, h1) ->
  (exists x, h1 = (h0 ++ z) ++ x) /\ vals ls = vals l /\ NoDup (olds ls) /\ (forall a, In a (olds ls) -> (length (h0 ++ z) <= a < length h1)%nat)
  /\ (forall own2 y, carries own h0 own2 (h1 ++ y) -> Forall2 (named (pool_matches own2 (h1 ++ y) true)) ls (map (on_snd vsave_pool) l')).
Proof.
  induction 1 as [|[k x] [k' y] l l' [E (R & (o & Eo & Fo) & _)] F IH]; intros z ls h1; simpl.
  - intros Q; inversion Q; subst. split; [exists []; now rewrite app_nil_r|]. split; [auto|]. split; [constructor|]. split; [simpl; tauto|]. intros; constructor.
  - simpl in *; subst k'. unfold save_pool. destruct (hp_rollback x) eqn:Rx.
    + rewrite nth_error_app1 by eauto using nth_error_length. rewrite Eo. rewrite <- app_assoc.
      destruct (save_pools l (h0 ++ z ++ [ODict o])) as [l1 h2] eqn:Es. intros Q; inversion Q; subst; clear Q.
      destruct (IH _ _ _ Es) as ((w & Ew) & Ev & Nd & Lt & K).
      assert (Len : length (h0 ++ z ++ [ODict o]) = S (length (h0 ++ z))) by (rewrite !app_length; simpl; lia).
      assert (There : nth_error h1 (length (h0 ++ z)) = Some (ODict o)).
      { rewrite Ew. rewrite nth_error_app1 by lia. rewrite app_assoc. apply nth_alloc. }
      split; [exists ([ODict o] ++ w); rewrite Ew, <- !app_assoc; reflexivity|]. split; [simpl; now rewrite <- Ev|].
      unfold olds; simpl; fold (olds l1). split; [|split].
      * constructor; auto. intros J. apply Lt in J. lia.
      * intros a [<-|J]; [pose proof (nth_error_length _ _ _ There); lia|]. apply Lt in J. lia.
      * intros own2 y2 C. constructor; [|now apply K]. destruct (denotes_carries _ _ _ _ C) as (_ & _ & D3).
        split; simpl; auto. unfold vsave_pool; simpl. rewrite <- R. split; [auto|]. split.
        -- exists o. split; [|now apply D3]. rewrite Ew, <- !app_assoc. rewrite nth_error_app1; eauto using nth_error_length.
        -- unfold same_old; simpl. exists (length (h0 ++ z)), (vp_value y). repeat split; auto. exists o; split; [|now apply D3].
           rewrite nth_error_app1; eauto using nth_error_length.
    + destruct (save_pools l (h0 ++ z)) as [l1 h2] eqn:Es. intros Q; inversion Q; subst; clear Q.
      destruct (IH _ _ _ Es) as ((w & Ew) & Ev & Nd & Lt & K).
      split; [eauto|]. split; [simpl; now rewrite <- Ev|]. unfold olds; simpl; rewrite Rx; simpl; fold (olds l1). split; [auto|]. split; [auto|].
      intros own2 y2 C. constructor; [|now apply K]. destruct (denotes_carries _ _ _ _ C) as (_ & _ & D3).
      split; simpl; auto. unfold vsave_pool; simpl. rewrite <- R. split; [now rewrite Rx|]. split.
      * exists o. split; [|now apply D3]. rewrite Ew, <- !app_assoc. rewrite nth_error_app1; eauto using nth_error_length.
      * unfold same_old. rewrite Rx. exact I.
Qed.
Lemma save_matches s t : matches false s t ->
  matches true (hsave s) (vsave t) /\ carries (owned false s) (hs_heap s) (owned true (hsave s)) (hs_heap (hsave s)) /\ hs_held (hsave s) = hs_held s.
Proof.
  intros Mt. pose proof Mt as [N H C P]. unfold hsave. destruct (save_pools (hs_pools s) (hs_heap s)) as [ls h1] eqn:Es.
  rewrite <- (app_nil_r (hs_heap s)) in Es.
  destruct (save_pools_ok _ _ _ _ P [] _ _ Es) as ((w & Ew) & Ev & Nd & Lt & K). rewrite app_nil_r in *.
  set (s' := HSt _ _ _ _).
  assert (Own : owned true s' = vals (hs_pools s) ++ olds ls) by (unfold owned; simpl; now rewrite <- Ev).
  assert (Own0 : owned false s = vals (hs_pools s)) by (unfold owned; now rewrite app_nil_r).
  assert (Ca : carries (owned false s) (hs_heap s) (owned true s') h1).
  { intros a o Na Ea. rewrite Own. split; [|rewrite Ew, nth_error_app1; eauto using nth_error_length].
    rewrite in_app_iff, <- Own0. intros [J|J]; [auto|]. apply Lt in J. apply nth_error_length in Ea. lia. }
  split; [|split; [exact Ca|reflexivity]]. destruct (denotes_carries _ _ _ _ Ca) as (D1 & D2 & D3). split; simpl.
  - rewrite Own. apply NoDup_app_inv. split; [now rewrite <- Own0|]. split; [auto|]. intros a J J2. rewrite <- Own0 in J.
    apply (owned_lt _ _ _ _ Mt) in J. apply Lt in J2. lia.
  - auto.
  - fold (on_snd save_cell (A := string)). change (fun p => (fst p, save_cell (snd p))) with (@on_snd string _ _ save_cell).
    induction C as [|[k x] [k' y] l l' [E Q] C IH]; simpl; constructor; auto. split; auto. simpl in *.
    apply (carries_cell _ _ _ _ _ _ _ Ca) in Q. destruct Q as (R & V & _). split; [auto|]. split; [auto|]. unfold same_old; simpl. rewrite R.
    destruct (vc_rollback y); auto. eexists _, _; eauto.
  - specialize (K (owned true s') []). rewrite app_nil_r in K. now apply K.
Qed.

(** ** Restoring *)
Lemma restored_vals l : NoDup (vals l ++ olds l) -> NoDup (vals (map (on_snd restore_pool) l)) /\ incl (vals (map (on_snd restore_pool) l)) (vals l ++ olds l).
Proof.
  induction l as [|[k x] l IH]; simpl; intros N; [split; [constructor|now intros a J]|].
  unfold olds in N; simpl in N; fold (olds l) in N. inversion N as [|? ? Nin N']; subst.
  apply NoDup_app_inv in N' as (N1 & N2 & D). apply NoDup_app_inv in N2 as (N2 & N3 & D').
  destruct IH as (Nr & Inc). { apply NoDup_app_inv. repeat split; auto. intros a J J'. apply (D a J), in_or_app; auto. }
  unfold olds; simpl; fold (olds l). split.
  - constructor; auto. intros J. apply Inc, in_app_or in J. rewrite !in_app_iff in Nin. unfold restore_pool in J.
    destruct (hp_rollback x); simpl in *; [|tauto]. destruct (hp_old x); simpl in *; [|tauto].
    destruct J as [J|J]; [apply (D _ J); now left|]. apply (D' n); auto.
  - intros a [<-|J].
    + unfold restore_pool. destruct (hp_rollback x); simpl; auto. destruct (hp_old x); simpl; auto.
      right. rewrite !in_app_iff. simpl; auto.
    + apply Inc, in_app_or in J. simpl. rewrite !in_app_iff. tauto.
Qed.
Lemma restore_matches s t : matches true s t ->
  matches false (hrestore s) (vrestore t) /\ carries (owned true s) (hs_heap s) (owned false (hrestore s)) (hs_heap (hrestore s)) /\ hs_held (hrestore s) = hs_held s.
Proof.
  intros [N H C P]. destruct (restored_vals _ N) as (Nr & Inc).
  assert (Own : owned false (hrestore s) = vals (map (on_snd restore_pool) (hs_pools s))) by (unfold owned; now rewrite app_nil_r).
  assert (Ca : carries (owned true s) (hs_heap s) (owned false (hrestore s)) (hs_heap (hrestore s))).
  { intros a o Na Ea. split; auto. rewrite Own. intros J. apply Na. now apply Inc in J. }
  split; [|split; [exact Ca|reflexivity]]. destruct (denotes_carries _ _ _ _ Ca) as (D1 & D2 & D3). split; simpl.
  - now rewrite Own.
  - auto.
  - change (fun p => (fst p, restore_cell (snd p))) with (@on_snd string _ _ restore_cell).
    induction C as [|[k x] [k' y] l l' [E Q] C IH]; simpl; constructor; auto. split; auto. simpl in *.
    destruct Q as (R & V & O). unfold restore_cell. unfold same_old in O; simpl in O. rewrite R in *. destruct (vc_rollback y) eqn:Ry.
    + destruct O as (a & b & -> & -> & D). split; [auto|]. split; simpl; auto. exact I.
    + split; [congruence|]. split; [auto|]. exact I.
  - change (fun p => (fst p, restore_pool (snd p))) with (@on_snd string _ _ restore_pool).
    clear Nr Inc Own. induction P as [|[k x] [k' y] l l' [E Q] C' IH]; simpl; constructor; auto. split; auto. simpl in *.
    destruct Q as (R & (o & Eo & Fo) & O). unfold restore_pool. unfold same_old in O; simpl in O. rewrite R in *. destruct (vp_rollback y) eqn:Ry.
    + destruct O as (a & b & -> & -> & (o' & Eo' & Fo')). split; [auto|]. split; simpl; [|exact I]. exists o'; auto.
    + split; [congruence|]. split; [exists o; auto|]. exact I.
Qed.
Lemma commit_matches s t : matches true s t -> matches false s t /\ carries (owned true s) (hs_heap s) (owned false s) (hs_heap s).
Proof.
  intros [N H C P]. assert (Own : owned false s = vals (hs_pools s)) by (unfold owned; now rewrite app_nil_r).
  assert (Ca : carries (owned true s) (hs_heap s) (owned false s) (hs_heap s)).
  { intros a o Na Ea. split; auto. rewrite Own. intros J. apply Na. apply in_or_app; auto. }
  split; [|exact Ca]. destruct (denotes_carries _ _ _ _ Ca) as (D1 & D2 & D3). split.
  - rewrite Own. apply NoDup_app_inv in N. tauto.
  - auto.
  - revert C. apply Forall2_impl. intros x y [E Q]; split; auto. apply (carries_cell _ _ _ _ _ _ _ Ca) in Q. destruct Q as (R & V & _). repeat split; auto.
  - revert P. apply Forall2_impl. intros x y [E (R & (o & Eo & Fo) & _)]; split; auto. split; [auto|]. split; [exists o; auto|exact I].
Qed.

(** ** Calls *)
Definition prefix {A} (l m : list A) : Prop := exists x, m = l ++ x.
Lemma prefix_refl {A} (l : list A) : prefix l l.
Proof. exists []; now rewrite app_nil_r. Qed.
Lemma prefix_trans {A} (l m n : list A) : prefix l m -> prefix m n -> prefix l n.
Proof. intros [x ->] [y ->]. exists (x ++ y). now rewrite app_assoc. Qed.
Definition after (s s' : hst) : Prop := carries (owned false s) (hs_heap s) (owned false s') (hs_heap s') /\ prefix (hs_held s) (hs_held s').
Lemma call_rel c s t : matches false s t -> pure_call c ->
  fst (hcall c s) = fst (vcall c t) /\ matches false (snd (hcall c s)) (snd (vcall c t)) /\ after s (snd (hcall c s)).
Proof.
  intros Mt Pu. destruct c as [body|body]; simpl in *.
  - destruct (save_matches _ _ Mt) as (M1 & C1 & H1).
    destruct (proj1 (proj2 (run_rel true)) body Pu _ _ M1) as (M2 & (G1 & G2 & G3) & E).
    destruct (hruns body (hsave s)) as [[u|e] s1], (vruns body (vsave t)) as [[u'|e'] t1]; simpl in *; try tauto.
    + destruct (commit_matches _ _ M2) as (M3 & C3). destruct u, u'. split; [reflexivity|]. split; auto. split.
      * eapply carries_trans; [eapply carries_trans; eauto|]. exact C3.
      * rewrite <- H1. destruct G3 as [m G3]. now exists m.
    + destruct (restore_matches _ _ M2) as (M3 & C3 & H3). subst. split; [reflexivity|]. split; auto. split.
      * eapply carries_trans; [eapply carries_trans; eauto|]. exact C3.
      * rewrite <- H1, H3. destruct G3 as [m G3]. now exists m.
  - destruct (proj1 (proj2 (run_rel false)) body Pu _ _ Mt) as (M2 & (G1 & G2 & G3) & E).
    destruct (hruns body s) as [[u|e] s1], (vruns body t) as [[u'|e'] t1]; simpl in *; try tauto.
    + destruct u, u'. split; [reflexivity|]. split; auto. split; auto.
    + subst. split; [reflexivity|]. split; auto. split; auto.
Qed.
Lemma history_rel cs s t : matches false s t -> Forall pure_call cs ->
  fst (hhistory cs s) = fst (vhistory cs t) /\ matches false (snd (hhistory cs s)) (snd (vhistory cs t)) /\ after s (snd (hhistory cs s)).
Proof.
  intros Mt F; revert s t Mt; induction F as [|c cs Pu F IH]; intros s t Mt; simpl.
  - split; auto. split; auto. split; [apply carries_refl|apply prefix_refl].
  - destruct (call_rel c s t Mt Pu) as (E1 & M1 & (C1 & P1)). destruct (hcall c s) as [r s1], (vcall c t) as [r' t1]; simpl in *.
    destruct (IH _ _ M1) as (E2 & M2 & (C2 & P2)). destruct (hhistory cs s1) as [rs s2], (vhistory cs t1) as [rs' t2]; simpl in *.
    subst. split; auto. split; auto. split; [eapply carries_trans; eauto|eapply prefix_trans; eauto].
Qed.

(** ** Backups are left alone by commands *)
Definition tags (t : vst) :=
  (map (fun p : string * vcell => (fst p, (vc_old (snd p), vc_rollback (snd p)))) (vs_cells t),
   map (fun p : string * vpool => (fst p, (vp_old (snd p), vp_rollback (snd p)))) (vs_pools t)).
Definition quiet {A} (m : M vst A) : Prop := forall t, tags (snd (m t)) = tags t.
Lemma quiet_bind {A B} (m : M vst A) (k : A -> M vst B) : quiet m -> (forall a, quiet (k a)) -> quiet (mbind m k).
Proof. intros Q K t. unfold mbind. specialize (Q t). destruct (m t) as [[a|e] t']; simpl in *; auto. now rewrite K. Qed.
Lemma quiet_here {A} (f : vst -> res A) : quiet (fun t => (f t, t)).
Proof. intros t; reflexivity. Qed.
Lemma quiet_push v : quiet (vpush v).
Proof. intros t; reflexivity. Qed.
Lemma map_set {A B} (f : A -> B) k x l y : assoc k l = Some y -> f x = f y ->
  map (fun p : string * A => (fst p, f (snd p))) (dict_set k x l) = map (fun p => (fst p, f (snd p))) l.
Proof.
  induction l as [|[k' z] l IH]; simpl; [discriminate|]. destruct (String.eqb k k'); simpl; intros E F.
  - inversion E; subst. now rewrite F.
  - now rewrite IH.
Qed.
Lemma quiet_cell_put c v : quiet (vcell_put c v).
Proof.
  intros t. unfold vcell_put. destruct (assoc c (vs_cells t)) as [x|] eqn:E; auto. unfold tags; simpl. f_equal.
  now apply (map_set (fun x => (vc_old x, vc_rollback x)) _ _ _ x).
Qed.
Lemma quiet_pool_put c v : quiet (vpool_put c v).
Proof.
  intros t. unfold vpool_put. destruct (assoc c (vs_pools t)) as [x|] eqn:E; auto. unfold tags; simpl. f_equal.
  now apply (map_set (fun x => (vp_old x, vp_rollback x)) _ _ _ x).
Qed.
Lemma quiet_update leaf path v ae me : (forall v, quiet (leaf v)) -> quiet (vupdate leaf v path ae me).
Proof.
  intros L. revert v; induction path as [|k path IH]; intros v; simpl; auto.
  destruct v, k; try (intros t; reflexivity).
  - destruct (_ || _)%bool; [intros t; reflexivity|]. destruct (_ <=? _); [intros t; reflexivity|].
    apply quiet_bind; auto. intros a t; reflexivity.
  - destruct path; intros t; reflexivity.
  - destruct path; intros t; reflexivity.
  - destruct path; intros t; reflexivity.
  - destruct path; intros t; reflexivity.
  - destruct (assoc s d); [apply quiet_bind; auto; intros a t; reflexivity|]. destruct path; intros t; reflexivity.
  - destruct path; intros t; reflexivity.
  - destruct path; intros t; reflexivity.
  - destruct path; intros t; reflexivity.
Qed.
Lemma quiet_runs cs : quiet (vruns cs).
Proof.
  apply (cmds_mind (fun c => quiet (vrun c)) (fun cs => quiet (vruns cs)) (fun to => forall v, quiet (vleaf to v))); simpl;
    intros; repeat (apply quiet_bind; [|intros]); auto using quiet_here, quiet_push, quiet_cell_put, quiet_pool_put, quiet_update;
    try (intros t; reflexivity); try (apply quiet_update; auto).
  - destruct (flat v); intros t; reflexivity.
  - intros t. destruct x; unfold vnew, mbind, mlift; destruct (rmapM _ _); reflexivity.
  - destruct (assoc key (vp_value a0)); [intros t; reflexivity|]. apply quiet_bind; [apply quiet_pool_put|intros ? t; reflexivity].
  - intros t. specialize (H t). destruct (vruns body t) as [[u|e] t']; simpl in *; auto.
  - destruct a; intros t; reflexivity.
Qed.
