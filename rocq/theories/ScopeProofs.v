(** Lemmas about DynamicScope. *)
From Verif Require Import Base ScopeModel ScopeSpec.

Fixpoint set1 (x : string) (v : val) (ss : scopes) : res unit * scopes :=
  match ss with
  | [] => (Raise (PyErr "RuntimeError"), [])
  | f :: rest => if has_key x f then (Ok tt, dict_set x v f :: rest)
                 else let '(r, rest') := set1 x v rest in (r, f :: rest')
  end.
Lemma set_vars_one x v ss : set_vars [(x, v)] ss = set1 x v ss.
Proof.
  unfold set_vars. induction ss as [|f ss IH]; [reflexivity|].
  cbn [length scope_set set1]. destruct (has_key x f); [reflexivity|].
  rewrite IH. destruct (set1 x v ss) as [[[]|e] ss']; reflexivity.
Qed.

Lemma has_key_true {V} x (f : list (string * V)) : has_key x f = true <-> exists v, assoc x f = Some v.
Proof. unfold has_key. destruct (assoc x f); split; intros H; try discriminate; eauto. destruct H; discriminate. Qed.
Lemma has_key_false {V} x (f : list (string * V)) : has_key x f = false <-> assoc x f = None.
Proof. unfold has_key. destruct (assoc x f); split; intros H; try discriminate; eauto. Qed.

(** ** get *)
Lemma scope_get_visible x ss v : scope_get x ss = Ok v <-> exists i, visible ss i x v.
Proof.
  revert v. induction ss as [|f ss IH]; intros v; cbn [scope_get].
  - split; [discriminate|]. intros (i & _ & H & _). cbn in H. lia.
  - destruct (assoc x f) as [w|] eqn:Hf.
    + split.
      * intros [= ->]. exists 0%nat. repeat split; cbn; auto; intros; lia.
      * intros (i & H1 & H2 & H3). destruct i; [cbn in H1; congruence|].
        specialize (H3 0%nat ltac:(lia)). cbn in H3. congruence.
    + rewrite IH. split; intros (i & H1 & H2 & H3).
      * exists (S i). repeat split; cbn; try lia; auto. intros [|j] Hj; cbn; auto. apply H3; lia.
      * destruct i; [cbn in H1; congruence|]. exists i. cbn in *. repeat split; auto; [lia|].
        intros j Hj. apply (H3 (S j)); lia.
Qed.
Lemma scope_get_raises x ss :
  (forall i, assoc x (nth i ss []) = None) <-> scope_get x ss = Raise (PyErr "RuntimeError").
Proof.
  induction ss as [|f ss IH]; cbn [scope_get].
  - split; auto. intros _ [|]; reflexivity.
  - destruct (assoc x f) as [w|] eqn:Hf.
    + split; [|discriminate]. intros H. specialize (H 0%nat). cbn in H. congruence.
    + rewrite <- IH. split; intros H.
      * intros i. apply (H (S i)).
      * intros [|i]; cbn; auto.
Qed.
Lemma scope_get_cases x ss : (exists v, scope_get x ss = Ok v) \/ scope_get x ss = Raise (PyErr "RuntimeError").
Proof. induction ss as [|f ss IH]; cbn; auto. destruct (assoc x f); eauto. Qed.

(** ** let *)
Lemma frame_let_app bs bs' f : frame_let (bs ++ bs') f = frame_let bs' (frame_let bs f).
Proof. revert f. induction bs as [|[x v] bs IH]; intros f; cbn; auto. Qed.
Lemma frame_let_other bs f y : ~ In y (keys bs) -> assoc y (frame_let bs f) = assoc y f.
Proof.
  revert f. induction bs as [|[x v] bs IH]; intros f H; cbn; auto. cbn in H.
  rewrite IH by tauto. apply assoc_set_neq. intros ->. tauto.
Qed.
Lemma frame_let_in bs f x v : NoDup (keys bs) -> In (x, v) bs -> assoc x (frame_let bs f) = Some v.
Proof.
  revert f. induction bs as [|[y w] bs IH]; intros f Hn Hi; [contradiction|]. cbn in *.
  inversion Hn as [|? ? Hy Hn']; subst. destruct Hi as [[= -> ->]|Hi].
  - rewrite frame_let_other by auto. apply assoc_set_eq.
  - auto.
Qed.

(** ** set of one variable *)
Lemma set1_visible x v ss i old :
  visible ss i x old ->
  exists pre f post, ss = pre ++ f :: post /\ length pre = i /\ has_key x f = true /\
    set1 x v ss = (Ok tt, pre ++ dict_set x v f :: post).
Proof.
  revert i. induction ss as [|f ss IH]; intros i (H1 & H2 & H3); cbn in H2; [lia|].
  cbn [set1]. destruct (has_key x f) eqn:Hf.
  - destruct i.
    + exists [], f, ss. auto.
    + specialize (H3 0%nat ltac:(lia)). apply has_key_true in Hf as [w Hw]. cbn in H3. congruence.
  - destruct i; [apply has_key_false in Hf; cbn in H1; congruence|].
    destruct (IH i) as (pre & g & post & E1 & E2 & E3 & E4).
    { repeat split; auto; [lia|]. intros j Hj. apply (H3 (S j)); lia. }
    exists (f :: pre), g, post. rewrite E4. subst. auto.
Qed.
Lemma set1_unbound x v ss :
  (forall i, assoc x (nth i ss []) = None) -> set1 x v ss = (Raise (PyErr "RuntimeError"), ss).
Proof.
  induction ss as [|f ss IH]; intros H; cbn; auto.
  pose proof (H 0%nat) as H0. cbn in H0. apply has_key_false in H0. rewrite H0.
  rewrite IH; auto. intros i. apply (H (S i)).
Qed.
Lemma set1_length x v ss : length (snd (set1 x v ss)) = length ss.
Proof.
  induction ss as [|f ss IH]; cbn; auto. destruct (has_key x f); auto.
  destruct (set1 x v ss). cbn in *. congruence.
Qed.

Ltac splits := repeat match goal with |- _ /\ _ => split end.
(** ** Refinement to the environment-and-store semantics *)
Notation lframe := (string -> option nat).
Definition nol : lframe := fun _ => None.
Fixpoint llookup (x : string) (lfs : list lframe) : option nat :=
  match lfs with [] => None | g :: lfs' => match g x with Some l => Some l | None => llookup x lfs' end end.
Definition frame_ok (m : store) (f : frame) (g : lframe) : Prop :=
  forall x, match assoc x f, g x with
            | Some v, Some l => nth_error m l = Some v
            | None, None => True
            | _, _ => False
            end.
Definition lrange (lfs : list lframe) (l : nat) : Prop := exists i x, nth i lfs nol x = Some l.
Record rep (lfs : list lframe) (ss : scopes) (m : store) : Prop := {
  rep_frames : Forall2 (frame_ok m) ss lfs;
  rep_inj : forall i j x y l, nth i lfs nol x = Some l -> nth j lfs nol y = Some l -> i = j /\ x = y }.

Lemma write_length l v m : length (write l v m) = length m.
Proof. revert l. induction m as [|w m IH]; intros [|l]; cbn; auto. Qed.
Lemma write_same l v m : (l < length m)%nat -> nth_error (write l v m) l = Some v.
Proof. revert l. induction m as [|w m IH]; intros [|l] H; cbn in *; try lia; auto. apply IH; lia. Qed.
Lemma write_other l l' v m : l' <> l -> nth_error (write l v m) l' = nth_error m l'.
Proof.
  revert l l'. induction m as [|w m IH]; intros l l' H; [now destruct l|].
  destruct l, l'; cbn; auto; try congruence.
Qed.

Lemma rep_lookup lfs ss m x : rep lfs ss m ->
  match scope_get x ss with
  | Ok v => exists l, llookup x lfs = Some l /\ nth_error m l = Some v
  | Raise e => e = PyErr "RuntimeError" /\ llookup x lfs = None
  end.
Proof.
  intros [H _]. induction H as [|f g ss lfs Hf H IH]; cbn; auto.
  specialize (Hf x). destruct (assoc x f), (g x); try contradiction; eauto.
Qed.
Lemma rep_range_lt lfs ss m l : rep lfs ss m -> lrange lfs l -> (l < length m)%nat.
Proof.
  intros [H _] (i & x & Hi). revert i Hi. induction H as [|f g ss lfs Hf H IH]; intros i Hi.
  - destruct i; discriminate.
  - destruct i; cbn in Hi; eauto. specialize (Hf x). rewrite Hi in Hf.
    destruct (assoc x f); [|contradiction]. apply nth_error_Some. congruence.
Qed.
Lemma llookup_range x lfs l : llookup x lfs = Some l -> lrange lfs l.
Proof.
  induction lfs as [|g lfs IH]; cbn; [discriminate|]. destruct (g x) eqn:E; intros H.
  - injection H as ->. exists 0%nat, x. auto.
  - destruct (IH H) as (i & y & Hi). exists (S i), y. auto.
Qed.
(** a store that agrees on the locations in use *)
Lemma rep_store lfs ss m m' :
  rep lfs ss m -> (forall l, lrange lfs l -> nth_error m' l = nth_error m l) -> rep lfs ss m'.
Proof.
  intros [H I] Hm. split; auto. clear I. induction H as [|f g ss lfs Hf H IH]; constructor.
  - intros x. specialize (Hf x). destruct (assoc x f), (g x) eqn:E; auto. rewrite Hm; auto. now exists 0%nat, x.
  - apply IH. intros l (i & x & Hi). apply Hm. now exists (S i), x.
Qed.
Lemma rep_tail g lfs f ss m : rep (g :: lfs) (f :: ss) m -> rep lfs ss m.
Proof.
  intros [H I]. inversion H; subst. split; auto. intros i j x y l Hi Hj.
  destruct (I (S i) (S j) x y l Hi Hj) as [[= ->] ->]. auto.
Qed.

(** pushing an empty frame *)
Lemma rep_push lfs ss m : rep lfs ss m -> rep (nol :: lfs) ([] :: ss) m.
Proof.
  intros [H I]. split.
  - constructor; auto. intros x. cbn. auto.
  - intros [|i] [|j] x y l Hi Hj; try discriminate. destruct (I i j x y l Hi Hj) as [-> ->]. auto.
Qed.
Lemma rep_let x v g lfs f ss m :
  rep (g :: lfs) (f :: ss) m ->
  rep (bind_loc x (length m) g :: lfs) (dict_set x v f :: ss) (m ++ [v]).
Proof.
  intros R. pose proof R as [H I]. inversion H as [|? ? ? ? Hf Hr]; subst.
  assert (L : forall l, lrange (g :: lfs) l -> nth_error (m ++ [v]) l = nth_error m l).
  { intros l Hl. apply nth_error_app1. eapply rep_range_lt; eauto. }
  destruct (rep_store _ _ _ _ R L) as [H' _]. inversion H' as [|? ? ? ? Hf' Hr']; subst.
  split.
  - constructor; auto. intros y. unfold bind_loc. destruct (String.eqb_spec y x) as [->|Hn].
    + rewrite assoc_set_eq. rewrite nth_error_app2, Nat.sub_diag by lia. reflexivity.
    + rewrite assoc_set_neq by auto. apply Hf'.
  - assert (F : forall i y, nth i (g :: lfs) nol y = Some (length m) -> False).
    { intros i y Hi. assert (lrange (g :: lfs) (length m)) as X by (now exists i, y).
      apply (rep_range_lt _ _ _ _ R) in X. lia. }
    assert (N : forall i y l, nth i (bind_loc x (length m) g :: lfs) nol y = Some l ->
                (i = 0%nat /\ y = x /\ l = length m) \/ nth i (g :: lfs) nol y = Some l).
    { intros [|i] y l Hi; cbn in *; auto. unfold bind_loc in Hi.
      destruct (String.eqb_spec y x); auto. injection Hi as <-. auto. }
    intros i j y z l Hi Hj. apply N in Hi. apply N in Hj.
    destruct Hi as [(-> & -> & ->)|Hi], Hj as [(-> & -> & Hl)|Hj]; auto.
    + exfalso. eapply F; eauto.
    + subst. exfalso. eapply F; eauto.
    + eapply I; eauto.
Qed.
Lemma rep_let_many bs : forall g lfs f ss m r,
  rep (g :: lfs) (f :: ss) m -> (forall x, r x = llookup x (g :: lfs)) ->
  exists g' r' m', declare bs r m = (r', m') /\ rep (g' :: lfs) (frame_let bs f :: ss) m' /\
    (forall x, r' x = llookup x (g' :: lfs)) /\ (length m <= length m')%nat /\
    (forall l, (l < length m)%nat -> nth_error m' l = nth_error m l) /\
    (forall x l, g' x = Some l -> g x = Some l \/ (length m <= l)%nat).
Proof.
  induction bs as [|[x v] bs IH]; intros g lfs f ss m r R Hr; cbn [declare frame_let].
  - exists g, r, m. splits; auto.
  - destruct (IH _ _ _ _ _ (bind_loc x (length m) r) (rep_let x v _ _ _ _ _ R)) as (g' & r' & m' & E & R' & Hr' & Hl & Hm & Hg).
    { intros y. unfold bind_loc; cbn [llookup]. destruct (String.eqb y x); auto. apply Hr. }
    exists g', r', m'. rewrite app_length in *. cbn in *. splits; auto; try lia.
    + intros l Hlt. rewrite Hm by lia. apply nth_error_app1. lia.
    + intros y l Hy. apply Hg in Hy as [Hy|Hy]; [|right; lia]. unfold bind_loc in Hy.
      destruct (String.eqb y x); auto. injection Hy as <-. auto.
Qed.
Lemma rep_set x v lfs ss m l :
  rep lfs ss m -> llookup x lfs = Some l ->
  exists ss', set1 x v ss = (Ok tt, ss') /\ rep lfs ss' (write l v m).
Proof.
  intros R Hl. pose proof R as [H I].
  assert (Hlt : (l < length m)%nat) by (eapply rep_range_lt; eauto using llookup_range).
  revert I Hl. clear R. induction H as [|f g ss lfs Hf H IH]; intros I Hl; [discriminate|].
  cbn in Hl |- *. pose proof (Hf x) as Hx. unfold has_key.
  destruct (g x) as [l0|] eqn:Eg.
  - injection Hl as ->. destruct (assoc x f) as [w|] eqn:Ef; [|contradiction].
    exists (dict_set x v f :: ss). split; auto. split; auto. constructor.
    + intros y. destruct (string_dec y x) as [->|Hn].
      * rewrite assoc_set_eq, Eg. now apply write_same.
      * rewrite assoc_set_neq by auto. specialize (Hf y). destruct (assoc y f), (g y) as [l1|] eqn:E1; auto.
        rewrite write_other; auto. intros ->. destruct (I 0%nat 0%nat x y l Eg E1) as [_ ->]. auto.
    + cut (rep lfs ss (write l v m)); [now intros [X _]|].
      apply (rep_store _ _ m).
      * split; auto. intros i j y z k Hi Hj. destruct (I (S i) (S j) y z k Hi Hj) as [[= ->] ->]. auto.
      * intros k (i & y & Hi). apply write_other. intros ->. destruct (I 0%nat (S i) x y l Eg Hi). discriminate.
  - destruct (assoc x f); [contradiction|].
    destruct IH as (ss' & E & R'); auto.
    { intros i j y z k Hi Hj. destruct (I (S i) (S j) y z k Hi Hj) as [[= ->] ->]. auto. }
    rewrite E. exists (f :: ss'). split; auto. split; auto. constructor; [|apply R'].
    intros y. specialize (Hf y). destruct (assoc y f), (g y) as [l1|] eqn:E1; auto.
    rewrite write_other; auto. intros ->. apply llookup_range in Hl as (i & z & Hi).
    destruct (I (S i) 0%nat z y l Hi E1). discriminate.
Qed.

Definition outcome (b : bool) : res unit := if b then Ok tt else Raise (PyErr "RuntimeError").
Definition simulates (run : scopes -> res unit * scopes) (lex : lenv -> store -> bool * lenv * store) : Prop :=
  forall g lfs f ss m r,
    rep (g :: lfs) (f :: ss) m -> (forall x, r x = llookup x (g :: lfs)) ->
    exists b r' m' g' f' ss',
      lex r m = (b, r', m') /\ run (f :: ss) = (outcome b, f' :: ss') /\
      rep (g' :: lfs) (f' :: ss') m' /\ (forall x, r' x = llookup x (g' :: lfs)) /\
      (length m <= length m')%nat /\
      (forall l, (l < length m)%nat -> ~ lrange (g :: lfs) l -> nth_error m' l = nth_error m l) /\
      (forall x l, g' x = Some l -> g x = Some l \/ (length m <= l)%nat).

Lemma simulates_nil : simulates (fun ss => (Ok tt, ss)) (fun r m => (true, r, m)).
Proof. intros g lfs f ss m r R Hr. exists true, r, m, g, f, ss. splits; auto; apply R. Qed.
Lemma simulates_seq r1 l1 r2 l2 : simulates r1 l1 -> simulates r2 l2 ->
  simulates (fun ss => match r1 ss with (Ok _, ss') => r2 ss' | (Raise e, ss') => (Raise e, ss') end)
            (fun r m => match l1 r m with (true, r', m') => l2 r' m' | (false, r', m') => (false, r', m') end).
Proof.
  intros S1 S2 g lfs f ss m r R Hr.
  destruct (S1 g lfs f ss m r R Hr) as (b & r' & m' & g' & f' & ss' & E1 & E2 & R' & Hr' & Hl & Hm & Hg).
  rewrite E1, E2. destruct b; cbn [outcome].
  - destruct (S2 g' lfs f' ss' m' r' R' Hr') as (b2 & r2' & m2 & g2 & f2 & ss2 & F1 & F2 & R2 & Hr2 & Hl2 & Hm2 & Hg2).
    exists b2, r2', m2, g2, f2, ss2. splits; auto; try apply R2; try lia.
    + intros l Hlt Hn. rewrite Hm2; auto; [lia|]. intros (i & x & Hi). destruct i; cbn in Hi.
      * apply Hg in Hi as [Hi|Hi]; [|lia]. apply Hn. now exists 0%nat, x.
      * apply Hn. now exists (S i), x.
    + intros x l Hx. apply Hg2 in Hx as [Hx|Hx]; [|right; lia]. apply Hg in Hx as [Hx|Hx]; auto.
  - exists false, r', m', g', f', ss'. splits; auto; try apply R'; try lia.
Qed.

Lemma src_sim s g lfs f ss m r : rep (g :: lfs) (f :: ss) m -> (forall x, r x = llookup x (g :: lfs)) ->
  match src_read s r m with
  | Some v => src_get s (f :: ss) = Ok v
  | None => src_get s (f :: ss) = Raise (PyErr "RuntimeError")
  end.
Proof.
  intros R Hr. destruct s as [v|x]; cbn [src_read src_get]; auto. unfold read. rewrite Hr.
  pose proof (rep_lookup _ _ _ x R) as H. destruct (scope_get x (f :: ss)).
  - destruct H as (l & -> & ->). auto.
  - destruct H as [-> ->]. auto.
Qed.

(** induction principle for the nested type *)
Section OpInd.
  Variable P : op -> Prop.
  Hypothesis HL : forall x s, P (OLet x s).
  Hypothesis HS : forall x s, P (OSet x s).
  Hypothesis HB : forall ps body, Forall P body -> P (OBlock ps body).
  Hypothesis HC : forall ps body, Forall P body -> P (OCall ps body).
  Fixpoint op_ind' (o : op) : P o :=
    let go := fix go (l : list op) : Forall P l :=
      match l with [] => Forall_nil _ | o :: l' => Forall_cons _ (op_ind' o) (go l') end in
    match o with
    | OLet x s => HL x s
    | OSet x s => HS x s
    | OBlock ps body => HB ps body (go body)
    | OCall ps body => HC ps body (go body)
    end.
End OpInd.

Lemma run_op_block ps body ss :
  run_op (OBlock ps body) ss = (let '(r, ss') := run_ops body (frame_let ps [] :: ss) in (r, tl ss')).
Proof. reflexivity. Qed.
Lemma run_op_call ps body ss :
  run_op (OCall ps body) ss = (let '(r, _) := run_ops body [frame_let ps []; []] in (r, ss)).
Proof. reflexivity. Qed.
Lemma lex_op_block ps body r m :
  lex_op (OBlock ps body) r m =
  (let '(r0, m0) := declare ps r m in let '(b, _, m') := lex_ops body r0 m0 in (b, r, m')).
Proof. reflexivity. Qed.
Lemma lex_op_call ps body r m :
  lex_op (OCall ps body) r m =
  (let '(r0, m0) := declare ps empty_env m in let '(b, _, m') := lex_ops body r0 m0 in (b, r, m')).
Proof. reflexivity. Qed.

Lemma simulates_ops l : Forall (fun o => simulates (run_op o) (lex_op o)) l -> simulates (run_ops l) (lex_ops l).
Proof.
  induction 1 as [|o l Ho Hl IH].
  - apply simulates_nil.
  - cbn [run_ops lex_ops]. now apply simulates_seq.
Qed.

Lemma simulates_op o : simulates (run_op o) (lex_op o).
Proof.
  induction o as [x s|x s|ps body IH|ps body IH] using op_ind'; intros g lfs f ss m r R Hr.
  - cbn [run_op lex_op]. pose proof (src_sim s _ _ _ _ _ r R Hr) as H. destruct (src_read s r m) as [v|]; rewrite H.
    + exists true, (bind_loc x (length m) r), (m ++ [v]), (bind_loc x (length m) g), (dict_set x v f), ss.
      pose proof (rep_let x v _ _ _ _ _ R) as R'.
      splits; auto; try apply R'.
      * intros y. unfold bind_loc; cbn [llookup]. destruct (String.eqb y x); auto. apply Hr.
      * rewrite app_length. lia.
      * intros l Hlt _. now apply nth_error_app1.
      * intros y l Hy. unfold bind_loc in Hy. destruct (String.eqb y x); auto. injection Hy as <-. auto.
    + exists false, r, m, g, f, ss. splits; auto; apply R.
  - cbn [run_op lex_op]. pose proof (src_sim s _ _ _ _ _ r R Hr) as H. destruct (src_read s r m) as [v|]; rewrite H.
    + rewrite set_vars_one, Hr. destruct (llookup x (g :: lfs)) as [l|] eqn:El.
      * destruct (rep_set x v _ _ _ _ R El) as (ss1 & E & R').
        destruct R' as [R1 R2]. destruct ss1 as [|f' ss']; [inversion R1|].
        exists true, r, (write l v m), g, f', ss'. rewrite write_length. splits; auto.
        { split; auto. }
        intros l' Hlt Hn. apply write_other. intros ->. apply Hn. eapply llookup_range; eauto.
      * rewrite set1_unbound.
        { exists false, r, m, g, f, ss. splits; auto; apply R. }
        apply scope_get_raises. pose proof (rep_lookup _ _ _ x R) as X.
        destruct (scope_get x (f :: ss)); [destruct X as (? & X & _); congruence|]. destruct X as [-> _]. auto.
    + exists false, r, m, g, f, ss. splits; auto; apply R.
  - rewrite run_op_block, lex_op_block. apply simulates_ops in IH.
    destruct (rep_let_many ps nol (g :: lfs) [] (f :: ss) m r (rep_push _ _ _ R) Hr) as (g0 & r0 & m0 & E0 & R0 & Hr0 & Hl0 & Hm0 & Hg0).
    rewrite E0. destruct (IH _ _ _ _ _ _ R0 Hr0) as (b & r1 & m1 & g1 & f1 & ss1 & E1 & E2 & R1 & Hr1 & Hl1 & Hm1 & Hg1).
    rewrite E1, E2. cbn [tl]. pose proof (rep_tail _ _ _ _ _ R1) as R2.
    destruct R2 as [R2 I2]. destruct ss1 as [|f' ss']; [inversion R2|].
    exists b, r, m1, g, f', ss'. splits; auto; try lia.
    + split; auto.
    + intros l Hlt Hn. rewrite Hm1; [now apply Hm0|lia|]. intros (i & x & Hi). destruct i; cbn in Hi.
      * apply Hg0 in Hi as [Hi|Hi]; [discriminate|lia].
      * apply Hn. now exists i, x.
  - rewrite run_op_call, lex_op_call. apply simulates_ops in IH.
    assert (Z : rep [nol; nol] [[]; []] m).
    { do 2 apply rep_push. split; [constructor|]. intros [|] [|]; discriminate. }
    destruct (rep_let_many ps nol [nol] [] [[]] m empty_env Z) as (g0 & r0 & m0 & E0 & R0 & Hr0 & Hl0 & Hm0 & Hg0).
    { reflexivity. }
    rewrite E0. destruct (IH _ _ _ _ _ _ R0 Hr0) as (b & r1 & m1 & g1 & f1 & ss1 & E1 & E2 & R1 & Hr1 & Hl1 & Hm1 & Hg1).
    rewrite E1, E2.
    assert (K : forall l, (l < length m)%nat -> nth_error m1 l = nth_error m l).
    { intros l Hlt. rewrite Hm1; [now apply Hm0|lia|]. intros (i & x & Hi). destruct i as [|[|[|i]]]; cbn in Hi; try discriminate.
      apply Hg0 in Hi as [Hi|Hi]; [discriminate|lia]. }
    assert (R2 : rep (g :: lfs) (f :: ss) m1).
    { apply (rep_store _ _ m); auto. intros l Hl. apply K. exact (rep_range_lt _ _ _ _ R Hl). }
    exists b, r, m1, g, f, ss. splits; auto; try apply R2; try lia.
Qed.
Lemma simulates_all l : simulates (run_ops l) (lex_ops l).
Proof. apply simulates_ops. induction l; constructor; auto using simulates_op. Qed.

(** ** set of several variables *)
Lemma has_key_set {V} x y (v : V) f : has_key y f = true -> has_key x (dict_set y v f) = has_key x f.
Proof.
  intros H. unfold has_key. destruct (string_dec x y) as [->|Hn].
  - rewrite assoc_set_eq. apply has_key_true in H as [w ->]. auto.
  - now rewrite assoc_set_neq.
Qed.
(** the loop over the dict items in one scope (util.py:147-153) *)
Fixpoint set_go (parent : scopes -> res unit * scopes) (todo : list (string * val)) (f : frame) (rest : scopes) : res unit * scopes :=
  match todo with
  | [] => (Ok tt, f :: rest)
  | (x, v) :: todo' =>
      if has_key x f then set_go parent todo' (dict_set x v f) rest
      else match parent rest with
           | (Ok _, rest') => set_go parent todo' f rest'
           | (Raise e, rest') => (Raise e, f :: rest')
           end
  end.
Lemma scope_set_S d bs f rest : scope_set (S d) bs (f :: rest) = set_go (scope_set d bs) bs f rest.
Proof.
  cbn [scope_set]. generalize bs at 2 4 as todo.
  intros todo. revert f rest. induction todo as [|[x v] todo IH]; intros f rest; cbn [set_go]; auto.
  destruct (has_key x f); auto. destruct (scope_set d bs rest) as [[[]|e] rest']; auto.
Qed.

Lemma set_go_here parent todo : forall f rest, (forall x v, In (x, v) todo -> has_key x f = true) ->
  set_go parent todo f rest = (Ok tt, frame_let todo f :: rest).
Proof.
  induction todo as [|[x v] todo IH]; intros f rest H; cbn; auto.
  rewrite (H x v) by (cbn; auto). apply IH. intros y w Hy. rewrite has_key_set; [|apply (H x v); cbn; auto].
  apply (H y w). cbn; auto.
Qed.
Lemma dict_set_swap {V} x y (v w : V) f : x <> y -> has_key x f = true ->
  dict_set x v (dict_set y w f) = dict_set y w (dict_set x v f).
Proof.
  intros Hn. induction f as [|[k u] f IH]; [discriminate|]. unfold has_key in *. cbn.
  destruct (String.eqb_spec x k), (String.eqb_spec y k); subst; cbn; intros H.
  - congruence.
  - rewrite String.eqb_refl. destruct (String.eqb_spec y k); congruence.
  - rewrite String.eqb_refl. destruct (String.eqb_spec x k); congruence.
  - destruct (String.eqb_spec x k), (String.eqb_spec y k); try congruence. f_equal. auto.
Qed.
Lemma dict_set_twice {V} x (v w : V) f : dict_set x v (dict_set x w f) = dict_set x v f.
Proof.
  induction f as [|[k u] f IH]; cbn; [now rewrite String.eqb_refl|].
  destruct (String.eqb_spec x k); cbn.
  - subst. now rewrite String.eqb_refl.
  - destruct (String.eqb_spec x k); congruence.
Qed.
Lemma frame_let_has bs f x : has_key x f = true -> has_key x (frame_let bs f) = true.
Proof.
  revert f. induction bs as [|[y v] bs IH]; intros f H; cbn; auto. apply IH.
  unfold has_key in *. destruct (string_dec x y) as [->|Hn]; [now rewrite assoc_set_eq|now rewrite assoc_set_neq].
Qed.
Lemma frame_let_set bs : forall f x v, ~ In x (keys bs) -> has_key x f = true ->
  frame_let bs (dict_set x v f) = dict_set x v (frame_let bs f).
Proof.
  induction bs as [|[y w] bs IH]; intros f x v Hn H; cbn in *; auto.
  rewrite <- (dict_set_swap x y v w f) by (auto; intros ->; tauto). apply IH; [tauto|].
  unfold has_key in *. destruct (string_dec x y) as [->|Hxy]; [now rewrite assoc_set_eq|now rewrite assoc_set_neq].
Qed.
Lemma frame_let_idem bs : forall f, NoDup (keys bs) -> (forall x v, In (x, v) bs -> has_key x f = true) ->
  frame_let bs (frame_let bs f) = frame_let bs f.
Proof.
  induction bs as [|[x v] bs IH]; intros f Hn H; cbn in *; auto. inversion Hn as [|? ? Hx Hn']; subst.
  rewrite (frame_let_set bs (frame_let bs (dict_set x v f))); auto.
  - rewrite IH; auto.
    + rewrite frame_let_set by (eauto). apply dict_set_twice.
    + intros y w Hy. rewrite has_key_set by eauto. eauto.
  - apply frame_let_has. rewrite has_key_set; eauto.
Qed.

Lemma scope_set_same bs : NoDup (keys bs) -> forall pre d f post,
  (length (pre ++ f :: post) <= d)%nat ->
  (forall x v, In (x, v) bs -> has_key x f = true /\ forall g, In g pre -> has_key x g = false) ->
  bs <> [] ->
  scope_set d bs (pre ++ f :: post) = (Ok tt, pre ++ frame_let bs f :: post).
Proof.
  intros Hn. induction pre as [|g pre IH]; intros d f post Hd H Hne; (destruct d; [cbn in Hd; lia|]).
  - cbn [app]. rewrite scope_set_S. apply set_go_here. intros x v Hx. now apply (H x v).
  - cbn [app]. rewrite scope_set_S. cbn in Hd.
    assert (Hp : forall f', (forall x v, In (x, v) bs -> has_key x f' = true) ->
       scope_set d bs (pre ++ f' :: post) = (Ok tt, pre ++ frame_let bs f' :: post)).
    { intros f' Hf'. apply IH; auto.
      - rewrite app_length in *. cbn in *. lia.
      - intros x v Hx. split; eauto. intros g' Hg'. apply (H x v); cbn; auto. }
    assert (G : forall todo f', incl todo bs -> (forall x v, In (x, v) bs -> has_key x f' = true) ->
       frame_let bs f' = f' ->
       set_go (scope_set d bs) todo g (pre ++ f' :: post) = (Ok tt, g :: pre ++ f' :: post)).
    { induction todo as [|[x v] todo IHt]; intros f' Hi Hf' Hid; cbn; auto.
      assert (In (x, v) bs) as Hx by (apply Hi; cbn; auto).
      destruct (H x v Hx) as [_ Hg]. rewrite Hg by (cbn; auto). rewrite Hp, Hid by auto.
      apply IHt; auto. intros z Hz. apply Hi. cbn; auto. }
    assert (Hf : forall x v, In (x, v) bs -> has_key x f = true) by (intros x v Hx; now apply (H x v)).
    assert (X : forall todo, todo <> [] -> incl todo bs ->
       set_go (scope_set d bs) todo g (pre ++ f :: post) = (Ok tt, g :: pre ++ frame_let bs f :: post)).
    { intros [|[x v] todo] Ht Hi; [congruence|]. cbn [set_go].
      assert (In (x, v) bs) as Hx by (apply Hi; cbn; auto).
      destruct (H x v Hx) as [_ Hg]. rewrite Hg by (cbn; auto). rewrite Hp by auto.
      apply G.
      - intros z Hz. apply Hi. cbn; auto.
      - intros y w Hy. apply frame_let_has. eauto.
      - now apply frame_let_idem. }
    apply X; auto. apply incl_refl.
Qed.
Lemma set1_at pre f post x v : has_key x f = true -> (forall g, In g pre -> has_key x g = false) ->
  set1 x v (pre ++ f :: post) = (Ok tt, pre ++ dict_set x v f :: post).
Proof.
  intros Hf. induction pre as [|g pre IH]; intros H; cbn.
  - now rewrite Hf.
  - rewrite (H g) by (cbn; auto). rewrite IH; auto. intros g' Hg'. apply H. cbn; auto.
Qed.
Lemma set_each_same : forall bs pre f post,
  (forall x v, In (x, v) bs -> has_key x f = true /\ forall g, In g pre -> has_key x g = false) ->
  set_each bs (pre ++ f :: post) = (Ok tt, pre ++ frame_let bs f :: post).
Proof.
  induction bs as [|[x v] bs IH]; intros pre f post H; cbn [set_each frame_let]; auto.
  destruct (H x v) as [H1 H2]; [cbn; auto|]. rewrite set_vars_one, set1_at by auto. apply IH.
  intros y w Hy. destruct (H y w) as [H3 H4]; [cbn; auto|]. split; auto. now rewrite has_key_set.
Qed.
Lemma visible_split ss i x w : visible ss i x w ->
  exists pre f post, ss = pre ++ f :: post /\ length pre = i.
Proof.
  intros (_ & H & _). exists (firstn i ss), (nth i ss []), (skipn (S i) ss). split.
  - clear x w. revert i H. induction ss as [|f ss IH]; intros [|i] H; cbn in *; try lia; auto. f_equal. apply IH. lia.
  - rewrite firstn_length. lia.
Qed.

Lemma set_go_raises parent todo : forall f rest z w rest',
  In (z, w) todo -> has_key z f = false -> parent rest = (Raise (PyErr "RuntimeError"), rest') ->
  fst (set_go parent todo f rest) = Raise (PyErr "RuntimeError").
Proof.
  induction todo as [|[x v] todo IH]; intros f rest z w rest' Hz Hf Hp; [contradiction|].
  cbn [set_go]. destruct (has_key x f) eqn:Hx.
  - destruct Hz as [[= -> ->]|Hz]; [congruence|]. eapply IH; eauto. now rewrite has_key_set.
  - now rewrite Hp.
Qed.
Lemma scope_set_unbound bs z w : In (z, w) bs -> forall ss d,
  (forall f, In f ss -> has_key z f = false) ->
  fst (scope_set d bs ss) = Raise (PyErr "RuntimeError").
Proof.
  intros Hz. induction ss as [|f ss IH]; intros d H; (destruct d; [reflexivity|]).
  - reflexivity.
  - rewrite scope_set_S. destruct (scope_set d bs ss) as [r rest'] eqn:E.
    assert (r = Raise (PyErr "RuntimeError")) as ->.
    { specialize (IH d). rewrite E in IH. apply IH. intros g Hg. apply H. cbn; auto. }
    eapply set_go_raises; eauto. apply H. cbn; auto.
Qed.
Lemma scope_set_mixed bs x v y w : In (x, v) bs -> In (y, w) bs -> forall ss d i j a b,
  no_shadowing ss -> visible ss i x a -> visible ss j y b -> i <> j ->
  fst (scope_set d bs ss) = Raise (PyErr "RuntimeError").
Proof.
  intros Hx Hy. induction ss as [|f ss IH]; intros d i j a b Hs Vx Vy Hij; (destruct d; [reflexivity|]).
  - reflexivity.
  - assert (U : forall z u c k, In (z, u) bs -> visible (f :: ss) 0 z c -> (k > 0)%nat ->
                fst (scope_set d bs ss) = Raise (PyErr "RuntimeError")).
    { intros z u c k Hz (H1 & _ & _) Hk. eapply scope_set_unbound; eauto. intros g Hg. apply has_key_false.
      destruct (assoc z g) as [q|] eqn:E; auto. apply In_nth with (d := []) in Hg as (n & Hn & Hg).
      assert (X : 0%nat = S n); [|discriminate X]. apply (Hs z 0%nat (S n) c q H1).
      exact (eq_trans (f_equal (assoc z) Hg) E). }
    rewrite scope_set_S. destruct (scope_set d bs ss) as [r rest'] eqn:E.
    assert (D : r = Raise (PyErr "RuntimeError") -> forall z u k c, In (z, u) bs -> visible (f :: ss) (S k) z c ->
                fst (set_go (scope_set d bs) bs f ss) = Raise (PyErr "RuntimeError")).
    { intros -> z u k c Hz (_ & _ & H3). eapply set_go_raises; eauto. apply has_key_false. apply (H3 0%nat). lia. }
    destruct i as [|i], j as [|j]; [congruence| | |].
    + apply (D (U x v a 1%nat Hx Vx ltac:(lia)) y w j b Hy Vy).
    + apply (D (U y w b 1%nat Hy Vy ltac:(lia)) x v i a Hx Vx).
    + refine (D _ x v i a Hx Vx).
      assert (P : forall z k c, visible (f :: ss) (S k) z c -> visible ss k z c).
      { intros z k c (H1 & H2 & H3). cbn in *. repeat split; auto; [lia|]. intros q Hq. apply (H3 (S q)). lia. }
      specialize (IH d i j a b). rewrite E in IH. apply IH; auto.
      intros z p q c c' Hp Hq. specialize (Hs z (S p) (S q) c c' Hp Hq). congruence.
Qed.

(** ** Blocks leave unassigned outer variables alone *)
Definition keeps_outer (y : string) (run : scopes -> res unit * scopes) : Prop :=
  forall f ss, exists f' ss', snd (run (f :: ss)) = f' :: ss' /\
    Forall2 (fun g g' => assoc y g' = assoc y g) ss ss'.
Lemma Forall2_refl_on {A} (R : A -> A -> Prop) l : (forall x, R x x) -> Forall2 R l l.
Proof. intros H. induction l; constructor; auto. Qed.
Lemma Forall2_trans_on {A} (R : A -> A -> Prop) : (forall x y z, R x y -> R y z -> R x z) ->
  forall l1 l2 l3, Forall2 R l1 l2 -> Forall2 R l2 l3 -> Forall2 R l1 l3.
Proof.
  intros T l1 l2 l3 H. revert l3. induction H as [|a b l1 l2 Hab H IH]; intros l3 H'; inversion H'; subst; constructor; eauto.
Qed.
Lemma set1_keeps x y v ss : x <> y -> Forall2 (fun g g' => assoc y g' = assoc y g) ss (snd (set1 x v ss)).
Proof.
  intros Hn. induction ss as [|f ss IH]; cbn; [constructor|]. destruct (has_key x f); cbn.
  - constructor; [now rewrite assoc_set_neq by auto|]. apply Forall2_refl_on. auto.
  - destruct (set1 x v ss) as [r rest]. cbn in *. constructor; auto.
Qed.
Lemma keeps_ops y l : Forall (fun o => assigns y o = false -> keeps_outer y (run_op o)) l ->
  existsb (assigns y) l = false -> keeps_outer y (run_ops l).
Proof.
  induction 1 as [|o l Ho Hl IH]; intros Ha f ss; cbn in *.
  - exists f, ss. split; auto. apply Forall2_refl_on. auto.
  - apply orb_false_iff in Ha as [H1 H2].
    destruct (Ho H1 f ss) as (f1 & ss1 & E1 & F1). destruct (run_op o (f :: ss)) as [[u|e] ss0]; cbn in E1; subst ss0.
    + destruct (IH H2 f1 ss1) as (f2 & ss2 & E2 & F2). exists f2, ss2. split; auto.
      eapply Forall2_trans_on; eauto. cbn. intros a b c X Y. congruence.
    + exists f1, ss1. auto.
Qed.
Lemma keeps_op y o : assigns y o = false -> keeps_outer y (run_op o).
Proof.
  induction o as [x s|x s|ps body IH|ps body IH] using op_ind'; intros Ha f ss.
  - cbn [run_op]. destruct (src_get s (f :: ss)).
    + exists (dict_set x a f), ss. split; auto. apply Forall2_refl_on. auto.
    + exists f, ss. split; auto. apply Forall2_refl_on. auto.
  - cbn [run_op]. destruct (src_get s (f :: ss)) as [v|e].
    + cbn in Ha. apply String.eqb_neq in Ha. rewrite set_vars_one.
      pose proof (set1_keeps x y v (f :: ss) Ha) as K. inversion K as [|? g ? rest Hg Hrest]; subst. eauto.
    + exists f, ss. split; auto. apply Forall2_refl_on. auto.
  - rewrite run_op_block. destruct (keeps_ops y body IH Ha (frame_let ps []) (f :: ss)) as (f' & ss' & E & F).
    destruct (run_ops body (frame_let ps [] :: f :: ss)) as [r s0]. cbn in *. subst. cbn.
    inversion F; subst. eauto.
  - rewrite run_op_call. destruct (run_ops body [frame_let ps []; []]) as [r s0]. cbn.
    exists f, ss. split; auto. apply Forall2_refl_on. auto.
Qed.
Lemma scope_get_keeps y ss ss' : Forall2 (fun g g' => assoc y g' = assoc y g) ss ss' -> scope_get y ss' = scope_get y ss.
Proof. induction 1 as [|f g ss ss' H _ IH]; cbn; auto. rewrite H. destruct (assoc y f); auto. Qed.
Lemma keeps_ops_all y l : existsb (assigns y) l = false -> keeps_outer y (run_ops l).
Proof. apply keeps_ops. apply Forall_forall. intros o _. apply keeps_op. Qed.
