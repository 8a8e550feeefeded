(** C95: k-means clustering by titus.producer.kmeans. *)
From Coq Require Import Permutation Reals Lra Sorted QArith SpecFloat.
From Verif Require Import Base ScopeModel PyNum Effects ArraySpec ClusterModel ClusterSpec ClusterProofs CartModel CartProofs3 CartProps KmeansModel KmeansSpec KmeansProofs KmeansProofs2 KmeansProofs3 KmeansProofs4.
Open Scope list_scope.

(** *** The first centers *)
(** KMeans(k, dataset): the k centers are pairwise different points of the dataset. *)
Theorem C95_init : forall N k dataset draws cs ds, good_eq N -> Forall (fun i => (i < length (uniques N dataset))%nat) draws ->
  init N k dataset draws = Ok (cs, ds) -> length cs = k /\ NoDup cs /\ incl cs dataset.
Proof. intros. eapply init_spec; eauto. Qed.
(** The constructor refuses exactly the datasets with no more than k different points; it can only fail otherwise by drawing the same points for ever. *)
Theorem C95_init_refused : forall N k dataset draws, good_eq N ->
  (~ more_than k dataset -> init N k dataset draws = Raise (PyErr "TypeError")) /\
  (more_than k dataset -> forall e, init N k dataset draws = Raise e -> e = out_of_draws).
Proof.
  intros N k dataset draws GE. rewrite (more_uniques N GE). unfold init. destruct (Nat.leb_spec (length (uniques N dataset)) k) as [L|L].
  - split; auto. intros Q. unfold point in *. lia.
  - split; [intros Q; contradiction|]. intros _ e E. eapply new_clusters_error; eauto.
Qed.
(** Whatever the k current centers are, one of the more than k different points is none of them, and newCluster returns as soon as it is drawn. *)
Theorem C95_new_point : forall N dataset (cs : list (point N)), good_eq N -> more_than (length cs) dataset ->
  exists i, (i < length (uniques N dataset))%nat /\ forall draws, In i draws ->
    exists x ds, new_cluster N (uniques N dataset) cs draws = Ok (x, ds).
Proof.
  intros N dataset cs GE M. apply (more_uniques N GE) in M. destruct (fresh N GE (uniques N dataset) cs) as (i & L & NI); auto. { now apply uniques_nodup. }
  exists i. split; auto. intros draws I. destruct (new_cluster_finds N GE _ _ _ draws NI I) as ([x ds] & E). eauto.
Qed.

Open Scope R_scope.
(** *** Metrics and assignment *)
(** Euclidean and squared Euclidean distances of absolute differences put the centers in the order of their distances. *)
Theorem C95_metrics : forall srt dim, euclidean_order dim (squared_euclidean (RA srt) dim) /\ euclidean_order dim (fun x c => sqrt (squared_euclidean (RA srt) dim x c)).
Proof.
  intros srt dim. assert (E : forall x c, squared_euclidean (RA srt) dim x c = dist2 dim x c).
  { intros x c. unfold squared_euclidean, dist2. rewrite sum_is. apply rsum_ext. intros k _. unfold sq, abs_diff. rewrite !coord_at. cbn [gt zero sub opp mul RA].
    destruct Rlt_dec; match goal with |- @Logic.eq _ ?a ?b => change (@Logic.eq R a b) end; ring. }
  split; intros x c c'; rewrite !E; [reflexivity|]. split; intros H.
  - destruct (Rlt_dec (dist2 dim x c) (dist2 dim x c')) as [|G]; auto. apply Rnot_lt_le, sqrt_le_1_alt in G. lra.
  - apply sqrt_lt_1_alt. split; auto. apply dist2_nonneg.
Qed.
(** closestCluster gives every point the first of its nearest centers. *)
Theorem C95_assign : forall srt metric dim dataset cs i, euclidean_order dim metric -> cs <> [] -> (i < length dataset)%nat ->
  nearest dim (nth i dataset []) cs (nth i (closest_cluster (RA srt) metric dataset cs) 0%nat).
Proof.
  intros srt metric dim dataset cs i O NE L. unfold closest_cluster.
  rewrite nth_indep with (d' := argmin (RA srt) (map (metric []) cs)) by now rewrite map_length.
  rewrite (map_nth (fun x => argmin (RA srt) (map (metric x) cs)) dataset []). now apply closest_nearest.
Qed.

(** *** One iteration *)
(** The new centers: the mean, column by column, of the points whose nearest center was the old one, or a point of the dataset after a jump. *)
Theorem C95_means : forall srt metric dim us minPoints dataset cs draws cs' ds corrs i, euclidean_order dim metric -> cs <> [] ->
  Forall (fun i => (i < length us)%nat) draws -> iterate (RA srt) metric us dim minPoints dataset None cs draws = Ok (cs', ds, corrs) -> (i < length cs)%nat ->
  match nth i corrs None with
  | Some corr => exists m, members dim cs i dataset m /\ m <> [] /\
      forall k, (k < dim)%nat -> at_k k (nth i cs' []) = mean (map (at_k k) m) /\ at_k k corr = at_k k (nth i cs' []) - at_k k (nth i cs [])
  | None => In (nth i cs' []) us
  end.
Proof.
  intros srt metric dim us minPoints dataset cs draws cs' ds corrs i O NE F E L.
  destruct (iterate_spec (RA srt) us metric dim _ _ _ _ _ _ _ F E) as (_ & _ & _ & H). specialize (H i L).
  change (stepped (RA srt) us dim dataset (closest_cluster (RA srt) metric dataset cs) i (nth i cs []) (nth i cs' []) (@nth (option (list R)) i corrs None)) in H.
  change (match @nth (option (list R)) i corrs None with
    | Some corr => exists m, members dim cs i dataset m /\ m <> [] /\ forall k, (k < dim)%nat -> at_k k (nth i cs' []) = mean (map (at_k k) m) /\ at_k k corr = at_k k (nth i cs' []) - at_k k (nth i cs [])
    | None => In (nth i cs' []) us end).
  destruct (@nth (option (list R)) i corrs None) as [corr|] eqn:C; [|exact H].
  destruct H as (S & Q & X). exists (chosen (closest_cluster (RA srt) metric dataset cs) i dataset).
    split; [now apply members_are|]. split; auto. intros k Lk. rewrite X. rewrite Q at 1. rewrite mean_step by auto. split; auto.
    unfold plus. rewrite at_table by auto. rewrite !coord_at. cbn [add RA]. match goal with |- @Logic.eq _ ?a ?b => change (@Logic.eq R a b) end. ring.
Qed.
(** An iteration without jumps does not increase the sum of the squared distances of the points to their nearest centers, and decreases it if a center moved. *)
Theorem C95_descent : forall srt metric dim us minPoints dataset cs draws cs' ds corrs v v', euclidean_order dim metric -> cs <> [] ->
  Forall (fun i => (i < length us)%nat) draws -> iterate (RA srt) metric us dim minPoints dataset None cs draws = Ok (cs', ds, corrs) -> no_jump corrs ->
  cost dim cs dataset v -> cost dim cs' dataset v' ->
  v' <= v /\ ((exists i corr k, nth i corrs None = Some corr /\ (k < dim)%nat /\ at_k k corr <> 0) -> v' < v).
Proof.
  intros srt metric dim us minPoints dataset cs draws cs' ds corrs v v' O NE F E J V V'.
  destruct (step_spent srt metric dim O us dataset minPoints cs draws cs' ds corrs NE F E J) as [S1 S2].
  destruct (step_cost srt metric dim O us dataset minPoints cs draws cs' ds corrs NE F E J) as [S3 NE'].
  apply (cost_is srt metric dim O dataset cs v NE) in V. apply (cost_is srt metric dim O dataset cs' v' NE') in V'. subst. split; [lra|].
  intros (i & corr & k & A & B & C). assert (spent dim dataset (closest_cluster (RA srt) metric dataset cs) cs' < the_cost srt metric dim dataset cs); [|lra]. apply S2. eauto 6.
Qed.

(** *** Runs *)
(** optimize with any condition that goes on only while moving() does ends, within k^n + 1 iterations for k clusters and n points, or waits for a draw. *)
Theorem C95_ends : forall srt metric dim us minPoints dataset cond tiny cs draws fuel, euclidean_order dim metric -> cs <> [] ->
  Forall (fun i => (i < length us)%nat) draws -> 0 < tiny -> (forall it corrs, cond it corrs = true -> moving (RA srt) tiny it corrs = true) ->
  (length cs ^ length dataset < fuel)%nat ->
  optimize (RA srt) metric fuel us dim minPoints dataset None cond 0 cs draws <> Raise (PyErr "out of fuel").
Proof.
  intros srt metric dim us minPoints dataset cond tiny cs draws fuel O NE F T M L. apply optimize_ends; auto.
  - intros it corrs D C. apply M in C. unfold moving, while_all in C. cbn [forallb] in C. apply Bool.andb_true_iff in C. destruct C as [C1 C2].
    apply Bool.andb_true_iff in C2. destruct C2 as [C2 _]. split.
    + unfold cluster_jumped in C1. rewrite forallb_forall in C1. apply Forall_forall. intros c I. specialize (C1 c I). now destruct c.
    + unfold all_change in C2. apply Bool.negb_true_iff in C2.
      assert (X : exists x, In x (present (RA srt) corrs) /\ small (RA srt) tiny x = false).
      { revert C2. generalize (present (RA srt) corrs). induction l as [|x l IH]; cbn; [discriminate|]. destruct (small (RA srt) tiny x) eqn:Q; [|eauto].
        cbn. intros H. destruct (IH H) as (y & I & Y). eauto. }
      destruct X as (x & I & S). unfold present in I. apply in_flat_map in I. destruct I as ([y|] & I & Y); [|destruct Y]. destruct Y as [<-|[]].
      destruct (In_nth _ _ None I) as (i & Li & Q). rewrite Forall_forall in D. specialize (D _ I). cbn in D. exists i, y. split; auto.
      assert (G : exists a, In a y /\ gt (RA srt) tiny (magnitude (RA srt) a) = false).
      { revert S. unfold small. clear. induction y as [|a y IH]; cbn [forallb]; [discriminate|]. destruct (gt (RA srt) tiny (magnitude (RA srt) a)) eqn:Q.
        - cbn [andb]. intros H. destruct (IH H) as (b & B & Z). exists b. split; [now right|auto].
        - exists a. split; [now left|auto]. }
      destruct G as (a & Ia & G). destruct (In_nth _ _ 0 Ia) as (k & Lk & K). exists k. split; [rewrite <- D; exact Lk|]. unfold at_k. rewrite K. intros Z.
      unfold magnitude in G. cbn [gt zero opp RA] in G. destruct (Rlt_dec a 0); [lra|]. destruct (Rlt_dec a tiny); [discriminate|]. lra.
  - eapply Nat.le_lt_trans; [apply less_bound|exact L].
Qed.
(** With a condition that stops at jumps, the centers before the last iteration, and those after it if nothing jumped, cost no more than the first; the run stopped because the condition said so. *)
Theorem C95_run : forall srt metric dim us minPoints dataset cond fuel cs draws cs' m, euclidean_order dim metric -> cs <> [] ->
  Forall (fun i => (i < length us)%nat) draws -> (forall it corrs, cond it corrs = true -> no_jump corrs) ->
  optimize (RA srt) metric fuel us dim minPoints dataset None cond 0 cs draws = Ok (cs', m) ->
  exists cs1 ds1 ds2 corrs, iterate (RA srt) metric us dim minPoints dataset None cs1 ds1 = Ok (cs', ds2, corrs) /\ cond (m - 1)%nat corrs = false /\ (1 <= m)%nat /\
    forall v v1 v', cost dim cs dataset v -> cost dim cs1 dataset v1 -> cost dim cs' dataset v' -> v1 <= v /\ (no_jump corrs -> v' <= v).
Proof.
  intros srt metric dim us minPoints dataset cond fuel cs draws cs' m O NE F EN E.
  destruct (optimize_cost srt metric dim O us dataset cond minPoints EN fuel 0 cs draws cs' m NE F E) as (cs1 & ds1 & ds2 & corrs & A1 & A2 & A3 & A4 & A5 & A6 & A7 & A8).
  exists cs1, ds1, ds2, corrs. repeat split; auto; try lia; intros; apply (cost_is srt metric dim O dataset) in H; apply (cost_is srt metric dim O dataset) in H0; subst; auto.
  destruct (iterate_spec (RA srt) us metric dim _ _ _ _ _ _ _ A3 A1) as (L' & _). change (@length (list R) cs' = @length (list R) cs1) in L'.
  assert (NE' : cs' <> []) by (intros ->; destruct cs1; [easy|discriminate]). apply (cost_is srt metric dim O dataset cs' _ NE') in H1. subst. auto.
Qed.
Close Scope R_scope.

(** *** Export *)
Lemma lex_le_lex srt x : forall y, lex_le (RA srt) x y = true <-> lex x y.
Proof.
  induction x as [|a x IH]; intros [|b y]; cbn [lex_le]; [split; [constructor|auto]|split; [constructor|auto]| |].
  - split; [discriminate|]. intros H. inversion H.
  - cbn [eq le RA]. destruct (Req_EM_T a b) as [->|NE].
    + rewrite IH. split; [now constructor|]. intros H. inversion H; subst; auto. exfalso. lra.
    + destruct (Rle_dec a b) as [L|L]; split; auto; try discriminate; intros H.
      * constructor. lra.
      * inversion H; subst; lra.
Qed.
Lemma lex_le_total srt x : forall y, lex_le (RA srt) x y = false -> lex_le (RA srt) y x = true.
Proof.
  induction x as [|a x IH]; intros [|b y]; cbn [lex_le]; auto; try discriminate. cbn [eq le RA].
  destruct (Req_EM_T a b) as [->|NE].
  - destruct (Req_EM_T b b) as [_|NE']; [auto|congruence].
  - destruct (Req_EM_T b a) as [E|NE']; [congruence|]. destruct (Rle_dec a b); [discriminate|]. destruct (Rle_dec b a); auto. intros _. lra.
Qed.
Lemma population_chosen classes j : forall (l : list (list R)), length classes = length l -> population classes j = length (chosen classes j l).
Proof.
  unfold population, chosen. induction classes as [|i classes IH]; intros [|x l] L; try discriminate; cbn; auto. destruct Nat.eqb; cbn; rewrite (IH l); auto.
Qed.
Lemma population_sum k classes : Forall (fun i => (i < k)%nat) classes -> list_sum (map (population classes) (seq 0 k)) = length classes.
Proof.
  induction 1 as [|i classes L _ IH].
  - induction (seq 0 k); cbn; auto.
  - cbn [length]. rewrite <- IH. transitivity (list_sum (map (fun j => (if Nat.eqb i j then 1 else 0) + population classes j)%nat (seq 0 k))).
    { f_equal. apply map_ext. intros j. unfold population. cbn [filter]. destruct Nat.eqb; reflexivity. }
    assert (G : forall l, list_sum (map (fun j => (if Nat.eqb i j then 1 else 0) + population classes j)%nat l) = (count_occ Nat.eq_dec l i + list_sum (map (population classes) l))%nat).
    { induction l as [|j l IHl]; auto. cbn [map list_sum fold_right count_occ]. unfold list_sum in IHl. rewrite IHl.
      destruct (Nat.eqb_spec i j) as [->|NE]; destruct Nat.eq_dec; try congruence; lia. }
    rewrite G. assert (C : count_occ Nat.eq_dec (seq 0 k) i = 1%nat); [|lia]. apply NoDup_count_occ'; [apply seq_NoDup|]. apply in_seq. lia.
Qed.
(** pfaValue: the names in the order given, the centers in the order of Python lists if sorted, each with the number of points it is the nearest center of; the numbers add up to the size of the dataset. *)
Theorem C95_value : forall srt metric dim ids populations sort dataset clusters es, euclidean_order dim metric -> clusters <> [] ->
  pfa_value (RA srt) metric ids populations sort dataset clusters = Ok es ->
  map (@e_id _) es = ids /\ Permutation (map (@e_center _) es) clusters /\
  (if sort then Sorted lex (map (@e_center _) es) else map (@e_center _) es = clusters) /\
  (exists p, Permutation p (seq 0 (length clusters)) /\ Forall2 (fun e j => e_center _ e = nth j clusters [] /\
     if populations then exists m, members dim clusters j dataset m /\ e_population _ e = Some (length m) else e_population _ e = None) es p) /\
  (populations = true -> list_sum (map (fun e => match e_population _ e with Some n => n | None => 0%nat end) es) = length dataset).
Proof.
  intros srt metric dim ids populations sort dataset clusters es O NE E.
  destruct (value_spec (RA srt) metric _ _ _ _ _ _ E) as (A & p & P1 & P2 & PS & B & C).
  destruct (classes_ok srt metric dim O dataset clusters NE) as [CL CF].
  assert (FN : map (fun j => nth j clusters []) (seq 0 (length clusters)) = clusters).
  { assert (G : forall (l : list (list R)) a, map (fun j => nth (j - a) l []) (seq a (length l)) = l).
    { induction l as [|x l IH]; intros a; cbn [length seq map]; auto. rewrite Nat.sub_diag. cbn [nth]. f_equal. rewrite <- (IH (S a)) at 2. apply map_ext_in. intros j I. apply in_seq in I.
      replace (j - a)%nat with (S (j - S a)) by lia. reflexivity. }
    transitivity (map (fun j => nth (j - 0) clusters []) (seq 0 (length clusters))); [apply map_ext; intros; now rewrite Nat.sub_0_r|apply G]. }
  split; auto. split; [|split; [|split]].
  - rewrite B. eapply Permutation_trans; [apply Permutation_map; exact P1|]. apply Permutation_refl'. exact FN.
  - destruct sort.
    + specialize (PS (lex_le_total srt) (eq_refl true)). revert PS. generalize (map (@e_center (RA srt)) es). induction 1 as [|x l S IH H]; constructor; auto.
      destruct H; constructor. now apply (lex_le_lex srt).
    + rewrite B, P2 by auto. exact FN.
  - exists p. split; auto. clear - B C CL CF O NE. revert p B C. induction es as [|e es IH]; intros [|j p] B C; try discriminate; [constructor|].
    cbn [map] in B, C. injection B as B1 B2. injection C as C1 C2. constructor; auto. split; auto. destruct populations; auto.
    exists (chosen (closest_cluster (RA srt) metric dataset clusters) j dataset). split; [now apply members_are|]. rewrite C1. f_equal. now apply population_chosen.
  - intros ->. rewrite <- (map_map (@e_population (RA srt)) (fun o => match o with Some n => n | None => 0%nat end)), C, map_map.
    transitivity (length (closest_cluster (RA srt) metric dataset clusters)); [|exact CL]. rewrite <- (population_sum _ _ CF).
    generalize (closest_cluster (RA srt) metric dataset clusters). intros cl.
    change (list_sum (map (population cl) p) = list_sum (map (population cl) (seq 0 (length clusters)))).
    assert (G : forall l l' : list nat, Permutation l l' -> list_sum (map (population cl) l) = list_sum (map (population cl) l')); [|now apply G].
    clear. unfold list_sum. induction 1; cbn in *; lia.
Qed.

(** Python's floats *)
Definition FA : arith := {| num := pf; zero := f_of_Z 0; ofn := fun n => f_of_Z (Z.of_nat n); add := fadd; sub := fsub; mul := fmul; div := fdiv; opp := fneg;
  gt := fun a b => flt b a; le := fun a b => negb (flt b a); eq := fun a b => negb (flt a b || flt b a || isnan a || isnan b); plog := fun x => x; argsort := fun l => seq 0 (length l) |}.
Lemma argmin_best (metric : list pf -> list pf -> pf) x : forall cs i b m, best_center (S := unit) (fun a c => ret (metric a c)) x cs (Z.of_nat i) (Z.of_nat b) (Some m) tt =
  (Ok (Z.of_nat (argmin_from FA i b m (map (metric x) cs))), tt).
Proof.
  induction cs as [|c cs IH]; intros i b m; cbn [best_center map argmin_from]; auto. unfold bind, ret at 1. cbn [gt FA].
  destruct flt; replace (Z.of_nat i + 1)%Z with (Z.of_nat (S i)) by lia; apply IH.
Qed.
Lemma calls_pure {S A B} (f : A -> B) (s : S) l : calls (fun x => ret (f x)) s l s (map f l).
Proof. induction l; cbn; econstructor; eauto. reflexivity. Qed.
Lemma argmin_first (metric : list pf -> list pf -> pf) x (cs : list (list pf)) : cs <> [] -> no_nan (map (metric x) cs) -> first_nearest (map (metric x) cs) (Z.of_nat (argmin FA (map (metric x) cs))).
Proof.
  intros NE NN. destruct (best_center_first (fun a c => ret (metric a c)) x cs tt tt _ (calls_pure (metric x) tt cs) NN NE) as (i & E & F).
  destruct cs as [|c cs]; [easy|]. cbn [best_center] in E. unfold bind, ret at 1 in E.
  pose proof (argmin_best metric x cs 1 0 (metric x c)) as G. cbn [map argmin]. change (0 + 1)%Z with (Z.of_nat 1) in E. change 0%Z with (Z.of_nat 0) in E. rewrite G in E. injection E as E. now rewrite E.
Qed.
(** The engine scoring with the exported clusters, model.cluster.closest with the metric of the clustering: a cluster such that no center is nearer to the point,
    and, if the clusters are exported in their own order, the one closestCluster gives. *)
Theorem C95_scores : forall (metric : list pf -> list pf -> pf) ids populations sort dataset clusters es x s, clusters <> [] -> no_nan (map (metric x) clusters) ->
  pfa_value FA metric ids populations sort dataset clusters = Ok es ->
  exists e, closest (S := Z) (@e_center FA) x es (fun d c => ret (metric d c)) s = (Ok e, s) /\ In e es /\
    (forall c, In c clusters -> flt (metric x c) (metric x (e_center _ e)) = false) /\
    (sort = false -> exists i, nth_error (closest_cluster FA metric [x] clusters) 0 = Some i /\ nth_error ids i = Some (e_id _ e) /\ nth_error clusters i = Some (e_center _ e)).
Proof.
  intros metric ids populations sort dataset clusters es x s NE NN E.
  destruct (value_spec FA metric _ _ _ _ _ _ E) as (A & p & P1 & P2 & _ & B & C).
  assert (PC : Permutation (map (@e_center FA) es) clusters).
  { rewrite B. eapply Permutation_trans; [apply Permutation_map; exact P1|]. apply Permutation_refl'.
    assert (G : forall (l : list (list pf)) a, map (fun j => nth (j - a) l []) (seq a (length l)) = l).
    { induction l as [|y l IH]; intros a; cbn [length seq map]; auto. rewrite Nat.sub_diag. cbn [nth]. f_equal. rewrite <- (IH (S a)) at 2. apply map_ext_in. intros j I. apply in_seq in I.
      replace (j - a)%nat with (S (j - S a)) by lia. reflexivity. }
    transitivity (map (fun j => nth (j - 0) clusters []) (seq 0 (length clusters))); [apply map_ext; intros; now rewrite Nat.sub_0_r|apply G]. }
  assert (NEs : es <> []) by (intros ->; apply Permutation_nil in PC; apply NE; exact PC).
  set (ds := map (metric x) (map (@e_center FA) es)).
  assert (ND : no_nan ds).
  { unfold no_nan, ds. apply Forall_forall. intros d I. unfold no_nan in NN. rewrite Forall_forall in NN. apply NN.
    eapply Permutation_in; [apply Permutation_map; exact PC|exact I]. }
  destruct (closest_ok (@e_center FA) (fun d c => ret (metric d c)) x es s s ds NEs ND) as (i & e & K & AT & FN).
  { apply calls_pure. }
  exists e. split; auto. assert (Ie : In e es).
  { unfold at_ in AT. destruct (i <? 0)%Z; [discriminate|]. eapply nth_error_In; eauto. }
  split; auto. destruct FN as (d & D & H).
  assert (Dx : d = metric x (e_center _ e)).
  { unfold at_, ds in D, AT. destruct (i <? 0)%Z; [discriminate|]. rewrite map_map in D. erewrite map_nth_error in D by exact AT. now inversion D. }
  subst d. split.
  - intros c I. apply (Permutation_in _ (Permutation_sym PC)) in I. apply In_nth_error in I. destruct I as (j & J).
    destruct (H (Z.of_nat j) (metric x c)) as [Q _]; auto. unfold at_, ds. destruct (Z.ltb_spec (Z.of_nat j) 0); [lia|]. rewrite Nat2Z.id. now apply map_nth_error.
  - intros ->. exists (argmin FA (map (metric x) clusters)). split; auto.
    assert (EC : map (@e_center FA) es = clusters).
    { rewrite B, P2 by auto. assert (G : forall (l : list (list pf)) a, map (fun j => nth (j - a) l []) (seq a (length l)) = l).
      { induction l as [|y l IH]; intros a; cbn [length seq map]; auto. rewrite Nat.sub_diag. cbn [nth]. f_equal. rewrite <- (IH (S a)) at 2. apply map_ext_in. intros j I. apply in_seq in I.
        replace (j - a)%nat with (S (j - S a)) by lia. reflexivity. }
      transitivity (map (fun j => nth (j - 0) clusters []) (seq 0 (length clusters))); [apply map_ext; intros; now rewrite Nat.sub_0_r|apply G]. }
    pose proof (argmin_first metric x clusters NE NN) as FA1. rewrite <- EC in FA1 at 1.
    assert (Q : i = Z.of_nat (argmin FA (map (metric x) clusters))). { eapply first_nearest_unique; [|exact FA1]. exists (metric x (e_center _ e)). split; auto. }
    rewrite Q in AT. unfold at_ in AT. destruct (Z.ltb_spec (Z.of_nat (argmin FA (map (metric x) clusters))) 0) in AT; [discriminate|]. rewrite Nat2Z.id in AT. split.
    + rewrite <- A. now apply map_nth_error.
    + rewrite <- EC at 1. now apply map_nth_error.
Qed.

(** *** Stopping conditions *)
Open Scope R_scope.
(** allChange stops exactly when every number of every correction (of the clusters that did not jump) is less than the threshold. *)
Definition all_small (t : R) (corr : list R) : Prop := forall a, In a corr -> Rabs a < t.
Lemma small_spec srt t corr : small (RA srt) t corr = true <-> all_small t corr.
Proof.
  unfold small, all_small. rewrite forallb_forall. assert (M : forall a, magnitude (RA srt) a = Rabs a).
  { intros a. unfold magnitude. cbn [gt zero opp RA]. unfold Rabs. destruct (Rlt_dec a 0), (Rcase_abs a); auto; lra. }
  split; intros H a I; specialize (H a I); rewrite M in *; cbn [gt RA] in *; destruct (Rlt_dec (Rabs a) t); auto; try discriminate; contradiction.
Qed.
Lemma present_in {N} x corrs : In x (present N corrs) <-> In (Some x) corrs.
Proof.
  unfold present. rewrite in_flat_map. split.
  - intros ([y|] & I & J); [|destruct J]. destruct J as [<-|[]]. auto.
  - intros I. exists (Some x). split; auto. now left.
Qed.
Theorem C95_all_change : forall srt t it corrs, all_change (RA srt) t it corrs = false <-> forall corr, In (Some corr) corrs -> all_small t corr.
Proof.
  intros srt t it corrs. unfold all_change. rewrite Bool.negb_false_iff, forallb_forall. split; intros H x I.
  - apply (small_spec srt), H. now apply present_in.
  - apply small_spec, H. now apply present_in in I.
Qed.
(** halfChange stops exactly when, of the clusters that did not jump, at least half have such a correction; so it stops if every cluster jumped. *)
Theorem C95_half_change : forall srt t it corrs, half_change (RA srt) t it corrs = false <->
  exists s r, Permutation (map Some (s ++ r)) (filter (fun c => match c with Some _ => true | None => false end) corrs) /\
    Forall (all_small t) s /\ Forall (fun c => ~ all_small t c) r /\ (length r <= length s)%nat.
Proof.
  intros srt t it corrs.
  assert (P : filter (fun c => match c with Some _ => true | None => false end) corrs = map Some (present (RA srt) corrs)).
  { induction corrs as [|[c|] l IH]; cbn; auto. unfold present in IH. now rewrite IH. }
  assert (E : half_change (RA srt) t it corrs = Nat.ltb (2 * length (filter (small (RA srt) t) (present (RA srt) corrs))) (length (present (RA srt) corrs))) by (unfold half_change; now destruct present).
  rewrite E, P, Nat.ltb_ge. clear E P. generalize (present (RA srt) corrs). intros l.
  assert (Q : forall l, length l = (length (filter (small (RA srt) t) l) + length (filter (fun x => negb (small (RA srt) t x)) l))%nat).
  { clear. induction l as [|x l IH]; cbn; auto. destruct small; cbn; lia. }
  split.
  - intros H. exists (filter (small (RA srt) t) l), (filter (fun x => negb (small (RA srt) t x)) l). split; [|split; [|split]].
    + apply Permutation_map. clear. induction l as [|x l IH]; cbn; auto. destruct small; cbn; [now constructor|]. rewrite <- Permutation_middle. now constructor.
    + apply Forall_forall. intros x I. apply filter_In in I. now apply (small_spec srt).
    + apply Forall_forall. intros x I. apply filter_In in I. destruct I as [_ I]. apply Bool.negb_true_iff in I. intros S. apply (small_spec srt) in S. congruence.
    + specialize (Q l). lia.
  - intros (s & r & PM & S & U & L).
    assert (PL : Permutation (s ++ r) l).
    { apply (Permutation_map (fun o => match o with Some x => x | None => [] end)) in PM. rewrite !map_map in PM. now rewrite !map_id in PM. }
    assert (FP : forall a b, Permutation a b -> length (filter (small (RA srt) t) a) = length (filter (small (RA srt) t) b)).
    { clear. induction 1; cbn; auto; repeat destruct small; cbn; congruence. }
    rewrite <- (FP _ _ PL), <- (Permutation_length PL), filter_app, !app_length.
    assert (A : length (filter (small (RA srt) t) s) = length s); [|lia].
    clear - S. induction S as [|x l H _ IH]; cbn; auto. apply (small_spec srt) in H. rewrite H. cbn. auto.
Qed.
Close Scope R_scope.
(** maxIterations(n), documented to stop after n iterations, runs n + 1. *)
Theorem C95_iterations_refuted : forall N metric us dim minPoints dataset weights n fuel cs draws cs' m,
  optimize N metric fuel us dim minPoints dataset weights (max_iterations N n) 0 cs draws = Ok (cs', m) -> m = S n.
Proof. intros. eapply optimize_count; [|eauto]. lia. Qed.
(** clusterJumped(), documented to stop if no cluster jumped, stops exactly if one did; moving(), documented to go on while clusters jump, stops at the first jump. *)
Theorem C95_jumped_refuted : forall N it corrs, cluster_jumped N it corrs = false <-> In None corrs.
Proof.
  intros N it corrs. unfold cluster_jumped. induction corrs as [|[c|] l IH]; cbn; [easy| |split; auto].
  rewrite IH. split; auto. intros [H|H]; [discriminate|auto].
Qed.
Theorem C95_moving_refuted : forall N tiny it corrs, In None corrs -> moving N tiny it corrs = false.
Proof. intros N tiny it corrs I. unfold moving, while_all. cbn [forallb]. apply (C95_jumped_refuted N it) in I. now rewrite I. Qed.

(** *** Weights *)
(** With weights, iterate is an error as soon as the first cluster has neither one point nor as many points as there are columns. *)
Theorem C95_weights_refuted : forall N metric us dim minPoints dataset ws cs draws, cs <> [] ->
  let m := length (chosen (closest_cluster N metric dataset cs) 0 dataset) in m <> 1%nat -> m <> dim ->
  iterate N metric us dim minPoints dataset (Some ws) cs draws = Raise (PyErr "ValueError").
Proof.
  intros N metric us dim minPoints dataset ws cs draws NE m M1 M2. unfold iterate. destruct cs as [|c cs]; [easy|]. cbn [length seq moves]. unfold move at 1, scale.
  unfold residuals_of. rewrite map_length. unfold m in *. apply Nat.eqb_neq in M1, M2. now rewrite M1, M2.
Qed.
Close Scope Z_scope.
(** A point of weight 0 is not ignored, and the center of the points [4;4] (weight 0) and [2;6] (weight 1) becomes [0;5]. *)
Theorem C95_ignored_refuted : exists (dataset : list (list Q)) ws c c' corrs,
  ws = [0; 1]%Q /\ iterate QA (squared_euclidean QA 2) dataset 2 None dataset (Some ws) [c] [] = Ok ([c'], [], corrs) /\ c' <> nth 1 dataset [] /\
  (exists c'' corrs'', iterate QA (squared_euclidean QA 2) dataset 2 None [nth 1 dataset []] None [c] [] = Ok ([c''], [], corrs'') /\ c'' = nth 1 dataset []).
Proof.
  exists [[4; 4]; [2; 6]]%Q, [0; 1]%Q, [0; 0]%Q, [0; 5]%Q, [Some [0; 5]%Q]. split; auto. split; [vm_compute; reflexivity|]. split; [discriminate|].
  exists [2; 6]%Q, [Some [2; 6]%Q]. split; vm_compute; reflexivity.
Qed.
(** One point of weight 2: the center jumps over it and back, for ever. *)
Theorem C95_heavy_refuted : exists (x c c' : list Q) corrs corrs',
  iterate QA (squared_euclidean QA 1) [x] 1 None [x] (Some [2%Q]) [c] [] = Ok ([c'], [], corrs) /\
  iterate QA (squared_euclidean QA 1) [x] 1 None [x] (Some [2%Q]) [c'] [] = Ok ([c], [], corrs') /\ c <> c' /\ c <> x /\ c' <> x.
Proof.
  exists [1]%Q, [0]%Q, [2]%Q, [Some [2]%Q], [Some [-2]%Q]. repeat split; try discriminate; vm_compute; reflexivity.
Qed.

(** *** The document *)
(** With the Euclidean metric the function given to model.cluster.closest uses its parameters; with any other metric it uses names the document does not have. *)
Theorem C95_names : forall populations, d_uses (pfa_document KEuclidean populations) = d_params (pfa_document KEuclidean populations).
Proof. reflexivity. Qed.
Theorem C95_names_refuted : forall m populations u, m <> KEuclidean -> In u (d_uses (pfa_document m populations)) -> ~ In u (d_params (pfa_document m populations)).
Proof.
  intros m populations u NE. destruct m; [congruence| | | |]; cbn; intros [<-|[<-|[]]] [H|[H|[]]]; discriminate.
Qed.
(** Without populations the fields of the clusters are those of their type; with populations they are not. *)
Theorem C95_fields : forall m, Permutation (value_fields false) (d_fields (pfa_document m false)).
Proof. intros m. apply perm_swap. Qed.
Theorem C95_fields_refuted : forall m, In "population" (value_fields true) /\ ~ In "population" (d_fields (pfa_document m true)).
Proof. intros m. split; [cbn; auto|]. cbn. intros [H|[H|[H|[]]]]; discriminate. Qed.

(** *** Examples *)
Definition four : list (list Q) := [[0; 0]; [0; 2]; [6; 0]; [6; 2]]%Q.
Lemma RA_good srt : good_eq (RA srt).
Proof. intros a b. cbn. destruct (Req_EM_T a b); split; auto; discriminate. Qed.
Example C95_init_example : init QA 2 four [0; 0; 2; 1]%nat = Ok ([[0; 0]; [6; 0]]%Q, [1]%nat) /\ init QA 4 four [0]%nat = Raise (PyErr "TypeError").
Proof. split; vm_compute; reflexivity. Qed.
Example C95_new_point_example : exists i : nat, (i < length (uniques (RA (fun _ => [])) [[0]; [1]; [0]]%R))%nat /\ forall draws, In i draws ->
  exists x ds, new_cluster (RA (fun _ => [])) (uniques (RA (fun _ => [])) [[0]; [1]; [0]]%R) [[1]%R] draws = Ok (x, ds).
Proof.
  apply C95_new_point; [apply RA_good|]. exists [[0]; [1]]%R. split; [|split; [|cbn; lia]].
  - repeat constructor; cbn; intuition. inversion H0. lra.
  - intros x [<-|[<-|[]]]; cbn; auto.
Qed.
Example C95_iterate_example : iterate QA (squared_euclidean QA 2) four 2 None four None [[0; 0]; [6; 0]]%Q [] = Ok ([[0; 1]; [6; 1]]%Q, [], [Some [0; 1]; Some [0; 1]]%Q)
  /\ iterate QA (squared_euclidean QA 2) four 2 None four None [[0; 1]; [6; 1]]%Q [] = Ok ([[0; 1]; [6; 1]]%Q, [], [Some [0; 0]; Some [0; 0]]%Q)
  /\ iterate QA (squared_euclidean QA 2) four 2 (Some 3%nat) four None [[0; 1]; [6; 1]]%Q [0; 3]%nat = Ok ([[0; 0]; [6; 2]]%Q, [], [None; None])
  /\ iterate QA (squared_euclidean QA 2) four 2 None four None [[0; 0]; [0; 9]]%Q [0; 3]%nat = Ok ([[3; 1]; [0; 0]]%Q, [3]%nat, [Some [3; 1]%Q; None]).
Proof. repeat split; vm_compute; reflexivity. Qed.
Example C95_run_example : optimize QA (squared_euclidean QA 2) 17 four 2 None four None (moving QA (1 # 1000)) 0 [[0; 0]; [6; 0]]%Q [] = Ok ([[0; 1]; [6; 1]]%Q, 2%nat)
  /\ optimize QA (squared_euclidean QA 2) 17 four 2 None four None (max_iterations QA 3) 0 [[0; 0]; [6; 0]]%Q [] = Ok ([[0; 1]; [6; 1]]%Q, 4%nat).
Proof. split; vm_compute; reflexivity. Qed.
(** with the real numbers: one point, one center, one step *)
Example C95_descent_example : exists cs' ds corrs v v', iterate (RA (fun _ => [])) (squared_euclidean (RA (fun _ => [])) 1) [] 1 None [[3]%R] None [[1]%R] [] = Ok (cs', ds, corrs) /\ no_jump corrs /\
  cost 1 [[1]%R] [[3]%R] v /\ cost 1 cs' [[3]%R] v' /\ (v' < v)%R.
Proof.
  pose (N := RA (fun _ => [])). pose (met := squared_euclidean N 1). assert (O : euclidean_order 1 met) by apply C95_metrics.
  set (I := iterate N met [] 1 None [[3]%R] None [[1]%R] []).
  assert (E : exists cs' corr, I = Ok ([cs'], [], [Some [corr]]) /\ (corr = 2)%R).
  { unfold I, iterate. cbn [length seq moves closest_cluster map argmin argmin_from]. unfold move. cbn. do 2 eexists. split; [reflexivity|]. lra. }
  destruct E as (c & corr & E & C). exists [c], [], [Some [corr]]. 
  exists (the_cost (fun _ => []) met 1 [[3]%R] [[1]%R]), (the_cost (fun _ => []) met 1 [[3]%R] [c]).
  assert (J : no_jump [Some [corr]]) by (repeat constructor; discriminate).
  assert (V : cost 1 [[1]%R] [[3]%R] (the_cost (fun _ => []) met 1 [[3]%R] [[1]%R])) by (apply cost_exists; auto; discriminate).
  assert (V' : cost 1 [c] [[3]%R] (the_cost (fun _ => []) met 1 [[3]%R] [c])) by (apply cost_exists; auto; discriminate).
  repeat split; auto.
  destruct (C95_descent (fun _ => []) met 1 [] None [[3]%R] [[1]%R] [] [c] [] [Some [corr]] _ _ O ltac:(discriminate) ltac:(constructor) E J V V') as [_ H].
  apply H. exists 0%nat, [corr], 0%nat. repeat split; auto. unfold at_k. cbn. lra.
Qed.
Example C95_value_example : pfa_value QA (squared_euclidean QA 2) ["a"; "b"]%string true true four [[6; 1]; [0; 1]]%Q =
  Ok [Entry QA [0; 1]%Q (Some 2%nat) "a"; Entry QA [6; 1]%Q (Some 2%nat) "b"].
Proof. vm_compute. reflexivity. Qed.
Example C95_scores_example : match closest (S := Z) (@e_center FA) [f_of_Z 5] [Entry FA [f_of_Z 1] None "a"; Entry FA [f_of_Z 4] None "b"] (fun d c => ret (squared_euclidean FA 1 d c)) 7%Z with
  | (Ok e, s) => e_id _ e = "b"%string /\ s = 7%Z | _ => False end.
Proof. vm_compute. split; reflexivity. Qed.
Example C95_weights_example : iterate QA (squared_euclidean QA 2) four 2 None four (Some [1; 1; 1; 1]%Q) [[3; 1]; [90; 1]]%Q [] = Raise (PyErr "ValueError").
Proof. vm_compute. reflexivity. Qed.

Print Assumptions C95_init. Print Assumptions C95_init_refused. Print Assumptions C95_new_point. Print Assumptions C95_metrics. Print Assumptions C95_assign.
Print Assumptions C95_means. Print Assumptions C95_descent. Print Assumptions C95_ends. Print Assumptions C95_run. Print Assumptions C95_value. Print Assumptions C95_scores.
Print Assumptions C95_all_change. Print Assumptions C95_half_change. Print Assumptions C95_iterations_refuted. Print Assumptions C95_jumped_refuted. Print Assumptions C95_moving_refuted.
Print Assumptions C95_weights_refuted. Print Assumptions C95_ignored_refuted. Print Assumptions C95_heavy_refuted. Print Assumptions C95_names. Print Assumptions C95_names_refuted.
Print Assumptions C95_fields. Print Assumptions C95_fields_refuted.
