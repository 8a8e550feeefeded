(** Theorems about clusters and neighbours: C49. *)
From Coq Require Import QArith SpecFloat Permutation Lqa.
From Verif Require Import Base PyNum Effects ArrayModel ArraySpec ArrayProofs SortProofs ArrayProofs2 ArrayProofs3 StatModel StatSpec ClusterModel ClusterSpec ClusterProofs ClusterProofs2.
Open Scope string_scope.
Open Scope list_scope.
Open Scope Z_scope.

(** model.cluster.closest calls the metric once on every center, in order, and returns the cluster at
    the first smallest distance (when no distance is nan). *)
Theorem C49_closest : forall S A B C (center : C -> B) (metric : A -> B -> M S pf) datum clusters s s' ds,
  clusters <> [] -> no_nan ds -> calls (metric datum) s (map center clusters) s' ds ->
  exists i c, closest center datum clusters metric s = (Ok c, s') /\ at_ clusters i = Some c /\ first_nearest ds i.
Proof. intros. apply closest_ok; auto. Qed.
Theorem C49_closestN : forall S A B C (center : C -> B) (metric : A -> B -> M S pf) n datum clusters s s' ds,
  0 <= n -> no_nan ds -> calls (metric datum) s (map center clusters) s' ds ->
  exists out, closestN center n datum clusters metric s = (Ok out, s') /\ nearest_in_order ds clusters n out.
Proof. intros. apply closestN_ok; auto. Qed.
(** closestN 1 is closest *)
Theorem C49_closest_is_closestN : forall S A B C (center : C -> B) (metric : A -> B -> M S pf) datum clusters s c s',
  closest center datum clusters metric s = (Ok c, s') <-> clusters <> [] /\ closestN center 1 datum clusters metric s = (Ok [c], s').
Proof.
  intros S A B C center metric datum clusters s c s'. unfold closest, closestN. cbn [Z.ltb Z.compare].
  destruct clusters as [|c0 cl] eqn:Ec. { split; [discriminate|intros [[] _]; auto]. } rewrite <- Ec.
  assert (NE : clusters <> []) by (rewrite Ec; discriminate).
  unfold bind. destruct (distances center metric datum clusters s) as [[ds|e] s1] eqn:E.
  2:{ split; [discriminate|]. intros [_ H]; discriminate. }
  unfold lift. rewrite argLowestN_eq by lia. change (Z.to_nat 1) with 1%nat.
  assert (L : length ds = length clusters). { apply mapM_ok in E. apply calls_len in E. auto. }
  destruct (sorted_pairs flt ds) as [|[i x] l] eqn:Es.
  - exfalso. pose proof (Permutation_length (sp_perm flt ds)) as K. rewrite Es in K. rewrite enum_length in K. cbn in K.
    rewrite L, Ec in K. discriminate.
  - cbn [firstn map fst picks]. destruct (pick clusters i) as [y|e]; cbn [rbind]; split.
    + intros K. inversion K; subst. auto.
    + intros [_ K]. inversion K; subst. auto.
    + discriminate.
    + intros [_ K]. discriminate.
Qed.
Theorem C49_errors : forall S A B C (center : C -> B) (metric : A -> B -> M S pf) (update : list A -> C -> M S C) datum data clusters n s,
  closest center datum [] metric s = (Raise (PFAErr 29000), s) /\
  (n < 0 -> closestN center n datum clusters metric s = (Raise (PFAErr 29010), s)) /\
  kmeansIteration center [] clusters metric update s = (Raise (PFAErr 29030), s) /\
  (data <> [] -> kmeansIteration center data [] metric update s = (Raise (PFAErr 29031), s)) /\
  (n < 0 -> forall cb : list B, nearestK n datum cb metric s = (Raise (PFAErr 30010), s)).
Proof.
  intros. split; [reflexivity|]. split. { intros H. unfold closestN. destruct (Z.ltb_spec n 0); [auto|lia]. }
  split; [reflexivity|]. split. { intros H. unfold kmeansIteration. destruct data; [congruence|auto]. }
  intros H cb. unfold nearestK. destruct (Z.ltb_spec n 0); [auto|lia].
Qed.

(** the distances as small integers, for examples *)
Definition fz (z : Z) : pf := f_of_Z z.
Definition mdist (a b : Z) : M Z pf := fun s => (Ok (fz (Z.abs (a - b))), s + 1).
Example C49_example_closest :
  let cl := [("a", 10); ("b", 4); ("c", 6); ("d", 5)] in
  calls (mdist 5) 0 (map snd cl) 4 [fz 5; fz 1; fz 1; fz 0] /\ no_nan [fz 5; fz 1; fz 1; fz 0] /\
  closest snd 5 cl mdist 0 = (Ok ("d", 5), 4) /\
  closestN snd 3 5 cl mdist 0 = (Ok [("d", 5); ("b", 4); ("c", 6)], 4).
Proof.
  cbn zeta. split. { repeat econstructor. } split. { repeat constructor. } split; vm_compute; reflexivity.
Qed.

(** With a nan among the distances the result need not be nearest: the first cluster wins. *)
Theorem C49_nan_refuted : exists ds (clusters : list (string * pf)) c,
  closest (S := unit) snd tt clusters (fun _ d => ret d) tt = (Ok c, tt) /\
  ds = map snd clusters /\ isnan (snd c) = true /\ exists d, In d ds /\ isnan d = false.
Proof.
  exists [fnan; fz 1], [("bad", fnan); ("good", fz 1)], ("bad", fnan).
  split; [vm_compute; reflexivity|]. split; [reflexivity|]. split; [reflexivity|].
  exists (fz 1). split; [right; left; auto|reflexivity].
Qed.
(** The built-in distance silently truncates to the shorter vector: a center without coordinates is
    at distance 0 from everything. (nearestK checks the dimensions, closest and ballR do not.) *)
Theorem C49_dimension_refuted : exists clusters c datum,
  closest (S := unit) snd datum clusters (fun d x => lift (sqdist d x)) tt = (Ok c, tt) /\
  length (snd c) <> length datum /\ In ("good", [fz 3; fz 5]) clusters.
Proof.
  exists [("good", [fz 3; fz 5]); ("short", [])], ("short", []), [fz 3; fz 4].
  split; [vm_compute; reflexivity|]. split; [cbn; lia|]. left; auto.
Qed.

(** model.cluster.kmeansIteration: every datum, in order, is assigned to the first nearest cluster;
    then every cluster with data is updated with its data in order, the others are kept. *)
Theorem C49_kmeans : forall S A B C (center : C -> B) (metric : A -> B -> M S pf) (update : list A -> C -> M S C)
    data clusters s s1 s' is_ out,
  data <> [] -> clusters <> [] ->
  assigning metric (map center clusters) s data s1 is_ ->
  updating update (assigned_to data is_) 0 s1 clusters s' out ->
  kmeansIteration center data clusters metric update s = (Ok out, s').
Proof. intros. eapply kmeans_ok; eauto. Qed.
(** every datum goes to exactly one cluster *)
Theorem C49_kmeans_partition : forall S A B (metric : A -> B -> M S pf) centers s data s' is_,
  assigning metric centers s data s' is_ ->
  length is_ = length data /\ Forall (fun i => 0 <= i < len centers) is_ /\
  Permutation (concat (map (fun i => assigned_to data is_ (Z.of_nat i)) (seq 0 (length centers)))) data.
Proof.
  intros S A B metric centers s data s' is_ H.
  pose proof (assigning_len _ _ _ _ _ _ H) as L. pose proof (assigning_range _ _ _ _ _ _ H) as R.
  split; auto. split; auto. clear H.
  assert (G : forall n k (data : list A) is_, length is_ = length data -> Forall (fun i => Z.of_nat k <= i < Z.of_nat k + Z.of_nat n) is_ ->
    Permutation (concat (map (fun i => assigned_to data is_ (Z.of_nat i)) (seq k n))) data).
  { clear. induction n as [|n IH]; intros k data is_ L R.
    - destruct is_ as [|i is_]. { destruct data; [constructor|discriminate]. }
      inversion R; subst. lia.
    - cbn [seq map concat].
      set (f := fun p : A * Z => snd p =? Z.of_nat k).
      set (rest := filter (fun p => negb (f p)) (combine data is_)).
      assert (P : Permutation (assigned_to data is_ (Z.of_nat k) ++ map fst rest) data).
      { unfold assigned_to. fold f. rewrite <- map_app.
        rewrite <- (map_fst_combine data is_) at 2 by auto. apply Permutation_map.
        unfold rest. clear. induction (combine data is_) as [|p l IHl]; cbn; auto.
        destruct (f p); cbn. { constructor; auto. }
        rewrite <- Permutation_middle. constructor. auto. }
      rewrite <- P at 2. apply Permutation_app_head.
      rewrite <- (IH (Datatypes.S k) (map fst rest) (map snd rest)).
      + apply Permutation_refl'. f_equal. apply map_ext_in. intros j Hj. apply in_seq in Hj.
        unfold assigned_to, rest, f. f_equal.
        clear -Hj. induction (combine data is_) as [|[x i] l IHl]; cbn; auto.
        destruct (Z.eqb_spec i (Z.of_nat k)) as [E1|E1]; cbn.
        * destruct (Z.eqb_spec i (Z.of_nat j)); [lia|auto].
        * destruct (Z.eqb_spec i (Z.of_nat j)); [f_equal; auto|auto].
      + rewrite !map_length. auto.
      + apply Forall_forall. intros i Hi. apply in_map_iff in Hi. destruct Hi as ([x i'] & E & Hi). cbn in E. subst i'.
        unfold rest in Hi. apply filter_In in Hi. destruct Hi as [Hi Hf]. apply in_combine_r in Hi.
        rewrite Forall_forall in R. specialize (R i Hi). unfold f in Hf. cbn in Hf.
        destruct (Z.eqb_spec i (Z.of_nat k)); [discriminate|lia]. }
  apply (G (length centers) 0%nat data is_); auto.
Qed.
Example C49_example_kmeans :
  let cl := [("a", 0); ("b", 100); ("c", 10)] in
  let upd (l : list Z) (c : string * Z) : M Z (string * Z) := fun s => (Ok (fst c, fold_right Z.add 0 l), s + 1000) in
  assigning mdist (map snd cl) 0 [1; 9; 5; 12] 12 [0; 2; 0; 2] /\
  updating upd (assigned_to [1; 9; 5; 12] [0; 2; 0; 2]) 0 12 cl 2012 [("a", 6); ("b", 100); ("c", 21)] /\
  kmeansIteration snd [1; 9; 5; 12] cl mdist upd 0 = (Ok [("a", 6); ("b", 100); ("c", 21)], 2012).
Proof.
  cbn zeta. split; [|split; [|vm_compute; reflexivity]].
  - assert (K : forall x ds, ds = map (fun c => fz (Z.abs (x - c))) [0; 100; 10] -> forall s,
      calls (mdist x) s [0; 100; 10] (s + 3) ds).
    { intros x ds -> s. replace (s + 3) with (s + 1 + 1 + 1) by lia. repeat econstructor. }
    assert (F : forall a b c i, (i = 0 /\ flt (fz b) (fz a) = false /\ flt (fz c) (fz a) = false) \/
                (i = 2 /\ flt (fz a) (fz c) = false /\ flt (fz b) (fz c) = false /\ flt (fz c) (fz a) = true /\ flt (fz c) (fz b) = true) ->
                first_nearest [fz a; fz b; fz c] i).
    { intros a b c i [(-> & H1 & H2)|(-> & H1 & H2 & H3 & H4)].
      - exists (fz a). split; auto. intros j d' Hj. unfold at_ in Hj. destruct (Z.ltb_spec j 0); [discriminate|].
        destruct (Z.to_nat j) as [|[|[|[|?]]]] eqn:Ej; cbn in Hj; try discriminate; inversion Hj; subst; split; auto; try lia.
        apply flt_irrefl.
      - exists (fz c). split; auto. intros j d' Hj. unfold at_ in Hj. destruct (Z.ltb_spec j 0); [discriminate|].
        destruct (Z.to_nat j) as [|[|[|[|?]]]] eqn:Ej; cbn in Hj; try discriminate; inversion Hj; subst; split; auto; try lia.
        apply flt_irrefl. }
    cbn [map snd].
    eapply assigning_cons; [apply (K 1 _ eq_refl)| repeat constructor | apply F; left; vm_compute; auto |].
    eapply assigning_cons; [apply (K 9 _ eq_refl)| repeat constructor | apply F; right; vm_compute; auto 6 |].
    eapply assigning_cons; [apply (K 5 _ eq_refl)| repeat constructor | apply F; left; vm_compute; auto |].
    eapply assigning_cons; [apply (K 12 _ eq_refl)| repeat constructor | apply F; right; vm_compute; auto 6 |].
    apply assigning_nil.
  - eapply updating_call; [vm_compute; discriminate|reflexivity|].
    apply updating_keep; [reflexivity|].
    eapply updating_call; [vm_compute; discriminate|reflexivity|]. apply updating_nil.
Qed.

(** model.cluster.updateMean: each coordinate of the new center is the weighted mean of the data (weight
    1 each) and the old center (weight [w]); infinite or nan exactly when the weights cancel. *)
Theorem C49_updateMean : forall v0 data vec w dim,
  Forall (fun v => length v = dim) (v0 :: data) -> length vec = dim ->
  exists out, updateMean (v0 :: data) vec w = Ok out /\ length out = dim /\
    let n := inject_Z (len (v0 :: data)) in
    (n + w == 0 -> out = repeat None dim)%Q /\
    (~ n + w == 0 -> forall i, (i < dim)%nat -> exists q, nth_error out i = Some (Some q) /\
       q * (n + w) == qsum (coord i (v0 :: data)) + w * nth i vec 0)%Q.
Proof. intros v0 data vec w dim F L. apply updateMean_ok; auto. inversion F; auto. Qed.
Theorem C49_updateMean_errors : forall data vec w,
  (data = [] -> updateMean data vec w = Raise (PFAErr 29040)) /\
  (forall v0 l, data = v0 :: l -> ~ (exists dim, Forall (fun v => length v = dim) (vec :: data)) -> updateMean data vec w = Raise (PFAErr 29041)).
Proof.
  intros data vec w. split. { intros ->. reflexivity. }
  intros v0 l -> H. apply updateMean_bad. intros [F L]. apply H. exists (length v0). constructor; auto.
Qed.
(** with a non-negative weight the new center lies in any box containing the data and the old center *)
Theorem C49_updateMean_box : forall v0 data vec w dim out i q lo hi,
  Forall (fun v => length v = dim) (v0 :: data) -> length vec = dim -> (0 <= w)%Q -> (i < dim)%nat ->
  Forall (fun x => lo <= x <= hi)%Q (nth i vec 0%Q :: coord i (v0 :: data)) ->
  updateMean (v0 :: data) vec w = Ok out -> nth_error out i = Some (Some q) -> (lo <= q <= hi)%Q.
Proof.
  intros v0 data vec w dim out i q lo hi F L Hw Hi B E Eq.
  destruct (C49_updateMean v0 data vec w dim F L) as (out' & E' & Lo & _ & K). rewrite E in E'. inversion E'; subst out'.
  destruct (Forall_inv B) as [V1 V2]. pose proof (qsum_bounds _ _ _ (Forall_inv_tail B)) as B'.
  replace (len (coord i (v0 :: data))) with (len (v0 :: data)) in B' by (unfold len, coord; rewrite map_length; auto).
  cbn zeta in K. 
  assert (Hn : (1 <= inject_Z (len (v0 :: data)))%Q).
  { change 1%Q with (inject_Z 1). rewrite <- Zle_Qle. unfold len. cbn [length]. lia. }
  revert K B' Hn. generalize (inject_Z (len (v0 :: data))). intros n K B' Hn.
  destruct K with (i := i) as (q' & Eq' & Q1); auto. { lra. } rewrite Eq in Eq'. inversion Eq'; subst q'.
  destruct B' as [B1 B2]. revert Q1 B1 B2. generalize (qsum (coord i (v0 :: data))). intros t Q1 B1 B2.
  assert (P : (0 < n + w)%Q) by lra.
  assert (W1 : (0 <= w * (nth i vec 0 - lo))%Q) by (apply Qmult_le_0_compat; lra).
  assert (W2 : (0 <= w * (hi - nth i vec 0))%Q) by (apply Qmult_le_0_compat; lra).
  split; apply (Qmult_le_r _ _ _ P); rewrite Q1; lra.
Qed.
Example C49_example_updateMean :
  match updateMean [[1#1;2#1];[3#1;4#1]] [10#1;0#1] (2#1) with
  | Ok [Some a; Some b] => (a == 6 /\ b == 3 # 2)%Q | _ => False end.
Proof. split; reflexivity. Qed.

(** model.cluster.randomSeeds: k distinct data points, passed with their number to newCluster in order. *)
Theorem C49_randomSeeds : forall S C X (eqb : list X -> list X -> bool) (shuffle : list (list X) -> M S (list (list X)))
    (newCluster : Z -> list X -> M S C) data k s out s',
  equivalence eqb -> (forall l s l' s', shuffle l s = (Ok l', s') -> Permutation l l') ->
  randomSeeds eqb shuffle data k newCluster s = (Ok out, s') ->
  exists seeds s1, len seeds = k /\ 0 < k /\ no_repeats eqb seeds /\ (forall v, In v seeds -> In v data) /\
    calls (fun iv => newCluster (fst iv) (snd iv)) s1 (combine (map Z.of_nat (seq 0 (length seeds))) seeds) s' out.
Proof.
  intros S C X eqb shuffle newCluster data k s out s' E Hs H. unfold randomSeeds in H.
  destruct (Z.leb_spec k 0) as [K|K]; [discriminate|].
  destruct (Z.ltb_spec (Z.of_nat (length (uniques_of eqb [] data))) k) as [U|U]; [discriminate|].
  destruct (same_size (uniques_of eqb [] data)); [|discriminate]. cbn [negb] in H.
  unfold bind in H. destruct (shuffle (uniques_of eqb [] data) s) as [[l|e] s1] eqn:Es; [|discriminate].
  apply Hs in Es. apply mapM_ok in H.
  destruct (uniques_of_spec eqb E data []) as (N & I1 & _). { exact I. }
  pose proof (Permutation_length Es) as L.
  exists (firstn (Z.to_nat k) l), s1. split. { unfold len. rewrite firstn_length. lia. }
  split; auto. split. { apply no_repeats_firstn; auto. eapply no_repeats_perm; eauto. }
  split.
  - intros v Hv. assert (Hv' : In v l). { rewrite <- (firstn_skipn (Z.to_nat k) l). apply in_or_app. auto. }
    apply (Permutation_in _ (Permutation_sym Es)) in Hv'. destruct (I1 v Hv') as [[]|]; auto.
  - replace (combine _ _) with (enum (firstn (Z.to_nat k) l)); auto.
    unfold enum, ArithModel.zrange, ArrayModel.zlen. f_equal.
    rewrite Z.sub_0_r, Nat2Z.id. apply map_ext. intros. lia.
Qed.
(** it succeeds exactly when there are k distinct points of one dimension *)
Theorem C49_randomSeeds_errors : forall S C X (eqb : list X -> list X -> bool) (shuffle : list (list X) -> M S (list (list X)))
    (newCluster : Z -> list X -> M S C) data k s,
  equivalence eqb ->
  (k <= 0 -> randomSeeds eqb shuffle data k newCluster s = (Raise (PFAErr 29020), s)) /\
  (0 < k -> (forall l, no_repeats eqb l -> (forall v, In v l -> In v data) -> len l < k) ->
     randomSeeds eqb shuffle data k newCluster s = (Raise (PFAErr 29021), s)).
Proof.
  intros S C X eqb shuffle newCluster data k s E. unfold randomSeeds. split.
  - intros H. destruct (Z.leb_spec k 0); [auto|lia].
  - intros H G. destruct (Z.leb_spec k 0); [lia|].
    destruct (uniques_of_spec eqb E data []) as (N & I1 & _). { exact I. }
    assert (G' : len (uniques_of eqb [] data) < k). { apply G; auto. intros v Hv. destruct (I1 v Hv) as [[]|]; auto. }
    unfold len in G'. destruct (Z.ltb_spec (Z.of_nat (length (uniques_of eqb [] data))) k); [auto|lia].
Qed.
Definition zlist_eqb (a b : list Z) : bool := if list_eq_dec Z.eq_dec a b then true else false.
Example C49_example_seeds : equivalence zlist_eqb /\
  randomSeeds zlist_eqb (fun l s => (Ok (rev l), s)) [[1;2];[3;4];[1;2];[5;6]] 2
    (fun i v s => (Ok (i, v), s + 1)) 0 = (Ok [(0, [5;6]); (1, [3;4])], 2).
Proof.
  split; [|vm_compute; reflexivity]. unfold zlist_eqb. constructor.
  - intros x. destruct (list_eq_dec Z.eq_dec x x); congruence.
  - intros x y. destruct (list_eq_dec Z.eq_dec x y); [|discriminate]. subst. destruct (list_eq_dec Z.eq_dec y y); congruence.
  - intros x y z. destruct (list_eq_dec Z.eq_dec x y); [|discriminate]. subst. auto.
Qed.

(** model.neighbor.nearestK *)
Theorem C49_nearestK : forall S A B (metric : A -> B -> M S pf) k datum codebook s s' ds,
  0 <= k -> no_nan ds -> calls (metric datum) s codebook s' ds ->
  exists out, nearestK k datum codebook metric s = (Ok out, s') /\ nearest_in_order ds codebook k out.
Proof.
  intros S A B metric k datum codebook s s' ds Hk N H. pose proof (calls_len _ _ _ _ _ H) as L.
  destruct (nearest_picks ds codebook k) as (ps & out & E & P & NO); auto.
  exists out. split; auto. unfold nearestK. destruct (Z.ltb_spec k 0); [lia|].
  unfold bind. apply mapM_ok in H. rewrite H. unfold lift. rewrite E, P. auto.
Qed.
(** the built-in distance is used as if passed as the metric, after checking the dimensions *)
Theorem C49_nearestK_default : forall S k datum codebook (s : S), 0 <= k ->
  (Forall (fun x => length x = length datum) codebook ->
     nearestK_default k datum codebook s = nearestK k datum codebook (fun d x => lift (sqdist d x)) s) /\
  (~ Forall (fun x => length x = length datum) codebook -> nearestK_default k datum codebook s = (Raise (PFAErr 30011), s)).
Proof.
  intros S k datum codebook s Hk. unfold nearestK_default, nearestK. destruct (Z.ltb_spec k 0); [lia|].
  destruct codebook as [|x l]. { split; [|intros []; constructor]. intros _. unfold bind, lift. cbn -[argLowestN].
    rewrite argLowestN_eq by lia. destruct (Z.to_nat k); auto. }
  split; intros F.
  - replace (forallb _ (x :: l)) with true; auto. symmetry. apply forallb_forall. intros y Hy. apply Nat.eqb_eq.
    rewrite Forall_forall in F. auto.
  - destruct (forallb _ (x :: l)) eqn:E; auto. exfalso. apply F. apply Forall_forall. intros y Hy.
    rewrite forallb_forall in E. apply Nat.eqb_eq. auto.
Qed.
(** model.neighbor.ballR keeps, in order, the items at a distance smaller than r *)
Theorem C49_ballR : forall S A B (metric : A -> B -> M S pf) r datum codebook s s' out,
  ballR r datum codebook metric s = (Ok out, s') <->
  exists ds, calls (metric datum) s codebook s' ds /\ out = flagged codebook (map (fun d => nearer d r) ds).
Proof.
  intros S A B metric r datum codebook s s' out. unfold ballR, bind, ret.
  assert (K : forall (l : list B) ds, flagged l (map (fun d => nearer d r) ds) =
    map fst (filter (fun xd : B * pf => flt (snd xd) r) (combine l ds))).
  { unfold flagged. intros l. induction l as [|x l IH]; intros [|d ds]; cbn [map combine filter snd]; auto.
    change (nearer d r) with (flt d r). destruct (flt d r); cbn [map fst]; rewrite IH; auto. }
  split.
  - destruct (mapM (metric datum) codebook s) as [[ds|e] s1] eqn:E; [|discriminate].
    intros H. inversion H; subst. apply mapM_ok in E. exists ds. split; auto.
  - intros (ds & H & ->). apply mapM_ok in H. rewrite H, K. auto.
Qed.
Example C49_example_neighbors :
  nearestK_default (S := unit) 2 [fz 0; fz 0] [[fz 5; fz 0]; [fz 1; fz 1]; [fz 0; fz 2]] tt = (Ok [[fz 1; fz 1]; [fz 0; fz 2]], tt) /\
  ballR (fz 5) [fz 0; fz 0] [[fz 3; fz 4]; [fz 1; fz 1]; [fz 0; fz 6]; [fz 0; fz 2]] (ball_metric (S := unit)) tt = (Ok [[fz 1; fz 1]; [fz 0; fz 2]], tt).
Proof. split; vm_compute; reflexivity. Qed.

(** model.neighbor.mean: the weighted mean of the points, coordinate by coordinate *)
Theorem C49_mean : forall S p0 points (weight : list Q -> M S Q) s s' ws dim,
  calls weight s (p0 :: points) s' ws -> Forall (fun v => length v = dim) (p0 :: points) -> (~ qsum ws == 0)%Q ->
  exists out, n_mean (p0 :: points) weight s = (Ok out, s') /\ length out = dim /\
    forall i, (nth i out 0 * qsum ws == qsum (map (fun wp => fst wp * nth i (snd wp) 0) (combine ws (p0 :: points))))%Q.
Proof. intros S p0 points weight s s' ws dim H F N. eapply n_mean_ok; eauto. inversion F; auto. Qed.
(** but weights that cancel end in a Python ZeroDivisionError, not in inf or nan *)
Theorem C49_mean_crash_refuted : exists points (weight : list Q -> M unit Q),
  n_mean points weight tt = (Raise (PyErr "ZeroDivisionError"), tt).
Proof. exists [[1%Q]; [2%Q]], (fun p => ret (match p with x :: _ => if Qeq_bool x 1 then 1%Q else (-1)%Q | [] => 0%Q end)). reflexivity. Qed.
Example C49_example_mean : 
  match n_mean (S := unit) [[1%Q; 4%Q]; [3%Q; 0%Q]] (fun p => ret (nth 0 p 0%Q)) tt with
  | (Ok [a; b], tt) => (a == 5 # 2 /\ b == 1)%Q | _ => False end.
Proof. split; reflexivity. Qed.

Print Assumptions C49_closest.
Print Assumptions C49_closestN.
Print Assumptions C49_closest_is_closestN.
Print Assumptions C49_errors.
Print Assumptions C49_nan_refuted.
Print Assumptions C49_dimension_refuted.
Print Assumptions C49_kmeans.
Print Assumptions C49_kmeans_partition.
Print Assumptions C49_updateMean.
Print Assumptions C49_updateMean_errors.
Print Assumptions C49_updateMean_box.
Print Assumptions C49_randomSeeds.
Print Assumptions C49_randomSeeds_errors.
Print Assumptions C49_nearestK.
Print Assumptions C49_nearestK_default.
Print Assumptions C49_ballR.
Print Assumptions C49_mean.
Print Assumptions C49_mean_crash_refuted.
