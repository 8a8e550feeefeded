From Coq Require Import QArith SpecFloat Permutation Sorting.Sorted Lqa.
From Verif Require Import Base PyNum Effects ArrayModel ArraySpec ArrayProofs SortProofs ArrayProofs2 ArrayProofs3 StatModel StatSpec ClusterModel ClusterSpec.
Open Scope string_scope.
Open Scope list_scope.
Open Scope Z_scope.

(** ** Floats in order, nan last: a weak order that agrees with [<] away from nan *)
Definition fkey (a b : pf) : bool :=
  match isnan a, isnan b with
  | true, _ => false
  | false, true => true
  | false, false => flt a b
  end.
Lemma flt_irrefl a : flt a a = false.
Proof.
  unfold flt, num_lt, num_cmp, SFcompare. destruct a as [| | |[] m e]; try (destruct s); auto;
  rewrite Z.compare_refl; change (Pcompare m m Eq) with (m ?= m)%positive; rewrite Pos.compare_refl; auto.
Qed.
(* lexicographic key *)
Definition code (a : pf) : Z * (Z * Z) :=
  match a with
  | S754_nan => (10, (0, 0))
  | S754_infinity true => (-2, (0, 0))
  | S754_infinity false => (2, (0, 0))
  | S754_zero _ => (0, (0, 0))
  | S754_finite true m e => (-1, (- e, - Z.pos m))
  | S754_finite false m e => (1, (e, Z.pos m))
  end.
Definition lex (x y : Z * (Z * Z)) : Prop :=
  fst x < fst y \/ (fst x = fst y /\ (fst (snd x) < fst (snd y) \/ (fst (snd x) = fst (snd y) /\ snd (snd x) < snd (snd y)))).
Lemma fkey_lex a b : fkey a b = true <-> lex (code a) (code b).
Proof.
  unfold fkey, flt, num_lt, num_cmp, SFcompare, lex.
  destruct a as [[]|[]| |[] m e], b as [[]|[]| |[] m' e']; cbn -[Z.compare Pos.compare Z.lt Z.opp];
    try (split; [discriminate|lia]); try (split; [lia|auto]); try lia;
    try (split; [intros _; lia| auto; fail]).
  all: change (Pcompare m m' Eq) with (m ?= m')%positive.
  all: destruct (Z.compare_spec e e'), (Pos.compare_spec m m'); cbn -[Z.lt Z.opp]; split; try discriminate; try lia; auto.
Qed.
Lemma fkey_weak : weak_order fkey.
Proof.
  constructor.
  - intros x. destruct (fkey x x) eqn:E; auto. apply fkey_lex in E. unfold lex in E. lia.
  - intros x y z H1 H2. apply fkey_lex in H1, H2. apply fkey_lex. unfold lex in *. lia.
  - intros x y z H. apply fkey_lex in H.
    destruct (fkey x y) eqn:E1; auto. destruct (fkey y z) eqn:E2; auto. exfalso.
    assert (~ lex (code x) (code y)) by (rewrite <- fkey_lex, E1; discriminate).
    assert (~ lex (code y) (code z)) by (rewrite <- fkey_lex, E2; discriminate).
    unfold lex in *. lia.
Qed.
Lemma fkey_flt a b : isnan a = false -> isnan b = false -> fkey a b = flt a b.
Proof. unfold fkey. intros -> ->. auto. Qed.

(** ** The order may be changed outside the items of the list *)
Lemma ins_ext {X} (f g : X -> X -> bool) x l :
  (forall y, In y l -> f x y = g x y) -> ins f x l = ins g x l.
Proof.
  induction l as [|y l IH]; cbn; intros H; auto.
  rewrite (H y) by auto. destruct (g x y); auto. f_equal. apply IH. auto.
Qed.
Lemma fold_ins_ext {X} (f g : X -> X -> bool) l : forall acc,
  (forall x y, In x l -> In y acc \/ In y l -> f x y = g x y) ->
  fold_left (fun out x => ins f x out) l acc = fold_left (fun out x => ins g x out) l acc.
Proof.
  induction l as [|x l IH]; cbn; intros acc H; auto.
  rewrite (ins_ext f g x acc) by auto. apply IH. intros u v Hu Hv. apply H; auto.
  destruct Hv as [Hv | Hv]; auto. apply ins_In in Hv. destruct Hv; subst; auto.
Qed.
Lemma sorted_pairs_ext {X} (f g : X -> X -> bool) a :
  (forall x y, In x a -> In y a -> f x y = g x y) -> sorted_pairs f a = sorted_pairs g a.
Proof.
  intros H. unfold sorted_pairs. apply fold_ins_ext. intros [i x] [j y] Hx [[]|Hy]. cbn.
  apply H; rewrite <- (enum_snd a); [change x with (snd (i, x)) | change y with (snd (j, y))]; apply in_map; auto.
Qed.
Lemma at_In {X} (a : list X) i x : at_ a i = Some x -> In x a.
Proof. unfold at_. destruct (i <? 0); [discriminate|]. apply nth_error_In. Qed.
Lemma best_positions_ext {X} (f g : X -> X -> bool) a n l :
  (forall x y, In x a -> In y a -> f x y = g x y) -> best_positions f a n l -> best_positions g a n l.
Proof.
  intros H (L & S & R & B).
  assert (G : forall i j, goes_before f a i j -> goes_before g a i j).
  { intros i j (x & y & Hx & Hy & K). exists x, y. split; auto. split; auto.
    rewrite <- !H by eauto using at_In. auto. }
  split; [auto|]. split; [|split; auto].
  clear -S G. induction S; constructor; auto. rewrite Forall_forall in *. auto.
Qed.
Lemma no_nan_agree ds : no_nan ds -> forall x y, In x ds -> In y ds -> fkey x y = nearer x y.
Proof. unfold no_nan. rewrite Forall_forall. intros H x y Hx Hy. apply fkey_flt; auto. Qed.

Lemma argLowest_best ds n : no_nan ds -> 0 <= n ->
  exists ps, argLowestN flt ds n = Ok ps /\ best_positions nearer ds n ps.
Proof.
  intros N Hn. rewrite argLowestN_eq by auto. eexists. split; [reflexivity|].
  rewrite <- (sorted_pairs_ext fkey flt) by (intros; apply (no_nan_agree ds); auto).
  eapply best_positions_ext; [apply no_nan_agree; auto|].
  apply best_positions_firstn; auto. apply fkey_weak.
Qed.
Lemma no_nan_at ds i d : no_nan ds -> at_ ds i = Some d -> isnan d = false.
Proof. unfold no_nan. rewrite Forall_forall. intros H E. apply H. eapply at_In; eauto. Qed.
Lemma argLowest_one ds : no_nan ds -> ds <> [] ->
  exists i, argLowestN flt ds 1 = Ok [i] /\ first_nearest ds i /\ 0 <= i < len ds.
Proof.
  intros N NE. rewrite argLowestN_eq by lia.
  rewrite <- (sorted_pairs_ext fkey flt) by (intros; apply (no_nan_agree ds); auto).
  pose proof (best_positions_firstn _ fkey_weak ds 1 ltac:(lia)) as BP.
  destruct (best_one _ ds _ fkey_weak BP NE) as (i & x & E & X & R & G1 & G2).
  rewrite E. exists i. split; [auto|]. split; [|auto]. exists x. split; auto.
  intros j y Y. pose proof (no_nan_at _ _ _ N Y). pose proof (no_nan_at _ _ _ N X).
  unfold nearer. fold (flt y x) (flt x y). rewrite <- !fkey_flt by auto. eauto.
Qed.
Lemma first_nearest_unique ds i j : first_nearest ds i -> first_nearest ds j -> i = j.
Proof.
  intros (d & D & H) (d' & D' & H'). destruct (H _ _ D') as [A1 A2], (H' _ _ D) as [B1 B2].
  destruct (Z.lt_trichotomy i j) as [L|[L|L]]; auto.
  - rewrite B2 in A1; auto. discriminate.
  - rewrite A2 in B1; auto. discriminate.
Qed.

(** ** Picking *)
Lemma pick_at {X} (l : list X) i x : at_ l i = Some x -> pick l i = Ok x.
Proof. unfold at_, pick. destruct (i <? 0); [discriminate|]. intros ->. auto. Qed.
Lemma at_some {X} (l : list X) i : 0 <= i < len l -> exists x, at_ l i = Some x.
Proof.
  unfold at_, len. intros H. destruct (Z.ltb_spec i 0); [lia|].
  destruct (nth_error l (Z.to_nat i)) eqn:E; eauto. apply nth_error_None in E. lia.
Qed.
Lemma picks_items {X} (l : list X) is_ : (forall i, In i is_ -> 0 <= i < len l) ->
  exists r, picks l is_ = Ok r /\ items_at l is_ r.
Proof.
  induction is_ as [|i is_ IH]; cbn; intros H. { exists []. split; auto. constructor. }
  destruct (at_some l i) as (x & X1); auto. rewrite (pick_at _ _ _ X1). cbn.
  destruct IH as (r & -> & I1); auto. cbn. exists (x :: r). split; auto. constructor; auto.
Qed.
Lemma calls_len {S A B} (f : A -> S -> res B * S) s l s' ys : calls f s l s' ys -> length ys = length l.
Proof. induction 1; cbn; auto. Qed.
Lemma calls_map {S A A' B} (g : A' -> A) (f : A -> S -> res B * S) s l s' ys :
  calls (fun x => f (g x)) s l s' ys <-> calls f s (map g l) s' ys.
Proof.
  split.
  - induction 1; cbn; econstructor; eauto.
  - revert s ys. induction l as [|x l IH]; cbn; intros s ys H; inversion H; subst; econstructor; eauto.
Qed.
Lemma nearest_picks {X} ds (l : list X) n : no_nan ds -> 0 <= n -> length ds = length l ->
  exists ps out, argLowestN flt ds n = Ok ps /\ picks l ps = Ok out /\ nearest_in_order ds l n out.
Proof.
  intros N Hn L. destruct (argLowest_best ds n N Hn) as (ps & E & BP).
  destruct (picks_items l ps) as (out & P & I1).
  { intros i Hi. destruct BP as (_ & _ & R & _). specialize (R i Hi). unfold len in *. lia. }
  exists ps, out. split; auto. split; auto. exists ps. auto.
Qed.

Section Clusters.
  Context {S A B C : Type} (center : C -> B) (metric : A -> B -> M S pf).
  Lemma distances_ok datum clusters s s' ds :
    calls (metric datum) s (map center clusters) s' ds -> distances center metric datum clusters s = (Ok ds, s').
  Proof. intros H. apply mapM_ok. apply (calls_map center (metric datum)). auto. Qed.

  Lemma closest_ok datum clusters s s' ds : clusters <> [] -> no_nan ds ->
    calls (metric datum) s (map center clusters) s' ds ->
    exists i c, closest center datum clusters metric s = (Ok c, s') /\ at_ clusters i = Some c /\ first_nearest ds i.
  Proof.
    intros NE N H. pose proof (calls_len _ _ _ _ _ H) as L. rewrite map_length in L.
    destruct (argLowest_one ds) as (i & E & F & R); auto. { destruct clusters, ds; cbn in *; congruence. }
    destruct (at_some clusters i) as (c & Hc). { unfold len in *. lia. }
    exists i, c. split; [|auto]. unfold closest.
    destruct clusters as [|c0 cl]; [congruence|]. unfold bind. rewrite (distances_ok _ _ _ _ _ H).
    cbn -[pick]. rewrite E. cbn -[pick]. unfold lift. rewrite (pick_at _ _ _ Hc). auto.
  Qed.
  Lemma closestN_ok n datum clusters s s' ds : 0 <= n -> no_nan ds ->
    calls (metric datum) s (map center clusters) s' ds ->
    exists out, closestN center n datum clusters metric s = (Ok out, s') /\ nearest_in_order ds clusters n out.
  Proof.
    intros Hn N H. pose proof (calls_len _ _ _ _ _ H) as L. rewrite map_length in L.
    destruct (nearest_picks ds clusters n) as (ps & out & E & P & NO); auto.
    exists out. split; auto. unfold closestN. destruct (Z.ltb_spec n 0); [lia|].
    unfold bind. rewrite (distances_ok _ _ _ _ _ H). unfold lift. rewrite E, P. auto.
  Qed.

  (** the loop over the centers *)
  Lemma best_center_spec datum : forall centers s s' ds, calls (metric datum) s centers s' ds ->
    forall seen besti b, no_nan (seen ++ ds) ->
    at_ seen besti = Some b -> (forall j d', at_ seen j = Some d' -> nearer d' b = false /\ (j < besti -> nearer b d' = true)) ->
    exists i, best_center metric datum centers (len seen) besti (Some b) s = (Ok i, s') /\ first_nearest (seen ++ ds) i.
  Proof.
    induction 1 as [s|s c d s1 l s' ds Hd Hc IH]; intros seen besti b N Hb G.
    - exists besti. split; auto. rewrite app_nil_r. exists b. auto.
    - cbn [best_center]. unfold bind. rewrite Hd.
      assert (Lb : 0 <= besti < len seen).
      { unfold at_ in Hb. destruct (Z.ltb_spec besti 0); [discriminate|].
        assert (nth_error seen (Z.to_nat besti) <> None) by congruence. apply nth_error_Some in H0. unfold len. lia. }
      assert (Nd : isnan d = false). { unfold no_nan in N. rewrite Forall_forall in N. apply N. apply in_or_app. right. left. auto. }
      assert (Nb : isnan b = false). { unfold no_nan in N. rewrite Forall_forall in N. apply N. apply in_or_app. left. eapply at_In; eauto. }
      assert (At : forall j d', at_ (seen ++ [d]) j = Some d' -> at_ seen j = Some d' \/ (j = len seen /\ d' = d)).
      { intros j d' E. unfold at_, len in *. destruct (Z.ltb_spec j 0); [discriminate|].
        destruct (Nat.ltb_spec (Z.to_nat j) (length seen)).
        - rewrite nth_error_app1 in E by lia. auto.
        - rewrite nth_error_app2 in E by lia. destruct (Z.to_nat j - length seen)%nat as [|k] eqn:Ek; cbn in E.
          + right. split; [lia|congruence].
          + destruct k; discriminate. }
      replace (seen ++ d :: ds) with ((seen ++ [d]) ++ ds) in * by (rewrite <- app_assoc; auto).
      replace (len seen + 1) with (len (seen ++ [d])) by (unfold len; rewrite app_length; cbn; lia).
      destruct (flt d b) eqn:E.
      + apply IH; auto.
        { unfold at_, len. destruct (Z.ltb_spec (Z.of_nat (length seen)) 0); [lia|].
          rewrite nth_error_app2 by lia. replace (Z.to_nat (Z.of_nat (length seen)) - length seen)%nat with O by lia. auto. }
        intros j d' Hj. destruct (At _ _ Hj) as [Hj' | [-> ->]].
        * destruct (G _ _ Hj') as [G1 G2].
          assert (Nd' : isnan d' = false). { unfold no_nan in N. rewrite Forall_forall in N. apply N. apply in_or_app. left. apply in_or_app. left. eapply at_In; eauto. }
          assert (flt d d' = true).
          { rewrite <- fkey_flt by auto. destruct (wo_neg _ fkey_weak d d' b) as [K|K]; auto. { rewrite fkey_flt; auto. }
            rewrite fkey_flt in K by auto. unfold nearer in G1. fold (flt d' b) in G1. congruence. }
          split; [|intros _; auto]. unfold nearer. fold (flt d' d). rewrite <- fkey_flt by auto.
          destruct (fkey d' d) eqn:K; auto. pose proof (wo_trans _ fkey_weak d d' d) as T.
          rewrite (fkey_flt d d') in T by auto. rewrite (wo_irrefl _ fkey_weak) in T. discriminate (T ltac:(assumption) K).
        * split; [apply flt_irrefl|lia].
      + apply IH; auto.
        { unfold at_, len in *. destruct (Z.ltb_spec besti 0); [lia|]. rewrite nth_error_app1 by lia. auto. }
        intros j d' Hj. destruct (At _ _ Hj) as [Hj' | [-> ->]]; auto. split; [exact E|lia].
  Qed.
  Lemma best_center_first datum centers s s' ds : calls (metric datum) s centers s' ds -> no_nan ds -> centers <> [] ->
    exists i, best_center metric datum centers 0 0 None s = (Ok i, s') /\ first_nearest ds i.
  Proof.
    intros H N NE. inversion H as [|? c d s1 l ? ds' Hd Hc]; subst; [congruence|].
    cbn [best_center]. unfold bind. rewrite Hd.
    destruct (best_center_spec datum _ _ _ _ Hc [d] 0 d) as (i & E & F); auto.
    - intros j d' Hj. unfold at_ in Hj. destruct (Z.ltb_spec j 0); [discriminate|].
      destruct (Z.to_nat j) as [|[|]] eqn:Ej; cbn in Hj; try discriminate. inversion Hj; subst.
      split; [apply flt_irrefl|lia].
    - exists i. split; auto.
  Qed.

  (** ** k-means *)
  Definition blocks (n : nat) (data : list A) (is_ : list Z) : list (list A) :=
    map (fun i => assigned_to data is_ (Z.of_nat i)) (seq 0 n).
  Lemma append_at_map (g : Z -> list A) x n : forall k i, 
    append_at (map (fun j => g (Z.of_nat j)) (seq k n)) i x =
    map (fun j => if Z.of_nat j =? i + Z.of_nat k then g (Z.of_nat j) ++ [x] else g (Z.of_nat j)) (seq k n).
  Proof.
    induction n as [|n IH]; cbn; intros k i; auto.
    destruct (Z.eqb_spec i 0) as [-> | Ni].
    - rewrite Z.add_0_l, Z.eqb_refl. f_equal. apply map_ext_in. intros j Hj. apply in_seq in Hj.
      destruct (Z.eqb_spec (Z.of_nat j) (Z.of_nat k)); [lia|auto].
    - destruct (Z.eqb_spec (Z.of_nat k) (i + Z.of_nat k)); [lia|]. f_equal.
      rewrite IH. apply map_ext. intros j. replace (i - 1 + Z.of_nat (Datatypes.S k)) with (i + Z.of_nat k) by lia. auto.
  Qed.
  Lemma assigned_to_snoc (data : list A) is_ x i j : length data = length is_ ->
    assigned_to (data ++ [x]) (is_ ++ [i]) j = if j =? i then assigned_to data is_ j ++ [x] else assigned_to data is_ j.
  Proof.
    unfold assigned_to. revert is_. induction data as [|y data IH]; intros [|k is_] L; try discriminate.
    - cbn. rewrite (Z.eqb_sym j i). destruct (i =? j); auto.
    - cbn [app combine filter snd]. injection L as L. destruct (k =? j); cbn [map fst]; rewrite IH by auto;
        destruct (j =? i); auto.
  Qed.
  Lemma blocks_snoc n data is_ x i : length data = length is_ ->
    append_at (blocks n data is_) i x = blocks n (data ++ [x]) (is_ ++ [i]).
  Proof.
    intros L. unfold blocks. rewrite append_at_map. apply map_ext. intros j.
    rewrite assigned_to_snoc by auto. rewrite Z.add_0_r. auto.
  Qed.
  Lemma assign_all clusters : clusters <> [] -> forall data s s' is_, assigning metric (map center clusters) s data s' is_ ->
    forall done dis, length done = length dis ->
    foldM (assign center metric clusters) (blocks (length clusters) done dis) data s =
      (Ok (blocks (length clusters) (done ++ data) (dis ++ is_)), s').
  Proof.
    intros NE. induction 1 as [s|s x l s1 s' i is_ ds Hc N F Ha IH]; intros done dis L.
    - cbn. rewrite !app_nil_r. auto.
    - cbn [foldM]. unfold bind at 1. unfold assign at 1. unfold bind at 1.
      destruct (best_center_first _ _ _ _ _ Hc N) as (i' & E & F').
      { destruct clusters; cbn; congruence. }
      rewrite E. cbn [ret]. unfold ret. rewrite (first_nearest_unique _ _ _ F F') in *.
      rewrite blocks_snoc by auto. rewrite IH by (rewrite !app_length; cbn; lia).
      rewrite <- !app_assoc. auto.
  Qed.
  Lemma refresh_ok (update : list A -> C -> M S C) (group : Z -> list A) clusters : forall k s s' out,
    updating update group (Z.of_nat k) s clusters s' out ->
    refresh update (map (fun i => group (Z.of_nat i)) (seq k (length clusters))) clusters s = (Ok out, s').
  Proof.
    induction clusters as [|c l IH]; intros k s s' out H; inversion H; subst; cbn [length seq map refresh].
    - auto.
    - match goal with HG : group _ = [] |- _ => rewrite HG end. cbn. unfold bind, ret.
      replace (Z.of_nat k + 1) with (Z.of_nat (Datatypes.S k)) in * by lia.
      erewrite IH by eauto. auto.
    - destruct (group (Z.of_nat k)) as [|m ms] eqn:G; [congruence|]. unfold bind.
      match goal with HU : update _ _ _ = _ |- _ => rewrite HU end. 
      replace (Z.of_nat k + 1) with (Z.of_nat (Datatypes.S k)) in * by lia.
      erewrite IH by eauto. auto.
  Qed.
  Lemma kmeans_ok (update : list A -> C -> M S C) data clusters s s1 s' is_ out : data <> [] -> clusters <> [] ->
    assigning metric (map center clusters) s data s1 is_ ->
    updating update (assigned_to data is_) 0 s1 clusters s' out ->
    kmeansIteration center data clusters metric update s = (Ok out, s').
  Proof.
    intros Nd Nc Ha Hu. unfold kmeansIteration. destruct data as [|d0 data]; [congruence|].
    destruct clusters as [|c0 cl] eqn:Ec; [congruence|]. rewrite <- Ec in *.
    unfold bind at 1.
    replace (map (fun _ : C => []) clusters) with (blocks (length clusters) [] []).
    2:{ unfold blocks, assigned_to. cbn. clear. generalize 0%nat. induction clusters; cbn; intros; f_equal; auto. }
    rewrite (assign_all clusters Nc _ _ _ _ Ha [] [] eq_refl). cbn [app].
    apply (refresh_ok update (assigned_to (d0 :: data) is_)). auto.
  Qed.
  Lemma assigning_len centers s data s' is_ : assigning metric centers s data s' is_ -> length is_ = length data.
  Proof. induction 1; cbn; auto. Qed.
  Lemma assigning_range centers s data s' is_ : assigning metric centers s data s' is_ ->
    Forall (fun i => 0 <= i < len centers) is_.
  Proof.
    induction 1 as [|? ? ? ? ? ? ? ? Hc N (d & D & _) Ha IH]; constructor; auto.
    apply calls_len in Hc. unfold at_ in D. destruct (Z.ltb_spec i 0); [discriminate|].
    assert (nth_error ds (Z.to_nat i) <> None) as K by congruence. apply nth_error_Some in K. unfold len. lia.
  Qed.
End Clusters.
