From Coq Require Import SpecFloat Permutation Reals Lra.
From Flocq Require Import Core.
From Flocq Require Import Relative BinarySingleNaN Plus_error.
From Verif Require Import Base PyNum Effects ArrayModel ArrayProofs StrModel StrSpec StrProofs FloatBridge CastProps FloatBridge2 RandModel RandSpec.
Open Scope string_scope.
Open Scope list_scope.
Open Scope Z_scope.

Section Rand.
  Context {S : Type} (draw : Z -> M S Z) (F : fair draw).

  Lemma randint_spec a b s : a <= b -> exists k s', randint draw a b s = (Ok k, s') /\ a <= k <= b.
  Proof using F.
    intros H. unfold randint. destruct (Z.ltb_spec b a); [lia|]. destruct (F (b - a + 1) s) as (k & s' & E & L); [lia|].
    exists (a + k), s'. unfold bind. rewrite E. split; [reflexivity|lia].
  Qed.
  Lemma mapM_all {A B} (f : A -> M S B) (P : B -> Prop) : (forall x s, exists y s', f x s = (Ok y, s') /\ P y) ->
    forall l s, exists ys s', mapM f l s = (Ok ys, s') /\ Forall P ys /\ length ys = length l.
  Proof using.
    intros H. induction l as [|x l IH]; intros s; [exists [], s; split; [reflexivity|split; auto]|]. destruct (H x s) as (y & s1 & E1 & P1). destruct (IH s1) as (ys & s2 & E2 & P2 & L).
    exists (y :: ys), s2. cbn [mapM]. unfold bind. rewrite E1, E2. split; [reflexivity|]. split; [constructor; auto|cbn; lia].
  Qed.
  Lemma get_ok {A} (l : list A) i s : 0 <= i < zlen l -> exists x, get (S:=S) l i s = (Ok x, s) /\ nth_error l (Z.to_nat i) = Some x.
  Proof using.
    intros H. unfold get, zlen in *. destruct (nth_error l (Z.to_nat i)) as [x|] eqn:E; [|apply nth_error_None in E; lia].
    destruct (Z.ltb_spec i 0); [lia|]. exists x. auto.
  Qed.
  Lemma pick_ok {A} (l : list A) s : 0 < zlen l -> exists x s', (i <~ randint draw 0 (zlen l - 1) ;; get l i) s = (Ok x, s') /\ In x l.
  Proof using F.
    intros H. destruct (randint_spec 0 (zlen l - 1) s) as (i & s1 & E & L); [lia|]. destruct (get_ok l i s1) as (x & G & N); [lia|].
    exists x, s1. unfold bind. rewrite E, G. split; [reflexivity|]. eapply nth_error_In; eauto.
  Qed.

  (** ** Sampling *)
  Lemma pool_step {A} (pool : list A) (m j : nat) x y : (j < m <= length pool)%nat -> nth_error pool j = Some x -> nth_error pool (m - 1) = Some y ->
    Permutation (x :: firstn (m - 1) (set_at pool (Z.of_nat j) y)) (firstn m pool) /\ length (set_at pool (Z.of_nat j) y) = length pool.
  Proof using.
    intros H Ex Ey. unfold set_at. rewrite Nat2Z.id. split.
    - destruct (nth_error_split _ _ Ey) as (p & rest & E & Lp).
      assert (Em : firstn m pool = p ++ [y]). { rewrite E. replace m with (length p + 1)%nat by lia. rewrite firstn_app_2. reflexivity. }
      rewrite Em. destruct (Nat.eq_dec j (m - 1)) as [-> | Nj].
      + assert (x = y) by congruence. subst x. assert (G : forall z, firstn (m - 1) (p ++ z) = p).
        { intros z. rewrite <- Lp, firstn_app, firstn_all, Nat.sub_diag. cbn [firstn]. apply app_nil_r. }
        rewrite E, !G. apply Permutation_cons_append.
      + assert (Ep : nth_error p j = Some x) by (rewrite E, nth_error_app1 in Ex by lia; auto).
        destruct (nth_error_split _ _ Ep) as (a & b & E2 & La). subst p. rewrite E. rewrite <- app_assoc. cbn [app].
        replace (firstn j (a ++ x :: b ++ y :: rest)) with a.
        2: { rewrite <- La, firstn_app, firstn_all, Nat.sub_diag. cbn [firstn]. rewrite app_nil_r. auto. }
        replace (skipn (Datatypes.S j) (a ++ x :: b ++ y :: rest)) with (b ++ y :: rest).
        2: { replace (Datatypes.S j) with (length (a ++ [x])) by (rewrite app_length; cbn; lia). replace (a ++ x :: b ++ y :: rest) with ((a ++ [x]) ++ b ++ y :: rest) by (rewrite <- app_assoc; auto).
             rewrite skipn_app, skipn_all, Nat.sub_diag. reflexivity. }
        replace (firstn (m - 1) (a ++ y :: b ++ y :: rest)) with (a ++ y :: b).
        2: { replace (m - 1)%nat with (length (a ++ y :: b)) by (rewrite app_length in *; cbn in *; lia). replace (a ++ y :: b ++ y :: rest) with ((a ++ y :: b) ++ y :: rest) by (rewrite <- app_assoc; auto).
             rewrite firstn_app, firstn_all, Nat.sub_diag. cbn [firstn]. rewrite app_nil_r. auto. }
        transitivity (x :: y :: a ++ b); [apply perm_skip; symmetry; apply Permutation_middle|]. transitivity (y :: x :: a ++ b); [apply perm_swap|].
        transitivity (y :: a ++ x :: b); [apply perm_skip, Permutation_middle|]. apply Permutation_cons_append.
    - rewrite app_length. cbn [length]. rewrite firstn_length, skipn_length. lia.
  Qed.
  Lemma sample_pool_ok {A} : forall (k m : nat) (pool : list A) s, (k <= m <= length pool)%nat ->
    exists xs s', sample_pool draw k (Z.of_nat m) pool s = (Ok xs, s') /\ length xs = k /\ without_replacement xs (firstn m pool).
  Proof using F.
    induction k as [|k IH]; intros m pool s H.
    - exists [], s. split; [reflexivity|]. split; auto. exists (firstn m pool). auto.
    - cbn [sample_pool]. unfold bind. destruct (F (Z.of_nat m) s) as (j & s1 & E & L); [lia|]. rewrite E.
      destruct (get_ok pool j s1) as (x & G & N); [unfold zlen; lia|]. rewrite G.
      destruct (get_ok pool (Z.of_nat m - 1) s1) as (y & G2 & N2); [unfold zlen; lia|]. rewrite G2.
      replace (Z.to_nat (Z.of_nat m - 1)) with (m - 1)%nat in N2 by lia. replace (Z.of_nat m - 1) with (Z.of_nat (m - 1)) by lia.
      destruct (pool_step pool m (Z.to_nat j) x y) as [P LL]; auto; [lia|]. rewrite Z2Nat.id in P, LL by lia.
      destruct (IH (m - 1)%nat (set_at pool j y) s1) as (xs & s2 & E2 & L2 & rest & P2); [lia|]. rewrite E2.
      exists (x :: xs), s2. split; [reflexivity|]. split; [cbn; lia|]. exists rest. cbn [app]. rewrite <- P. apply perm_skip. auto.
  Qed.
  Lemma positions_perm {A} (l : list A) (idx : list nat) : NoDup idx -> (forall i, In i idx -> (i < length l)%nat) ->
    forall xs, map (nth_error l) idx = map Some xs -> without_replacement xs l.
  Proof using.
    intros ND B xs E. destruct l as [|d l0].
    { destruct idx as [|i idx]; [|exfalso; specialize (B i (or_introl eq_refl)); cbn in B; lia]. destruct xs; [|discriminate]. exists []. auto. }
    set (l := d :: l0) in *.
    assert (Ex : xs = map (fun i => nth i l d) idx).
    { clear ND. revert xs E. induction idx as [|i idx IH]; intros xs E; destruct xs as [|x xs]; try discriminate; auto. cbn [map] in *. injection E as E1 E2. f_equal; [|apply IH; auto; intros; apply B; right; auto].
      symmetry. apply nth_error_nth. auto. }
    pose (others := filter (fun i => negb (existsb (Nat.eqb i) idx)) (seq 0 (length l))).
    assert (P : Permutation (idx ++ others) (seq 0 (length l))).
    { apply NoDup_Permutation.
      - assert (NF : NoDup others) by (apply NoDup_filter, seq_NoDup).
        assert (DJ : forall i, In i idx -> ~ In i others).
        { intros i H1 H2. apply filter_In in H2. destruct H2 as [_ H2]. apply negb_true_iff in H2. assert (existsb (Nat.eqb i) idx = true); [|congruence]. apply existsb_exists. exists i. split; auto. apply Nat.eqb_refl. }
        clearbody others. clear - ND NF DJ. induction idx as [|i idx IH]; cbn; auto. inversion ND; subst. constructor; [|apply IH; auto; intros; apply DJ; right; auto].
        intros H. apply in_app_or in H. destruct H; [auto|]. apply (DJ i); [left; auto|auto].
      - apply seq_NoDup.
      - intros i. rewrite in_app_iff, in_seq. unfold others. rewrite filter_In, in_seq. split.
        + intros [H|[H _]]; auto. specialize (B i H). lia.
        + intros H. destruct (existsb (Nat.eqb i) idx) eqn:E2; [left|right; split; [auto|reflexivity]]. apply existsb_exists in E2. destruct E2 as (k & K1 & K2). apply Nat.eqb_eq in K2. subst. auto. }
    exists (map (fun i => nth i l d) others). rewrite Ex, <- map_app. rewrite (Permutation_map _ P). clear.
    replace (map (fun i => nth i l d) (seq 0 (length l))) with l; auto. generalize l. clear. induction l as [|x l IH]; auto. cbn [length seq map nth]. f_equal. rewrite <- seq_shift, map_map. auto.
  Qed.
  Lemma draw_new_ok fuel n sel : 0 < n -> forall s j s', draw_new draw fuel n sel s = (Ok j, s') -> 0 <= j < n /\ ~ In j sel.
  Proof using F.
    intros Hn. induction fuel as [|f IH]; intros s j s' H; [discriminate|]. cbn [draw_new] in H. unfold bind in H. destruct (F n s Hn) as (k & s1 & E & L). rewrite E in H.
    destruct (existsb (Z.eqb k) sel) eqn:X; [eauto|]. injection H as <- <-. split; auto. intros I. assert (existsb (Z.eqb k) sel = true); [|congruence]. apply existsb_exists. exists k. split; auto. apply Z.eqb_refl.
  Qed.
  Lemma draw_new_exn fuel n sel : 0 < n -> forall s e s', draw_new draw fuel n sel s = (Raise e, s') -> e = PyErr "out of fuel".
  Proof using F.
    intros Hn. induction fuel as [|f IH]; intros s e s' H; [injection H; auto|]. cbn [draw_new] in H. unfold bind in H. destruct (F n s Hn) as (k & s1 & E & L). rewrite E in H.
    destruct (existsb (Z.eqb k) sel) eqn:X; [eauto|discriminate].
  Qed.
  Lemma sample_set_ok {A} fuel (pop : list A) : 0 < zlen pop -> forall k sel s,
    match sample_set draw fuel k (zlen pop) sel pop s with
    | (Ok xs, _) => exists idx, length idx = k /\ NoDup idx /\ (forall i, In i idx -> 0 <= i < zlen pop /\ ~ In i sel) /\ map (fun i => nth_error pop (Z.to_nat i)) idx = map Some xs
    | (Raise e, _) => e = PyErr "out of fuel" end.
  Proof using F.
    intros Hn. induction k as [|k IH]; intros sel s.
    - cbn. exists []. repeat split; auto using NoDup_nil; contradiction.
    - cbn [sample_set]. unfold bind. destruct (draw_new draw fuel (zlen pop) sel s) as [[j|e] s1] eqn:D; [|eapply draw_new_exn; eauto].
      destruct (draw_new_ok _ _ _ Hn _ _ _ D) as [Lj Nj]. destruct (get_ok pop j s1 Lj) as (x & G & N). rewrite G. specialize (IH (j :: sel) s1).
      destruct (sample_set draw fuel k (zlen pop) (j :: sel) pop s1) as [[xs|e] s2]; auto. destruct IH as (idx & L & ND & B & E). cbn [ret]. exists (j :: idx). split; [cbn; lia|]. split; [|split].
      + constructor; auto. intros I. apply B in I. destruct I as [_ I]. apply I. left. auto.
      + intros i [<-|I]; auto. apply B in I. destruct I as [I1 I2]. split; auto. intros X. apply I2. right. auto.
      + cbn [map]. rewrite N, E. auto.
  Qed.
  Lemma set_result {A} (pop : list A) k idx xs : length idx = k -> NoDup idx -> (forall i, In i idx -> 0 <= i < zlen pop /\ ~ In i []) -> map (fun i => nth_error pop (Z.to_nat i)) idx = map Some xs ->
    length xs = k /\ without_replacement xs pop.
  Proof using.
    intros L ND B E. split. { rewrite <- L, <- (map_length Some xs), <- E, map_length. auto. }
    apply (positions_perm pop (map Z.to_nat idx)).
    - clear E L. induction idx as [|i idx IH]; cbn; [constructor|]. inversion ND; subst. constructor; [|apply IH; auto; intros; apply B; right; auto].
      intros I. apply in_map_iff in I. destruct I as (k' & E & I). apply H1. replace i with k'; auto. apply Z2Nat.inj; auto; [destruct (B k') as [Q _]; [right; auto|lia]|destruct (B i) as [Q _]; [left; auto|lia]].
    - intros i I. apply in_map_iff in I. destruct I as (k' & <- & I). apply B in I. unfold zlen in I. lia.
    - rewrite map_map. auto.
  Qed.
End Rand.
