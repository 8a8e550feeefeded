(** The first centers, the exported clusters, and their use by the engine. *)
From Coq Require Import Permutation Reals Lra Sorted.
From Verif Require Import Base ScopeModel CartModel CartProofs3 KmeansModel KmeansSpec KmeansProofs KmeansProofs2.
Open Scope list_scope.

Section Init.
  Variable N : arith.
  Hypothesis GE : good_eq N.
  Lemma same_eq x : forall y, same N x y = true <-> x = y.
  Proof.
    induction x as [|a x IH]; intros [|b y]; cbn; try (split; [discriminate|easy]); [easy|].
    rewrite Bool.andb_true_iff, IH. rewrite (GE a b). split; [intros [-> ->]; auto|intros E; now inversion E].
  Qed.
  Lemma existsb_in x l : existsb (same N x) l = true <-> In x l.
  Proof.
    rewrite existsb_exists. split; [intros (y & I & E); apply same_eq in E; now subst|]. intros I. exists x. split; auto. now apply same_eq.
  Qed.
  Lemma existsb_in' x l : existsb (fun y => same N y x) l = true <-> In x l.
  Proof.
    rewrite existsb_exists. split; [intros (y & I & E); apply same_eq in E; now subst|]. intros I. exists x. split; auto. now apply same_eq.
  Qed.
  Lemma uniques_in x l : In x (uniques N l) <-> In x l.
  Proof.
    induction l as [|y l IH]; cbn; [easy|]. destruct existsb eqn:E; [|cbn; now rewrite IH].
    apply existsb_in in E. rewrite IH. split; auto. intros [<-|]; auto.
  Qed.
  Lemma uniques_nodup l : NoDup (uniques N l).
  Proof.
    induction l as [|y l IH]; cbn; [constructor|]. destruct existsb eqn:E; auto. constructor; auto. rewrite uniques_in. intros I.
    apply existsb_in in I. unfold point in *. congruence.
  Qed.
  Notation drawn us := (Forall (fun i => (i < @length (point N) us)%nat)).
  Lemma new_clusters_spec us : forall n cs draws cs' ds, drawn us draws -> NoDup cs -> incl cs us ->
    new_clusters N n us cs draws = Ok (cs', ds) -> length cs' = (n + length cs)%nat /\ NoDup cs' /\ incl cs' us /\ drawn us ds.
  Proof.
    induction n as [|n IH]; intros cs draws cs' ds F D I E; cbn [new_clusters] in E; [inversion E; subst; auto|].
    destruct new_cluster as [[x ds']|e] eqn:C; cbn [rbind fst snd] in E; [|discriminate].
    destruct (new_cluster_spec _ _ _ _ _ _ F C) as (Ix & X & F').
    assert (NI : ~ In x cs). { intros H. apply existsb_in' in H. unfold point in *. congruence. }
    assert (D' : NoDup (cs ++ [x])). { apply NoDup_rev in D. rewrite <- (rev_involutive (cs ++ [x])). apply NoDup_rev. rewrite rev_app_distr. cbn. constructor; auto. now rewrite <- in_rev. }
    assert (I' : incl (cs ++ [x]) us). { intros y Hy. apply in_app_or in Hy. destruct Hy as [Hy|[<-|[]]]; auto. }
    destruct (IH _ _ _ _ F' D' I' E) as (L & H). rewrite app_length in L. cbn in L. split; auto. lia.
  Qed.
  Lemma init_spec k dataset draws cs ds : drawn (uniques N dataset) draws -> init N k dataset draws = Ok (cs, ds) ->
    length cs = k /\ NoDup cs /\ incl cs dataset.
  Proof.
    intros F E. unfold init in E. destruct Nat.leb; [discriminate|].
    destruct (new_clusters_spec _ _ _ _ _ _ F (NoDup_nil _) (incl_nil_l _) E) as (L & D & I & _). split; [rewrite L; apply Nat.add_0_r|]. split; auto.
    intros x Hx. apply uniques_in, I, Hx.
  Qed.
  Lemma more_uniques k dataset : more_than k dataset <-> (k < length (uniques N dataset))%nat.
  Proof.
    split.
    - intros (m & D & I & L). assert (length m <= length (uniques N dataset))%nat; [|eapply Nat.lt_le_trans; eauto]. apply NoDup_incl_length; auto. intros x Hx. apply uniques_in. auto.
    - intros L. exists (uniques N dataset). split; [apply uniques_nodup|]. split; auto. intros x. apply uniques_in.
  Qed.
  Lemma new_clusters_error us : forall n cs draws e, new_clusters N n us cs draws = Raise e -> e = out_of_draws.
  Proof.
    induction n as [|n IH]; intros cs draws e E; cbn [new_clusters] in E; [discriminate|].
    destruct new_cluster as [[x ds']|e'] eqn:C; cbn [rbind fst snd] in E; [eauto|]. inversion E; subst. eapply new_cluster_error; eauto.
  Qed.
  (** a point that is none of the clusters *)
  Lemma fresh us (cs : list (point N)) : NoDup us -> (length cs < length us)%nat -> exists i, (i < length us)%nat /\ ~ In (nth i us []) cs.
  Proof.
    intros D L. assert (G : ~ incl us cs) by (intros I; apply (NoDup_incl_length D) in I; unfold point in *; lia).
    assert (E : exists x, In x us /\ ~ In x cs).
    { clear D L. induction us as [|x l IH]; [destruct G; intros ? []|].
      destruct (existsb (fun y => same N y x) cs) eqn:E.
      - apply existsb_in' in E. destruct IH as (y & I & NI); [|exists y; split; [now right|auto]]. intros I. apply G. intros y [<-|Hy]; auto.
      - exists x. split; [now left|]. intros I. apply existsb_in' in I. unfold point in *. congruence. }
    destruct E as (x & I & NI). destruct (In_nth us x [] I) as (i & Li & <-). eauto.
  Qed.
  Lemma new_cluster_finds us cs i : forall draws, ~ In (nth i us []) cs -> In i draws -> exists r, new_cluster N us cs draws = Ok r.
  Proof.
    induction draws as [|j draws IH]; intros NI I; [destruct I|]. cbn [new_cluster]. destruct existsb eqn:E; [|eauto].
    destruct I as [->|I]; auto. apply existsb_in' in E. contradiction.
  Qed.
End Init.

(** *** pfaValue *)
Section Sorting.
  Variable N : arith.
  Lemma insert_perm {B} (key : B -> point N) x l : Permutation (insert_by N key x l) (x :: l).
  Proof. induction l as [|y l IH]; cbn; auto. destruct lex_le; auto. rewrite perm_swap. now constructor. Qed.
  Lemma sort_perm {B} (key : B -> point N) l : Permutation (sort_by N key l) l.
  Proof. induction l as [|x l IH]; cbn; auto. rewrite insert_perm. now constructor. Qed.
  Hypothesis total : forall x y : point N, lex_le N x y = false -> lex_le N y x = true.
  Lemma insert_sorted {B} (key : B -> point N) x l : Sorted (fun a b => lex_le N (key a) (key b) = true) l -> Sorted (fun a b => lex_le N (key a) (key b) = true) (insert_by N key x l).
  Proof.
    induction 1 as [|y l S IH H]; cbn; [repeat constructor|]. destruct lex_le eqn:E; [repeat constructor; auto|].
    constructor; auto. destruct l as [|z l]; cbn; [constructor; auto|]. destruct (lex_le N (key x) (key z)); constructor; auto. now inversion H.
  Qed.
  Lemma sort_sorted {B} (key : B -> point N) l : Sorted (fun a b => lex_le N (key a) (key b) = true) (sort_by N key l).
  Proof. induction l; cbn; [constructor|]. now apply insert_sorted. Qed.
End Sorting.
Lemma sorted_map {B C} (f : B -> C) (r : C -> C -> Prop) l : Sorted (fun a b => r (f a) (f b)) l -> Sorted r (map f l).
Proof. induction 1 as [|x l S IH H]; cbn; constructor; auto. destruct H; cbn; constructor; auto. Qed.
Lemma combine_nth_map {B C} (f : nat -> C -> B) (d : C) : forall l a, map (fun jc => f (fst jc) (snd jc)) (combine (seq a (length l)) l) = map (fun j => f j (nth (j - a) l d)) (seq a (length l)).
Proof.
  induction l as [|x l IH]; intros a; cbn [length seq combine map fst snd]; auto. rewrite Nat.sub_diag. cbn [nth]. f_equal. rewrite IH.
  apply map_ext_in. intros j I. apply in_seq in I. replace (j - a)%nat with (S (j - S a)) by lia. reflexivity.
Qed.
Section Value.
  Variable N : arith.
  Variable metric : point N -> point N -> num N.
  (** the entries are the clusters in some order, with their populations and the names in the order given *)
  Lemma value_spec ids populations sort dataset clusters es : pfa_value N metric ids populations sort dataset clusters = Ok es ->
    map (@e_id N) es = ids /\ exists p, Permutation p (seq 0 (length clusters)) /\ (sort = false -> p = seq 0 (length clusters)) /\
      ((forall x y, lex_le N x y = false -> lex_le N y x = true) -> sort = true -> Sorted (fun x y => lex_le N x y = true) (map (@e_center N) es)) /\
      map (@e_center N) es = map (fun j => nth j clusters []) p /\
      map (@e_population N) es = map (fun j => if populations then Some (population (closest_cluster N metric dataset clusters) j) else None) p.
  Proof.
    intros E. unfold pfa_value in E. destruct (Nat.eqb_spec (length ids) (length clusters)) as [L|]; cbn [negb] in E; [|discriminate].
    set (classes := closest_cluster N metric dataset clusters) in *. injection E as <-.
    set (f := fun j : nat => (nth j clusters [], if populations then Some (population classes j) else None)).
    assert (O : map (fun jc => (snd jc, if populations then Some (population classes (fst jc)) else None)) (combine (seq 0 (length clusters)) clusters) = map f (seq 0 (length clusters))).
    { rewrite (@combine_nth_map _ (point N) (fun j c => (c, if populations then Some (population classes j) else None)) []). apply map_ext. intros j. unfold f. now rewrite Nat.sub_0_r. }
    unfold point in *. rewrite O.
    assert (P : exists p, Permutation p (seq 0 (length clusters)) /\ (sort = false -> p = seq 0 (length clusters)) /\ ((forall x y, lex_le N x y = false -> lex_le N y x = true) -> sort = true -> Sorted (fun x y => lex_le N x y = true) (map fst (map f p))) /\ (if sort then sort_by N fst (map f (seq 0 (length clusters))) else map f (seq 0 (length clusters))) = map f p).
    { destruct sort; [|exists (seq 0 (length clusters)); repeat split; auto; discriminate]. destruct (Permutation_map_inv f _ (sort_perm N fst (map f (seq 0 (length clusters))))) as (p & Q1 & Q2).
      exists p. split; [now apply Permutation_sym|]. split; [discriminate|]. split; [|auto]. intros T _. rewrite <- Q1. apply sorted_map. now apply sort_sorted. }
    destruct P as (p & P1 & P2 & PS & P3). unfold point in *. rewrite P3.
    assert (LP : length ids = length (map f p)) by (rewrite map_length, (Permutation_length P1), seq_length; auto).
    assert (G1 : forall (a : list string) (b : list (list (num N) * option nat)), length a = length b -> map fst (combine a b) = a /\ map snd (combine a b) = b).
    { induction a as [|x a IH]; intros [|y b] Q; try discriminate; cbn; auto. destruct (IH b) as [-> ->]; auto. }
    destruct (G1 _ _ LP) as [A B]. rewrite !map_map. cbn [e_id e_center e_population].
    split; [exact A|]. exists p. split; auto. split; auto.
    rewrite <- (map_map snd fst), <- (map_map snd snd). rewrite B. split; auto. rewrite !map_map. auto.
  Qed.
End Value.
