(** Searching, set functions, higher-order functions, restructuring. *)
From Verif Require Import Base Effects PyNum ArithModel ArrayModel ArraySpec ArrayProofs SortProofs.
From Coq Require Import Permutation Sorting.Sorted.
Open Scope Z_scope.
Local Arguments len : simpl never.
Local Arguments zlen : simpl never.
Ltac zl := change @zlen with @len in *.

(** ** searching *)
Section Search.
  Context {A : Type} (eqb : A -> A -> bool).
  Hypothesis eqb_eq : forall x y, eqb x y = true <-> x = y.

  Lemma list_eq_eq l l' : list_eq eqb l l' = true <-> l = l'.
  Proof.
    revert l'. induction l; destruct l'; cbn; split; intros H; try discriminate; auto.
    - apply andb_true_iff in H as [H1 H2]. apply eqb_eq in H1. apply IHl in H2. congruence.
    - injection H as -> ->. apply andb_true_iff. split; [apply eqb_eq | apply IHl]; auto.
  Qed.
  Lemma match_at_iff h n i : 0 <= i <= len h - len n -> match_at eqb h n i = true <-> occurs_at h n i.
  Proof.
    intros Hi. unfold match_at. zl. rewrite list_eq_eq, py_slice_eq.
    pose proof (len_nonneg n). rewrite !cut_id by lia.
    replace (i + len n - i) with (len n) by lia. split.
    - intros E. exists (firstn (Z.to_nat i) h), (skipn (Z.to_nat (len n)) (skipn (Z.to_nat i) h)).
      split.
      + rewrite E at 1. rewrite firstn_skipn, firstn_skipn. reflexivity.
      + unfold len in *. rewrite firstn_length. lia.
    - intros (p & q & -> & <-). unfold len. rewrite !Nat2Z.id.
      rewrite skipn_app, skipn_all, Nat.sub_diag. cbn [app skipn].
      rewrite firstn_app, firstn_all, Nat.sub_diag, firstn_O, app_nil_r. reflexivity.
  Qed.
  Lemma occurs_at_range (h n : list A) i : occurs_at h n i -> 0 <= i <= len h - len n.
  Proof. intros (p & q & -> & <-). rewrite !len_app. pose proof (len_nonneg p). pose proof (len_nonneg q). lia. Qed.
  Lemma found_iff h n i : In i (filter (match_at eqb h n) (starts h n)) <-> occurs_at h n i.
  Proof.
    rewrite filter_In. unfold starts. zl. rewrite zrange_In. split.
    - intros [H1 H2]. apply match_at_iff in H2; auto. lia.
    - intros H. pose proof (occurs_at_range _ _ _ H). split; [lia|]. apply match_at_iff; auto.
  Qed.
  Lemma starts_sorted h n : StronglySorted Z.lt (filter (match_at eqb h n) (starts h n)).
  Proof.
    unfold starts. pose proof (zrange_sorted 0 (zlen h - zlen n + 1)) as H.
    induction H; cbn; [constructor|]. destruct (match_at eqb h n a); auto.
    constructor; auto. rewrite Forall_forall in *. intros x Hx. apply filter_In in Hx as [Hx _]. auto.
  Qed.
  Lemma contains_seq_iff h n : a_contains_seq eqb h n = true <-> exists i, occurs_at h n i.
  Proof.
    unfold a_contains_seq. rewrite existsb_exists. split.
    - intros (i & H). exists i. apply found_iff, filter_In; auto.
    - intros (i & H). exists i. apply found_iff, filter_In in H. auto.
  Qed.
  Lemma count_seq_iff h n : n <> [] ->
    exists l, NoDup l /\ (forall i, In i l <-> occurs_at h n i) /\ a_count_seq eqb h n = len l.
  Proof.
    intros NE. exists (filter (match_at eqb h n) (starts h n)). split; [|split].
    - apply NoDup_filter, zrange_NoDup.
    - intros; apply found_iff.
    - destruct h.
      + cbn. symmetry. apply Zle_antisym; [|apply len_nonneg].
        assert (filter (match_at eqb [] n) (starts [] n) = []) as ->; [|reflexivity].
        destruct (filter _ _) eqn:E; auto. exfalso.
        assert (occurs_at [] n z) as H by (apply found_iff; rewrite E; left; auto).
        apply occurs_at_range in H. destruct n; [congruence|]. unfold len in H; cbn [length] in H. lia.
      + destruct n; [congruence|]. reflexivity.
  Qed.
  Lemma index_seq_iff h n :
    (a_index_seq eqb h n = -1 /\ forall i, ~ occurs_at h n i) \/
    (occurs_at h n (a_index_seq eqb h n) /\ forall i, occurs_at h n i -> a_index_seq eqb h n <= i).
  Proof.
    unfold a_index_seq. pose proof (starts_sorted h n) as S. pose proof (found_iff h n) as F.
    destruct (filter _ _) as [|x l]; cbn.
    - left. split; auto. intros i H. apply F in H. destruct H.
    - right. split. { apply F; left; auto. }
      intros i H. apply F in H. inversion S; subst. rewrite Forall_forall in *.
      destruct H as [->|H]; [lia|]. apply H3 in H. lia.
  Qed.
  Lemma filter_rev {B} (f : B -> bool) l : filter f (rev l) = rev (filter f l).
  Proof. induction l; cbn; auto. rewrite filter_app, IHl. cbn. destruct (f a); cbn; auto. rewrite app_nil_r. auto. Qed.
  Lemma rindex_seq_iff h n :
    (a_rindex_seq eqb h n = -1 /\ forall i, ~ occurs_at h n i) \/
    (occurs_at h n (a_rindex_seq eqb h n) /\ forall i, occurs_at h n i -> i <= a_rindex_seq eqb h n).
  Proof.
    unfold a_rindex_seq. pose proof (starts_sorted h n) as S. pose proof (found_iff h n) as F.
    rewrite filter_rev. destruct (filter _ _) as [|x l] using rev_ind; [|clear IHl].
    - left. split; auto. intros i H. apply F in H. destruct H.
    - right. rewrite rev_app_distr. cbn. split. { apply F, in_app_iff; right; left; auto. }
      intros i H. apply F, in_app_iff in H. destruct H as [H|[->|[]]]; [|lia].
      clear - S H. induction l; [destruct H|]. cbn in S. inversion S; subst.
      destruct H as [->|H]; auto. rewrite Forall_forall in H3. assert (i < x); [|lia].
      apply H3, in_app_iff; right; left; auto.
  Qed.
  Lemma startswith_iff h n : a_startswith eqb h n = true <-> occurs_at h n 0.
  Proof.
    unfold a_startswith. zl. rewrite list_eq_eq, py_slice_to_eq. split.
    - intros E. exists [], (skipn (Z.to_nat (cut (len h) (len n))) h). split; [|reflexivity].
      cbn [app]. rewrite E at 1. rewrite firstn_skipn. reflexivity.
    - intros (p & q & -> & L). destruct p; [|rewrite len_cons in L; pose proof (len_nonneg p); lia]. cbn [app].
      rewrite cut_id by (rewrite len_app; pose proof (len_nonneg n); pose proof (len_nonneg q); lia).
      unfold len. rewrite Nat2Z.id, firstn_app, firstn_all, Nat.sub_diag, firstn_O, app_nil_r. reflexivity.
  Qed.
  Lemma endswith_iff h n : a_endswith eqb h n = true <-> exists p, h = p ++ n.
  Proof.
    unfold a_endswith. destruct n as [|y n].
    - split; auto. intros _. exists h. rewrite app_nil_r. auto.
    - zl. rewrite list_eq_eq, py_slice_from_eq. set (m := y :: n) in *.
      assert (0 < len m) by (unfold m; rewrite len_cons; pose proof (len_nonneg n); lia). split.
      + intros E. eexists. rewrite E. symmetry. apply firstn_skipn.
      + intros (p & ->). replace (cut (len (p ++ m)) (- len m)) with (len p).
        2:{ unfold cut. rewrite len_app. pose proof (len_nonneg p). destruct (Z.ltb_spec (- len m) 0); lia. }
        unfold len. rewrite Nat2Z.id, skipn_app, skipn_all, Nat.sub_diag. reflexivity.
  Qed.
  (* item needle *)
  Lemma contains_iff h x : a_contains eqb h x = true <-> In x h.
  Proof.
    unfold a_contains, py_in. rewrite existsb_exists. split.
    - intros (y & H & E). apply eqb_eq in E. congruence.
    - intros H. exists x. split; auto. apply eqb_eq; auto.
  Qed.
  Lemma find_index_spec (p : A -> bool) i (l : list A) :
    (find_index p i l = -1 /\ (0 <= i -> forall y, In y l -> p y = false)) \/
    (exists k y, find_index p i l = i + Z.of_nat k /\ nth_error l k = Some y /\ p y = true /\
       forall j z, (j < k)%nat -> nth_error l j = Some z -> p z = false).
  Proof.
    revert i. induction l as [|y l IH]; cbn; intros. { left. split; auto. intros ? ? []. }
    destruct (p y) eqn:E.
    - right. exists 0%nat, y. cbn. repeat split; auto; [lia|]. intros; lia.
    - destruct (IH (i + 1)) as [[H1 H2]|(k & z & H1 & H2 & H3 & H4)].
      + left. split; auto. intros Hi z [->|Hz]; auto. apply H2; auto; lia.
      + right. exists (S k), z. repeat split; auto; [lia|]. intros j w Hj Hw.
        destruct j; cbn in Hw; [congruence|]. apply H4 in Hw; auto. lia.
  Qed.
  Lemma index_iff h x :
    (a_index eqb h x = -1 /\ ~ In x h) \/
    (at_ h (a_index eqb h x) = Some x /\ forall i, at_ h i = Some x -> a_index eqb h x <= i).
  Proof.
    unfold a_index. destruct (find_index_spec (fun y => eqb y x) 0 h) as [[H1 H2]|(k & z & H1 & H2 & H3 & H4)].
    - left. split; auto. intros H. apply H2 in H; [|lia]. assert (eqb x x = true) by (apply eqb_eq; auto). congruence.
    - right. rewrite H1. apply eqb_eq in H3. subst z. unfold at_.
      destruct (Z.ltb_spec (0 + Z.of_nat k) 0); [lia|]. split.
      + rewrite <- H2. f_equal. lia.
      + intros i Hi. destruct (Z.ltb_spec i 0); [discriminate|].
        destruct (Z.leb_spec (0 + Z.of_nat k) i); auto. exfalso.
        apply H4 in Hi; [|lia]. assert (eqb x x = true) by (apply eqb_eq; auto). congruence.
  Qed.
  Lemma nth_error_rev {B} (l : list B) k : (k < length l)%nat -> nth_error (rev l) k = nth_error l (length l - 1 - k).
  Proof.
    intros H. destruct l as [|d l0] eqn:E; [cbn in H; lia|]. rewrite <- E in *.
    rewrite (nth_error_nth' (rev l) d) by (rewrite rev_length; lia).
    rewrite rev_nth by auto. rewrite (nth_error_nth' l d) by lia. f_equal. f_equal. lia.
  Qed.
  Lemma rindex_iff h x :
    (a_rindex eqb h x = -1 /\ ~ In x h) \/
    (at_ h (a_rindex eqb h x) = Some x /\ forall i, at_ h i = Some x -> i <= a_rindex eqb h x).
  Proof.
    unfold a_rindex. destruct (find_index_spec (fun y => eqb x y) 0 (rev h)) as [[H1 H2]|(k & z & H1 & H2 & H3 & H4)].
    - left. rewrite H1. split; auto. intros H. apply in_rev, H2 in H; [|lia].
      assert (eqb x x = true) by (apply eqb_eq; auto). congruence.
    - right. rewrite H1. apply eqb_eq in H3. subst z. cbv zeta.
      destruct (Z.eqb_spec (0 + Z.of_nat k) (-1)); [lia|].
      assert (k < length (rev h))%nat as Hk by (apply nth_error_Some; congruence). rewrite rev_length in Hk.
      unfold at_, zlen. destruct (Z.ltb_spec (Z.of_nat (length h) - 1 - (0 + Z.of_nat k)) 0); [lia|].
      rewrite nth_error_rev in H2 by auto. split.
      + rewrite <- H2. f_equal. lia.
      + intros i Hi. destruct (Z.ltb_spec i 0); [discriminate|].
        assert (Z.to_nat i < length h)%nat by (apply nth_error_Some; congruence).
        destruct (Z.leb_spec i (Z.of_nat (length h) - 1 - (0 + Z.of_nat k))); auto. exfalso.
        specialize (H4 (length h - 1 - Z.to_nat i)%nat x). rewrite nth_error_rev in H4 by lia.
        replace (length h - 1 - (length h - 1 - Z.to_nat i))%nat with (Z.to_nat i) in H4 by lia.
        apply H4 in Hi; [|lia]. assert (eqb x x = true) by (apply eqb_eq; auto). congruence.
  Qed.
  Lemma count_iff (dec : forall x y : A, {x = y} + {x <> y}) h x : a_count eqb h x = Z.of_nat (count_occ dec h x).
  Proof.
    unfold a_count, zlen. f_equal. induction h; cbn; auto.
    destruct (dec a x) as [->|N].
    - assert (eqb x x = true) as -> by (apply eqb_eq; auto). cbn. auto.
    - destruct (eqb a x) eqn:E; auto. apply eqb_eq in E. contradiction.
  Qed.
End Search.

(** ** sets *)
Section Sets.
  Context {A : Type} (eqb : A -> A -> bool) (Q : equivalence eqb).
  Lemma eqb_comm x y : eqb x y = eqb y x.
  Proof.
    destruct (eqb x y) eqn:E, (eqb y x) eqn:F; auto.
    - apply (eqv_sym _ Q) in E. congruence.
    - apply (eqv_sym _ Q) in F. congruence.
  Qed.
  Lemma py_in_iff x l : py_in eqb x l = true <-> isin eqb x l.
  Proof.
    unfold py_in, isin. rewrite existsb_exists. split; intros (y & H & E); exists y; split; auto; rewrite eqb_comm; auto.
  Qed.
  Lemma py_in_iffn x l : py_in eqb x l = false <-> ~ isin eqb x l.
  Proof. rewrite <- py_in_iff. destruct (py_in eqb x l); intuition congruence. Qed.
  Lemma isin_app x l l' : isin eqb x (l ++ l') <-> isin eqb x l \/ isin eqb x l'.
  Proof.
    unfold isin. split.
    - intros (y & H & E). apply in_app_iff in H as [H|H]; [left|right]; eauto.
    - intros [(y & H & E)|(y & H & E)]; exists y; rewrite in_app_iff; auto.
  Qed.
  Lemma isin_cons x y l : isin eqb x (y :: l) <-> eqb x y = true \/ isin eqb x l.
  Proof.
    unfold isin; split.
    - intros (z & [->|H] & E); eauto.
    - intros [E|(z & H & E)]; [exists y|exists z]; cbn; auto.
  Qed.
  Lemma isin_nil x : isin eqb x [] <-> False.
  Proof. split; [intros (? & [] & _)|tauto]. Qed.
  Lemma isin_eqv x y l : eqb x y = true -> isin eqb x l -> isin eqb y l.
  Proof.
    intros E (z & H & F). exists z. split; auto. eapply (eqv_trans _ Q); eauto. apply (eqv_sym _ Q); auto.
  Qed.
  Lemma isin_filter x f l : (forall x y, eqb x y = true -> f x = f y) ->
    isin eqb x (filter f l) <-> isin eqb x l /\ f x = true.
  Proof.
    intros R. unfold isin. split.
    - intros (y & H & E). apply filter_In in H as [H F]. split; [eauto|]. rewrite (R _ _ E); auto.
    - intros ((y & H & E) & F). exists y. rewrite filter_In. rewrite (R _ _ E) in F. auto.
  Qed.
  Lemma py_in_resp l x y : eqb x y = true -> py_in eqb x l = py_in eqb y l.
  Proof.
    intros E. destruct (py_in eqb x l) eqn:F, (py_in eqb y l) eqn:G; auto.
    - apply py_in_iff in F. apply py_in_iffn in G. exfalso; eauto using isin_eqv.
    - apply py_in_iffn in F. apply py_in_iff in G. exfalso. apply F. eapply isin_eqv; eauto. apply (eqv_sym _ Q); auto.
  Qed.
  Lemma no_repeats_snoc l x : no_repeats eqb l -> ~ isin eqb x l -> no_repeats eqb (l ++ [x]).
  Proof.
    induction l; cbn; intros H N. { split; auto; rewrite isin_nil; auto. }
    destruct H as [H1 H2]. split.
    - rewrite isin_app, isin_cons, isin_nil. intros [H|[H|[]]]; auto.
      apply N, isin_cons. left. apply (eqv_sym _ Q); auto.
    - apply IHl; auto. intros H. apply N, isin_cons; auto.
  Qed.
  Lemma add_new_spec a acc x : no_repeats eqb acc ->
    no_repeats eqb (fold_left (add_new eqb) a acc) /\
    (isin eqb x (fold_left (add_new eqb) a acc) <-> isin eqb x acc \/ isin eqb x a).
  Proof.
    revert acc. induction a as [|y a IH]; cbn; intros acc N.
    - rewrite isin_nil. tauto.
    - unfold add_new at 2 4. destruct (py_in eqb y acc) eqn:E.
      + destruct (IH acc N) as [H1 H2]. split; auto. rewrite H2, isin_cons. split; [tauto|].
        intros [H|[H|H]]; auto. left. apply py_in_iff in E. eapply isin_eqv; eauto. apply (eqv_sym _ Q); auto.
      + apply py_in_iffn in E. destruct (IH (acc ++ [y])) as [H1 H2]. { apply no_repeats_snoc; auto. }
        split; auto. rewrite H2, isin_app, !isin_cons, isin_nil. tauto.
  Qed.
  Lemma distinct_spec a x : no_repeats eqb (a_distinct eqb a) /\ (isin eqb x (a_distinct eqb a) <-> isin eqb x a).
  Proof.
    destruct (add_new_spec a [] x I) as [H1 H2]. split; auto. unfold a_distinct. rewrite H2, isin_nil. tauto.
  Qed.
  Lemma union_spec a b x : no_repeats eqb (a_union eqb a b) /\
    (isin eqb x (a_union eqb a b) <-> isin eqb x a \/ isin eqb x b).
  Proof.
    unfold a_union. destruct (add_new_spec a [] x I) as [H1 H2]. destruct (add_new_spec b _ x H1) as [H3 H4].
    split; auto. rewrite H4, H2, isin_nil. tauto.
  Qed.
  Lemma intersection_spec a b x : isin eqb x (a_intersection eqb a b) <-> isin eqb x a /\ isin eqb x b.
  Proof.
    unfold a_intersection. rewrite isin_app, !isin_filter by (intros; apply py_in_resp; auto).
    rewrite !py_in_iff. tauto.
  Qed.
  Lemma diff_spec a b x : isin eqb x (a_diff eqb a b) <-> isin eqb x a /\ ~ isin eqb x b.
  Proof.
    unfold a_diff. rewrite isin_filter by (intros; f_equal; apply py_in_resp; auto).
    rewrite negb_true_iff, py_in_iffn. tauto.
  Qed.
  Lemma symdiff_spec a b x : isin eqb x (a_symdiff eqb a b) <->
    (isin eqb x a /\ ~ isin eqb x b) \/ (isin eqb x b /\ ~ isin eqb x a).
  Proof.
    unfold a_symdiff. rewrite isin_app, !isin_filter by (intros; f_equal; apply py_in_resp; auto).
    rewrite !negb_true_iff, !py_in_iffn. tauto.
  Qed.
  Lemma In_isin x l : In x l -> isin eqb x l.
  Proof. intros. exists x. split; auto. apply (eqv_refl _ Q). Qed.
  Lemma subset_spec a b : a_subset eqb a b = true <-> forall x, isin eqb x a -> isin eqb x b.
  Proof.
    unfold a_subset. rewrite forallb_forall. split; intros H x Hx.
    - destruct Hx as (y & Hy & E). apply H, py_in_iff in Hy. eapply isin_eqv; eauto. apply (eqv_sym _ Q); auto.
    - apply py_in_iff, H, In_isin; auto.
  Qed.
  Lemma seteq_spec a b : a_seteq eqb a b = true <-> forall x, isin eqb x a <-> isin eqb x b.
  Proof.
    unfold a_seteq. rewrite andb_true_iff.
    change (forallb (fun x => py_in eqb x b) a) with (a_subset eqb a b).
    change (forallb (fun x => py_in eqb x a) b) with (a_subset eqb b a).
    rewrite !subset_spec. firstorder.
  Qed.
  Lemma disjoint_spec a b : a_disjoint eqb a b = true <-> forall x, ~ (isin eqb x a /\ isin eqb x b).
  Proof.
    unfold a_disjoint. rewrite andb_true_iff, !forallb_forall. split.
    - intros [H _] x [(y & Hy & E) Hb]. apply H in Hy. rewrite negb_true_iff, py_in_iffn in Hy.
      apply Hy. eapply isin_eqv; eauto.
    - intros H. split; intros x Hx; rewrite negb_true_iff, py_in_iffn; intros Hx2; apply (H x); auto using In_isin.
  Qed.
  (* order of the results *)
  Lemma diff_no_repeats a b : no_repeats eqb a -> no_repeats eqb (a_diff eqb a b).
  Proof.
    induction a; cbn; auto. intros [H1 H2]. destruct (negb (py_in eqb a b)); cbn; auto.
    split; auto. intros H. apply H1. apply diff_spec in H. tauto.
  Qed.
End Sets.

(** ** effects *)
Section HO.
  Context {S : Type}.
  Lemma calls_nil_inv {A B} (f : A -> M S B) s s' ys : calls f s [] s' ys <-> s' = s /\ ys = [].
  Proof. split. { intros H; inversion H; auto. } intros [-> ->]; constructor. Qed.
  Lemma calls_cons_inv {A B} (f : A -> M S B) s x l s' ys : calls f s (x :: l) s' ys <->
    exists y s1 ys', f x s = (Ok y, s1) /\ calls f s1 l s' ys' /\ ys = y :: ys'.
  Proof.
    split. { intros H; inversion H; subst. eauto 6. } intros (y & s1 & ys' & H1 & H2 & ->). econstructor; eauto.
  Qed.
  Lemma fold_nil_inv {A B} (f : B -> A -> M S B) s b s' b' : fold_calls f s b [] s' b' <-> s' = s /\ b' = b.
  Proof. split. { intros H; inversion H; auto. } intros [-> ->]; constructor. Qed.
  Lemma fold_cons_inv {A B} (f : B -> A -> M S B) s b x l s' b' : fold_calls f s b (x :: l) s' b' <->
    exists b1 s1, f b x s = (Ok b1, s1) /\ fold_calls f s1 b1 l s' b'.
  Proof.
    split. { intros H; inversion H; subst. eauto 6. } intros (b1 & s1 & H1 & H2). econstructor; eauto.
  Qed.
  Lemma mapM_ok {A B} (f : A -> M S B) a s ys s' : mapM f a s = (Ok ys, s') <-> calls f s a s' ys.
  Proof.
    revert s ys s'. induction a as [|x a IH]; cbn; intros.
    - rewrite calls_nil_inv. unfold ret. split; [intros H; injection H as <- <-; auto|intros [-> ->]; auto].
    - rewrite calls_cons_inv. unfold bind. destruct (f x s) as [[y|e] s1] eqn:E.
      + destruct (mapM f a s1) as [[l|e] s2] eqn:F; split; intros H.
        * injection H as <- <-. apply IH in F. eauto 6.
        * destruct H as (y' & s3 & ys' & H1 & H2 & ->). injection H1 as <- <-. apply IH in H2. rewrite F in H2.
          injection H2 as <- <-. reflexivity.
        * discriminate.
        * destruct H as (y' & s3 & ys' & H1 & H2 & ->). injection H1 as <- <-. apply IH in H2. congruence.
      + split; [discriminate|]. intros (y' & s3 & ys' & H1 & H2 & ->). discriminate.
  Qed.
  Lemma mapM_raise {A B} (f : A -> M S B) a s e s' : mapM f a s = (Raise e, s') <->
    exists p x q s1 ys, a = p ++ x :: q /\ calls f s p s1 ys /\ f x s1 = (Raise e, s').
  Proof.
    revert s s'. induction a as [|x a IH]; cbn; intros.
    - split; [discriminate|]. intros (p & x & q & ? & ? & H & _). destruct p; discriminate.
    - unfold bind. destruct (f x s) as [[y|e'] s1] eqn:E.
      + assert ((exists p x0 q s2 ys, x :: a = p ++ x0 :: q /\ calls f s p s2 ys /\ f x0 s2 = (Raise e, s')) <->
                mapM f a s1 = (Raise e, s')) as ->.
        { rewrite IH. split.
          - intros (p & z & q & s3 & ys & H1 & H2 & H3). destruct p as [|z' p]; cbn in H1; injection H1 as -> ->.
            { apply calls_nil_inv in H2 as [-> ->]. congruence. }
            apply calls_cons_inv in H2 as (y' & s4 & ys' & H4 & H5 & ->).
            assert (s4 = s1) as -> by congruence. eauto 8.
          - intros (p & z & q & s3 & ys & -> & H2 & H3). exists (x :: p), z, q, s3, (y :: ys).
            repeat split; auto. apply calls_cons_inv. eauto 6. }
        destruct (mapM f a s1) as [[l|e''] s2]; unfold ret; split; congruence.
      + split; intros H.
        * injection H as <- <-. exists [], x, a, s, []. repeat split; auto. constructor.
        * destruct H as (p & z & q & s3 & ys & H1 & H2 & H3). destruct p as [|z' p]; cbn in H1; injection H1 as -> ->.
          { apply calls_nil_inv in H2 as [-> ->]. congruence. }
          apply calls_cons_inv in H2 as (y' & s4 & ys' & H4 & H5 & ->). congruence.
  Qed.
  Lemma calls_length {A B} (f : A -> M S B) s a s' ys : calls f s a s' ys -> length ys = length a.
  Proof. induction 1; cbn; auto. Qed.
  Lemma calls_app {A B} (f : A -> M S B) s a b s' ys : calls f s (a ++ b) s' ys <->
    exists s1 ys1 ys2, calls f s a s1 ys1 /\ calls f s1 b s' ys2 /\ ys = ys1 ++ ys2.
  Proof.
    revert s ys. induction a; cbn [app]; intros; split.
    - intros H. exists s, [], ys. repeat split; auto. constructor.
    - intros (s1 & y1 & y2 & H1 & H2 & ->). apply calls_nil_inv in H1 as [-> ->]. auto.
    - intros H. apply calls_cons_inv in H as (y & s2 & ys' & H1 & H2 & ->).
      apply IHa in H2 as (s3 & y1 & y2 & H3 & H4 & ->).
      exists s3, (y :: y1), y2. repeat split; auto. econstructor; eauto.
    - intros (s1 & y1 & y2 & H1 & H2 & ->). apply calls_cons_inv in H1 as (y & s2 & ys' & H1 & H3 & ->).
      cbn. econstructor; eauto. apply IHa. eauto 6.
  Qed.
  (* all variants that call f once per item are mapM followed by a pure function of the results *)
  Lemma filter_mapM {A} (f : A -> M S bool) a s :
    a_filter a f s = bind (mapM f a) (fun bs => ret (flagged a bs)) s.
  Proof.
    revert s. induction a as [|x a IH]; cbn; intros; auto.
    unfold bind. destruct (f x s) as [[b|e] s1]; auto. rewrite IH. unfold bind.
    destruct (mapM f a s1) as [[bs|e] s2]; auto. cbn. unfold flagged. cbn. destruct b; reflexivity.
  Qed.
  Definition somes {B} (l : list (option B)) : list B := flat_map (fun o => match o with Some v => [v] | None => [] end) l.
  Lemma filterMap_mapM {A B} (f : A -> M S (option B)) a s :
    a_filterMap a f s = bind (mapM f a) (fun ys => ret (somes ys)) s.
  Proof.
    revert s. induction a as [|x a IH]; cbn; intros; auto.
    unfold bind. destruct (f x s) as [[b|e] s1]; auto. rewrite IH. unfold bind.
    destruct (mapM f a s1) as [[bs|e] s2]; auto. cbn. destruct b; reflexivity.
  Qed.
  Lemma flatMap_mapM {A B} (f : A -> M S (list B)) a s :
    a_flatMap a f s = bind (mapM f a) (fun ys => ret (concat ys)) s.
  Proof.
    revert s. induction a as [|x a IH]; cbn; intros; auto.
    unfold bind. destruct (f x s) as [[b|e] s1]; auto. rewrite IH. unfold bind.
    destruct (mapM f a s1) as [[bs|e] s2]; auto.
  Qed.
  Lemma foldM_ok {A B} (f : B -> A -> M S B) a b s b' s' : foldM f b a s = (Ok b', s') <-> fold_calls f s b a s' b'.
  Proof.
    revert s b. induction a as [|x a IH]; cbn; intros.
    - rewrite fold_nil_inv. unfold ret. split; [intros H; injection H as <- <-; auto|intros [-> ->]; auto].
    - rewrite fold_cons_inv. unfold bind. destruct (f b x s) as [[y|e] s1] eqn:E; split; intros H.
      + apply IH in H. eauto.
      + destruct H as (b1 & s2 & H1 & H2). injection H1 as <- <-. apply IH; auto.
      + discriminate.
      + destruct H as (b1 & s2 & H1 & H2). discriminate.
  Qed.
  Lemma foldM_raise {A B} (f : B -> A -> M S B) a b s e s' : foldM f b a s = (Raise e, s') <->
    exists p x q s1 b1, a = p ++ x :: q /\ fold_calls f s b p s1 b1 /\ f b1 x s1 = (Raise e, s').
  Proof.
    revert s b. induction a as [|x a IH]; cbn; intros.
    - split; [discriminate|]. intros (p & x & q & ? & ? & H & _). destruct p; discriminate.
    - unfold bind. destruct (f b x s) as [[y|e'] s1] eqn:E; split; intros H.
      + apply IH in H as (p & z & q & s3 & b1 & -> & H2 & H3).
        exists (x :: p), z, q, s3, b1. repeat split; auto. econstructor; eauto.
      + apply IH. destruct H as (p & z & q & s3 & b1 & H1 & H2 & H3). destruct p as [|z' p]; cbn in H1; injection H1 as -> ->.
        { apply fold_nil_inv in H2 as [-> ->]. congruence. }
        apply fold_cons_inv in H2 as (b2 & s4 & H4 & H5). rewrite E in H4. injection H4 as <- <-. eauto 8.
      + injection H as <- <-. exists [], x, a, s, b. repeat split; auto. constructor.
      + destruct H as (p & z & q & s3 & b1 & H1 & H2 & H3). destruct p as [|z' p]; cbn in H1; injection H1 as -> ->.
        { apply fold_nil_inv in H2 as [-> ->]. congruence. }
        apply fold_cons_inv in H2 as (b2 & s4 & H4 & H5). congruence.
  Qed.
  Lemma fold_calls_pure {A B} (f : B -> A -> M S B) (g : B -> A -> B) a b s :
    (forall b x s, f b x s = (Ok (g b x), s)) -> fold_calls f s b a s (fold_left g a b).
  Proof. intros H. revert b. induction a; cbn; intros; econstructor; eauto. Qed.
  Lemma calls_pure {A B} (f : A -> M S B) (g : A -> B) a s : is_pure f g -> calls f s a s (map g a).
  Proof. intros H. induction a; cbn; econstructor; eauto. Qed.

  (* stopping early *)
  Lemma takeWhile_ok {A} (f : A -> M S bool) a s r s' : a_takeWhile a f s = (Ok r, s') <->
    exists bs, (calls f s a s' bs /\ r = a /\ Forall (eq true) bs) \/
    (exists x q s1, a = r ++ x :: q /\ calls f s r s1 bs /\ Forall (eq true) bs /\ f x s1 = (Ok false, s')).
  Proof.
    revert s r s'. induction a as [|x a IH]; cbn; intros.
    - split.
      + intros H. injection H as <- <-. exists []. left. repeat split; auto. constructor.
      + intros (bs & [(H1 & -> & H2)|(x & q & s1 & H & _)]).
        { apply calls_nil_inv in H1 as [-> ->]. reflexivity. } destruct r; discriminate.
    - unfold bind. destruct (f x s) as [[[|]|e] s1] eqn:E; split; intros H.
      + destruct (a_takeWhile a f s1) as [[l|e] s2] eqn:F; [|discriminate]. injection H as <- <-.
        apply IH in F as (bs & [(H1 & -> & H2)|(z & q & s3 & -> & H1 & H2 & H3)]); exists (true :: bs).
        * left. repeat split; auto. econstructor; eauto.
        * right. exists z, q, s3. repeat split; auto. econstructor; eauto.
      + destruct H as (bs & [(H1 & -> & H2)|(z & q & s3 & H0 & H1 & H2 & H3)]).
        * apply calls_cons_inv in H1 as (y & s2 & ys & H4 & H5 & ->). rewrite E in H4. injection H4 as <- <-.
          inversion H2; subst.
          assert (a_takeWhile a f s1 = (Ok a, s')) as -> by (apply IH; eauto). reflexivity.
        * destruct r as [|x' r]; cbn in H0; injection H0 as -> ->.
          { apply calls_nil_inv in H1 as [-> ->]. congruence. }
          apply calls_cons_inv in H1 as (y & s2 & ys & H4 & H5 & ->). rewrite E in H4. injection H4 as <- <-.
          inversion H2; subst.
          assert (a_takeWhile (r ++ z :: q) f s1 = (Ok r, s')) as -> by (apply IH; eauto 10). reflexivity.
      + injection H as <- <-. exists []. right. exists x, a, s. repeat split; auto. constructor.
      + destruct H as (bs & [(H1 & -> & H2)|(z & q & s3 & H0 & H1 & H2 & H3)]).
        * apply calls_cons_inv in H1 as (y & s2 & ys & H4 & H5 & ->). inversion H2; subst. congruence.
        * destruct r as [|x' r]; cbn in H0; injection H0 as -> ->.
          { apply calls_nil_inv in H1 as [-> ->]. assert (s' = s1) by congruence. subst; reflexivity. }
          apply calls_cons_inv in H1 as (y & s2 & ys & H4 & H5 & ->). inversion H2; subst. congruence.
      + discriminate.
      + destruct H as (bs & [(H1 & -> & H2)|(z & q & s3 & H0 & H1 & H2 & H3)]).
        * apply calls_cons_inv in H1 as (y & s2 & ys & H4 & H5 & ->). congruence.
        * destruct r as [|x' r]; cbn in H0; injection H0 as -> ->.
          { apply calls_nil_inv in H1 as [-> ->]. congruence. }
          apply calls_cons_inv in H1 as (y & s2 & ys & H4 & H5 & ->). congruence.
  Qed.
  Lemma count_while_take {A} (f : A -> M S bool) a i s :
    count_while a f i s = bind (a_takeWhile a f) (fun r => ret (i + len r)) s.
  Proof.
    revert i s. induction a as [|x a IH]; cbn; intros.
    - unfold bind, ret. do 2 f_equal. unfold len; cbn; lia.
    - unfold bind. destruct (f x s) as [[[|]|e] s1]; cbn; auto.
      + rewrite IH. unfold bind. destruct (a_takeWhile a f s1) as [[l|e] s2]; cbn; auto.
        unfold ret. rewrite len_cons. do 2 f_equal. lia.
      + unfold ret. do 2 f_equal. unfold len; cbn; lia.
  Qed.
  Lemma takeWhile_prefix {A} (f : A -> M S bool) a s r s' : a_takeWhile a f s = (Ok r, s') -> exists q, a = r ++ q.
  Proof.
    intros H. apply takeWhile_ok in H as (bs & [(_ & -> & _)|(x & q & s1 & -> & _)]); eauto.
    exists []. rewrite app_nil_r; auto.
  Qed.
  (* dropWhile makes the same calls as takeWhile and returns the rest *)
  Lemma dropWhile_take {A} (f : A -> M S bool) a s :
    match a_takeWhile a f s with
    | (Ok r, s') => exists q, a = r ++ q /\ a_dropWhile a f s = (Ok q, s')
    | (Raise e, s') => a_dropWhile a f s = (Raise e, s')
    end.
  Proof.
    assert (a_dropWhile a f s = match a_takeWhile a f s with
              | (Ok r, s') => (Ok (py_slice_from a (len r)), s') | (Raise e, s') => (Raise e, s') end) as ->.
    { unfold a_dropWhile. unfold bind at 1. rewrite count_while_take. unfold bind.
      destruct (a_takeWhile a f s) as [[r|e] s']; reflexivity. }
    destruct (a_takeWhile a f s) as [[r|e] s'] eqn:E; [|reflexivity].
    destruct (takeWhile_prefix _ _ _ _ _ E) as (q & ->). exists q. split; auto.
    rewrite slice_from_app. reflexivity.
  Qed.
  Lemma all_ok {A} (f : A -> M S bool) a s b s' : a_all a f s = (Ok b, s') <->
    (b = true /\ exists bs, calls f s a s' bs /\ Forall (eq true) bs) \/
    (b = false /\ exists p x q s1 bs, a = p ++ x :: q /\ calls f s p s1 bs /\ Forall (eq true) bs /\ f x s1 = (Ok false, s')).
  Proof.
    assert (a_all a f s = bind (a_takeWhile a f) (fun r => ret (Nat.eqb (length r) (length a))) s) as ->.
    { revert s. induction a as [|x a IH]; cbn; intros; auto. unfold bind.
      destruct (f x s) as [[[|]|e] s1]; cbn; auto. rewrite IH. unfold bind.
      destruct (a_takeWhile a f s1) as [[l|e] s2]; cbn; auto. }
    unfold bind. destruct (a_takeWhile a f s) as [[r|e] s1] eqn:E; split; intros H.
    - injection H as <- <-. apply takeWhile_ok in E as (bs & [(H1 & -> & H2)|(x & q & s3 & -> & H1 & H2 & H3)]).
      + left. rewrite Nat.eqb_refl. eauto.
      + right. split. { apply Nat.eqb_neq. rewrite app_length. cbn. lia. } exists r, x, q, s3, bs. auto.
    - destruct H as [(-> & bs & H1 & H2)|(-> & p & x & q & s3 & bs & -> & H1 & H2 & H3)].
      + assert (a_takeWhile a f s = (Ok a, s')) as F by (apply takeWhile_ok; eauto). rewrite E in F.
        injection F as -> ->. unfold ret. rewrite Nat.eqb_refl. reflexivity.
      + assert (a_takeWhile (p ++ x :: q) f s = (Ok p, s')) as F by (apply takeWhile_ok; eauto 10). rewrite E in F.
        injection F as -> ->. unfold ret. do 2 f_equal. apply Nat.eqb_neq. rewrite app_length. cbn. lia.
    - discriminate.
    - destruct H as [(-> & bs & H1 & H2)|(-> & p & x & q & s3 & bs & -> & H1 & H2 & H3)].
      + assert (a_takeWhile a f s = (Ok a, s')) as F by (apply takeWhile_ok; eauto). congruence.
      + assert (a_takeWhile (p ++ x :: q) f s = (Ok p, s')) as F by (apply takeWhile_ok; eauto 10). congruence.
  Qed.
  Definition notM {A} (f : A -> M S bool) : A -> M S bool := fun x => bind (f x) (fun b => ret (negb b)).
  Lemma any_all {A} (f : A -> M S bool) a s : a_any a f s = bind (a_all a (notM f)) (fun b => ret (negb b)) s.
  Proof.
    revert s. induction a as [|x a IH]; cbn; intros; auto. unfold bind, notM, bind.
    destruct (f x s) as [[[|]|e] s1]; cbn; [reflexivity|apply IH|reflexivity].
  Qed.
  Lemma calls_notM {A} (f : A -> M S bool) s a s' bs : calls (notM f) s a s' (map negb bs) <-> calls f s a s' bs.
  Proof.
    revert s bs. induction a as [|x a IH]; intros.
    - rewrite !calls_nil_inv. destruct bs; cbn; intuition congruence.
    - rewrite !calls_cons_inv. split; intros (y & s1 & ys & H1 & H2 & H3).
      + destruct bs as [|b bs]; [discriminate|]. injection H3 as H3 <-. apply IH in H2.
        unfold notM, bind in H1. destruct (f x s) as [[c|e] s2]; [|discriminate]. injection H1 as H1 ->.
        assert (c = b) as -> by (destruct b, c; cbn in *; congruence). eauto 6.
      + subst bs. exists (negb y), s1, (map negb ys). split; [|split; auto].
        * unfold notM, bind. rewrite H1. reflexivity.
        * apply IH; auto.
  Qed.
  Lemma any_ok {A} (f : A -> M S bool) a s b s' : a_any a f s = (Ok b, s') <->
    (b = false /\ exists bs, calls f s a s' bs /\ Forall (eq false) bs) \/
    (b = true /\ exists p x q s1 bs, a = p ++ x :: q /\ calls f s p s1 bs /\ Forall (eq false) bs /\ f x s1 = (Ok true, s')).
  Proof.
    rewrite any_all. unfold bind.
    assert (forall bs, Forall (eq false) bs <-> Forall (eq true) (map negb bs)) as FN.
    { intros bs. rewrite Forall_map. split; apply Forall_impl; intros [|]; cbn; congruence. }
    assert (forall bs : list bool, bs = map negb (map negb bs)) as NN.
    { intros bs. rewrite map_map. rewrite <- (map_id bs) at 1. apply map_ext. intros [|]; auto. }
    assert (forall x s s', notM f x s = (Ok false, s') <-> f x s = (Ok true, s')) as NF.
    { intros x s0 s1. unfold notM, bind. destruct (f x s0) as [[[|]|e] s2]; cbn; unfold ret; split; congruence. }
    destruct (a_all a (notM f) s) as [[c|e] s1] eqn:E; split; intros H.
    - injection H as <- <-. apply all_ok in E as [(-> & bs & H1 & H2)|(-> & p & x & q & s3 & bs & -> & H1 & H2 & H3)].
      + left. split; auto. exists (map negb bs). rewrite (NN bs) in H1, H2. split; [apply calls_notM; auto|apply FN; auto].
      + right. split; auto. exists p, x, q, s3, (map negb bs). rewrite (NN bs) in H1, H2.
        split; auto. split; [apply calls_notM; auto|]. split; [apply FN; auto|apply NF; auto].
    - destruct H as [(-> & bs & H1 & H2)|(-> & p & x & q & s3 & bs & -> & H1 & H2 & H3)].
      + assert (a_all a (notM f) s = (Ok true, s')) as F.
        { apply all_ok. left. split; auto. exists (map negb bs). split; [apply calls_notM; auto|apply FN; auto]. }
        rewrite E in F. injection F as -> ->. reflexivity.
      + assert (a_all (p ++ x :: q) (notM f) s = (Ok false, s')) as F.
        { apply all_ok. right. split; auto. exists p, x, q, s3, (map negb bs).
          split; auto. split; [apply calls_notM; auto|]. split; [apply FN; auto|apply NF; auto]. }
        rewrite E in F. injection F as -> ->. reflexivity.
    - discriminate.
    - destruct H as [(-> & bs & H1 & H2)|(-> & p & x & q & s3 & bs & -> & H1 & H2 & H3)].
      + assert (a_all a (notM f) s = (Ok true, s')) as F.
        { apply all_ok. left. split; auto. exists (map negb bs). split; [apply calls_notM; auto|apply FN; auto]. }
        congruence.
      + assert (a_all (p ++ x :: q) (notM f) s = (Ok false, s')) as F.
        { apply all_ok. right. split; auto. exists p, x, q, s3, (map negb bs).
          split; auto. split; [apply calls_notM; auto|]. split; [apply FN; auto|apply NF; auto]. }
        congruence.
  Qed.
End HO.
