(** Lemmas for C78. *)
From Coq Require Import Lia Permutation Sorted.
From Verif Require Import Base PyNum ArrayModel ArraySpec ArrayProps RankModel RankSpec.
Open Scope list_scope.
Open Scope Z_scope.

Section Order.
  Context {A : Type} (lt : A -> A -> bool).
  Hypothesis WO : weak_order lt.

  Lemma filter_perm (f : A -> bool) l l' : Permutation l l' -> length (filter f l) = length (filter f l').
  Proof.
    induction 1 as [|x l l' _ IH|x y l|l l' l'' _ IH1 _ IH2]; cbn; auto.
    - destruct (f x); cbn; congruence.
    - destruct (f x), (f y); reflexivity.
    - congruence.
  Qed.
  Lemma filter_le (f : A -> bool) l : (length (filter f l) <= length l)%nat.
  Proof. induction l; cbn; [lia|]. destruct (f a); cbn; lia. Qed.
  Lemma filter_none (f : A -> bool) l : (forall x, In x l -> f x = false) -> filter f l = [].
  Proof. induction l as [|y l IH]; cbn; auto. intros H. rewrite (H y) by auto. apply IH; auto. Qed.
  Lemma filter_all (f : A -> bool) l : (forall x, In x l -> f x = true) -> filter f l = l.
  Proof. induction l as [|y l IH]; cbn; auto. intros H. rewrite (H y) by auto. now rewrite IH by auto. Qed.
  Lemma sorted_stat l : StronglySorted (fun x y => lt y x = false) l -> forall i r, nth_error l i = Some r -> order_stat lt l (Z.of_nat i) r.
  Proof.
    intros S i r N. split; [eapply nth_error_In; eauto|]. apply nth_error_split in N as (p & q & -> & <-).
    assert (Q : forall x, In x q -> lt x r = false).
    { intros x I. induction p as [|y p IH]; inversion S; subst; auto. rewrite Forall_forall in *. auto. }
    assert (P : forall x, In x p -> lt r x = false).
    { intros x I. clear Q. induction p as [|y p IH]; [destruct I|]. inversion S as [|? ? S' F]; subst. rewrite Forall_forall in F. destruct I as [->|I]; auto.
      apply F. apply in_or_app. right; now left. }
    unfold smaller, not_greater, len. rewrite !filter_app, !app_length. cbn [filter]. rewrite (wo_irrefl _ WO). cbn [negb length].
    rewrite (filter_none (fun x => lt x r) q Q). rewrite (filter_all (fun x => negb (lt r x)) p) by (intros x I; now rewrite (P x I)). pose proof (filter_le (fun x => lt x r) p). cbn [length]. lia.
  Qed.
  Lemma perm_stat l l' i r : Permutation l l' -> order_stat lt l i r -> order_stat lt l' i r.
  Proof.
    intros P [I R]. split; [eapply Permutation_in; eauto|]. unfold smaller, not_greater, len in *.
    rewrite (filter_perm (fun x => lt x r) l l' P), (filter_perm (fun x => negb (lt r x)) l l' P) in R. exact R.
  Qed.
  Lemma item_stat a i r : 0 <= i -> item (a_sort lt a) i = Ok r -> order_stat lt a i r.
  Proof.
    intros P. unfold item. destruct (nth_error _ _) as [x|] eqn:N; [|discriminate]. intros Q; inversion Q; subst.
    eapply perm_stat; [apply C18_sort_permutation|]. apply (sorted_stat _ (C18_sort_sorted A lt a WO)) in N. rewrite Z2Nat.id in N by exact P. exact N.
  Qed.
  Lemma item_total a i : 0 <= i < len a -> exists r, item (a_sort lt a) i = Ok r.
  Proof.
    intros [H1 H2]. unfold item. destruct (nth_error (a_sort lt a) (Z.to_nat i)) as [x|] eqn:N; eauto.
    apply nth_error_None in N. rewrite (Permutation_length (C18_sort_permutation A lt a)) in N. unfold len in H2. lia.
  Qed.
  Lemma filter_imp (f g : A -> bool) l : (forall x, f x = true -> g x = true) -> (length (filter f l) <= length (filter g l))%nat.
  Proof. intros H. induction l as [|y l IH]; cbn; [lia|]. specialize (H y). destruct (f y), (g y); cbn; try lia. Qed.
  (** the i-th and the j-th item are in order *)
  Lemma stat_order a i j x y : order_stat lt a i x -> order_stat lt a j y -> i <= j -> lt y x = false.
  Proof.
    intros [_ R] [_ R'] L. destruct (lt y x) eqn:E; auto. exfalso. unfold smaller, not_greater, len in *.
    assert (H : (length (filter (fun z => negb (lt y z)) a) <= length (filter (fun z => lt z x) a))%nat).
    { apply filter_imp. intros z Z. destruct (lt y z) eqn:F; [discriminate|]. destruct (wo_neg _ WO y z x E); auto. congruence. }
    lia.
  Qed.
  Lemma stat_tied a i x y : order_stat lt a i x -> order_stat lt a i y -> tied lt x y.
  Proof. intros H1 H2. split; eapply stat_order; eauto; lia. Qed.
  Lemma tied_stat a i x y : order_stat lt a i x -> In y a -> tied lt x y -> order_stat lt a i y.
  Proof.
    intros [_ R] I [T1 T2]. split; auto. unfold smaller, not_greater, len in *.
    assert (H1 : (length (filter (fun z => lt z y) a) <= length (filter (fun z => lt z x) a))%nat).
    { apply filter_imp. intros z Z. destruct (wo_neg _ WO z x y Z); auto; congruence. }
    assert (H2 : (length (filter (fun z => negb (lt x z)) a) <= length (filter (fun z => negb (lt y z)) a))%nat).
    { apply filter_imp. intros z Z. destruct (lt x z) eqn:E; [discriminate|]. destruct (lt y z) eqn:F; auto. destruct (wo_neg _ WO y x z F); congruence. }
    lia.
  Qed.
End Order.

(** Counting. *)
Section Mode.
  Context {A : Type} (same : A -> A -> bool).
  Hypothesis (Srefl : forall x, same x x = true) (Ssym : forall x y, same x y = same y x) (Strans : forall x y z, same x y = true -> same y z = true -> same x z = true).

  Lemma same_congr x y z : same x y = true -> same x z = same y z.
  Proof. intros E. destruct (same y z) eqn:F; [eapply Strans; eauto|]. destruct (same x z) eqn:G; auto. rewrite <- F. symmetry. eapply Strans; [|exact G]. now rewrite Ssym. Qed.
  Lemma times_congr a x y : same x y = true -> times same a x = times same a y.
  Proof. intros E. unfold times. f_equal. apply filter_ext. intros z. now apply same_congr. Qed.

  (** what the counter holds after reading a *)
  Definition counted (a : list A) (c : list (A * Z)) : Prop :=
    (forall x n, In (x, n) c -> In x a /\ n = times same a x)
    /\ (forall x, In x a -> exists y n, In (y, n) c /\ same x y = true)
    /\ (forall i j p q, nth_error c i = Some p -> nth_error c j = Some q -> same (fst p) (fst q) = true -> i = j).
  Lemma bump_some x c : (exists y n, In (y, n) c /\ same x y = true) ->
    exists c1 y n c2, c = c1 ++ (y, n) :: c2 /\ same x y = true /\ (forall p, In p c1 -> same x (fst p) = false) /\ bump same x c = c1 ++ (y, n + 1) :: c2.
  Proof.
    induction c as [|[z m] c IH]; intros (y & n & I & E); [destruct I|]. cbn [bump]. destruct (same x z) eqn:F.
    - exists [], z, m, c. repeat split; auto. intros p [].
    - destruct I as [Q|I]; [inversion Q; subst; congruence|]. destruct IH as (c1 & y' & n' & c2 & -> & E' & N & B); [eauto|].
      exists ((z, m) :: c1), y', n', c2. repeat split; auto. { intros p [<-|J]; auto. } rewrite B. reflexivity.
  Qed.
  Lemma bump_none x c : (forall y n, In (y, n) c -> same x y = false) -> bump same x c = c ++ [(x, 1)].
  Proof. induction c as [|[z m] c IH]; intros H; cbn [bump app]; auto. rewrite (H z m) by (now left). rewrite IH; auto. intros; eapply H; right; eauto. Qed.
  Lemma times_app a b x : times same (a ++ b) x = times same a x + times same b x.
  Proof. unfold times, len. rewrite filter_app, app_length. lia. Qed.
  Lemma times_one x y : times same [y] x = if same x y then 1 else 0.
  Proof. unfold times, len. cbn. destruct (same x y); reflexivity. Qed.
  Lemma bump_counted a c x : counted a c -> counted (a ++ [x]) (bump same x c).
  Proof.
    intros (C1 & C2 & C3). destruct (existsb (fun p => same x (fst p)) c) eqn:X.
    - apply existsb_exists in X as ([y0 n0] & I0 & E0). destruct (bump_some x c) as (c1 & y & n & c2 & Ec & E & N & B); [exists y0, n0; auto|]. rewrite B.
      assert (Iy : In (y, n) c) by (rewrite Ec; apply in_or_app; right; now left).
      assert (U : forall z m, In (z, m) (c1 ++ c2) -> same x z = false).
      { intros z m I. destruct (same x z) eqn:F; auto. exfalso. assert (Se : same y z = true) by (eapply Strans; [rewrite Ssym; exact E|exact F]).
        apply in_app_or in I as [I|I]; [pose proof (N _ I) as N'; cbn in N'; congruence|].
        apply In_nth_error in I as [j J]. assert (J' : nth_error c (length c1 + S j) = Some (z, m)) by (rewrite Ec, nth_error_app2 by lia; replace (length c1 + S j - length c1)%nat with (S j) by lia; exact J).
        assert (K : nth_error c (length c1) = Some (y, n)) by (rewrite Ec, nth_error_app2 by lia; now rewrite Nat.sub_diag).
        pose proof (C3 _ _ _ _ K J' Se). lia. }
      split; [|split].
      + intros z m I. apply in_app_or in I as [I|[I|I]].
        * assert (J : In (z, m) c) by (rewrite Ec; apply in_or_app; now left). destruct (C1 _ _ J) as [J1 ->]. split; [apply in_or_app; now left|].
          rewrite times_app, times_one, Ssym. rewrite (U z (times same a z)) by (apply in_or_app; now left). lia.
        * inversion I; subst. destruct (C1 _ _ Iy) as [J1 ->]. split; [apply in_or_app; now left|]. rewrite times_app, times_one, Ssym, E. lia.
        * assert (J : In (z, m) c) by (rewrite Ec; apply in_or_app; right; now right). destruct (C1 _ _ J) as [J1 ->]. split; [apply in_or_app; now left|].
          rewrite times_app, times_one, Ssym. rewrite (U z (times same a z)) by (apply in_or_app; now right). lia.
      + assert (G : forall z m, In (z, m) c -> exists m', In (z, m') (c1 ++ (y, n + 1) :: c2)).
        { intros z m I. rewrite Ec in I. apply in_app_or in I as [I|[I|I]]; [exists m; apply in_or_app; now left|inversion I; subst; exists (m + 1); apply in_or_app; right; now left|exists m; apply in_or_app; right; now right]. }
        intros z I. apply in_app_or in I as [I|[<-|[]]].
        * destruct (C2 z I) as (w & m & J & S). destruct (G _ _ J) as [m' J']. eauto.
        * destruct (G _ _ Iy) as [m' J']. eauto.
      + intros i j p q I J S.
        assert (G : forall i p, nth_error (c1 ++ (y, n + 1) :: c2) i = Some p -> exists q, nth_error c i = Some q /\ fst q = fst p).
        { clear - Ec. intros i p I. rewrite Ec. destruct (Nat.ltb_spec i (length c1)).
          - rewrite nth_error_app1 in * by lia. eauto.
          - rewrite nth_error_app2 in * by lia. destruct (i - length c1)%nat; cbn in *; eauto. inversion I; subst. eauto. }
        destruct (G _ _ I) as (p' & I' & Ep). destruct (G _ _ J) as (q' & J' & Eq). eapply C3; eauto. congruence.
    - assert (X' : forall y n, In (y, n) c -> same x y = false).
      { intros y n I. destruct (same x y) eqn:E; auto. exfalso. assert (Y : existsb (fun p => same x (fst p)) c = true) by (apply existsb_exists; exists (y, n); auto). congruence. }
      assert (T0 : times same a x = 0).
      { unfold times. rewrite filter_none; [reflexivity|]. intros z I. destruct (same x z) eqn:E; auto. destruct (C2 z I) as (y & n & J & S). rewrite <- (X' y n J). symmetry. eapply Strans; eauto. }
      rewrite bump_none by exact X'. split; [|split].
      + intros z m I. apply in_app_or in I as [I|[I|[]]].
        * destruct (C1 _ _ I) as [J ->]. split; [apply in_or_app; now left|]. rewrite times_app, times_one, Ssym, (X' z _ I). lia.
        * inversion I; subst. split; [apply in_or_app; right; now left|]. rewrite times_app, times_one, Srefl, T0. reflexivity.
      + intros z I. apply in_app_or in I as [I|[<-|[]]].
        * destruct (C2 z I) as (y & n & J & S). exists y, n. split; auto. apply in_or_app; now left.
        * exists x, 1. split; [apply in_or_app; right; now left|apply Srefl].
      + intros i j p q I J S.
        assert (G : forall k r, nth_error (c ++ [(x, 1)]) k = Some r -> (k < length c)%nat /\ nth_error c k = Some r \/ k = length c /\ r = (x, 1)).
        { clear. intros k r K. destruct (Nat.ltb_spec k (length c)); [rewrite nth_error_app1 in K by lia; auto|]. rewrite nth_error_app2 in K by lia.
          destruct (k - length c)%nat eqn:D; cbn in K; [right; split; [lia|congruence]|]. destruct n; discriminate. }
        destruct (G _ _ I) as [[Li I']|[-> ->]], (G _ _ J) as [[Lj J']|[-> ->]]; auto.
        * eapply C3; eauto.
        * exfalso. destruct p as [y n]. apply nth_error_In in I'. cbn in S. rewrite Ssym, (X' y n I') in S. discriminate.
        * exfalso. destruct q as [y n]. apply nth_error_In in J'. cbn in S. rewrite (X' y n J') in S. discriminate.
  Qed.
  Lemma counts_counted a : counted a (counts same a).
  Proof.
    unfold counts. rewrite <- (rev_involutive a). induction (rev a) as [|x l IH].
    - cbn. split; [intros x n []|]. split; [intros x []|]. intros [|i] j p q I; discriminate.
    - cbn [rev]. rewrite fold_left_app. cbn [fold_left]. now apply bump_counted.
  Qed.
  Lemma best_fold c : forall b, let m := fold_left (fun b (p : A * Z) => if b <? snd p then snd p else b) c b in
    b <= m /\ (forall p, In p c -> snd p <= m) /\ (m = b \/ exists p, In p c /\ snd p = m).
  Proof.
    induction c as [|p c IH]; intros b; cbn; [repeat split; auto; try lia; intros p []|].
    destruct (IH (if b <? snd p then snd p else b)) as (H1 & H2 & H3). destruct (Z.ltb_spec b (snd p)).
    - split; [lia|]. split; [intros q [->|I]; auto|]. destruct H3 as [H3|(q & I & H3)]; right; [exists p; auto|exists q; auto].
    - split; [lia|]. split; [intros q [->|I]; [lia|auto]|]. destruct H3 as [H3|(q & I & H3)]; [now left|right; exists q; auto].
  Qed.
  Lemma unique_filter (f : A * Z -> bool) c : (forall i j p q, nth_error c i = Some p -> nth_error c j = Some q -> same (fst p) (fst q) = true -> i = j) ->
    forall i j p q, nth_error (filter f c) i = Some p -> nth_error (filter f c) j = Some q -> same (fst p) (fst q) = true -> i = j.
  Proof.
    induction c as [|r c IH]; intros U i j p q; cbn [filter]; [destruct i; discriminate|].
    assert (U' : forall i j p q, nth_error c i = Some p -> nth_error c j = Some q -> same (fst p) (fst q) = true -> i = j).
    { intros i0 j0 p0 q0 I J Se. specialize (U (S i0) (S j0) p0 q0 I J Se). injection U. auto. }
    assert (N : forall p, In p c -> same (fst r) (fst p) = false).
    { intros p0 I. destruct (same (fst r) (fst p0)) eqn:Se; auto. apply In_nth_error in I as [k K]. specialize (U 0%nat (S k) r p0 eq_refl K Se). discriminate. }
    destruct (f r); [|now apply IH]. destruct i as [|i], j as [|j]; cbn; intros I J S; auto.
    - inversion I; subst. apply nth_error_In, filter_In in J as [J _]. rewrite (N q J) in S. discriminate.
    - inversion J; subst. apply nth_error_In, filter_In in I as [I _]. rewrite Ssym, (N p I) in S. discriminate.
    - f_equal. eapply IH; eauto.
  Qed.
  Lemma besties_most_frequent a : a <> [] -> most_frequent same a (besties (counts same a)) /\ besties (counts same a) <> [].
  Proof.
    intros NE. destruct (counts_counted a) as (C1 & C2 & C3). set (c := counts same a) in *. unfold besties.
    assert (BF : 0 <= bestn c /\ (forall p, In p c -> snd p <= bestn c) /\ (bestn c = 0 \/ exists p, In p c /\ snd p = bestn c)) by exact (best_fold c 0).
    destruct BF as (B1 & B2 & B3).
    assert (Pos : forall x, In x a -> 1 <= times same a x).
    { intros x I. unfold times, len. assert (J : In x (filter (same x) a)) by (apply filter_In; auto). destruct (filter (same x) a); [destruct J|cbn; lia]. }
    assert (B : exists x n, In (x, n) c /\ n = bestn c).
    { destruct a as [|x a']; [congruence|]. destruct B3 as [B3|([y n] & I & E)]; [|eauto]. destruct (C2 x) as (y & n & I & S); [now left|].
      pose proof (B2 _ I) as L. cbn [snd] in L. destruct (C1 _ _ I) as [J ->]. pose proof (Pos y J). lia. }
    assert (T : forall y, In y a -> times same a y <= bestn c).
    { intros y I. destruct (C2 y I) as (z & n & J & S). rewrite (times_congr a y z S). destruct (C1 _ _ J) as [_ <-]. exact (B2 _ J). }
    split.
    - split; [|split].
      + intros x I. apply in_map_iff in I as ([x' n] & <- & I). apply filter_In in I as [I E]. apply Z.eqb_eq in E. cbn in *. destruct (C1 _ _ I) as [J ->]. split; auto.
        intros y Iy. rewrite E. auto.
      + intros x I M. destruct (C2 x I) as (y & n & J & S). exists y. split; auto. apply in_map_iff. exists (y, n). split; auto. apply filter_In. split; auto.
        apply Z.eqb_eq. cbn. destruct (C1 _ _ J) as [Jy ->]. apply Z.le_antisymm; auto. destruct B as (z & m & K & ->). destruct (C1 _ _ K) as [Kz ->].
        rewrite <- (times_congr a x y S). auto.
      + intros i j x y I J S. rewrite nth_error_map in I, J. destruct (nth_error (filter _ c) i) as [p|] eqn:Ip; [|discriminate]. destruct (nth_error (filter _ c) j) as [q|] eqn:Jq; [|discriminate].
        inversion I; inversion J; subst. eapply unique_filter; eauto.
    - destruct B as (x & n & I & E). intros Q. assert (J : In x (map fst (filter (fun p : A * Z => snd p =? bestn c) c))).
      { apply in_map_iff. exists (x, n). split; auto. apply filter_In. split; auto. apply Z.eqb_eq. exact E. }
      rewrite Q in J. destruct J.
  Qed.
End Mode.
