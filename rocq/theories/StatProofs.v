(** Proofs about triggers and running moments. *)
From Coq Require Import QArith Qfield.
From Verif Require Import Base PyNum StatModel StatSpec.
Open Scope list_scope.
Open Scope Z_scope.

(** ** trigger *)
Lemma nth_snoc {A} (h : list A) x i : nth_error (h ++ [x]) i = if (i =? length h)%nat then Some x else nth_error h i.
Proof.
  destruct (Nat.eqb_spec i (length h)) as [->|N].
  - rewrite nth_error_app2, Nat.sub_diag; [reflexivity|lia].
  - destruct (Nat.ltb_spec i (length h)).
    + apply nth_error_app1; auto.
    + rewrite nth_error_app2 by lia. destruct (i - length h)%nat eqn:E; [lia|]. cbn.
      rewrite (proj2 (nth_error_None h i)) by lia. destruct n; reflexivity.
Qed.
Lemma true_at_snoc h b i : true_at (h ++ [b]) i <-> (i = length h /\ b = true) \/ (true_at h i).
Proof.
  unfold true_at. rewrite nth_snoc. destruct (Nat.eqb_spec i (length h)) as [->|N].
  - rewrite (proj2 (nth_error_None h (length h))) by lia. split.
    + intros H. left. split; congruence.
    + intros [[_ ->]|H]; congruence.
  - split; auto. intros [[? _]|H]; auto; congruence.
Qed.
Lemma true_at_lt h i : true_at h i -> (i < length h)%nat.
Proof. unfold true_at. intros. apply nth_error_Some. congruence. Qed.

Definition tinv (h : list bool) (t : trigger) : Prop :=
  how_many (true_at h) (numEvents t) /\ how_many (starts_run h) (numRuns t) /\
  0 <= currentRun t /\ current_run h (Z.to_nat (currentRun t)) /\
  0 <= longestRun t /\ longest_run h (Z.to_nat (longestRun t)).

Lemma how_many_nonneg P n : how_many P n -> 0 <= n.
Proof. intros (l & _ & <-). lia. Qed.
Lemma how_many_ext P Q n : (forall i, P i <-> Q i) -> how_many P n -> how_many Q n.
Proof. intros E (l & (N & H) & L). exists l. split; auto. split; auto. intros. rewrite H. apply E. Qed.
Lemma how_many_add P n k : how_many P n -> ~ P k -> how_many (fun i => P i \/ i = k) (n + 1).
Proof.
  intros (l & (N & H) & L) NP. exists (k :: l). split.
  - split. { constructor; auto. rewrite H. auto. }
    intros. cbn. rewrite H. intuition.
  - cbn [length]. lia.
Qed.
Lemma true_at_last_cur h n : current_run h n -> (n = 0)%nat <-> (forall j, length h = S j -> ~ true_at h j).
Proof.
  intros (L & A & M). split.
  - intros -> j E T. specialize (M 1%nat ltac:(lia)).
    assert (1 <= 0)%nat; [|lia]. apply M. split; [lia|]. intros k Hk. replace k with j by lia. auto.
  - intros H. destruct n; auto. exfalso. destruct (length h) as [|j] eqn:E; [lia|].
    apply (H j); auto. apply A. lia.
Qed.
Lemma all_true_le h i n m : all_true h i n -> (m <= n)%nat -> all_true h i m.
Proof. intros [L A] Hm. split; [lia|]. intros. apply A. lia. Qed.
Lemma all_true_snoc h b i n : all_true h i n -> all_true (h ++ [b]) i n.
Proof. intros [L A]. split. { rewrite app_length. lia. } intros. apply true_at_snoc. right. apply A; auto. Qed.

Lemma tinv_step h t p : tinv h t -> exists t', updateTrigger p t = Ok t' /\ tinv (h ++ [p]) t'.
Proof.
  intros (HE & HR & Hc & HC & Hl & HL).
  pose proof (how_many_nonneg _ _ HE). pose proof (how_many_nonneg _ _ HR).
  unfold updateTrigger.
  repeat match goal with |- context [?a <? 0] => destruct (Z.ltb_spec a 0); [lia|] end. cbn [orb].
  pose proof (true_at_last_cur _ _ HC) as HT.
  destruct p; (eexists; split; [reflexivity|]); unfold tinv; cbn [numEvents numRuns currentRun longestRun].
  - assert (current_run (h ++ [true]) (Z.to_nat (currentRun t + 1))) as HC'.
    { destruct HC as (C1 & C2 & C3). replace (Z.to_nat (currentRun t + 1)) with (S (Z.to_nat (currentRun t))) by lia.
      set (c := Z.to_nat (currentRun t)) in *. unfold current_run. rewrite app_length. cbn [length].
      split; [lia|]. split.
      - split; [rewrite app_length; cbn; lia|]. intros k Hk. apply true_at_snoc.
        destruct (Nat.eqb_spec k (length h)); [left; auto|]. right. apply C2. lia.
      - intros m Hm [_ HA]. destruct m as [|m]; [lia|].
        enough (m <= c)%nat by lia. apply C3; [lia|]. split; [lia|].
        intros k Hk. assert (true_at (h ++ [true]) k) as HH by (apply HA; lia).
        apply true_at_snoc in HH as [[-> _]|]; auto. lia. }
    split; [|split; [|split; [|split; [|split]]]]; auto; try lia.
    + eapply how_many_ext; [|apply (how_many_add _ _ (length h) HE)].
      * intros i. cbv beta. rewrite true_at_snoc. intuition.
      * intros T. apply true_at_lt in T. lia.
    + destruct (Z.eqb_spec (currentRun t) 0) as [E|E].
      * eapply how_many_ext; [|apply (how_many_add _ _ (length h) HR)].
        -- intros i. cbv beta. unfold starts_run. rewrite true_at_snoc. split.
           ++ intros [[T S]| ->].
              ** split; auto. destruct S as [-> | (j & -> & NT)]; auto. right. exists j. split; auto.
                 rewrite true_at_snoc. intros [[-> _]|]; auto. apply true_at_lt in T. lia.
              ** split; [auto|]. destruct (length h) as [|j] eqn:EL; [auto|]. right. exists j. split; auto.
                 rewrite true_at_snoc. intros [[? _]|TT]; [lia|]. revert TT. apply HT; auto. lia.
           ++ intros [[[-> _]|T] S]; auto. left. split; auto.
              destruct S as [-> | (j & -> & NT)]; auto. right. exists j. split; auto. intros TT. apply NT.
              apply true_at_snoc. auto.
        -- intros [T _]. apply true_at_lt in T. lia.
      * eapply how_many_ext; [|apply HR]. intros i. unfold starts_run. rewrite true_at_snoc. split.
        -- intros [T S]. split; auto. destruct S as [-> | (j & -> & NT)]; auto. right. exists j. split; auto.
           rewrite true_at_snoc. intros [[-> _]|]; auto. apply true_at_lt in T. lia.
        -- intros [[[-> _]|T] S].
           ++ exfalso. destruct HC as (C1 & C2 & C3). destruct S as [E0 | (j & E0 & NT)]; [lia|].
              apply NT. apply true_at_snoc. right. apply C2. lia.
           ++ split; auto.
              destruct S as [-> | (j & -> & NT)]; auto. right. exists j. split; auto. intros TT. apply NT.
              apply true_at_snoc. auto.
    + destruct (Z.ltb_spec (longestRun t) (currentRun t + 1)); lia.
    + destruct HL as [(i0 & HL1) HL2].
      assert (forall i m, all_true (h ++ [true]) i m -> (m <= Z.to_nat (longestRun t) \/ m <= Z.to_nat (currentRun t + 1))%nat) as UB.
      { intros i m [L A]. rewrite app_length in L. cbn in L.
        destruct (Nat.eqb_spec (i + m) (length h + 1)) as [E|E].
        - right. destruct HC' as (_ & _ & C3). apply C3; [rewrite app_length; cbn; lia|].
          replace (length (h ++ [true]) - m)%nat with i by (rewrite app_length; cbn; lia).
          split; auto. rewrite app_length; cbn; lia.
        - left. apply (HL2 i). split; [lia|]. intros k Hk. specialize (A k Hk).
          apply true_at_snoc in A as [[-> _]|]; auto. lia. }
      destruct (Z.ltb_spec (longestRun t) (currentRun t + 1)); split.
      * exists (length (h ++ [true]) - Z.to_nat (currentRun t + 1))%nat. apply HC'.
      * intros i m A. destruct (UB _ _ A); lia.
      * exists i0. apply all_true_snoc; auto.
      * intros i m A. destruct (UB _ _ A); lia.
  - split; [|split; [|split; [|split; [|split]]]]; auto; try lia.
    + eapply how_many_ext; [|apply HE]. intros. rewrite true_at_snoc. intuition congruence.
    + eapply how_many_ext; [|apply HR]. intros i. unfold starts_run. rewrite true_at_snoc.
      assert (forall j, true_at (h ++ [false]) j <-> true_at h j) as F.
      { intros. rewrite true_at_snoc. intuition congruence. }
      split.
      * intros [T S]. split; auto. destruct S as [-> | (j & -> & NT)]; auto. right. exists j. rewrite F. auto.
      * intros [[[-> ?]|T] S]; [congruence|]. split; auto. destruct S as [-> | (j & -> & NT)]; auto.
        right. exists j. rewrite <- F. auto.
    + split; [cbn; lia|]. split.
      * split; [cbn; lia|]. intros; cbn in *; lia.
      * intros m Hm [_ A]. destruct m; [lia|]. exfalso.
        rewrite app_length in *. cbn in *.
        assert (true_at (h ++ [false]) (length h)) as T by (apply A; lia).
        apply true_at_snoc in T as [[_ ?]|T]; [congruence|]. apply true_at_lt in T. lia.
    + destruct HL as [(i0 & HL1) HL2]. split.
      * exists i0. apply all_true_snoc; auto.
      * intros i m [L A]. apply (HL2 (Nat.min i (length h))). split.
        -- rewrite app_length in L. cbn in L.
           destruct (Nat.eqb_spec (i + m) (length h + 1)); [|lia].
           destruct m; [lia|]. exfalso.
           assert (true_at (h ++ [false]) (length h)) as T by (apply A; lia).
           apply true_at_snoc in T as [[_ ?]|T]; [congruence|]. apply true_at_lt in T. lia.
        -- intros k Hk. assert (true_at (h ++ [false]) k) as T.
           { apply A. rewrite app_length in L. cbn in L. lia. }
           apply true_at_snoc in T as [[_ ?]|T]; [congruence|auto].
Qed.
Lemma tinv_run h t ps : tinv h t -> exists t', runTrigger ps t = Ok t' /\ tinv (h ++ ps) t'.
Proof.
  revert h t. induction ps; intros h t I.
  - rewrite app_nil_r. exists t. auto.
  - destruct (tinv_step h t a I) as (t1 & E & I1). destruct (IHps _ _ I1) as (t2 & E2 & I2).
    exists t2. cbn. rewrite E. cbn. split; auto. rewrite <- app_assoc in I2. auto.
Qed.
Lemma tinv_nil : tinv [] (Trigger 0 0 0 0).
Proof.
  assert (forall i, ~ true_at [] i) as N. { intros i T. apply true_at_lt in T. cbn in T. lia. }
  split; [|split; [|split; [|split; [|split]]]]; cbn; try lia.
  - exists []. split; auto. split; [constructor|]. intros; cbn. split; [tauto|]. apply N.
  - exists []. split; auto. split; [constructor|]. intros; cbn. split; [tauto|]. intros [T _]. apply (N _ T).
  - split; [cbn; lia|]. split; [split; cbn; [lia|intros; lia]|]. cbn. intros; lia.
  - split. { exists O. split; [cbn; lia|]. intros; lia. }
    intros i m [L _]. cbn in L. lia.
Qed.

(** ** running moments *)
Open Scope Q_scope.
Ltac qs := unfold qsum in *; cbn [fold_right map app fst snd w_x w_w] in *.
Lemma qsum_app a b : qsum (a ++ b) == qsum a + qsum b.
Proof. induction a; qs. { ring. } rewrite IHa. ring. Qed.
Lemma qsum_ext {A} (f g : A -> Q) l : (forall a, In a l -> f a == g a) -> qsum (map f l) == qsum (map g l).
Proof. induction l; qs; intros H. { reflexivity. } rewrite (H a) by (left; auto). rewrite IHl. { reflexivity. } intros; apply H; right; auto. Qed.
Lemma qsum_add {A} (f g : A -> Q) l : qsum (map (fun a => f a + g a) l) == qsum (map f l) + qsum (map g l).
Proof. induction l; qs. { ring. } rewrite IHl. ring. Qed.
Lemma qsum_scale {A} (f : A -> Q) k l : qsum (map (fun a => k * f a) l) == k * qsum (map f l).
Proof. induction l; qs. { ring. } rewrite IHl. ring. Qed.

Definition S1 (d : list (Q * Q)) : Q := qsum (map (fun p => snd p * fst p) d).
Definition S2 (d : list (Q * Q)) : Q := qsum (map (fun p => snd p * (fst p * fst p)) d).
Lemma tw_app a b : total_weight (a ++ b) == total_weight a + total_weight b.
Proof. unfold total_weight. rewrite map_app. apply qsum_app. Qed.
Lemma S1_app a b : S1 (a ++ b) == S1 a + S1 b.
Proof. unfold S1. rewrite map_app. apply qsum_app. Qed.
Lemma S2_app a b : S2 (a ++ b) == S2 a + S2 b.
Proof. unfold S2. rewrite map_app. apply qsum_app. Qed.
Lemma tw_one x w : total_weight [(x, w)] == w.
Proof. unfold total_weight. qs. ring. Qed.
Lemma S1_one x w : S1 [(x, w)] == w * x.
Proof. unfold S1. qs. ring. Qed.
Lemma S2_one x w : S2 [(x, w)] == w * (x * x).
Proof. unfold S2. qs. ring. Qed.
Lemma sq_expand (d : list (Q * Q)) m :
  qsum (map (fun p => snd p * ((fst p - m) * (fst p - m))) d) == S2 d - (2 * m) * S1 d + (m * m) * total_weight d.
Proof.
  unfold S1, S2, total_weight. induction d; qs. { ring. } rewrite IHd. ring.
Qed.
Lemma batch_var_alt d : ~ total_weight d == 0 ->
  batch_var d == (S2 d - S1 d * S1 d / total_weight d) / total_weight d.
Proof.
  intros N. unfold batch_var. rewrite sq_expand. unfold batch_mean. fold (S1 d). field. auto.
Qed.

Lemma qdiv_some a b : ~ b == 0 -> qdiv a b = Some (a / b).
Proof.
  intros N. unfold qdiv. destruct (Qeq_bool b 0) eqn:E; auto. apply Qeq_bool_iff in E. contradiction.
Qed.
Lemma qdiv_none a b : b == 0 -> qdiv a b = None.
Proof. intros N. unfold qdiv. rewrite (proj2 (Qeq_bool_iff b 0) N). auto. Qed.
Lemma qdiv_inv a b c : qdiv a b = Some c -> ~ b == 0 /\ c = a / b.
Proof.
  unfold qdiv. destruct (Qeq_bool b 0) eqn:E; [discriminate|]. intros H. injection H as <-. split; auto.
  intros N. apply Qeq_bool_iff in N. congruence.
Qed.

(** what the three fields say about the data, [lv] fields being maintained *)
Definition minv (lv : nat) (d : list (Q * Q)) (c m v : Q) : Prop :=
  c == total_weight d /\
  ((1 <= lv)%nat -> c * m == S1 d) /\
  ((2 <= lv)%nat -> v * c + c * m * m == S2 d).

Lemma minv_stats lv d c m v : minv lv d c m v -> ~ total_weight d == 0 ->
  c == total_weight d /\ ((1 <= lv)%nat -> m == batch_mean d) /\ ((2 <= lv)%nat -> v == batch_var d).
Proof.
  intros (C & M & V) N. split; [auto|]. split.
  - intros L. specialize (M L). unfold batch_mean. fold (S1 d). rewrite <- M, C. field. auto.
  - intros L. specialize (V L). specialize (M ltac:(lia)). rewrite batch_var_alt by auto.
    rewrite <- V, <- M, <- C. field. rewrite C. auto.
Qed.
(** the step formula *)
Lemma step_mean c0 m w x s1 : ~ c0 + w == 0 -> c0 * m == s1 ->
  (c0 + w) * (m + (x - m) * w / (c0 + w)) == s1 + w * x.
Proof. intros N E. rewrite <- E. field. auto. Qed.
Lemma step_var c0 m V w x s2 : ~ c0 + w == 0 -> V + c0 * m * m == s2 ->
  let shift := (x - m) * w / (c0 + w) in
  (V + c0 * (x - m) * shift) + (c0 + w) * (m + shift) * (m + shift) == s2 + w * (x * x).
Proof. intros N E shift. rewrite <- E. unfold shift. field. auto. Qed.

Lemma update_inv lv d st x w : minv lv d (m_count st) (m_mean st) (m_var st) ->
  ~ total_weight (d ++ [(x, w)]) == 0 ->
  exists st', update x w st lv = Some st' /\ minv lv (d ++ [(x, w)]) (m_count st') (m_mean st') (m_var st').
Proof.
  intros (C & M & V) N. rewrite tw_app, tw_one in N.
  assert (~ m_count st + w == 0) as N'. { rewrite C. auto. }
  unfold update, minv. rewrite !qdiv_some by auto. cbn [obind].
  rewrite !qdiv_some by auto. cbn [obind].
  destruct lv as [|[|lv]]; (eexists; split; [reflexivity|]); cbn [m_count m_mean m_var].
  - split; [rewrite tw_app, tw_one, C; reflexivity|]. split; intros; lia.
  - split; [rewrite tw_app, tw_one, C; reflexivity|]. split; [|intros; lia].
    intros _. rewrite S1_app, S1_one. apply step_mean; auto.
  - split; [rewrite tw_app, tw_one, C; reflexivity|]. split.
    + intros _. rewrite S1_app, S1_one. apply step_mean; auto. apply M. lia.
    + intros _. rewrite S2_app, S2_one.
      rewrite <- (step_var (m_count st) (m_mean st) (m_var st * m_count st) w x (S2 d) N' (V ltac:(lia))).
      cbv zeta. field. auto.
Qed.
Lemma run_inv lv xs : forall d st, minv lv d (m_count st) (m_mean st) (m_var st) ->
  (forall n, (0 < n <= length xs)%nat -> ~ total_weight (d ++ firstn n xs) == 0) ->
  exists st', run_update lv xs st = Some st' /\ minv lv (d ++ xs) (m_count st') (m_mean st') (m_var st').
Proof.
  induction xs as [|[x w] xs IH]; intros d st I N; cbn [run_update].
  - exists st. rewrite app_nil_r. auto.
  - destruct (update_inv lv d st x w I) as (st1 & E & I1).
    { apply (N 1%nat). cbn. lia. }
    rewrite E. cbn [obind]. destruct (IH _ _ I1) as (st2 & E2 & I2).
    { intros n Hn. rewrite <- app_assoc. apply (N (S n)). cbn. lia. }
    exists st2. split; auto. rewrite <- app_assoc in I2. auto.
Qed.

(** positive weights *)
Lemma qpos_add a b : 0 < a -> 0 <= b -> 0 < a + b.
Proof. intros H1 H2. pose proof (Qplus_lt_le_compat 0 a 0 b H1 H2) as H. rewrite Qplus_0_r in H. auto. Qed.
Lemma tw_pos d : positive_weights d -> d <> [] -> 0 < total_weight d.
Proof.
  intros P. induction P as [|[x w] d Hw P IH]; [congruence|]. intros _. unfold total_weight in *. qs.
  destruct d. { qs. rewrite Qplus_0_r. auto. }
  apply qpos_add; auto. apply Qlt_le_weak. apply IH. congruence.
Qed.
Lemma positive_proper d : positive_weights d -> proper_weights d.
Proof.
  intros P n Hn E. assert (0 < total_weight (firstn n d)) as L.
  { apply tw_pos.
    - unfold positive_weights in *. rewrite Forall_forall in *. intros p Hp. apply P. rewrite <- (firstn_skipn n).
      apply in_app_iff. auto.
    - destruct d, n; cbn in *; try lia. congruence. }
  rewrite E in L. discriminate.
Qed.

(** ** window *)
Definition data_of (st : list wrec) : list (Q * Q) := map (fun r => (w_x r, w_w r)) st.
Definition winv (lv : nat) (d : list (Q * Q)) (r : wrec) : Prop := minv lv d (w_count r) (w_mean r) (w_var r).

Lemma sum_oldw_eq old a : fold_left (fun a r => a + - w_w r) old a == a - total_weight (data_of old).
Proof.
  revert a. induction old; cbn [fold_left]; intros. { unfold total_weight. unfold data_of. qs. ring. }
  rewrite IHold. unfold total_weight. unfold data_of. qs. ring.
Qed.
Lemma remove_inv old : forall d0 d1 c m V corr,
  (* d1: all data still accounted for; c, m, V+corr its moments; d1 = old ++ d0 *)
  d1 = data_of old ++ d0 -> 0 < total_weight d0 -> positive_weights (data_of old) ->
  c == total_weight d1 -> c * m == S1 d1 -> (V + corr) + c * m * m == S2 d1 ->
  exists m' corr', remove_old old c m corr = Some (m', corr') /\
    total_weight d0 * m' == S1 d0 /\ (V + corr') + total_weight d0 * m' * m' == S2 d0.
Proof.
  induction old as [|r old IH]; intros d0 d1 c m V corr ED P0 P C M E; cbn [remove_old].
  - cbn in ED. subst d1. exists m, corr. split; auto. rewrite <- C. auto.
  - subst d1. cbn [data_of map] in *. fold (data_of old) in *. inversion P as [|? ? Pr Po]; subst. cbn [snd] in Pr.
    assert (C' : c + - w_w r == total_weight (data_of old ++ d0)).
    { rewrite C. unfold total_weight. qs. ring. }
    assert (0 < total_weight (data_of old ++ d0)) as PP.
    { rewrite tw_app. destruct (data_of old) eqn:ED.
      - unfold total_weight at 1. qs. rewrite Qplus_0_l. auto.
      - apply qpos_add; [|apply Qlt_le_weak; auto].
        apply tw_pos; auto. congruence. }
    assert (~ c + - w_w r == 0) as N. { rewrite C'. intros E0. rewrite E0 in PP. discriminate. }
    rewrite qdiv_some by auto. cbn [obind].
    apply (IH d0 (data_of old ++ d0)); auto.
    + rewrite (step_mean c m (- w_w r) (w_x r) _ N M). unfold S1. qs. ring.
    + pose proof (step_var c m (V + corr) (- w_w r) (w_x r) _ N E) as G. cbv zeta in G.
      assert (S2 (data_of old ++ d0) == S2 ((w_x r, w_w r) :: data_of old ++ d0) + - w_w r * (w_x r * w_x r)) as ->.
      { unfold S2. qs. ring. }
      rewrite <- G. field. auto.
Qed.

Lemma last_app_last {A} (l : list A) x d : last (l ++ [x]) d = x.
Proof. induction l; auto. cbn. destruct (l ++ [x]) eqn:E; auto. destruct l; discriminate. Qed.
Lemma data_of_app a b : data_of (a ++ b) = data_of a ++ data_of b.
Proof. apply map_app. Qed.
Lemma qmul_eq a b m s : a == b -> b * m == s -> a * m == s.
Proof. intros ->. auto. Qed.
Lemma qvar_eq a b V m s (cor : Q) : ~ a == 0 -> a == b -> V + cor + b * m * m == s ->
  (V + cor) / a * a + a * m * m == s.
Proof. intros N E <-. rewrite <- E. field. auto. Qed.
Lemma len_data l : length (data_of l) = length l.
Proof. apply map_length. Qed.
Lemma lastn_snoc_all {A} k (l : list A) : (length l <= k)%nat -> lastn k l = l.
Proof. intros. unfold lastn. replace (length l - k)%nat with O by lia. auto. Qed.

(** one update of a window whose last record describes the whole window *)
Lemma window_step lv st x w k :
  (2 <= k)%Z -> positive_weights (data_of st ++ [(x, w)]) ->
  (forall r0 st', st = r0 :: st' -> winv lv (data_of st) (last st r0)) ->
  exists st', updateWindow x w st k lv = Ok (Some st') /\
    data_of st' = lastn (Z.to_nat k) (data_of st ++ [(x, w)]) /\
    exists pre r, st' = pre ++ [r] /\ winv lv (data_of st') r.
Proof.
  intros Hk P I. unfold updateWindow. destruct (Z.ltb_spec k 2); [lia|].
  destruct st as [|r0 st0].
  - eexists. split; [reflexivity|]. split.
    + cbn [data_of map app]. rewrite lastn_snoc_all; auto. cbn [length]. lia.
    + exists [], (WRec x w w x 0). split; auto. unfold winv, minv, data_of. cbn [map w_x w_w w_count w_mean w_var].
      split; [unfold total_weight; qs; ring|].
      split; intros; unfold S1, S2; qs; ring.
  - set (st := r0 :: st0) in *. specialize (I _ _ eq_refl). unfold last_rec.
    set (rec := last st r0) in *. destruct I as (C & M & V).
    assert (length st > 0)%nat as LS by (subst st; cbn; lia).
    assert (positive_weights (data_of st) /\ 0 < w) as [P1 P2].
    { apply Forall_app in P as [? P]. split; auto. inversion P; subst; auto. }
    assert (0 < total_weight (data_of st)) as PW. { apply tw_pos; auto. subst st; cbn; congruence. }
    assert (0 < w_count rec + w) as PC.
    { rewrite C. apply qpos_add; auto. apply Qlt_le_weak; auto. }
    assert (~ w_count rec + w == 0) as N. { intros E. rewrite E in PC. discriminate. }
    rewrite !(qdiv_some _ (w_count rec + w)) by auto. cbn [obind].
    rewrite !(qdiv_some _ (w_count rec + w)) by auto. cbn [obind].
    assert (C1 : w_count rec + w == total_weight (data_of st ++ [(x, w)])). { rewrite tw_app, tw_one, C. reflexivity. }
    assert (M1 : (1 <= lv)%nat -> (w_count rec + w) * (w_mean rec + (x - w_mean rec) * w / (w_count rec + w)) == S1 (data_of st ++ [(x, w)])).
    { intros L. rewrite S1_app, S1_one. apply step_mean; auto. }
    assert (V1 : (2 <= lv)%nat ->
       (w_var rec * w_count rec + w_count rec * (x - w_mean rec) * ((x - w_mean rec) * w / (w_count rec + w)))
       + (w_count rec + w) * (w_mean rec + (x - w_mean rec) * w / (w_count rec + w)) * (w_mean rec + (x - w_mean rec) * w / (w_count rec + w))
       == S2 (data_of st ++ [(x, w)])).
    { intros L. rewrite S2_app, S2_one. apply (step_var (w_count rec) (w_mean rec) (w_var rec * w_count rec) w x); auto. }
    destruct (Z.leb_spec k (Z.of_nat (length st))) as [HL|HL].
    + set (sp := Z.to_nat (Z.of_nat (length st) - k + 1)).
      set (keep := skipn sp st). set (rem := firstn sp st).
      assert (DST : data_of st = data_of rem ++ data_of keep).
      { rewrite <- data_of_app. unfold rem, keep. rewrite firstn_skipn. auto. }
      assert (DL : data_of keep ++ [(x, w)] = lastn (Z.to_nat k) (data_of st ++ [(x, w)])).
      { unfold lastn. rewrite app_length. cbn [length]. rewrite len_data.
        replace (length st + 1 - Z.to_nat k)%nat with sp by (unfold sp; lia).
        rewrite skipn_app. rewrite len_data.
        replace (sp - length st)%nat with O by (unfold sp; lia). cbn [skipn].
        f_equal. unfold keep, data_of. symmetry. apply skipn_map. }
      assert (PD0 : 0 < total_weight (data_of keep ++ [(x, w)])).
      { apply tw_pos. 2: destruct (data_of keep); discriminate.
        rewrite DST, <- app_assoc in P. apply Forall_app in P. apply P. }
      assert (PR : positive_weights (data_of rem)). { rewrite DST in P1. apply Forall_app in P1. apply P1. }
      assert (C2 : w_count rec + w + sum_oldw rem == total_weight (data_of keep ++ [(x, w)])).
      { unfold sum_oldw. rewrite sum_oldw_eq, C1, DST, <- app_assoc, !tw_app. ring. }
      assert (N2 : ~ w_count rec + w + sum_oldw rem == 0). { rewrite C2. intros E. rewrite E in PD0. discriminate. }
      destruct lv as [|lv].
      { eexists. split; [reflexivity|]. rewrite data_of_app. split; [exact DL|].
        exists keep. eexists. split; [reflexivity|]. rewrite <- C2 || idtac.
        split; [exact C2|]. split; intros; lia. }
      destruct lv as [|lv].
      { (* level 1: any variance will do, take the one that fits *)
        set (c := w_count rec + w) in *. set (m1 := w_mean rec + (x - w_mean rec) * w / c) in *.
        destruct (remove_inv rem (data_of keep ++ [(x, w)]) (data_of st ++ [(x, w)]) c m1
                   (S2 (data_of st ++ [(x, w)]) - c * m1 * m1) 0) as (m' & corr' & ER & ME & VE); auto.
        { rewrite DST, <- app_assoc. auto. }
        { ring. }
        rewrite ER. cbn [obind fst].
        eexists. split; [reflexivity|]. rewrite data_of_app. split; [exact DL|].
        exists keep. eexists. split; [reflexivity|]. unfold winv, minv. cbn [w_count w_mean w_var].
        split; [exact C2|]. split; [|intros; lia]. intros _.
        exact (qmul_eq _ _ _ _ C2 ME). }
      set (c := w_count rec + w) in *. set (m1 := w_mean rec + (x - w_mean rec) * w / c) in *.
      set (V0 := w_var rec * w_count rec + w_count rec * (x - w_mean rec) * ((x - w_mean rec) * w / c)) in *.
      destruct (remove_inv rem (data_of keep ++ [(x, w)]) (data_of st ++ [(x, w)]) c m1 V0 0)
        as (m' & corr' & ER & ME & VE); auto.
      { rewrite DST, <- app_assoc. auto. }
      { apply M1. lia. }
      { rewrite Qplus_0_r. apply V1. lia. }
      rewrite ER. cbn [obind fst snd]. rewrite qdiv_some by auto. cbn [obind].
      eexists. split; [reflexivity|]. rewrite data_of_app. split; [exact DL|].
      exists keep. eexists. split; [reflexivity|]. unfold winv, minv. cbn [w_count w_mean w_var].
      split; [exact C2|]. split.
      { intros _. exact (qmul_eq _ _ _ _ C2 ME). }
      intros _. cbn [data_of map w_x w_w]. refine (qvar_eq _ _ _ _ _ _ N2 C2 VE).
    + assert (DL : data_of st ++ [(x, w)] = lastn (Z.to_nat k) (data_of st ++ [(x, w)])).
      { symmetry. apply lastn_snoc_all. rewrite app_length. rewrite len_data. cbn [length]. lia. }
      destruct lv as [|[|lv]]; (eexists; split; [reflexivity|]); rewrite data_of_app; (split; [exact DL|]);
        exists st; eexists; (split; [reflexivity|]); unfold winv, minv; cbn [w_count w_mean w_var data_of map w_x w_w].
      * split; [exact C1|]. split; intros; lia.
      * split; [exact C1|]. split; [|intros; lia]. intros; apply M1; lia.
      * split; [exact C1|]. split; [intros; apply M1; lia|]. intros. rewrite <- V1 by lia. field. auto.
Qed.
