(** Proofs about windows, covariances, fading means, CUSUM and running top-n. *)
From Coq Require Import QArith Qfield Permutation.
From Verif Require Import Base Effects PyNum ArrayModel ArraySpec SortProofs StatModel StatSpec StatProofs.
Open Scope list_scope.
Open Scope Q_scope.

(** ** windows *)
Lemma lastn_In {A} n (l : list A) a : In a (lastn n l) -> In a l.
Proof. unfold lastn. intros. rewrite <- (firstn_skipn (length l - n)). apply in_app_iff. auto. Qed.
Lemma run_window_inv lv ds : forall st,
  Forall (fun p => 2 <= snd p)%Z ds -> positive_weights (data_of st) -> positive_weights (map fst ds) ->
  (forall r0 st', st = r0 :: st' -> winv lv (data_of st) (last st r0)) ->
  exists st', run_window lv ds st = Ok (Some st') /\ data_of st' = kept ds (data_of st) /\
    (forall r0 st'', st' = r0 :: st'' -> winv lv (data_of st') (last st' r0)).
Proof.
  induction ds as [|[[x w] k] ds IH]; intros st K P PD I; cbn [run_window kept].
  - exists st. auto.
  - inversion K; subst. inversion PD; subst. cbn [fst snd] in *.
    assert (positive_weights (data_of st ++ [(x, w)])) as P'.
    { apply Forall_app. split; auto. }
    destruct (window_step lv st x w k) as (st1 & E & D & pre & r & E1 & W); auto.
    rewrite E. destruct (IH st1) as (st2 & E2 & D2 & W2); auto.
    { rewrite D. unfold positive_weights in *. rewrite Forall_forall in *. intros p Hp. apply P', (lastn_In _ _ _ Hp). }
    { intros r0 st' E0. rewrite E1, last_app_last. rewrite E1 in W. auto. }
    exists st2. split; auto. split; auto. rewrite D2, D. auto.
Qed.
Lemma skipn_skipn' {A} x : forall y (l : list A), skipn x (skipn y l) = skipn (x + y) l.
Proof.
  induction y; intros l. { rewrite Nat.add_0_r. auto. }
  destruct l; cbn [skipn]. { rewrite !skipn_nil. auto. } rewrite IHy, Nat.add_succ_r. auto.
Qed.
Lemma lastn_lastn_snoc {A} n (l : list A) x : lastn n (lastn n l ++ [x]) = lastn n (l ++ [x]).
Proof.
  unfold lastn. destruct n as [|n].
  - rewrite !Nat.sub_0_r, !skipn_all. auto.
  - rewrite !app_length, !skipn_length. cbn [length].
    rewrite !skipn_app, skipn_skipn', skipn_length.
    destruct (Nat.leb_spec (length l) (S n)).
    + replace (length l - S n)%nat with O by lia. rewrite Nat.sub_0_r, Nat.add_0_r. reflexivity.
    + f_equal; f_equal; lia.
Qed.
Lemma kept_const k ds d :
  kept (map (fun p => (p, k)) ds) (lastn (Z.to_nat k) d) = lastn (Z.to_nat k) (d ++ ds).
Proof.
  revert d. induction ds as [|[x w] ds IH]; intros; cbn [map kept].
  - rewrite app_nil_r. auto.
  - rewrite lastn_lastn_snoc, IH, <- app_assoc. auto.
Qed.

(** ** covariance *)
Definition S11 (i j : nat) (d : list (list Q * Q)) : Q :=
  qsum (map (fun p => snd p * (nth i (fst p) 0 * nth j (fst p) 0)) d).
Lemma comp_app i a b : comp i (a ++ b) = comp i a ++ comp i b.
Proof. apply map_app. Qed.
Lemma tw_comp i j d : total_weight (comp i d) = total_weight (comp j d).
Proof. unfold total_weight, comp. rewrite !map_map. auto. Qed.
Lemma S11_app i j a b : S11 i j (a ++ b) == S11 i j a + S11 i j b.
Proof. unfold S11. rewrite map_app. apply qsum_app. Qed.
Lemma cov_expand i j (d : list (list Q * Q)) mi mj :
  qsum (map (fun p => snd p * ((nth i (fst p) 0 - mi) * (nth j (fst p) 0 - mj))) d)
  == S11 i j d - mj * S1 (comp i d) - mi * S1 (comp j d) + mi * mj * total_weight (comp i d).
Proof.
  unfold S11, S1, total_weight, comp. induction d; qs. { ring. } rewrite IHd. ring.
Qed.

Definition cov_ok (n : nat) (d : list (list Q * Q)) (st : covstate) : Prop :=
  length (c_mean st) = n /\ length (c_cov st) = n /\ Forall (fun r => length r = n) (c_cov st) /\
  c_count st == total_weight (comp 0 d) /\
  (forall i, (i < n)%nat -> c_count st * qnth (c_mean st) i == S1 (comp i d)) /\
  (forall i j, (i < n)%nat -> (j < n)%nat ->
     qnth (nth i (c_cov st) []) j * c_count st + c_count st * qnth (c_mean st) i * qnth (c_mean st) j == S11 i j d).

Lemma omapM_map {A B} (f : A -> option B) g l : (forall a, In a l -> f a = Some (g a)) -> omapM f l = Some (map g l).
Proof.
  induction l; cbn; intros H; auto. rewrite H by auto. cbn. rewrite IHl; auto. 
Qed.
Lemma nth_map_seq {B} (g : nat -> B) n i d : (i < n)%nat -> nth i (map g (seq 0 n)) d = g i.
Proof.
  intros. rewrite (nth_indep _ d (g O)) by (rewrite map_length, seq_length; auto).
  rewrite map_nth, seq_nth; auto.
Qed.

Lemma cov_step n d st x w : (2 <= n)%nat -> length x = n -> cov_ok n d st ->
  ~ total_weight (comp 0 (d ++ [(x, w)])) == 0 ->
  exists st', updateCovariance x w st = Ok (Some st') /\ cov_ok n (d ++ [(x, w)]) st'.
Proof.
  intros Hn Lx (LM & LC & LR & C & M & V) N.
  assert (CN : c_count st + w == total_weight (comp 0 (d ++ [(x, w)]))).
  { rewrite comp_app, tw_app, C. unfold comp at 3. cbn [map fst snd]. rewrite tw_one. reflexivity. }
  assert (NC : ~ c_count st + w == 0). { rewrite CN. auto. }
  unfold updateCovariance. rewrite Lx, LM, LC.
  destruct (Nat.ltb_spec n 2); [lia|]. rewrite Nat.eqb_refl. cbn [negb orb].
  assert (existsb (fun xi => negb (n =? length xi)%nat) (c_cov st) = false) as ->.
  { destruct (existsb _ _) eqn:E; auto. apply existsb_exists in E as (r & Hr & E).
    rewrite Forall_forall in LR. rewrite (LR r Hr), Nat.eqb_refl in E. discriminate. }
  erewrite omapM_map. 2:{ intros i Hi. rewrite qdiv_some by auto. cbn [obind]. reflexivity. }
  cbn [obind].
  erewrite omapM_map.
  2:{ intros i Hi. erewrite omapM_map. 2:{ intros j Hj. rewrite qdiv_some by auto. cbn [obind]. rewrite qdiv_some by auto. reflexivity. }
      reflexivity. }
  cbn [obind]. eexists. split; [reflexivity|].
  unfold cov_ok. cbn [c_count c_mean c_cov]. rewrite !map_length, seq_length.
  split; [auto|]. split; [auto|]. split.
  { rewrite Forall_forall. intros r Hr. apply in_map_iff in Hr as (i & <- & _). rewrite map_length, seq_length. auto. }
  split; [exact CN|].
  assert (ME : forall i, (i < n)%nat ->
    qnth (map (fun a => qnth (c_mean st) a + (qnth x a - qnth (c_mean st) a) * w / (c_count st + w)) (seq 0 n)) i
    = qnth (c_mean st) i + (qnth x i - qnth (c_mean st) i) * w / (c_count st + w)).
  { intros. unfold qnth at 1. rewrite nth_map_seq by auto. auto. }
  split.
  - intros i Hi. rewrite ME by auto. rewrite comp_app, S1_app. unfold comp at 2. cbn [map fst snd].
    rewrite S1_one. rewrite <- (M i Hi). unfold qnth. field. auto.
  - intros i j Hi Hj. rewrite !ME by auto. rewrite nth_map_seq by auto. unfold qnth at 1. rewrite nth_map_seq by auto.
    rewrite S11_app, <- (V i j Hi Hj). unfold S11. qs. unfold qnth. field. auto.
Qed.
Lemma run_cov_ok n xs : forall d st, (2 <= n)%nat -> Forall (fun p => length (fst p) = n) xs -> cov_ok n d st ->
  (forall k, (0 < k <= length xs)%nat -> ~ total_weight (comp 0 (d ++ firstn k xs)) == 0) ->
  exists st', run_cov xs st = Ok (Some st') /\ cov_ok n (d ++ xs) st'.
Proof.
  induction xs as [|[x w] xs IH]; intros d st Hn HX I N; cbn [run_cov].
  - exists st. rewrite app_nil_r. auto.
  - inversion HX; subst. cbn [fst] in *.
    destruct (cov_step _ d st x w Hn eq_refl I) as (st1 & E & I1).
    { apply (N 1%nat). cbn. lia. }
    rewrite E. destruct (IH _ _ Hn ltac:(eassumption) I1) as (st2 & E2 & I2).
    { intros k Hk. rewrite <- app_assoc. apply (N (S k)). cbn. lia. }
    exists st2. split; auto. rewrite <- app_assoc in I2. auto.
Qed.
Lemma cov_stats n d st : cov_ok n d st -> ~ total_weight (comp 0 d) == 0 ->
  c_count st == total_weight (comp 0 d) /\
  (forall i, (i < n)%nat -> qnth (c_mean st) i == batch_mean (comp i d)) /\
  (forall i j, (i < n)%nat -> (j < n)%nat -> qnth (nth i (c_cov st) []) j == batch_cov i j d).
Proof.
  intros (LM & LC & LR & C & M & V) N.
  assert (NC : ~ c_count st == 0). { rewrite C. auto. }
  assert (MM : forall i, (i < n)%nat -> qnth (c_mean st) i == batch_mean (comp i d)).
  { intros i Hi. unfold batch_mean. fold (S1 (comp i d)). rewrite <- (M i Hi), (tw_comp i 0), <- C. field. auto. }
  split; [auto|]. split; [exact MM|].
  intros i j Hi Hj. unfold batch_cov. rewrite cov_expand. rewrite <- !MM by auto.
  rewrite (tw_comp i 0), <- C, <- (M i Hi), <- (M j Hj), <- (V i j Hi Hj). field. auto.
Qed.

(** ** fading means *)
Lemma updateEWMA_ok x alpha m v b : 0 <= alpha -> alpha <= 1 ->
  exists m' v', updateEWMA x alpha m v b = Ok (m', v') /\
    m' == (1 - alpha) * m + alpha * x /\
    (if b then v' + m' * m' == (1 - alpha) * (v + m * m) + alpha * (x * x) else v' == v).
Proof.
  intros H0 H1. unfold updateEWMA. rewrite (proj2 (Qle_bool_iff _ _) H0), (proj2 (Qle_bool_iff _ _) H1). cbn [negb orb].
  destruct b; do 2 eexists; (split; [reflexivity|]); split; try reflexivity; ring.
Qed.
Lemma fading_snoc alpha l x : fading alpha (l ++ [x]) == fading alpha l + qpow (1 - alpha) (length l) * (alpha * x).
Proof. induction l; cbn [app fading length qpow]. { ring. } rewrite IHl. ring. Qed.
Lemma run_ewma_ok alpha b xs : 0 <= alpha -> alpha <= 1 -> forall m v,
  exists m' v', run_ewma alpha xs m v b = Ok (m', v') /\
    m' == qpow (1 - alpha) (length xs) * m + fading alpha (rev xs) /\
    (if b then v' + m' * m' == qpow (1 - alpha) (length xs) * (v + m * m) + fading alpha (rev (map (fun x => x * x) xs))
     else v' == v).
Proof.
  intros H0 H1. induction xs as [|x xs IH]; intros m v; cbn [run_ewma].
  - exists m, v. split; auto. cbn [length qpow rev map fading]. split; [ring|]. destruct b; ring.
  - destruct (updateEWMA_ok x alpha m v b H0 H1) as (m1 & v1 & E & M1 & V1). rewrite E.
    destruct (IH m1 v1) as (m2 & v2 & E2 & M2 & V2). exists m2, v2. split; auto.
    cbn [rev map length qpow]. rewrite fading_snoc, rev_length. split.
    + rewrite M2, M1. ring.
    + destruct b.
      * rewrite V2, V1, fading_snoc, rev_length, map_length. ring.
      * rewrite V2. auto.
Qed.

(** ** CUSUM *)
Open Scope Z_scope.
Lemma suffix_snoc l x k : (k <= length l)%nat -> suffix_sum (l ++ [x]) k = suffix_sum l k + x.
Proof.
  intros. unfold suffix_sum. rewrite skipn_app. replace (k - length l)%nat with O by lia. cbn [skipn].
  rewrite fold_right_app. cbn. induction (skipn k l); cbn; lia.
Qed.
Lemma suffix_len l : suffix_sum l (length l) = 0.
Proof. unfold suffix_sum. rewrite skipn_all. auto. Qed.
Lemma cusum_max reset l :
  (exists k, (k <= length l)%nat /\ run_cusum reset l = reset + suffix_sum l k) /\
  (forall k, (k <= length l)%nat -> reset + suffix_sum l k <= run_cusum reset l).
Proof.
  induction l as [|x l [(k & Hk & IE) IL]] using rev_ind.
  - cbn. split. { exists O. split; auto. cbn. lia. }
    intros k Hk. replace k with O by lia. cbn. lia.
  - unfold run_cusum in *. rewrite fold_left_app. cbn [fold_left].
    set (v := fold_left (fun last llr => updateCUSUM llr last reset) l reset) in *. clearbody v.
    rewrite app_length. cbn [length]. unfold updateCUSUM. destruct (Z.ltb_spec reset (x + v)); split.
    + exists k. split; [lia|]. rewrite suffix_snoc by auto. lia.
    + intros j Hj. destruct (Nat.eqb_spec j (length l + 1)) as [->|].
      * pose proof (suffix_len (l ++ [x])) as G. rewrite app_length in G. cbn [length] in G. rewrite G. lia.
      * rewrite suffix_snoc by lia. specialize (IL j ltac:(lia)). lia.
    + exists (length l + 1)%nat. split; [lia|].
      pose proof (suffix_len (l ++ [x])) as G. rewrite app_length in G. cbn [length] in G. rewrite G. lia.
    + intros j Hj. destruct (Nat.eqb_spec j (length l + 1)) as [->|].
      * pose proof (suffix_len (l ++ [x])) as G. rewrite app_length in G. cbn [length] in G. rewrite G. lia.
      * rewrite suffix_snoc by lia. specialize (IL j ltac:(lia)). lia.
Qed.

(** ** running top-n *)
Lemma s_topN_ins {A} (lt : A -> A -> bool) x top n : 0 < n ->
  s_topN lt x top n = firstn (Z.to_nat n) (ins (fun x best => lt best x) x top).
Proof.
  intros Hn. unfold s_topN. destruct (Z.leb_spec n 0); [lia|]. f_equal.
  induction top as [|b top IH]; cbn [topn_index ins]. { reflexivity. }
  destruct (lt b x); cbn [length Nat.eqb firstn skipn app]. { reflexivity. }
  destruct (topn_index lt x top =? length top)%nat; cbn in *; f_equal; auto.
Qed.
Lemma fold_topN {A} (lt : A -> A -> bool) n l : 0 < n ->
  fold_left (fun top x => s_topN lt x top n) l [] = firstn (Z.to_nat n) (stable_insert_all (fun x y => lt y x) l).
Proof.
  intros Hn. unfold stable_insert_all.
  rewrite <- (fold_trunc (fun x y => lt y x) n l []) by lia. rewrite firstn_nil.
  assert (forall acc, (length acc <= Z.to_nat n)%nat ->
     fold_left (fun top x => s_topN lt x top n) l acc
     = fold_left (fun out x => trunc_n n (ins (fun x y => lt y x) x out)) l acc) as G.
  { induction l; cbn; intros acc HL; auto. rewrite s_topN_ins by auto.
    rewrite trunc_firstn; [|lia|rewrite ins_length; lia]. apply IHl. rewrite firstn_length. lia. }
  apply G. cbn. lia.
Qed.
