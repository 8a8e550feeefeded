(** Theorems about running statistics: C47 (triggers), C51 (mean, variance), C52 (windows),
    C53 (histograms), C67 (covariance), C68 (fading means), C69 (CUSUM), C70 (counters, top-n). *)
From Coq Require Import QArith Qfield Permutation.
From Verif Require Import Base PyNum Effects ArrayModel ArraySpec SortProofs StatModel StatSpec StatProofs StatProofs2 HistSpec HistProofs.
Open Scope string_scope.
Open Scope list_scope.
Open Scope Z_scope.

(** * C47: trigger counters, for every history of predicates (counters start at 0) *)
Theorem C47_trigger : forall ps : list bool,
  exists t, runTrigger ps (Trigger 0 0 0 0) = Ok t /\
    how_many (true_at ps) (numEvents t) /\
    how_many (starts_run ps) (numRuns t) /\
    (exists c, currentRun t = Z.of_nat c /\ current_run ps c) /\
    (exists l, longestRun t = Z.of_nat l /\ longest_run ps l).
Proof.
  intros ps. destruct (tinv_run [] _ ps tinv_nil) as (t & E & HE & HR & Hc & HC & Hl & HL).
  exists t. split; [exact E|]. split; [exact HE|]. split; [exact HR|]. split.
  - exists (Z.to_nat (currentRun t)). split; [lia|exact HC].
  - exists (Z.to_nat (longestRun t)). split; [lia|exact HL].
Qed.
(** the four numbers are determined by the history *)
Theorem C47_unique : forall ps t t',
  (how_many (true_at ps) (numEvents t) /\ how_many (true_at ps) (numEvents t') -> numEvents t = numEvents t') /\
  (how_many (starts_run ps) (numRuns t) /\ how_many (starts_run ps) (numRuns t') -> numRuns t = numRuns t') /\
  (forall c c', current_run ps c -> current_run ps c' -> c = c') /\
  (forall l l', longest_run ps l -> longest_run ps l' -> l = l').
Proof.
  intros. assert (forall P n n', how_many P n -> how_many P n' -> n = n') as HM.
  { intros P n n' (l & (N & H) & <-) (l' & (N' & H') & <-). f_equal. apply Nat.le_antisymm;
      apply NoDup_incl_length; auto; intros i Hi; [apply H', H|apply H, H']; auto. }
  split. { intros [? ?]. eapply HM; eauto. }
  split. { intros [? ?]. eapply HM; eauto. }
  split.
  - intros c c' (L & A & M) (L' & A' & M'). apply Nat.le_antisymm; auto.
  - intros l l' [(i & A) M] [(i' & A') M']. apply Nat.le_antisymm; eauto.
Qed.
(** counters may not be negative *)
Theorem C47_error : forall p t,
  (numEvents t < 0 \/ numRuns t < 0 \/ currentRun t < 0 \/ longestRun t < 0) <-> updateTrigger p t = Raise (PFAErr 37000).
Proof.
  intros p t. unfold updateTrigger.
  destruct (Z.ltb_spec (numEvents t) 0), (Z.ltb_spec (numRuns t) 0), (Z.ltb_spec (currentRun t) 0), (Z.ltb_spec (longestRun t) 0);
    cbn; split; auto; intros; try lia; destruct p; discriminate.
Qed.
Example C47_example :
  runTrigger [true; true; false; true; true; true; false; true] (Trigger 0 0 0 0) = Ok (Trigger 6 3 1 3).
Proof. reflexivity. Qed.

(** * C51: running count, mean and variance against the batch values, in exact arithmetic *)
Theorem C51_update : forall level xs st,
  (m_count st == 0)%Q -> xs <> [] -> proper_weights xs ->
  exists st', run_update level xs st = Some st' /\
    (m_count st' == total_weight xs)%Q /\
    ((1 <= level)%nat -> (m_mean st' == batch_mean xs)%Q) /\
    ((2 <= level)%nat -> (m_var st' == batch_var xs)%Q).
Proof.
  intros lv xs st C NE PW.
  destruct (run_inv lv xs [] st) as (st' & E & I).
  { split; [|split; intros; unfold S1, S2; qs; rewrite C; ring]. rewrite C. unfold total_weight. qs. reflexivity. }
  { intros n Hn. cbn [app]. apply PW. auto. }
  exists st'. split; auto. apply minv_stats in I; auto.
  cbn [app]. specialize (PW (length xs)). rewrite firstn_all in PW. apply PW. destruct xs; [congruence|cbn; lia].
Qed.
(** positive weights satisfy the hypothesis on weights *)
Theorem C51_positive : forall xs, positive_weights xs -> proper_weights xs.
Proof. exact positive_proper. Qed.
(** the order of the data is irrelevant *)
Theorem C51_order : forall level xs ys st st1 st2,
  (m_count st == 0)%Q -> xs <> [] -> proper_weights xs -> proper_weights ys -> Permutation xs ys ->
  run_update level xs st = Some st1 -> run_update level ys st = Some st2 ->
  (m_count st1 == m_count st2)%Q /\ ((1 <= level)%nat -> (m_mean st1 == m_mean st2)%Q) /\
  ((2 <= level)%nat -> (m_var st1 == m_var st2)%Q).
Proof.
  intros lv xs ys st st1 st2 C NE P1 P2 PM E1 E2.
  assert (NE2 : ys <> []). { intros ->. apply NE. apply Permutation_sym, Permutation_nil in PM. auto. }
  destruct (C51_update lv xs st C NE P1) as (s1 & F1 & A1 & A2 & A3).
  destruct (C51_update lv ys st C NE2 P2) as (s2 & F2 & B1 & B2 & B3).
  rewrite E1 in F1. injection F1 as <-. rewrite E2 in F2. injection F2 as <-.
  assert (forall f : Q * Q -> Q, (qsum (map f xs) == qsum (map f ys))%Q) as QP.
  { intros f. clear - PM. induction PM; qs; [reflexivity|rewrite IHPM; reflexivity|ring|].
    rewrite IHPM1. auto. }
  assert (total_weight xs == total_weight ys)%Q as TW. { apply QP. }
  assert (batch_mean xs == batch_mean ys)%Q as BM. { unfold batch_mean. rewrite QP, TW. reflexivity. }
  split; [rewrite A1, B1; exact TW|]. split; intros L.
  - rewrite A2, B2 by auto. exact BM.
  - rewrite A3, B3 by auto. unfold batch_var. rewrite QP, TW. apply Qmult_comp; [|reflexivity].
    apply qsum_ext. intros. rewrite BM. reflexivity.
Qed.
(** a history whose total weight comes back to 0 leaves exact arithmetic (inf or nan in the code) *)
Theorem C51_zero_weight : forall level x w st, (1 <= level)%nat -> (m_count st + w == 0)%Q ->
  update x w st level = None.
Proof. intros [|lv] x w st H E; [lia|]. unfold update. rewrite qdiv_none; auto. Qed.
Example C51_example :
  exists st', run_update 2 [(1, 1); (3, 1); (6, 2)]%Q (Moments 0 17 5) = Some st' /\
    (m_count st' == 4)%Q /\ (m_mean st' == 4)%Q /\ (m_var st' == 9 # 2)%Q /\
    proper_weights [(1, 1); (3, 1); (6, 2)]%Q.
Proof.
  eexists. split; [vm_compute; reflexivity|]. repeat (split; [reflexivity|]).
  apply positive_proper. repeat constructor.
Qed.

(** * C52: sliding windows (window size fixed) *)
Theorem C52_window : forall level k xs,
  2 <= k -> xs <> [] -> positive_weights xs ->
  exists st r, run_window level (map (fun p => (p, k)) xs) [] = Ok (Some (st ++ [r])) /\
    map (fun r => (w_x r, w_w r)) (st ++ [r]) = lastn (Z.to_nat k) xs /\
    (w_count r == total_weight (lastn (Z.to_nat k) xs))%Q /\
    ((1 <= level)%nat -> (w_mean r == batch_mean (lastn (Z.to_nat k) xs))%Q) /\
    ((2 <= level)%nat -> (w_var r == batch_var (lastn (Z.to_nat k) xs))%Q).
Proof.
  intros lv k xs Hk NE P.
  destruct (run_window_inv lv (map (fun p => (p, k)) xs) []) as (st' & E & D & I).
  { apply Forall_forall. intros p Hp. apply in_map_iff in Hp as (q & <- & _). auto. }
  { constructor. }
  { unfold positive_weights. rewrite map_map. cbn [fst]. rewrite map_id. auto. }
  { discriminate. }
  assert (data_of st' = lastn (Z.to_nat k) xs) as D'.
  { rewrite D. change (data_of []) with (@nil (Q * Q)).
    replace (@nil (Q * Q)) with (lastn (Z.to_nat k) (@nil (Q * Q))) by reflexivity. rewrite kept_const. auto. }
  assert (lastn (Z.to_nat k) xs <> []) as NE'.
  { intros E0. apply (f_equal (@length _)) in E0. unfold lastn in E0. rewrite skipn_length in E0. cbn in E0.
    destruct xs; [congruence|]. cbn [length] in E0. lia. }
  assert (st' <> []) as NS. { intros ->. cbn in D'. congruence. }
  destruct (exists_last NS) as (st & r & ->). exists st, r. split; auto. split; [exact D'|].
  assert (winv lv (data_of (st ++ [r])) r) as WI.
  { destruct (st ++ [r]) as [|r0 l] eqn:EL; [congruence|]. specialize (I r0 l eq_refl).
    rewrite <- EL in I at 2. rewrite last_app_last in I. auto. }
  rewrite D' in WI. apply minv_stats in WI; auto.
  assert (0 < total_weight (lastn (Z.to_nat k) xs))%Q as PW.
  { apply tw_pos; auto. unfold positive_weights in *. rewrite Forall_forall in *. intros p Hp. apply P.
    eapply lastn_In; eauto. }
  intros E0. rewrite E0 in PW. discriminate.
Qed.
(** the window size may change at every step; the window then holds what [kept] says *)
Theorem C52_changing_size : forall level ds,
  Forall (fun p => 2 <= snd p) ds -> positive_weights (map fst ds) ->
  exists st, run_window level ds [] = Ok (Some st) /\
    map (fun r => (w_x r, w_w r)) st = kept ds [] /\
    forall pre r, st = pre ++ [r] -> kept ds [] <> [] ->
      (w_count r == total_weight (kept ds []))%Q /\
      ((1 <= level)%nat -> (w_mean r == batch_mean (kept ds []))%Q) /\
      ((2 <= level)%nat -> (w_var r == batch_var (kept ds []))%Q).
Proof.
  intros lv ds K P.
  destruct (run_window_inv lv ds []) as (st' & E & D & I); auto. { constructor. } { discriminate. }
  exists st'. split; auto. split; [exact D|]. intros pre r -> NE.
  assert (winv lv (data_of (pre ++ [r])) r) as WI.
  { destruct (pre ++ [r]) as [|r0 l] eqn:EL; [destruct pre; discriminate|]. specialize (I r0 l eq_refl).
    rewrite <- EL in I at 2. rewrite last_app_last in I. auto. }
  rewrite D in WI. apply minv_stats in WI; auto. change (data_of []) with (@nil (Q * Q)) in *.
  assert (forall ds d, positive_weights (map fst ds) -> positive_weights d -> positive_weights (kept ds d)) as PK.
  { clear. induction ds as [|[[x w] k] ds IH]; cbn; intros d P0 P1; auto. inversion P0; subst. apply IH; auto.
    unfold positive_weights in *. rewrite Forall_forall. intros p Hp. apply lastn_In in Hp.
    apply in_app_iff in Hp as [Hp|[<-|[]]]; auto. rewrite Forall_forall in P1. auto. }
  assert (0 < total_weight (kept ds []))%Q as PW.
  { apply tw_pos; auto. apply PK; auto. constructor. }
  intros E0. rewrite E0 in PW. discriminate.
Qed.
Theorem C52_error : forall x w st k level, k < 2 -> updateWindow x w st k level = Raise (PFAErr 14020).
Proof. intros. unfold updateWindow. destruct (Z.ltb_spec k 2); [auto|lia]. Qed.
Example C52_example :
  exists st r, run_window 2 (map (fun p => (p, 2)) [(5, 1); (1, 1); (4, 2)]%Q) [] = Ok (Some (st ++ [r])) /\
   map (fun r => (w_x r, w_w r)) (st ++ [r]) = [(1, 1); (4, 2)]%Q /\ (w_count r == 3)%Q /\ (w_mean r == 3)%Q /\ (w_var r == 2)%Q.
Proof. exists [WRec 1 1 (1 + 1) (5 + (1 - 5) * 1 / (1 + 1)) ((0 * 1 + 1 * (1 - 5) * ((1 - 5) * 1 / (1 + 1))) / (1 + 1))]%Q. eexists.
  split; [vm_compute; reflexivity|]. repeat split. Qed.

(** * C53: histograms *)
(** numbins/low/high histograms: exactly one slot takes the weight, the one the datum belongs to;
    all others keep their content (over any arithmetic, floats in particular) *)
Theorem C53_fixed_one_slot : forall W T (wadd : W -> W -> W) wzero (o : real_ops T) x w h h' n low high,
  h_bin h = Fixed n low high -> fillHistogram wadd wzero o x w h = Ok h' ->
  exists s, goes_to o (is_some (h_inf h)) low (Some high) x s /\
    h_bin h' = h_bin h /\ took wadd w h h' s /\ (forall s', s' <> s -> kept_slot wadd wzero h h' s') /\
    (forall i, s = Bin i -> (i < length (h_values h))%nat).
Proof.
  intros. destruct (fixed_slot wadd wzero o x w h h' n low high) as (s & G & (B & TK & K) & L); auto.
  exists s. auto.
Qed.
(** low/binsize histograms, whose list of bins grows *)
Theorem C53_open_one_slot : forall W T (wadd : W -> W -> W) wzero (o : real_ops T) x w h h' low bs,
  h_bin h = Open low bs -> fillHistogram wadd wzero o x w h = Ok h' ->
  exists s, goes_to o (is_some (h_inf h)) low None x s /\
    h_bin h' = h_bin h /\ took wadd w h h' s /\ (forall s', s' <> s -> kept_slot wadd wzero h h' s').
Proof.
  intros. destruct (open_slot wadd wzero o x w h h' low bs) as (s & G & (B & TK & K)); auto.
  exists s. auto.
Qed.
(** histograms given by ranges: every range containing the datum takes the weight, no other does;
    a datum in no range is counted as underflow *)
Theorem C53_ranges_bins : forall W T (wadd : W -> W -> W) wzero (o : real_ops T) x w h h' ranges,
  h_bin h = Ranges ranges -> fillHistogram wadd wzero o x w h = Ok h' ->
  op_isinf o x = false -> op_isnan o x = false ->
  h_bin h' = h_bin h /\ length (h_values h') = length (h_values h) /\
  (forall i r v, nth_error ranges i = Some r -> nth_error (h_values h) i = Some v ->
    (falls_in o x r -> nth_error (h_values h') i = Some (wadd v w)) /\
    (~ falls_in o x r -> nth_error (h_values h') i = Some v)) /\
  (forall u, h_under h = Some u ->
     ((forall r, In r ranges -> ~ falls_in o x r) -> h_under h' = Some (wadd u w)) /\
     ((exists r, In r ranges /\ falls_in o x r) -> h_under h' = Some (wadd u wzero))).
Proof.
  intros W T wadd wzero o x w h h' ranges EB E NI NN.
  destruct (ranges_bins wadd wzero o x w h h' ranges EB E NI NN) as (B & L & N & U & _).
  split; auto. split; auto. split; auto. intros u EU. rewrite U, EU. cbn.
  assert (forall r, In r ranges -> bad_range o r = false) as BR.
  { unfold fillHistogram in E. rewrite EB in E. destruct (negb (length (h_values h) =? length ranges)%nat); [discriminate|].
    destruct (existsb (bad_range o) ranges) eqn:EX; [discriminate|]. intros r Hr.
    destruct (bad_range o r) eqn:E0; auto.
    assert (existsb (bad_range o) ranges = true) by (apply existsb_exists; eauto). congruence. }
  split.
  - intros H. destruct (existsb (in_range o x) ranges) eqn:EX; auto. apply existsb_exists in EX as (r & Hr & EX).
    apply in_range_iff in EX; auto. destruct (H r Hr EX).
  - intros (r & Hr & F). assert (existsb (in_range o x) ranges = true) as ->; auto.
    apply existsb_exists. exists r. split; auto. apply in_range_iff; auto.
Qed.
(** the weight is neither lost nor duplicated when the record has the fields underflow, overflow
    and nanflow (infflow is used only if present) and, for ranges, when they do not overlap;
    weights added exactly *)
Theorem C53_conserved_partial : forall W T (wadd : W -> W -> W) wzero (o : real_ops T) x w h h',
  exact_weights wadd wzero -> all_flows h ->
  (forall ranges, h_bin h = Ranges ranges -> disjoint_at o x ranges) ->
  fillHistogram wadd wzero o x w h = Ok h' ->
  contents_total wadd wzero h' = wadd (contents_total wadd wzero h) w.
Proof.
  intros W T wadd wzero o x w h h' EW A D E. destruct (h_bin h) eqn:EB.
  - eapply fixed_total; eauto.
  - eapply open_total; eauto.
  - eapply ranges_total; eauto.
Qed.
(** with exact positions every datum between low and high is counted, in the bin that contains it *)
Theorem C53_fixed_right_bin : forall W (wadd : W -> W -> W) wzero x w (h : hist) n low high,
  h_bin h = Fixed n low high -> 1 <= n -> Z.of_nat (length (h_values h)) = n ->
  (low < high)%Q -> (low <= x)%Q -> (x < high)%Q ->
  exists h' i, fillHistogram wadd wzero rat_ops x w h = Ok h' /\ took wadd w h h' (Bin i) /\
    (low + inject_Z (Z.of_nat i) * ((high - low) / inject_Z n) <= x)%Q /\
    (x < low + (inject_Z (Z.of_nat i) + 1) * ((high - low) / inject_Z n))%Q.
Proof.
  intros. destruct (fixed_right wadd wzero x w h n low high) as (h' & i & E & (_ & TK & _) & B); auto.
  exists h', i. auto.
Qed.
Theorem C53_open_right_bin : forall W (wadd : W -> W -> W) wzero x w (h : hist) low bs,
  h_bin h = Open low bs -> h_values h <> [] -> (0 < bs)%Q -> (low <= x)%Q ->
  exists h' i, fillHistogram wadd wzero rat_ops x w h = Ok h' /\ took wadd w h h' (Bin i) /\
    (low + inject_Z (Z.of_nat i) * bs <= x)%Q /\ (x < low + (inject_Z (Z.of_nat i) + 1) * bs)%Q.
Proof.
  intros. destruct (open_right wadd wzero x w h low bs) as (h' & i & E & (_ & TK & _) & B); auto.
  exists h', i. auto.
Qed.
Lemma Z_weights : exact_weights Z.add 0.
Proof. split; intros; lia. Qed.
Example C53_example :
  let h := Hist (Fixed 5 0 10)%Q [0; 0; 3; 0; 0] (Some 1) (Some 0) (Some 0) None in
  fillHistogram Z.add 0 rat_ops (9 # 2)%Q 7 h
    = Ok (Hist (Fixed 5 0 10)%Q [0; 0; 10; 0; 0] (Some 1) (Some 0) (Some 0) None) /\
  fillHistogram Z.add 0 rat_ops 12%Q 7 h
    = Ok (Hist (Fixed 5 0 10)%Q [0; 0; 3; 0; 0] (Some 1) (Some 7) (Some 0) None) /\
  fillHistogram Z.add 0 rat_ops 25%Q 7 (Hist (Open 0 10)%Q [1] (Some 1) (Some 0) (Some 0) None)
    = Ok (Hist (Open 0 10)%Q [1; 0; 7] (Some 1) (Some 0) (Some 0) None) /\
  all_flows h.
Proof.
  cbv zeta. split; [reflexivity|]. split; [reflexivity|]. split; [reflexivity|]. split; [|split]; discriminate.
Qed.

(** findings *)
(** a datum outside the bins disappears when the record type lacks the flow field *)
Theorem C53_lost_refuted : exists x (h h' : hist (W := Z) (T := Q)) n low high,
  h_bin h = Fixed n low high /\ (high <= x)%Q /\ fillHistogram Z.add 0 rat_ops x 1 h = Ok h' /\ h' = h.
Proof.
  exists 12%Q, (Hist (Fixed 2 0 10)%Q [4; 5] (Some 1) None (Some 0) None). do 4 eexists.
  split; [reflexivity|]. split; [discriminate|]. split; reflexivity.
Qed.
(** overlapping ranges are accepted and count a datum several times *)
Theorem C53_overlap_refuted : exists x (h h' : hist (W := Z) (T := Q)),
  all_flows h /\ fillHistogram Z.add 0 rat_ops x 1 h = Ok h' /\
  contents_total Z.add 0 h' = contents_total Z.add 0 h + 2.
Proof.
  exists 3%Q, (Hist (Ranges [[0; 5]; [2; 8]])%Q [0; 0] (Some 0) (Some 0) (Some 0) None). eexists.
  split; [repeat split; discriminate|]. split; reflexivity.
Qed.
(** rounding: a datum strictly between low and high can raise IndexError (low = -2^53, high = 1,
    x = 0.5, one bin) or, with a wide range, ValueError (nan) *)
Definition fhalf : pf := fdiv (f_of_Z 1) (f_of_Z 2).
Theorem C53_float_crash_refuted :
  (exists x low high, num_lt (NF low) (NF x) = true /\ num_lt (NF x) (NF high) = true /\
     fillHistogram fadd f0 float_ops x (f_of_Z 1) (Hist (Fixed 1 low high) [f0] (Some f0) (Some f0) (Some f0) (Some f0))
     = Raise (PyErr "IndexError")) /\
  (exists x low high, num_lt (NF low) (NF x) = true /\ num_lt (NF x) (NF high) = true /\
     fillHistogram fadd f0 float_ops x (f_of_Z 1) (Hist (Fixed 1 low high) [f0] (Some f0) (Some f0) (Some f0) (Some f0))
     = Raise (PyErr "ValueError")).
Proof.
  split.
  - exists fhalf, (f_of_Z (- 2 ^ 53)), (f_of_Z 1). vm_compute. auto.
  - exists (f_of_Z (2 ^ 1023)), (f_of_Z (- 2 ^ 1023)), (f_of_Z (2 ^ 1023 + 2 ^ 1022)). vm_compute. auto.
Qed.
(** the first datum of a low/binsize histogram without bins lands in bin 0 wherever it is *)
Theorem C53_open_first_refuted : exists x (h h' : hist (W := Z) (T := Q)) low bs,
  h_bin h = Open low bs /\ (0 < bs)%Q /\ (low + 2 * bs <= x)%Q /\
  fillHistogram Z.add 0 rat_ops x 1 h = Ok h' /\ content h' (Bin 0) = Some 1.
Proof.
  exists 25%Q, (Hist (Open 0 10)%Q [] (Some 0) (Some 0) (Some 0) None). do 3 eexists.
  split; [reflexivity|]. split; [reflexivity|]. split; [discriminate|]. split; reflexivity.
Qed.

(** * C67: running covariance *)
Theorem C67_covariance : forall n xs st,
  (2 <= n)%nat -> Forall (fun p => length (fst p) = n) xs -> xs <> [] -> proper_weights (comp 0 xs) ->
  (c_count st == 0)%Q -> length (c_mean st) = n -> length (c_cov st) = n -> Forall (fun r => length r = n) (c_cov st) ->
  exists st', run_cov xs st = Ok (Some st') /\
    (c_count st' == total_weight (comp 0 xs))%Q /\
    (forall i, (i < n)%nat -> (nth i (c_mean st') 0 == batch_mean (comp i xs))%Q) /\
    (forall i j, (i < n)%nat -> (j < n)%nat -> (nth j (nth i (c_cov st') []) 0 == batch_cov i j xs)%Q).
Proof.
  intros n xs st Hn HX NE PW C LM LC LR.
  destruct (run_cov_ok n xs [] st Hn HX) as (st' & E & I).
  { split; [auto|]. split; [auto|]. split; [auto|]. rewrite C. split; [reflexivity|].
    split; intros; rewrite C; unfold S1, S11, comp; qs; ring. }
  { intros k Hk. cbn [app]. unfold comp. rewrite <- firstn_map. apply PW. unfold comp. rewrite map_length. auto. }
  exists st'. split; auto. apply cov_stats in I; auto.
  cbn [app]. specialize (PW (length (comp 0 xs))). rewrite firstn_all in PW. apply PW.
  unfold comp. rewrite map_length. destruct xs; [congruence|cbn; lia].
Qed.
Theorem C67_errors : forall x w st,
  ((length x < 2)%nat -> updateCovariance x w st = Raise (PFAErr 14011)) /\
  ((2 <= length x)%nat -> length (c_mean st) <> length x -> updateCovariance x w st = Raise (PFAErr 14012)).
Proof.
  intros. unfold updateCovariance. split; intros.
  - destruct (Nat.ltb_spec (length x) 2); [auto|lia].
  - destruct (Nat.ltb_spec (length x) 2); [lia|]. destruct (Nat.eqb_spec (length x) (length (c_mean st))); [congruence|auto].
Qed.
Example C67_example : exists st', run_cov [([1; 2], 1); ([3; 6], 1)]%Q (Cov 0 [0; 0] [[0; 0]; [0; 0]])%Q = Ok (Some st') /\
  (nth 1 (nth 0 (c_cov st') []) 0 == 2)%Q /\ (nth 1 (c_mean st') 0 == 4)%Q.
Proof. eexists. split; [vm_compute; reflexivity|]. split; reflexivity. Qed.

(** * C68: exponentially weighted mean and variance *)
Theorem C68_ewma : forall alpha hasVar xs m v, (0 <= alpha)%Q -> (alpha <= 1)%Q ->
  exists m' v', run_ewma alpha xs m v hasVar = Ok (m', v') /\
    (m' == qpow (1 - alpha) (length xs) * m + fading alpha (rev xs))%Q /\
    (hasVar = true ->
     (v' + m' * m' == qpow (1 - alpha) (length xs) * (v + m * m) + fading alpha (rev (map (fun x => x * x) xs)))%Q).
Proof.
  intros alpha b xs m v H0 H1. destruct (run_ewma_ok alpha b xs H0 H1 m v) as (m' & v' & E & M & V).
  exists m', v'. split; auto. split; auto. intros ->. auto.
Qed.
(** the mean stays between the bounds of the data and of the initial mean *)
Theorem C68_bounds : forall alpha hasVar xs m v lo hi, (0 <= alpha)%Q -> (alpha <= 1)%Q ->
  (lo <= m <= hi)%Q -> Forall (fun x => (lo <= x <= hi)%Q) xs ->
  exists m' v', run_ewma alpha xs m v hasVar = Ok (m', v') /\ (lo <= m' <= hi)%Q.
Proof.
  intros alpha b xs m v lo hi H0 H1 HM HX. revert m v HM. induction HX as [|x xs Hx HX IH]; intros m v HM.
  - exists m, v. auto.
  - cbn [run_ewma]. destruct (updateEWMA_ok x alpha m v b H0 H1) as (m1 & v1 & E & M1 & _). rewrite E.
    apply IH. rewrite M1.
    assert (0 <= 1 - alpha)%Q as H2. { apply (Qplus_le_l _ _ alpha). ring_simplify. auto. }
    assert (forall a b c d : Q, (a <= b -> c <= d -> (1 - alpha) * a + alpha * c <= (1 - alpha) * b + alpha * d))%Q as MONO.
    { intros p q r s L1 L2. apply Qplus_le_compat.
      - rewrite !(Qmult_comm (1 - alpha)). apply Qmult_le_compat_r; auto.
      - rewrite !(Qmult_comm alpha). apply Qmult_le_compat_r; auto. }
    split.
    + setoid_replace lo with ((1 - alpha) * lo + alpha * lo)%Q by ring. apply MONO; [apply HM|apply Hx].
    + setoid_replace hi with ((1 - alpha) * hi + alpha * hi)%Q by ring. apply MONO; [apply HM|apply Hx].
Qed.
Theorem C68_error : forall x alpha m v b, (alpha < 0 \/ 1 < alpha)%Q -> updateEWMA x alpha m v b = Raise (PFAErr 14030).
Proof.
  intros x alpha m v b [H|H]; unfold updateEWMA.
  - rewrite (proj2 (Qle_bool_false 0 alpha) H). auto.
  - rewrite (proj2 (Qle_bool_false alpha 1) H). cbn. rewrite orb_true_r. auto.
Qed.
Example C68_example : exists m v, run_ewma (1 # 2) [4; 8]%Q 0 0 true = Ok (m, v) /\ (m == 5)%Q /\ (v == 11)%Q.
Proof. do 2 eexists. split; [vm_compute; reflexivity|]. split; reflexivity. Qed.

(** * C69: CUSUM is reset plus the largest sum of a suffix of the history (the empty one included) *)
Theorem C69_cusum : forall reset l,
  (exists k, (k <= length l)%nat /\ run_cusum reset l = reset + suffix_sum l k) /\
  (forall k, (k <= length l)%nat -> reset + suffix_sum l k <= run_cusum reset l).
Proof. exact cusum_max. Qed.
Example C69_example : run_cusum 0 [3; -5; 2; 4; -1] = 5 /\ suffix_sum [3; -5; 2; 4; -1] 2 = 5.
Proof. split; reflexivity. Qed.

(** * C70: running counter and running top-n against the batch values *)
Theorem C70_counter : forall W (wadd : W -> W -> W) wzero ds c k,
  match assoc k (run_counter wadd wzero ds c) with Some v => v | None => wzero end
  = fold_left wadd (map snd (filter (fun p => String.eqb (fst p) k) ds)) (match assoc k c with Some v => v | None => wzero end).
Proof. intros. apply run_counter_key. Qed.
Theorem C70_counter_keys : forall W (wadd : W -> W -> W) wzero ds c k,
  assoc k (run_counter wadd wzero ds c) <> None <-> assoc k c <> None \/ In k (map fst ds).
Proof. intros. apply run_counter_dom. Qed.
(** the running top-n is the list of the n best data so far, best first, earlier data first among equals *)
Theorem C70_topN : forall A (lessThan : A -> A -> bool) n l, weak_order lessThan -> 0 < n ->
  exists p, best_positions (fun x y => lessThan y x) l n p /\
    items_at l p (fold_left (fun top x => s_topN lessThan x top n) l []).
Proof.
  intros A lt n l WO Hn. rewrite fold_topN by auto.
  exists (map fst (firstn (Z.to_nat n) (sorted_pairs (fun x y => lt y x) l))). split.
  - apply best_positions_firstn; [|lia]. apply weak_order_flip; auto.
  - rewrite <- sp_snd, firstn_map. apply items_firstn.
Qed.
Theorem C70_topN_none : forall A (lessThan : A -> A -> bool) x top n, n <= 0 -> s_topN lessThan x top n = [].
Proof. intros. unfold s_topN. destruct (Z.leb_spec n 0); [auto|lia]. Qed.
Example C70_example :
  run_counter Z.add 0 [("a", 1); ("b", 5); ("a", 2)] [("c", 9)] = [("c", 9); ("a", 3); ("b", 5)] /\
  fold_left (fun top x => s_topN (fun p q => fst p <? fst q) x top 2) [(1, "p"); (3, "q"); (2, "r"); (3, "s")] [] = [(3, "q"); (3, "s")].
Proof. split; reflexivity. Qed.

Print Assumptions C47_trigger.
Print Assumptions C47_unique.
Print Assumptions C47_error.
Print Assumptions C51_update.
Print Assumptions C51_order.
Print Assumptions C51_zero_weight.
Print Assumptions C52_window.
Print Assumptions C52_changing_size.
Print Assumptions C53_fixed_one_slot.
Print Assumptions C53_open_one_slot.
Print Assumptions C53_ranges_bins.
Print Assumptions C53_conserved_partial.
Print Assumptions C53_fixed_right_bin.
Print Assumptions C53_open_right_bin.
Print Assumptions C53_float_crash_refuted.
Print Assumptions C67_covariance.
Print Assumptions C68_ewma.
Print Assumptions C68_bounds.
Print Assumptions C69_cusum.
Print Assumptions C70_counter.
Print Assumptions C70_topN.
