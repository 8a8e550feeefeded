(** C56: matrix functions. *)
From Coq Require Import SpecFloat Ring Ring_theory InitialRing Permutation.
From Verif Require Import Base PyNum Effects StatModel ArraySpec ArrayProofs2 LaModel LaSpec LaProofs LaProofs2.
Open Scope string_scope.
Open Scope list_scope.
Open Scope nat_scope.

(** ** Matrices as arrays, any arithmetic *)
(** transposition swaps the indices, and twice gives back the matrix *)
Theorem C56_transpose : forall T (x : list (list T)) n m f, represents x (S n) (S m) f ->
  exists y, transpose x = Ok y /\ represents y (S m) (S n) (fun c r => f r c) /\ transpose y = Ok x.
Proof.
  intros T x n m f H. eexists. split; [eapply transpose_of; eauto|]. split; [apply mat_of_represents|].
  rewrite (transpose_of _ _ _ _ (mat_of_represents _ _ _)). apply represents_mat_of in H. rewrite H. auto.
Qed.
(** and everything else is rejected: no rows, no columns, rows of different lengths *)
Theorem C56_transpose_errors : forall T (x : list (list T)),
  (x = [] \/ (exists l, x = [] :: l) -> transpose x = Raise (PFAErr 24060)) /\
  (x <> [] -> (forall l, x <> [] :: l) -> ~ rectangular x -> transpose x = Raise (PFAErr 24061)) /\
  (forall y, transpose x = Ok y -> exists n m f, represents x (S n) (S m) f).
Proof.
  intros T x. destruct (guard_errors 24060 x) as [G1 G2]. unfold transpose. split; [|split].
  - intros H. rewrite G1; auto.
  - intros H1 H2 H3. rewrite G2; auto.
  - intros y H. destruct (guard_matrix 24060 x) as [rc|e] eqn:E; [|discriminate]. apply guard_inv in E. destruct E as (n & m & f & R & _). eauto.
Qed.
Example C56_transpose_example :
  represents [[1;2;3];[4;5;6]] 2 3 (fun r c => 3 * r + c + 1) /\ transpose [[1;2;3];[4;5;6]] = Ok [[1;4];[2;5];[3;6]].
Proof. split; [apply represents_mat_of; reflexivity|reflexivity]. Qed.

(** la.add and la.sub work element by element; arguments of different shapes are rejected *)
Theorem C56_add : forall T (add sub : T -> T -> T) (x y : list (list T)),
  (aligned x y -> exists s d, add_matrices add x y = Ok s /\ sub_matrices sub x y = Ok d /\ aligned x s /\ aligned x d /\
     forall r c a b, cell x r c = Some a -> cell y r c = Some b -> cell s r c = Some (add a b) /\ cell d r c = Some (sub a b)) /\
  (~ aligned x y -> add_matrices add x y = Raise (PFAErr 24030) /\ sub_matrices sub x y = Raise (PFAErr 24040)).
Proof.
  intros T add sub x y. unfold add_matrices, sub_matrices, zip_matrices. split; intros H.
  - rewrite (proj2 (misaligned_spec x y) H). do 2 eexists. do 2 (split; [reflexivity|]). split; [apply aligned_zip_aligned; auto|]. split; [apply aligned_zip_aligned; auto|].
    intros r c a b Ha Hb. split; apply zip_cell; auto.
  - destruct (misaligned x y) eqn:E; auto. apply misaligned_spec in E. contradiction.
Qed.
Theorem C56_add_vectors : forall T (add sub : T -> T -> T) (x y : list T),
  (length x = length y -> exists s d, add_vectors add x y = Ok s /\ sub_vectors sub x y = Ok d /\ length s = length x /\ length d = length x /\
     forall k a b, nth_error x k = Some a -> nth_error y k = Some b -> nth_error s k = Some (add a b) /\ nth_error d k = Some (sub a b)) /\
  (length x <> length y -> add_vectors add x y = Raise (PFAErr 24030) /\ sub_vectors sub x y = Raise (PFAErr 24040)).
Proof.
  intros T add sub x y. unfold add_vectors, sub_vectors, zip_vectors. rewrite count_eqb. split; intros H.
  - rewrite (proj2 (Nat.eqb_eq _ _) H). cbn [negb]. do 2 eexists. do 2 (split; [reflexivity|]). rewrite !map_length, combine_length, H, Nat.min_id.
    do 2 (split; auto). intros k a b Ha Hb. rewrite !nth_error_map, !combine_nth_error, Ha, Hb. auto.
  - rewrite (proj2 (Nat.eqb_neq _ _) H). auto.
Qed.
(** la.scale *)
Theorem C56_scale : forall T (mul : T -> T -> T) x v alpha,
  aligned x (scale_matrix mul x alpha) /\
  (forall r c, cell (scale_matrix mul x alpha) r c = option_map (fun a => mul a alpha) (cell x r c)) /\
  (forall k, nth_error (scale_vector mul v alpha) k = option_map (fun a => mul a alpha) (nth_error v k)).
Proof.
  intros. unfold scale_matrix, scale_vector, aligned, cell. split; [|split].
  - rewrite map_map. apply map_ext. intros. rewrite map_length. auto.
  - intros. rewrite nth_error_map. destruct (nth_error x r); auto. cbn. apply nth_error_map.
  - intros. apply nth_error_map.
Qed.
(** la.map and la.zipmap call the function once per element, row by row *)
Theorem C56_map : forall S T x (fcn : T -> M S T) s z s',
  la_map x fcn s = (Ok z, s') <-> calls fcn s (concat x) s' (concat z) /\ aligned x z.
Proof. intros. unfold la_map. rewrite mapM_ok. apply calls_concat_map. Qed.
Lemma concat_combine {A B} : forall (x : list (list A)) (y : list (list B)), aligned x y ->
  concat (map (fun p => combine (fst p) (snd p)) (combine x y)) = combine (concat x) (concat y).
Proof.
  unfold aligned. induction x as [|a x IH]; intros [|b y] H; try discriminate; auto. cbn in *. injection H as E H. rewrite IH by auto.
  revert b E. induction a as [|u a IHa]; intros [|v b] E; try discriminate; auto. cbn in *. rewrite IHa; auto.
Qed.
Lemma map_calls {S A B C} (g : A -> B) (f : B -> M S C) : forall l s s' z, calls (fun a => f (g a)) s l s' z <-> calls f s (map g l) s' z.
Proof.
  induction l as [|a l IH]; intros s s' z; cbn [map]; [rewrite !calls_nil_inv; tauto|]. rewrite !calls_cons_inv.
  split; intros (y & s1 & ys & H1 & H2 & ->); exists y, s1, ys; (split; [auto|split; [apply IH; auto|auto]]).
Qed.
Theorem C56_zipmap : forall S T x y (fcn : T -> T -> M S T) s,
  (aligned x y -> forall z s', la_zipmap x y fcn s = (Ok z, s') <->
     calls (fun p => fcn (fst p) (snd p)) s (combine (concat x) (concat y)) s' (concat z) /\ aligned x z) /\
  (~ aligned x y -> la_zipmap x y fcn s = (Raise (PFAErr 24020), s)).
Proof.
  intros S T x y fcn s. unfold la_zipmap. split; intros Al.
  - rewrite (proj2 (misaligned_spec x y) Al). intros z s'. rewrite mapM_ok.
    rewrite (map_calls (fun xy => combine (fst xy) (snd xy)) (fun row => mapM (fun p => fcn (fst p) (snd p)) row)).
    rewrite calls_concat_map, concat_combine by auto.
    assert (E : aligned (map (fun xy => combine (fst xy) (snd xy)) (combine x y)) z <-> aligned x z); [|tauto].
    unfold aligned. replace (map (@length _) (map (fun xy => combine (fst xy) (snd xy)) (combine x y))) with (map (@length T) x); [tauto|].
    clear -Al. revert y Al. unfold aligned. induction x as [|a x IH]; intros [|b y] H; try discriminate; auto. cbn in *. injection H as E H. rewrite combine_length, E, Nat.min_id. f_equal; auto.
  - destruct (misaligned x y) eqn:E; auto. apply misaligned_spec in E. contradiction.
Qed.
Example C56_zipmap_example :
  let f (a b : nat) : M nat nat := fun s => (Ok (a * b), s + 1) in
  aligned [[1;2];[3]] [[4;5];[6]] /\ la_zipmap [[1;2];[3]] [[4;5];[6]] f 0 = (Ok [[4;10];[18]], 3) /\ la_zipmap [[1;2];[3]] [[4];[6;5]] f 0 = (Raise (PFAErr 24020), 0).
Proof. repeat split. Qed.
(** la.trace adds the diagonal; the transposed matrix has the same trace, whatever the arithmetic *)
Theorem C56_trace : forall T zero add (x : list (list T)) n m f, represents x n m f -> 
  trace zero add x = Ok (total zero add (fun i => f i i) (Nat.min n m)) /\
  (forall y, transpose x = Ok y -> trace zero add y = trace zero add x).
Proof.
  intros T zero add x n m f H.
  assert (E : trace zero add x = Ok (total zero add (fun i => f i i) (Nat.min n m))).
  { destruct n as [|n]; [destruct H as (L & _); destruct x; [reflexivity|discriminate]|]. apply trace_of; auto. }
  split; auto. intros y Hy. rewrite E. clear E. destruct (C56_transpose_errors T x) as (_ & _ & G). specialize (G y Hy).
  destruct G as (n' & m' & f' & G).
  assert (n = S n' /\ m = S m') as [-> ->].
  { destruct H as (L1 & W1 & _), G as (L2 & W2 & _). split; [congruence|]. destruct x as [|a x]; [cbn in L2; discriminate|]. rewrite <- (W1 a), <- (W2 a) by (left; auto). auto. }
  rewrite (transpose_of _ _ _ _ H) in Hy. injection Hy as <-.
  rewrite (trace_of zero add _ (S m') (S n') (fun c r => f r c)); [|discriminate|apply mat_of_represents]. rewrite (Nat.min_comm (S m')). auto.
Qed.
Theorem C56_trace_errors : forall T zero add (x : list (list T)), ~ rectangular x -> trace zero add x = Raise (PFAErr 24080).
Proof.
  intros T zero add x H. unfold trace. destruct x as [|x0 x]; [exfalso; apply H; intros a b []|].
  destruct (raggedArray _) eqn:E; auto. apply ragged_spec in E. contradiction.
Qed.
(** la.symmetric compares every entry with its mirror image *)
Lemma rforallb_spec {A} (f : A -> res bool) (g : A -> bool) l : (forall a, In a l -> f a = Ok (g a)) -> rforallb f l = Ok (forallb g l).
Proof. induction l as [|a l IH]; cbn; auto. intros H. rewrite (H a) by auto. cbn. destruct (g a); auto. Qed.
Theorem C56_symmetric : forall T (same : T -> T -> bool) x n f, represents x (S n) (S n) f ->
  exists b, symmetric same x = Ok b /\ (b = true <-> forall i j, i <= n -> j <= n -> same (f i j) (f j i) = true) /\
    forall y, transpose x = Ok y -> symmetric same y = symmetric same x.
Proof.
  intros T same x n f H.
  assert (G : forall x f, represents x (S n) (S n) f ->
    symmetric same x = Ok (forallb (fun i => forallb (fun j => same (f i j) (f j i)) (seq 0 (S n))) (seq 0 (S n)))).
  { clear. intros x f H. unfold symmetric. rewrite (guard_ok _ _ _ _ _ H). cbn [rbind fst snd]. rewrite Z.eqb_refl. cbn [negb]. rewrite !to_nat_of.
    apply rforallb_spec. intros i Hi. apply rforallb_spec. intros j Hj. apply in_seq in Hi, Hj.
    destruct H as (_ & _ & C). pose proof (C i j ltac:(lia) ltac:(lia)) as C1. pose proof (C j i ltac:(lia) ltac:(lia)) as C2. unfold cell in *. unfold index.
    destruct (nth_error x i) as [ri|]; [|discriminate]. destruct (nth_error x j) as [rj|]; [|discriminate]. cbn. rewrite C1. cbn. rewrite C2. auto. }
  assert (K : forall f : nat -> nat -> T, forallb (fun i => forallb (fun j => same (f i j) (f j i)) (seq 0 (S n))) (seq 0 (S n)) = true <->
     forall i j, i <= n -> j <= n -> same (f i j) (f j i) = true).
  { clear. intros f. rewrite forallb_forall. setoid_rewrite forallb_forall. setoid_rewrite in_seq. split; intros K i; [intros j Hi Hj; apply K; lia|intros Hi j Hj; apply K; lia]. }
  eexists. split; [apply G; eauto|]. split; [apply K|]. intros y Hy. rewrite (transpose_of _ _ _ _ H) in Hy. injection Hy as <-.
  rewrite (G _ _ (mat_of_represents _ _ _)), (G _ _ H). f_equal. apply eq_true_iff_eq. rewrite (K (fun c r => f r c)), K. split; intros Q i j Hi Hj; apply Q; auto.
Qed.
Theorem C56_symmetric_errors : forall T (same : T -> T -> bool) x,
  (x = [] \/ (exists l, x = [] :: l) -> symmetric same x = Raise (PFAErr 24100)) /\
  (x <> [] -> (forall l, x <> [] :: l) -> ~ rectangular x -> symmetric same x = Raise (PFAErr 24101)) /\
  (forall n m f, represents x (S n) (S m) f -> n <> m -> symmetric same x = Raise (PFAErr 24102)).
Proof.
  intros T same x. destruct (guard_errors 24100 x) as [G1 G2]. unfold symmetric. split; [|split].
  - intros H. rewrite G1; auto.
  - intros H1 H2 H3. rewrite G2; auto.
  - intros n m f H N. rewrite (guard_ok _ _ _ _ _ H). cbn [rbind fst snd]. destruct (Z.eqb_spec (Z.of_nat (S n)) (Z.of_nat (S m))); [lia|]. auto.
Qed.
(** on binary64: a matrix equal to its transposed is symmetric for every positive tolerance, whatever its entries *)
Theorem C56_symmetric64 : forall tol x n, num_lt (NF (f_of_Z 0)) (NF tol) = true -> 
  (exists f, represents x (S n) (S n) f) -> transpose x = Ok x -> symmetric (same64 tol) x = Ok true.
Proof.
  intros tol x n H [f R] E. destruct (C56_symmetric _ (same64 tol) x n f R) as (b & -> & B & _). f_equal. apply B. intros i j Hi Hj.
  rewrite (transpose_of _ _ _ _ R) in E. assert (E2 : mat_of (fun c r => f r c) (S n) (S n) = x) by congruence.
  destruct R as (_ & _ & C). pose proof (C i j ltac:(lia) ltac:(lia)) as C1. rewrite <- E2, cell_mat_of in C1 by lia. injection C1 as ->. apply same64_refl. auto.
Qed.
(** with tolerance 0 the identity matrix is not symmetric *)
Theorem C56_symmetric_refuted : exists x, transpose x = Ok x /\ symmetric (same64 (f_of_Z 0)) x = Ok false.
Proof. exists [[f_of_Z 1; f_of_Z 0]; [f_of_Z 0; f_of_Z 1]]. split; vm_compute; reflexivity. Qed.
Example C56_symmetric_example :
  num_lt (NF (f_of_Z 0)) (NF (f_of_Z 1)) = true /\ transpose [[f_of_Z 1; f_of_Z 7]; [f_of_Z 7; f_of_Z 2]] = Ok [[f_of_Z 1; f_of_Z 7]; [f_of_Z 7; f_of_Z 2]] /\
  symmetric (same64 (f_of_Z 1)) [[f_of_Z 1; f_of_Z 7]; [f_of_Z 9; f_of_Z 2]] = Ok false.
Proof. vm_compute. auto. Qed.
(** la.truncate keeps the first rows *)
Theorem C56_truncate : forall T (x : list (list T)) n m f keep, represents x (S n) (S m) f ->
  exists y, truncate x keep = Ok y /\ represents y (Nat.min (Z.to_nat keep) (S n)) (S m) f.
Proof.
  intros T x n m f keep H. unfold truncate. rewrite (guard_ok _ _ _ _ _ H). cbn [rbind]. eexists. split; [reflexivity|].
  replace (Z.to_nat (if (keep <? 0)%Z then 0%Z else keep)) with (Z.to_nat keep) by (destruct (Z.ltb_spec keep 0); lia).
  destruct H as (L & W & C). split; [rewrite firstn_length; lia|]. split.
  - intros row Hr. apply W. rewrite <- (firstn_skipn (Z.to_nat keep) x). apply in_or_app. auto.
  - intros r c Hr Hc. rewrite <- (C r c) by lia. unfold cell. rewrite <- (firstn_skipn (Z.to_nat keep) x) at 2.
    rewrite nth_error_app1; [auto|]. rewrite firstn_length. lia.
Qed.
Theorem C56_truncate_errors : forall T (x : list (list T)) keep,
  (x = [] \/ (exists l, x = [] :: l) -> truncate x keep = Raise (PFAErr 24120)) /\
  (x <> [] -> (forall l, x <> [] :: l) -> ~ rectangular x -> truncate x keep = Raise (PFAErr 24121)).
Proof.
  intros T x keep. destruct (guard_errors 24120 x) as [G1 G2]. unfold truncate. split.
  - intros H. rewrite G1; auto.
  - intros H1 H2 H3. rewrite G2; auto.
Qed.

(** ** Exact arithmetic *)
Section Exact.
  Context {T : Type} (zero one : T) (add mul sub : T -> T -> T) (opp : T -> T).
  Hypothesis RT : ring_theory zero one add mul sub opp (@eq T).
  Add Ring TRing2 : RT.
  Context (nonfinite : T -> bool).
  Local Notation tot := (total zero add).
  Local Notation dot := (dot zero add mul nonfinite).
  Local Notation finite := (all_finite nonfinite).

  (** la.dot is the matrix product *)
  Theorem C56_dot : forall x y n k m f g, represents x (S n) (S k) f -> represents y (S k) (S m) g -> finite x -> finite y ->
    exists z, dot x y = Ok z /\ represents z (S n) (S m) (fun i j => tot (fun l => mul (f i l) (g l j)) (S k)).
  Proof using RT.
    intros. eexists. split; [eapply (dot_of _ _ _ _ _ _ RT); eauto|apply mat_of_represents].
  Qed.
  Theorem C56_dot_vector : forall x v n k f g, represents x (S n) (S k) f -> length v = S k -> (forall l, l <= k -> nth_error v l = Some (g l)) ->
    finite x -> finite [v] ->
    exists z, dot_vector zero add mul nonfinite x v = Ok z /\ length z = S n /\
      forall i, i <= n -> nth_error z i = Some (tot (fun l => mul (f i l) (g l)) (S k)).
  Proof using RT.
    intros x v n k f g H L V F1 F2. unfold dot_vector. rewrite (arraysToMatrix_of _ _ _ _ H). cbn [rbind].
    rewrite (proj2 (finite_spec nonfinite x) F1). apply (finite_spec nonfinite) in F2. cbn [existsb] in F2. rewrite orb_false_r in F2. rewrite F2. cbn [orb].
    unfold count. rewrite L, Z.eqb_refl. cbn [negb]. replace (_ || _)%bool with false by (symmetry; rewrite !orb_false_iff, !Z.eqb_neq; lia).
    assert (E : v = map g (seq 0 (S k))).
    { apply list_ext. intros l. rewrite nth_error_map, nth_error_seq. destruct (Nat.ltb_spec l (S k)); cbn [option_map]; [apply V; lia|apply nth_error_None; lia]. }
    eexists. split; [reflexivity|]. pose proof H as H'. destruct H' as (Lx & _). split; [rewrite map_length; auto|].
    intros i Hi. apply represents_mat_of in H. rewrite H, E. unfold mat_of. rewrite map_map, nth_error_map, nth_error_seq, (proj2 (Nat.ltb_lt i (S n))) by lia.
    cbn [option_map]. f_equal. apply (inner_total _ _ _ _ _ _ RT (f i) g).
  Qed.
  (** what is rejected: empty arguments, non-finite entries, dimensions that do not match *)
  Theorem C56_dot_errors : forall x y n k k' m f g, represents x (S n) k f -> represents y (S k') m g ->
    (k = 0 \/ m = 0 -> dot x y = Raise (PFAErr 24051)) /\
    (k <> 0 -> m <> 0 -> ~ (finite x /\ finite y) -> dot x y = Raise (PFAErr 24052)) /\
    (k <> 0 -> m <> 0 -> finite x -> finite y -> k <> S k' -> dot x y = Raise (PFAErr 24050)).
  Proof using.
    intros x y n k k' m f g H1 H2. unfold dot. rewrite (arraysToMatrix_of _ _ _ _ H1), (arraysToMatrix_of _ _ _ _ H2). cbn [rbind].
    split; [|split].
    - intros H. replace (_ || _ || _ || _)%bool with true; auto. symmetry. rewrite !orb_true_iff, !Z.eqb_eq. lia.
    - intros K M F. replace (_ || _ || _ || _)%bool with false by (symmetry; rewrite !orb_false_iff, !Z.eqb_neq; lia).
      replace (_ || _)%bool with true; auto. symmetry. destruct (existsb _ x) eqn:E1; auto. destruct (existsb _ y) eqn:E2; auto.
      exfalso. apply F. split; apply finite_spec; auto.
    - intros K M F1 F2 N. replace (_ || _ || _ || _)%bool with false by (symmetry; rewrite !orb_false_iff, !Z.eqb_neq; lia).
      rewrite (proj2 (finite_spec nonfinite x) F1), (proj2 (finite_spec nonfinite y) F2). cbn [orb].
      destruct (Z.eqb_spec (Z.of_nat k) (Z.of_nat (S k'))); [lia|]. auto.
  Qed.
  Theorem C56_dot_empty : forall x y, rectangular x -> rectangular y -> x = [] \/ y = [] -> dot x y = Raise (PFAErr 24051).
  Proof using.
    intros x y R1 R2 H. unfold dot.
    assert (G : forall w, rectangular w -> w = [] \/ exists x0 l, w = x0 :: l /\ arraysToMatrix (T := T) w = Ok (w, (count w, count x0))).
    { intros [|x0 l] R; auto. right. exists x0, l. split; auto. unfold arraysToMatrix. rewrite (proj2 (ragged_spec _) R). auto. }
    destruct (G x R1) as [-> | (x0 & l & -> & ->)]; destruct (G y R2) as [-> | (y0 & l' & -> & ->)]; cbn [rbind arraysToMatrix];
      rewrite ?orb_true_r; auto. destruct H; discriminate.
  Qed.

  Hypothesis exact : forall v, nonfinite v = false.
  Lemma exact_finite x : finite x.
  Proof using exact. intros row v _ _. apply exact. Qed.
  (** (x + y) a = x a + y a, x (a + b) = x a + x b *)
  Theorem C56_scale_distributes : forall x y n m f g a b, represents x n m f -> represents y n m g ->
    exists s, add_matrices add x y = Ok s /\
      add_matrices add (scale_matrix mul x a) (scale_matrix mul y a) = Ok (scale_matrix mul s a) /\
      add_matrices add (scale_matrix mul x a) (scale_matrix mul x b) = Ok (scale_matrix mul x (add a b)) /\
      scale_matrix mul (scale_matrix mul x a) b = scale_matrix mul x (mul a b) /\ scale_matrix mul x one = x /\
      sub_matrices sub s y = Ok x.
  Proof using RT.
    intros x y n m f g a b H1 H2.
    assert (SC : forall x f c, represents x n m f -> represents (scale_matrix mul x c) n m (fun i j => mul (f i j) c)).
    { clear. intros x f c (L & W & C). unfold scale_matrix. split; [rewrite map_length; auto|]. split.
      - intros row H. apply in_map_iff in H. destruct H as (r & <- & H). rewrite map_length. auto.
      - intros r k Hr Hk. specialize (C r k Hr Hk). unfold cell in *. rewrite nth_error_map. destruct (nth_error x r); [|discriminate]. cbn. rewrite nth_error_map, C. auto. }
    assert (AD : forall (h : T -> T -> T) code x y f g, represents x n m f -> represents y n m g -> zip_matrices h code x y = Ok (mat_of (fun i j => h (f i j) (g i j)) n m)).
    { clear. intros h code x y f g H1 H2. unfold zip_matrices. rewrite (proj2 (misaligned_spec x y) (aligned_represents _ _ _ _ _ _ H1 H2)). f_equal.
      apply represents_mat_of. apply zip_represents; auto. }
    assert (EX : forall (x y : list (list T)) f g, represents x n m f -> represents y n m g -> (forall i j, f i j = g i j) -> x = y).
    { clear. intros x y f g H1 H2 E. apply represents_mat_of in H1, H2. rewrite H1, H2. apply mat_of_ext. auto. }
    eexists. split; [eapply AD; eauto|]. unfold add_matrices, sub_matrices.
    rewrite (AD _ _ _ _ _ _ (SC _ _ a H1) (SC _ _ a H2)), (AD _ _ _ _ _ _ (SC _ _ a H1) (SC _ _ b H1)), (AD _ _ _ _ _ _ (mat_of_represents _ _ _) H2).
    split; [f_equal; eapply EX; [apply mat_of_represents|apply SC, mat_of_represents|intros; cbv beta; ring]|].
    split; [f_equal; eapply EX; [apply mat_of_represents|apply SC; eauto|intros; cbv beta; ring]|].
    split; [eapply EX; [apply SC, SC; eauto|apply SC; eauto|intros; cbv beta; ring]|].
    split; [eapply EX; [apply SC; eauto|eauto|intros; cbv beta; ring]|].
    f_equal. eapply EX; [apply mat_of_represents|eauto|intros; cbv beta; ring].
  Qed.
  (** (x y)^T = y^T x^T *)
  Theorem C56_product_transpose : forall x y n k m f g, represents x (S n) (S k) f -> represents y (S k) (S m) g ->
    exists xy xt yt xyt, dot x y = Ok xy /\ transpose x = Ok xt /\ transpose y = Ok yt /\ transpose xy = Ok xyt /\ dot yt xt = Ok xyt.
  Proof using RT exact.
    intros x y n k m f g H1 H2. do 4 eexists. split; [eapply (dot_of _ _ _ _ _ _ RT); eauto using exact_finite|].
    split; [eapply transpose_of; eauto|]. split; [eapply transpose_of; eauto|]. split; [eapply transpose_of; apply mat_of_represents|].
    rewrite (dot_of _ _ _ _ _ _ RT _ _ _ _ _ _ _ _ (mat_of_represents _ _ _) (mat_of_represents _ _ _)) by apply exact_finite.
    f_equal. apply mat_of_ext. intros r c _ _. apply total_ext. intros l _. ring.
  Qed.
  (** (x y) z = x (y z) *)
  Theorem C56_product_assoc : forall x y z n k l m f g h, represents x (S n) (S k) f -> represents y (S k) (S l) g -> represents z (S l) (S m) h ->
    exists xy yz p, dot x y = Ok xy /\ dot y z = Ok yz /\ dot xy z = Ok p /\ dot x yz = Ok p.
  Proof using RT exact.
    intros x y z n k l m f g h H1 H2 H3. do 3 eexists. split; [eapply (dot_of _ _ _ _ _ _ RT); eauto using exact_finite|].
    split; [eapply (dot_of _ _ _ _ _ _ RT); eauto using exact_finite|].
    split; [eapply (dot_of _ _ _ _ _ _ RT); [apply mat_of_represents|eauto|apply exact_finite|apply exact_finite]|].
    rewrite (dot_of _ _ _ _ _ _ RT _ _ _ _ _ _ _ _ H1 (mat_of_represents _ _ _)) by apply exact_finite.
    f_equal. apply mat_of_ext. intros r c _ _.
    rewrite (total_ext _ _ _ (fun a => tot (fun b => mul (mul (f r a) (g a b)) (h b c)) (S l))).
    2:{ intros a _. rewrite <- (total_mul_l _ _ _ _ _ _ RT). apply total_ext. intros. ring. }
    rewrite (total_swap _ _ _ _ _ _ RT). apply total_ext. intros b _. rewrite <- (total_mul_r _ _ _ _ _ _ RT). auto.
  Qed.
  (** x (y + z) = x y + x z *)
  Theorem C56_product_add : forall x y z n k m f g h, represents x (S n) (S k) f -> represents y (S k) (S m) g -> represents z (S k) (S m) h ->
    exists yz xy xz p, add_matrices add y z = Ok yz /\ dot x y = Ok xy /\ dot x z = Ok xz /\ dot x yz = Ok p /\ add_matrices add xy xz = Ok p.
  Proof using RT exact.
    intros x y z n k m f g h H1 H2 H3.
    assert (AD : forall n m x y f g, represents x n m f -> represents y n m g -> add_matrices add x y = Ok (mat_of (fun i j => add (f i j) (g i j)) n m)).
    { clear. intros n m x y f g H1 H2. unfold add_matrices, zip_matrices. rewrite (proj2 (misaligned_spec x y) (aligned_represents _ _ _ _ _ _ H1 H2)). f_equal.
      apply represents_mat_of. apply zip_represents; auto. }
    do 4 eexists. split; [eapply AD; eauto|]. split; [eapply (dot_of _ _ _ _ _ _ RT); eauto using exact_finite|].
    split; [eapply (dot_of _ _ _ _ _ _ RT); eauto using exact_finite|]. split; [eapply (dot_of _ _ _ _ _ _ RT); [eauto|apply mat_of_represents|apply exact_finite|apply exact_finite]|].
    rewrite (AD (S n) (S m) _ _ _ _ (mat_of_represents _ _ _) (mat_of_represents _ _ _)). f_equal. apply mat_of_ext. intros r c _ _.
    rewrite <- (total_add _ _ _ _ _ _ RT). apply total_ext. intros. ring.
  Qed.
  (** the trace of x y is the trace of y x *)
  Theorem C56_trace_product : forall x y n k f g, represents x (S n) (S k) f -> represents y (S k) (S n) g ->
    exists xy yx t, dot x y = Ok xy /\ dot y x = Ok yx /\ trace zero add xy = Ok t /\ trace zero add yx = Ok t.
  Proof using RT exact.
    intros x y n k f g H1 H2. do 3 eexists. split; [eapply (dot_of _ _ _ _ _ _ RT); eauto using exact_finite|].
    split; [eapply (dot_of _ _ _ _ _ _ RT); eauto using exact_finite|].
    split; [apply (trace_of zero add _ (S n) (S n)); [discriminate|apply mat_of_represents]|].
    rewrite (trace_of zero add _ (S k) (S k) _ ltac:(discriminate) (mat_of_represents _ _ _)). f_equal. rewrite !Nat.min_id.
    rewrite (total_swap _ _ _ _ _ _ RT). apply total_ext. intros i _. apply total_ext. intros j _. ring.
  Qed.
End Exact.
Example C56_dot_example :
  let x := [[1;2;3];[4;5;6]]%Z in let y := [[1;0];[2;1];[0;5]]%Z in
  let f r c := (3 * Z.of_nat r + Z.of_nat c + 1)%Z in
  represents x 2 3 f /\ LaModel.dot 0%Z Z.add Z.mul (fun _ => false) x y = Ok [[5;17];[14;35]]%Z /\
  trace 0%Z Z.add [[5;17];[14;35]]%Z = Ok 40%Z /\ LaModel.dot 0%Z Z.add Z.mul (fun _ => false) x x = Raise (PFAErr 24050).
Proof. split; [apply represents_mat_of; reflexivity|]. repeat split. Qed.
Lemma C56_ring_instance : ring_theory 0%Z 1%Z Z.add Z.mul Z.sub Z.opp (@eq Z).
Proof. exact Zth. Qed.
(** "ragged arguments are reported": not by la.dot, which lets a Python ValueError out *)
Theorem C56_dot_ragged_refuted : exists x y, ~ rectangular x /\ LaModel.dot 0%Z Z.add Z.mul (fun _ => false) x y = Raise (PyErr "ValueError").
Proof.
  exists [[1;2];[3]]%Z, [[1];[2]]%Z. split; [|reflexivity]. intros H. specialize (H [1;2]%Z [3]%Z ltac:(cbn; auto) ltac:(cbn; auto)). discriminate.
Qed.

(** ** Matrices as maps of maps *)
Section Maps.
  Context {T : Type} (zero : T) (order : list string -> list string) (En : enumerates order).
  (** la.add and la.sub of maps: absent entries count as zero; f is + or - *)
  Lemma order_in l k : In k (order l) <-> In k l.
  Proof using En. apply En. Qed.
  Lemma zip_maps_spec (f : T -> T -> T) x y : proper2 x -> proper2 y ->
    proper2 (zip_maps zero order f x y) /\
    (forall i, is_row (zip_maps zero order f x y) i <-> is_row x i \/ is_row y i) /\
    forall i j v, entry2 (zip_maps zero order f x y) i j v <->
      (is_row x i \/ is_row y i) /\ (is_col x j \/ is_col y j) /\
      exists a b, sparse2 zero x i j a /\ sparse2 zero y i j b /\ v = f a b.
  Proof using En.
    intros P1 P2. unfold zip_maps. split; [apply grid_proper; apply En|]. split.
    - intros i. unfold is_row at 1. setoid_rewrite in_map_iff. split.
      + intros (r & i' & E & H). injection E as -> _. apply order_in, in_app_iff in H. rewrite !rowKeys_spec in H. auto.
      + intros H. eexists _, i. split; [reflexivity|]. apply order_in, in_app_iff. rewrite !rowKeys_spec. auto.
    - intros i j v. rewrite (grid_entry (fun i j => f (get2 zero x i j) (get2 zero y i j))), !order_in, !in_app_iff, !rowKeys_spec, !colKeys_spec.
      assert (E : (exists a b, sparse2 zero x i j a /\ sparse2 zero y i j b /\ v = f a b) <-> v = f (get2 zero x i j) (get2 zero y i j)).
      { setoid_rewrite (get2_sparse zero x i j P1). setoid_rewrite (get2_sparse zero y i j P2). split; [intros (a & b & -> & -> & ->); auto|intros ->; eauto]. }
      rewrite E. tauto.
  Qed.
  Theorem C56_add_maps : forall add sub x y, proper2 x -> proper2 y ->
    let s := add_maps zero add order x y in let d := sub_maps zero sub order x y in
    proper2 s /\ proper2 d /\
    (forall i j v, entry2 s i j v <-> (is_row x i \/ is_row y i) /\ (is_col x j \/ is_col y j) /\
       exists a b, sparse2 zero x i j a /\ sparse2 zero y i j b /\ v = add a b) /\
    (forall i j v, entry2 d i j v <-> (is_row x i \/ is_row y i) /\ (is_col x j \/ is_col y j) /\
       exists a b, sparse2 zero x i j a /\ sparse2 zero y i j b /\ v = sub a b).
  Proof using En.
    intros add sub x y P1 P2 s d. destruct (zip_maps_spec add x y P1 P2) as (A1 & _ & A2). destruct (zip_maps_spec sub x y P1 P2) as (B1 & _ & B2). auto.
  Qed.
  (** so that as sparse matrices they add entry by entry, for every pair of keys *)
  Theorem C56_add_sparse : forall add x y i j a b, proper2 x -> proper2 y -> add zero zero = zero ->
    sparse2 zero x i j a -> sparse2 zero y i j b -> sparse2 zero (add_maps zero add order x y) i j (add a b).
  Proof using En.
    intros add x y i j a b P1 P2 Z Ha Hb. destruct (zip_maps_spec add x y P1 P2) as (A1 & _ & A2).
    unfold add_maps.
    assert (D : ((is_row x i \/ is_row y i) /\ (is_col x j \/ is_col y j)) \/ ~ ((is_row x i \/ is_row y i) /\ (is_col x j \/ is_col y j))).
    { rewrite <- !rowKeys_spec, <- !colKeys_spec, <- !in_app_iff.
      destruct (in_dec string_dec i (rowKeys x ++ rowKeys y)); destruct (in_dec string_dec j (colKeys x ++ colKeys y)); tauto. }
    destruct D as [H|H].
    - left. apply A2. destruct H as [H1 H2]. eauto 8.
    - right. split.
      + assert (a = zero /\ b = zero) as [-> ->]; auto. split.
        * destruct Ha as [Ha|[-> _]]; auto. exfalso. apply H. destruct Ha as (r & Hr & Hj). split; left; [exists r; auto|exists i, a, r; auto].
        * destruct Hb as [Hb|[-> _]]; auto. exfalso. apply H. destruct Hb as (r & Hr & Hj). split; right; [exists r; auto|exists i, b, r; auto].
      + intros u Hu. apply A2 in Hu. apply H. tauto.
  Qed.

  (** la.transpose of maps: if every row has every column, the keys are swapped; twice gives the same entries *)
  Definition full (x : list (string * list (string * T))) := forall i j, is_row x i -> is_col x j -> exists v, entry2 x i j v.
  Lemma full_not_ragged x : proper2 x -> full x -> (exists i, is_row x i) -> raggedMap x = false.
  Proof using.
    intros [N P] F (i & r0 & Hi). unfold raggedMap. destruct x as [|[k0 k] x]; [destruct Hi|]. cbn [map snd]. rewrite negb_false_iff. apply forallb_forall.
    intros c Hc. apply in_map_iff in Hc. destruct Hc as ([i' r] & <- & Hr). cbn. rewrite count_eqb. apply Nat.eqb_eq.
    assert (G : forall a ra b rb, In (a, ra) ((k0, k) :: x) -> In (b, rb) ((k0, k) :: x) -> length ra <= length rb).
    { intros a ra b rb Ha Hb. rewrite <- (map_length fst ra), <- (map_length fst rb). apply NoDup_incl_length; [eapply P; eauto|].
      intros j Hj. apply in_map_iff in Hj. destruct Hj as ([j' v] & <- & Hv). cbn.
      destruct (F b j') as (u & r' & H1 & H2); [exists rb; auto|exists a, v, ra; auto|].
      pose proof (In_assoc _ _ _ N H1) as A1. pose proof (In_assoc _ _ _ N Hb) as A2. assert (r' = rb) by congruence. subst. apply (in_map fst) in H2. auto. }
    apply Nat.le_antisymm; eapply G; [left; reflexivity|right; eauto|right; eauto|left; reflexivity].
  Qed.
  Theorem C56_transpose_maps : forall x, proper2 x -> full x -> (exists i j v, entry2 x i j v) ->
    exists y, transpose_maps order x = Ok y /\ proper2 y /\ full y /\ (forall i j v, entry2 y j i v <-> entry2 x i j v).
  Proof using zero En.
    intros x P F (i0 & j0 & v0 & E0). pose proof P as [N P2].
    assert (R0 : is_row x i0) by (destruct E0 as (r & H & _); exists r; auto).
    assert (C0 : is_col x j0) by (exists i0, v0; auto).
    assert (L : (count (order (rowKeys x)) <? 1)%Z = false /\ (count (order (colKeys x)) <? 1)%Z = false).
    { split; apply not_true_iff_false; rewrite count_lt1; intros E.
      - apply rowKeys_spec, order_in in R0. rewrite E in R0. destruct R0.
      - apply colKeys_spec, order_in in C0. rewrite E in C0. destruct C0. }
    unfold transpose_maps. destruct L as [-> ->]. cbn [orb]. rewrite full_not_ragged by eauto.
    assert (G : forall c r, In c (order (colKeys x)) -> In r (order (rowKeys x)) ->
      rbind (subscript x r) (fun row => rbind (subscript row c) (fun v => Ok (r, v))) = Ok (r, get2 zero x r c)).
    { intros c r Hc Hr. apply order_in, colKeys_spec in Hc. apply order_in, rowKeys_spec in Hr. destruct (F r c Hr Hc) as (v & row & H1 & H2).
      unfold subscript, get2, get. rewrite (In_assoc _ _ _ N H1). cbn. rewrite (In_assoc _ _ _ (P2 _ _ H1) H2). auto. }
    rewrite (rmapM_map _ (fun c => (c, map (fun r => (r, get2 zero x r c)) (order (rowKeys x))))).
    2:{ intros c Hc. rewrite (rmapM_map _ (fun r => (r, get2 zero x r c))); [reflexivity|]. intros r Hr. apply G; auto. }
    eexists. split; [reflexivity|]. split; [apply (grid_proper (fun c r => get2 zero x r c)); apply En|].
    assert (K : forall i j v, entry2 (map (fun c => (c, map (fun r => (r, get2 zero x r c)) (order (rowKeys x)))) (order (colKeys x))) j i v <-> entry2 x i j v).
    { intros i j v. rewrite (grid_entry (fun c r => get2 zero x r c)), !order_in, rowKeys_spec, colKeys_spec. split.
      - intros (Hj & Hi & ->). destruct (F i j Hi Hj) as (v & E). assert (v = get2 zero x i j) by (apply get2_sparse; auto; left; auto). subst. auto.
      - intros E. split; [exists i, v; auto|]. split; [destruct E as (r & H & _); exists r; auto|]. apply get2_sparse; auto. left; auto. }
    split; auto. intros j i Hj Hi. destruct Hi as (j' & u & Hi). apply K in Hi.
    destruct Hj as (r & Hj). apply in_map_iff in Hj. destruct Hj as (c & E & Hc). injection E as -> _. apply order_in, colKeys_spec in Hc.
    destruct (F i j) as (v & Hv); auto. { destruct Hi as (r' & H & _). exists r'. auto. } exists v. apply K. auto.
  Qed.
  Theorem C56_transpose_maps_twice : forall x y z, proper2 x -> full x -> (exists i j v, entry2 x i j v) ->
    transpose_maps order x = Ok y -> transpose_maps order y = Ok z -> forall i j v, entry2 z i j v <-> entry2 x i j v.
  Proof using zero En.
    intros x y z P F E Hy Hz i j v. destruct (C56_transpose_maps x P F E) as (y' & Ey & P' & F' & K). rewrite Hy in Ey. injection Ey as <-.
    destruct (C56_transpose_maps y P' F') as (z' & Ez & _ & _ & K'). { destruct E as (i0 & j0 & v0 & E). exists j0, i0, v0. apply K. auto. }
    rewrite Hz in Ez. injection Ez as <-. rewrite K', K. tauto.
  Qed.
  Theorem C56_transpose_maps_errors : forall x : list (string * list (string * T)),
    ((forall i j v, ~ entry2 x i j v) -> transpose_maps order x = Raise (PFAErr 24060)) /\
    ((exists i j v, entry2 x i j v) -> (exists i r i' r', In (i, r) x /\ In (i', r') x /\ length r <> length r') -> transpose_maps order x = Raise (PFAErr 24061)).
  Proof using En.
    intros x. unfold transpose_maps. split.
    - intros H. assert (E : order (colKeys x) = []).
      { destruct (order (colKeys x)) as [|c l] eqn:E; auto. assert (In c (colKeys x)) as Hc by (apply order_in; rewrite E; left; auto).
        apply colKeys_spec in Hc. destruct Hc as (i & v & Hc). exfalso. eapply H; eauto. }
      rewrite E. cbn [count length Z.of_nat Z.ltb]. rewrite orb_true_r. auto.
    - intros (i0 & j0 & v0 & E0) (i & r & i' & r' & H1 & H2 & N).
      assert (L : (count (order (rowKeys x)) <? 1)%Z = false /\ (count (order (colKeys x)) <? 1)%Z = false).
      { assert (R0 : is_row x i0) by (destruct E0 as (r0 & H & _); exists r0; auto). assert (C0 : is_col x j0) by (exists i0, v0; auto).
        split; apply not_true_iff_false; rewrite count_lt1; intros E.
        - apply rowKeys_spec, order_in in R0. rewrite E in R0. destruct R0.
        - apply colKeys_spec, order_in in C0. rewrite E in C0. destruct C0. }
      destruct L as [-> ->]. cbn [orb].
      assert (Rg : raggedMap x = true); [|rewrite Rg; auto]. unfold raggedMap. destruct x as [|[k0 k] x]; [auto|]. cbn [map snd].
      apply not_false_iff_true. rewrite negb_false_iff, forallb_forall. intros G.
      assert (Q : forall a ra, In (a, ra) ((k0, k) :: x) -> length ra = length k).
      { intros a ra [E|Ha]; [congruence|]. specialize (G (count ra)). rewrite count_eqb in G. symmetry. apply Nat.eqb_eq, G. apply in_map_iff. exists (a, ra). auto. }
      rewrite (Q _ _ H1), (Q _ _ H2) in N. congruence.
  Qed.
  (** la.symmetric of maps *)
  Theorem C56_symmetric_maps : forall same x, proper2 x ->
    ((exists i j v, entry2 x i j v) -> exists b, symmetric_maps zero order same x = Ok b /\
       (b = true <-> forall i j u v, is_row x i \/ is_col x i -> is_row x j \/ is_col x j ->
          sparse2 zero x i j u -> sparse2 zero x j i v -> same u v = true)) /\
    ((forall i j v, ~ entry2 x i j v) -> symmetric_maps zero order same x = Raise (PFAErr 24100)).
  Proof using En.
    intros same x P. unfold symmetric_maps. split.
    - intros (i0 & j0 & v0 & E0).
      assert (L : (count (order (rowKeys x ++ colKeys x)) <? 1)%Z = false).
      { apply not_true_iff_false; rewrite count_lt1; intros E. assert (R0 : is_row x i0) by (destruct E0 as (r0 & H & _); exists r0; auto).
        apply rowKeys_spec in R0. assert (In i0 (order (rowKeys x ++ colKeys x))) as G by (apply order_in, in_app_iff; auto). rewrite E in G. destruct G. }
      rewrite L. cbn [orb]. replace (forallb _ x) with false.
      2:{ symmetry. apply not_true_iff_false. rewrite forallb_forall. intros G. destruct E0 as (r & H & Hj). specialize (G _ H). cbn in G. apply count_zero in G. subst. destruct Hj. }
      eexists. split; [reflexivity|]. rewrite forallb_forall. setoid_rewrite forallb_forall. setoid_rewrite order_in. setoid_rewrite in_app_iff.
      setoid_rewrite rowKeys_spec. setoid_rewrite colKeys_spec. split.
      + intros G i j u v Hi Hj Hu Hv. apply get2_sparse in Hu, Hv; auto. subst. apply G; auto.
      + intros G i Hi j Hj. apply (G i j); auto; apply get2_sparse; auto.
    - intros H. replace (forallb _ x) with true; [rewrite orb_true_r; auto|]. symmetry. apply forallb_forall. intros [i r] Hr. cbn. apply count_zero.
      destruct r as [|[j v] r]; auto. exfalso. apply (H i j v). exists ((j, v) :: r). split; [auto|left; auto].
  Qed.
  (** la.truncate of maps keeps the wanted rows, whole *)
  Theorem C56_truncate_maps : forall x keep, proper2 x ->
    ((exists i j v, entry2 x i j v) -> exists y, truncate_maps order x keep = Ok y /\ NoDup (map fst y) /\
       forall i r, In (i, r) y <-> In (i, r) x /\ In i keep) /\
    ((forall i j v, ~ entry2 (T := T) x i j v) -> truncate_maps order x keep = Raise (PFAErr 24120)).
  Proof using En.
    intros x keep [N P]. unfold truncate_maps. split.
    - intros (i0 & j0 & v0 & E0).
      assert (L : (count (order (rowKeys x)) <? 1)%Z = false /\ (count (order (colKeys x)) <? 1)%Z = false).
      { assert (R0 : is_row x i0) by (destruct E0 as (r0 & H & _); exists r0; auto). assert (C0 : is_col x j0) by (exists i0, v0; auto).
        split; apply not_true_iff_false; rewrite count_lt1; intros E.
        - apply rowKeys_spec, order_in in R0. rewrite E in R0. destruct R0.
        - apply colKeys_spec, order_in in C0. rewrite E in C0. destruct C0. }
      destruct L as [-> ->]. cbn [orb].
      assert (G : forall l, (forall k, In k l -> is_row x k) -> rmapM (fun k => rbind (subscript x k) (fun row => Ok (k, row))) l =
         Ok (map (fun k => (k, match assoc k x with Some r => r | None => [] end)) l)).
      { intros l Hl. apply rmapM_map. intros k Hk. destruct (Hl k Hk) as (r & Hr). unfold subscript. rewrite (In_assoc _ _ _ N Hr). auto. }
      assert (M : forall k, In k (filter (fun k => existsb (String.eqb k) keep) (order (rowKeys x))) <-> is_row x k /\ In k keep).
      { intros k. rewrite filter_In, order_in, rowKeys_spec, existsb_exists. split.
        - intros (H & k' & Hk & E). apply String.eqb_eq in E. subst. auto.
        - intros [H Hk]. split; auto. exists k. split; auto. apply String.eqb_refl. }
      rewrite G by (intros k Hk; apply M in Hk; tauto). eexists. split; [reflexivity|]. split.
      + rewrite map_map. cbn. rewrite map_id. apply NoDup_filter, En.
      + intros i r. rewrite in_map_iff. split.
        * intros (k & E & Hk). injection E as <- <-. apply M in Hk. destruct Hk as [(r & Hr) Hk]. rewrite (In_assoc _ _ _ N Hr). auto.
        * intros [Hr Hi]. exists i. rewrite (In_assoc _ _ _ N Hr). split; auto. apply M. split; auto. exists r. auto.
    - intros H. assert (E : order (colKeys x) = []).
      { destruct (order (colKeys x)) as [|c l] eqn:E; auto. assert (In c (colKeys x)) as Hc by (apply order_in; rewrite E; left; auto).
        apply colKeys_spec in Hc. destruct Hc as (i & v & Hc). exfalso. eapply H; eauto. }
      rewrite E. cbn [count length Z.of_nat Z.ltb]. rewrite orb_true_r. auto.
  Qed.
End Maps.
(** rows of the same length but with different keys: a Python KeyError *)
Theorem C56_transpose_maps_refuted : exists x : list (string * list (string * Z)),
  proper2 x /\ transpose_maps (nodup string_dec) x = Raise (PyErr "KeyError").
Proof.
  exists [("a", [("u", 1%Z)]); ("b", [("v", 2%Z)])]. split; [|reflexivity]. split.
  - repeat constructor; cbn; intuition discriminate.
  - intros i r [E|[E|[]]]; injection E as <- <-; repeat constructor; cbn; auto.
Qed.
(** a sparse matrix without an entry on the diagonal: la.trace ends in a KeyError *)
Theorem C56_trace_maps_refuted : exists x : list (string * list (string * Z)),
  proper2 x /\ trace_maps 0%Z Z.add (nodup string_dec) x = Raise (PyErr "KeyError").
Proof.
  exists [("a", [("b", 1%Z)]); ("b", [("a", 2%Z)])]. split; [|reflexivity]. split.
  - repeat constructor; cbn; intuition discriminate.
  - intros i r [E|[E|[]]]; injection E as <- <-; repeat constructor; cbn; auto.
Qed.
(** la.scale, la.add and la.sub of maps, la.map of maps of maps *)
Theorem C56_scale_maps : forall T (mul : T -> T -> T) (x : list (string * list (string * T))) (u : list (string * T)) alpha,
  (map (fun r => (fst r, map fst (snd r))) (scale_maps mul x alpha) = map (fun r => (fst r, map fst (snd r))) x) /\
  (forall i j v, entry2 (scale_maps mul x alpha) i j v <-> exists a, entry2 x i j a /\ v = mul a alpha) /\
  (map fst (scale_map mul u alpha) = map fst u) /\ (forall i v, In (i, v) (scale_map mul u alpha) <-> exists a, In (i, a) u /\ v = mul a alpha).
Proof.
  intros T mul x u alpha. unfold scale_maps, scale_map, entry2. repeat split.
  - rewrite map_map. apply map_ext. intros [i r]. cbn. rewrite map_map. auto.
  - intros (r & H1 & H2). apply in_map_iff in H1. destruct H1 as ([i' r'] & E & H1). cbn in E. injection E as <- <-. apply in_map_iff in H2.
    destruct H2 as ([j' a] & E & H2). cbn in E. injection E as <- <-. eauto.
  - intros (a & (r & H1 & H2) & ->). exists (map (fun jx => (fst jx, mul (snd jx) alpha)) r). split; apply in_map_iff; [exists (i, r); auto|exists (j, a); auto].
  - rewrite map_map. auto.
  - intros H. apply in_map_iff in H. destruct H as ([i' a] & E & H). cbn in E. injection E as <- <-. eauto.
  - intros (a & H & ->). apply in_map_iff. exists (i, a). auto.
Qed.
Theorem C56_add_map : forall T (zero : T) add sub order x y, enumerates order -> NoDup (map fst x) -> NoDup (map fst y) ->
  let s := add_map zero add order x y in let d := sub_map zero sub order x y in
  NoDup (map fst s) /\ NoDup (map fst d) /\
  forall i v, (In (i, v) s <-> (In i (map fst x) \/ In i (map fst y)) /\ exists a b, sparse zero x i a /\ sparse zero y i b /\ v = add a b) /\
              (In (i, v) d <-> (In i (map fst x) \/ In i (map fst y)) /\ exists a b, sparse zero x i a /\ sparse zero y i b /\ v = sub a b).
Proof.
  intros T zero add sub order x y En N1 N2 s d. unfold s, d, add_map, sub_map, zip_map. rewrite !map_map. cbn [fst]. rewrite !map_id.
  split; [apply En|]. split; [apply En|].
  assert (G : forall (f : T -> T -> T) i v, In (i, v) (map (fun i => (i, f (get zero x i) (get zero y i))) (order (rowKeys x ++ rowKeys y))) <->
    (In i (map fst x) \/ In i (map fst y)) /\ exists a b, sparse zero x i a /\ sparse zero y i b /\ v = f a b).
  { intros f i v. rewrite in_map_iff. split.
    - intros (k & E & H). injection E as -> <-. apply En, in_app_iff in H. split; auto.
      exists (get zero x i), (get zero y i). split; [apply get_sparse; auto|]. split; [apply get_sparse; auto|auto].
    - intros (H & a & b & Ha & Hb & ->). apply get_sparse in Ha, Hb; auto. subst. exists i. split; auto. apply En, in_app_iff. auto. }
  intros i v. split; apply G.
Qed.
Definition skeleton {T} (x : list (string * list (string * T))) := map (fun r => (fst r, map fst (snd r))) x.
Definition flat_values {T} (x : list (string * list (string * T))) := concat (map (fun r => map snd (snd r)) x).
Lemma row_calls {S T} (f : T -> M S T) : forall r s s' z,
  calls (fun jx => y <~ f (snd jx) ;; ret (fst jx, y)) s r s' z <-> calls f s (map snd r) s' (map snd z) /\ map fst r = map (@fst string T) z.
Proof.
  induction r as [|[j v] r IH]; intros s s' z; cbn [map snd fst].
  - rewrite !calls_nil_inv. split; [intros [-> ->]; auto|intros [[-> H] H2]]. destruct z; [auto|discriminate].
  - rewrite !calls_cons_inv. split.
    + intros (y & s1 & ys & H1 & H2 & ->). unfold bind, ret in H1. cbn [snd fst] in H1. destruct (f v s) as [[u|e] s2] eqn:E; [|discriminate]. injection H1 as <- <-. apply IH in H2. destruct H2 as [H2 H3].
      cbn [map fst snd]. split; [exists u, s2, (map snd ys); auto|f_equal; auto].
    + intros [(y & s1 & ys & H1 & H2 & H3) H4]. destruct z as [|[j' v'] z]; [discriminate|]. cbn in H3, H4. injection H3 as <- <-. injection H4 as -> H4.
      exists (j', v'), s1, z. split; [unfold bind, ret; cbn; rewrite H1; auto|]. split; auto. apply IH. auto.
Qed.
Theorem C56_map_maps : forall S T (x : list (string * list (string * T))) (fcn : T -> M S T) s z s',
  la_map_maps x fcn s = (Ok z, s') <-> calls fcn s (flat_values x) s' (flat_values z) /\ skeleton x = skeleton z.
Proof.
  intros S T x fcn s z s'. unfold la_map_maps. rewrite mapM_ok. revert s s' z. unfold flat_values, skeleton.
  induction x as [|[i r] x IH]; intros s s' z; cbn [map snd fst concat].
  - rewrite !calls_nil_inv. split; [intros [-> ->]; auto|intros [[-> H] H2]]. destruct z; [auto|discriminate].
  - rewrite calls_cons_inv, calls_app. split.
    + intros (y & s1 & ys & H1 & H2 & ->). unfold bind at 1, ret in H1. cbn [snd fst] in H1.
      destruct (mapM _ r s) as [[u|e] s2] eqn:E; [|discriminate]. injection H1 as <- <-. apply mapM_ok, row_calls in E. destruct E as [E1 E2]. apply IH in H2. destruct H2 as [H2 H3].
      cbn [map fst snd concat]. split; [exists s2, (map snd u), (concat (map (fun r => map snd (snd r)) ys)); auto|f_equal; congruence].
    + intros [(s1 & y1 & y2 & H1 & H2 & H3) H4]. destruct z as [|[i' u] z]; [discriminate|]. cbn [map fst snd concat] in H3, H4. injection H4 as -> H4 H5.
      assert (map snd u = y1 /\ concat (map (fun r => map snd (snd r)) z) = y2) as [E1 E2].
      { apply app_inj_len; auto. rewrite (calls_length _ _ _ _ _ H1), !map_length. rewrite <- (map_length fst u), <- H4, map_length. auto. }
      subst y1 y2. exists (i', u), s1, z. split; [|split; auto; apply IH; auto]. unfold bind at 1, ret. cbn [snd fst].
      rewrite (proj2 (mapM_ok _ r s u s1)); [auto|]. apply row_calls. auto.
Qed.
Lemma C56_order_instance : enumerates (nodup string_dec).
Proof. intros l. split; [apply NoDup_nodup|intros; apply nodup_In]. Qed.
Example C56_maps_example :
  let x := [("a", [("u", 1%Z); ("v", 2%Z)]); ("b", [("v", 3%Z); ("u", 4%Z)])] in let o := nodup string_dec in
  proper2 x /\ full x /\ transpose_maps o x = Ok [("v", [("a", 2%Z); ("b", 3%Z)]); ("u", [("a", 1%Z); ("b", 4%Z)])] /\
  add_maps 0%Z Z.add o x [("c", [("u", 5%Z)])] =
    [("a", [("v", 2%Z); ("u", 1%Z)]); ("b", [("v", 3%Z); ("u", 4%Z)]); ("c", [("v", 0%Z); ("u", 5%Z)])].
Proof.
  cbn zeta. split; [|split; [|split; reflexivity]].
  - split; [repeat constructor; cbn; intuition discriminate|]. intros i r [E|[E|[]]]; injection E as <- <-; repeat constructor; cbn; intuition discriminate.
  - intros i j (r & Hr) (i' & v & r' & H1 & H2). cbn in *.
    destruct H1 as [E|[E|[]]]; injection E as <- <-; destruct H2 as [E|[E|[]]]; injection E as <- <-;
    destruct Hr as [E|[E|[]]]; injection E as <- <-; eexists; eexists; (split; [solve [left; reflexivity|right; left; reflexivity]|solve [left; reflexivity|right; left; reflexivity]]).
Qed.
(** Products and traces of maps, exact arithmetic *)
Section ExactMaps.
  Context {T : Type} (zero one : T) (add mul sub : T -> T -> T) (opp : T -> T).
  Hypothesis RT : ring_theory zero one add mul sub opp (@eq T).
  Add Ring TRing3 : RT.
  Context (order : list string -> list string) (En : enumerates order) (nonfinite : T -> bool).
  Definition finite2 (x : list (string * list (string * T))) := forall i j v, entry2 x i j v -> nonfinite v = false.
  Lemma finite2_spec x : existsb (fun r => existsb (fun z => nonfinite (snd z)) (snd r)) x = false <-> finite2 x.
  Proof using.
    unfold finite2, entry2. split.
    - intros H i j v (r & H1 & H2). destruct (nonfinite v) eqn:E; auto. rewrite <- H. symmetry. apply existsb_exists. exists (i, r). split; auto. apply existsb_exists. exists (j, v). auto.
    - intros H. destruct (existsb _ x) eqn:E; auto. apply existsb_exists in E. destruct E as ([i r] & Hr & E). apply existsb_exists in E. destruct E as ([j v] & Hv & E). cbn in E. rewrite (H i j v) in E; eauto.
  Qed.
  Lemma get2_zero_col x l : proper2 x -> ~ is_col x l -> forall i, get2 zero x i l = zero.
  Proof using.
    intros P N i. symmetry. apply get2_sparse; auto. right. split; auto. intros u Hu. apply N. exists i, u. auto.
  Qed.
  Lemma get2_zero_row x i : proper2 x -> ~ is_row x i -> forall l, get2 zero x i l = zero.
  Proof using.
    intros P N l. symmetry. apply get2_sparse; auto. right. split; auto. intros u (r & Hu & _). apply N. exists r. auto.
  Qed.
  (** la.dot of maps: the sum over any list of keys that contains the common ones *)
  Theorem C56_dot_maps : forall x y, proper2 x -> proper2 y -> finite2 x -> finite2 y ->
    (exists i j v, entry2 x i j v) -> (exists i j v, entry2 y i j v) ->
    exists z, dot_maps zero add mul order nonfinite x y = Ok z /\ proper2 z /\
      forall i j v, entry2 z i j v <-> is_row x i /\ is_col y j /\
        forall ks gx gy, NoDup ks -> (forall k, is_col x k -> is_row y k -> In k ks) ->
          (forall k, sparse2 zero x i k (gx k)) -> (forall k, sparse2 zero y k j (gy k)) ->
          v = sum_keys zero add (fun k => mul (gx k) (gy k)) ks.
  Proof using RT En.
    intros x y P1 P2 F1 F2 (i0 & j0 & v0 & E0) (i1 & j1 & v1 & E1). unfold dot_maps.
    assert (L : (count (order (rowKeys x)) =? 0)%Z = false /\ (count (order (colKeys x ++ rowKeys y)) =? 0)%Z = false /\ (count (order (colKeys y)) =? 0)%Z = false).
    { assert (R0 : is_row x i0) by (destruct E0 as (r0 & H & _); exists r0; auto). assert (C0 : is_col x j0) by (exists i0, v0; auto). assert (C1 : is_col y j1) by (exists i1, v1; auto).
      split; [|split]; apply not_true_iff_false; rewrite count_zero; intros E.
      - apply rowKeys_spec, (order_in _ En) in R0. rewrite E in R0. destruct R0.
      - apply colKeys_spec in C0. assert (In j0 (order (colKeys x ++ rowKeys y))) as G by (apply (order_in _ En), in_app_iff; auto). rewrite E in G. destruct G.
      - apply colKeys_spec, (order_in _ En) in C1. rewrite E in C1. destruct C1. }
    destruct L as (-> & -> & ->). rewrite (proj2 (finite2_spec x) F1), (proj2 (finite2_spec y) F2). cbn [orb].
    set (rows := order (rowKeys x)). set (inter := order (colKeys x ++ rowKeys y)). set (cols := order (colKeys y)).
    set (h := fun i j => sum_keys zero add (fun k => mul (get2 zero x i k) (get2 zero y k j)) inter).
    assert (E : combine rows (map (fun xi => combine cols xi) (np_dot zero add mul (mapsToMatrix zero x rows inter) (mapsToMatrix zero y inter cols) (length cols))) =
                map (fun i => (i, map (fun j => (j, h i j)) cols)) rows).
    { transitivity (combine rows (map (fun i => combine cols (map (fun j => inner zero add mul (map (fun k => get2 zero x i k) inter)
                                                                                      (column zero (mapsToMatrix zero y inter cols) j)) (seq 0 (length cols)))) rows)).
      { unfold np_dot. change (mapsToMatrix zero x rows inter) with (map (fun i => map (fun k => get2 zero x i k) inter) rows). rewrite !map_map. reflexivity. }
      rewrite combine_keys. apply map_ext. intros i. f_equal.
      rewrite <- combine_keys. f_equal.
      assert (G : forall j, inner zero add mul (map (fun k => get2 zero x i k) inter) (column zero (mapsToMatrix zero y inter cols) j) =
                  fold_right (fun k acc => add (mul (get2 zero x i k) (nth j (map (fun j => get2 zero y k j) cols) zero)) acc) zero inter).
      { intros j. unfold column, mapsToMatrix. rewrite map_map. apply inner_fold. }
      rewrite (map_ext _ _ G). clear G. apply list_ext. intros k. rewrite !nth_error_map, nth_error_seq.
      destruct (Nat.ltb_spec k (length cols)) as [Hk|Hk]; cbn [option_map Nat.add].
      - destruct (nth_error cols k) as [j|] eqn:Ej; [|apply nth_error_None in Ej; lia]. cbn [option_map]. f_equal. unfold h.
        rewrite (sum_keys_fold _ _ (fun k => mul (get2 zero x i k) (get2 zero y k j)) _ (fun a => a)).
        + rewrite map_id. auto.
        + intros a _. f_equal. apply nth_error_nth. rewrite nth_error_map, Ej. auto.
      - rewrite (proj2 (nth_error_None cols k)) by auto. auto. }
    rewrite E. eexists. split; [reflexivity|]. split; [apply grid_proper; apply En|].
    intros i j v. rewrite grid_entry. unfold rows, cols. rewrite !(order_in _ En), rowKeys_spec, colKeys_spec.
    assert (K : forall ks gx gy, NoDup ks -> (forall k, is_col x k -> is_row y k -> In k ks) ->
          (forall k, sparse2 zero x i k (gx k)) -> (forall k, sparse2 zero y k j (gy k)) -> h i j = sum_keys zero add (fun k => mul (gx k) (gy k)) ks).
    { intros ks gx gy N I X Y. unfold h.
      rewrite (sum_keys_ext _ _ (fun k => mul (gx k) (gy k)) (fun k => mul (get2 zero x i k) (get2 zero y k j))).
      2:{ intros k _. f_equal; apply get2_sparse; auto. }
      set (common := filter (fun k => existsb (String.eqb k) (rowKeys y)) (order (colKeys x))).
      assert (CM : forall k, In k common <-> is_col x k /\ is_row y k).
      { intros k. unfold common. rewrite filter_In, (order_in _ En), colKeys_spec, existsb_exists. split.
        - intros (H & k' & Hk & Ek). apply String.eqb_eq in Ek. subst. apply rowKeys_spec in Hk. auto.
        - intros [H Hk]. split; auto. exists k. split; [apply rowKeys_spec; auto|apply String.eqb_refl]. }
      assert (ZZ : forall k, ~ In k common -> mul (get2 zero x i k) (get2 zero y k j) = zero).
      { intros k Hk. rewrite CM in Hk. destruct (in_dec string_dec k (colKeys x)) as [H1|H1].
        - rewrite (get2_zero_row y k); [ring|auto|]. intros H2. apply Hk. split; auto. apply colKeys_spec. auto.
        - rewrite (get2_zero_col x k); [ring|auto|]. rewrite <- colKeys_spec. auto. }
      transitivity (sum_keys zero add (fun k => mul (get2 zero x i k) (get2 zero y k j)) common).
      - symmetry. apply (sum_keys_more _ _ _ _ _ _ RT); auto; [apply NoDup_filter, En|apply En|].
        intros k Hk. apply CM in Hk. apply (order_in _ En), in_app_iff. rewrite colKeys_spec. tauto.
      - apply (sum_keys_more _ _ _ _ _ _ RT); auto; [apply NoDup_filter, En|]. intros k Hk. apply CM in Hk. apply I; tauto. }
    split.
    - intros (H1 & H2 & ->). auto.
    - intros (H1 & H2 & H3). split; auto. split; auto. apply H3.
      + apply En.
      + intros k Hk _. apply (order_in _ En), in_app_iff. rewrite colKeys_spec. auto.
      + intros k. apply get2_sparse; auto.
      + intros k. apply get2_sparse; auto.
  Qed.
  Theorem C56_dot_map_vector : forall x y, proper2 x -> NoDup (map fst y) -> finite2 x -> (forall k v, In (k, v) y -> nonfinite v = false) ->
    (exists i, is_row x i) -> (exists j, is_col x j \/ In j (map fst y)) ->
    exists z, dot_map_vector zero add mul order nonfinite x y = Ok z /\ NoDup (map fst z) /\
      forall i v, In (i, v) z <-> is_row x i /\
        forall ks gx gy, NoDup ks -> (forall k, is_col x k -> In k (map fst y) -> In k ks) ->
          (forall k, sparse2 zero x i k (gx k)) -> (forall k, sparse zero y k (gy k)) ->
          v = sum_keys zero add (fun k => mul (gx k) (gy k)) ks.
  Proof using RT En.
    intros x y P1 P2 F1 F2 (i0 & R0) (j0 & C0). unfold dot_map_vector.
    assert (L : (count (order (rowKeys x)) =? 0)%Z = false /\ (count (order (colKeys x ++ rowKeys y)) =? 0)%Z = false).
    { split; apply not_true_iff_false; rewrite count_zero; intros E.
      - apply rowKeys_spec, (order_in _ En) in R0. rewrite E in R0. destruct R0.
      - rewrite <- colKeys_spec in C0. assert (In j0 (order (colKeys x ++ rowKeys y))) as G by (apply (order_in _ En), in_app_iff; auto). rewrite E in G. destruct G. }
    destruct L as (-> & ->). rewrite (proj2 (finite2_spec x) F1).
    assert (F3 : existsb (fun z => nonfinite (snd z)) y = false).
    { destruct (existsb _ y) eqn:E; auto. apply existsb_exists in E. destruct E as ([k v] & Hv & E). cbn in E. rewrite (F2 k v) in E; auto. }
    rewrite F3. cbn [orb].
    set (rows := order (rowKeys x)). set (cols := order (colKeys x ++ rowKeys y)).
    set (h := fun i => sum_keys zero add (fun k => mul (get2 zero x i k) (get zero y k)) cols).
    assert (E : combine rows (map (fun row => inner zero add mul row (map (get zero y) cols)) (mapsToMatrix zero x rows cols)) = map (fun i => (i, h i)) rows).
    { unfold mapsToMatrix. rewrite map_map, combine_keys. apply map_ext. intros i. f_equal. rewrite inner_fold. unfold h.
      rewrite (sum_keys_fold _ _ (fun k => mul (get2 zero x i k) (get zero y k)) _ (fun a => a)) by auto. rewrite map_id. auto. }
    rewrite E. eexists. split; [reflexivity|]. split; [rewrite map_map; cbn; rewrite map_id; apply En|].
    intros i v.
    assert (K : forall ks gx gy, NoDup ks -> (forall k, is_col x k -> In k (map fst y) -> In k ks) ->
          (forall k, sparse2 zero x i k (gx k)) -> (forall k, sparse zero y k (gy k)) -> h i = sum_keys zero add (fun k => mul (gx k) (gy k)) ks).
    { intros ks gx gy N I X Y. unfold h.
      rewrite (sum_keys_ext _ _ (fun k => mul (gx k) (gy k)) (fun k => mul (get2 zero x i k) (get zero y k))).
      2:{ intros k _. f_equal; [apply get2_sparse; auto|apply get_sparse; auto]. }
      set (common := filter (fun k => existsb (String.eqb k) (rowKeys y)) (order (colKeys x))).
      assert (CM : forall k, In k common <-> is_col x k /\ In k (map fst y)).
      { intros k. unfold common. rewrite filter_In, (order_in _ En), colKeys_spec, existsb_exists. split.
        - intros (H & k' & Hk & Ek). apply String.eqb_eq in Ek. subst. auto.
        - intros [H Hk]. split; auto. exists k. split; [auto|apply String.eqb_refl]. }
      assert (ZZ : forall k, ~ In k common -> mul (get2 zero x i k) (get zero y k) = zero).
      { intros k Hk. rewrite CM in Hk. destruct (in_dec string_dec k (colKeys x)) as [H1|H1].
        - replace (get zero y k) with zero; [ring|]. apply get_sparse; auto. right. split; auto. intros u Hu. apply Hk. split; [apply colKeys_spec; auto|]. apply (in_map fst) in Hu. auto.
        - rewrite (get2_zero_col x k); [ring|auto|]. rewrite <- colKeys_spec. auto. }
      transitivity (sum_keys zero add (fun k => mul (get2 zero x i k) (get zero y k)) common).
      - symmetry. apply (sum_keys_more _ _ _ _ _ _ RT); auto; [apply NoDup_filter, En|apply En|].
        intros k Hk. apply CM in Hk. apply (order_in _ En), in_app_iff. rewrite colKeys_spec. tauto.
      - apply (sum_keys_more _ _ _ _ _ _ RT); auto; [apply NoDup_filter, En|]. intros k Hk. apply CM in Hk. apply I; tauto. }
    rewrite in_map_iff. split.
    - intros (k & Ek & Hk). injection Ek as -> <-. apply (order_in _ En), rowKeys_spec in Hk. auto.
    - intros (H1 & H3). exists i. split; [|apply (order_in _ En), rowKeys_spec; auto]. f_equal. symmetry. apply H3.
      + apply En.
      + intros k Hk _. apply (order_in _ En), in_app_iff. rewrite colKeys_spec. auto.
      + intros k. apply get2_sparse; auto.
      + intros k. apply get_sparse; auto.
  Qed.
  Theorem C56_dot_maps_errors : forall x y,
    ((forall i j v, ~ entry2 y i j v) -> dot_maps zero add mul order nonfinite x y = Raise (PFAErr 24051)) /\
    (x = [] -> dot_maps zero add mul order nonfinite x y = Raise (PFAErr 24051)) /\
    ((exists i, is_row x i) -> (exists i j v, entry2 y i j v) -> ~ (finite2 x /\ finite2 y) -> dot_maps zero add mul order nonfinite x y = Raise (PFAErr 24052)).
  Proof using En.
    intros x y. unfold dot_maps. split; [|split].
    - intros H. assert (E : order (colKeys y) = []).
      { destruct (order (colKeys y)) as [|c l] eqn:E; auto. assert (In c (colKeys y)) as Hc by (apply (order_in _ En); rewrite E; left; auto).
        apply colKeys_spec in Hc. destruct Hc as (i & v & Hc). exfalso. eapply H; eauto. }
      rewrite E. cbn [count length Z.of_nat Z.eqb]. rewrite orb_true_r. auto.
    - intros ->. assert (E : order (rowKeys (A := list (string * T)) []) = []).
      { destruct (order _) as [|c l] eqn:E; auto. assert (In c (rowKeys (A := list (string * T)) [])) as Hc by (apply (order_in _ En); rewrite E; left; auto). destruct Hc. }
      rewrite E. auto.
    - intros (i0 & R0) (i1 & j1 & v1 & E1) F.
      assert (L : (count (order (rowKeys x)) =? 0)%Z = false /\ (count (order (colKeys x ++ rowKeys y)) =? 0)%Z = false /\ (count (order (colKeys y)) =? 0)%Z = false).
      { assert (C1 : is_col y j1) by (exists i1, v1; auto). assert (R1 : is_row y i1) by (destruct E1 as (r0 & H & _); exists r0; auto).
        split; [|split]; apply not_true_iff_false; rewrite count_zero; intros E.
        - apply rowKeys_spec, (order_in _ En) in R0. rewrite E in R0. destruct R0.
        - apply rowKeys_spec in R1. assert (In i1 (order (colKeys x ++ rowKeys y))) as G by (apply (order_in _ En), in_app_iff; auto). rewrite E in G. destruct G.
        - apply colKeys_spec, (order_in _ En) in C1. rewrite E in C1. destruct C1. }
      destruct L as (-> & -> & ->). cbn [orb]. rewrite <- !finite2_spec in F.
      destruct (existsb _ x); auto. destruct (existsb _ y); auto. exfalso; auto.
  Qed.
  (** la.trace of maps, if the common keys have diagonal entries *)
  Theorem C56_trace_maps : forall x d ks, proper2 x -> (forall i, is_row x i -> is_col x i -> entry2 x i i (d i)) ->
    NoDup ks -> (forall k, In k ks <-> is_row x k /\ is_col x k) ->
    trace_maps zero add order x = Ok (sum_keys zero add d ks).
  Proof using RT En.
    clear nonfinite. intros x d ks [N P] D Nk Hk. unfold trace_maps. set (l := order _).
    assert (Hl : forall k, In k l <-> is_row x k /\ is_col x k).
    { intros k. unfold l. rewrite (order_in _ En), filter_In, rowKeys_spec, existsb_exists. rewrite <- colKeys_spec. split.
      - intros (H & k' & H1 & E). apply String.eqb_eq in E. subst. auto.
      - intros [H H1]. split; auto. exists k. split; auto. apply String.eqb_refl. }
    rewrite (rmapM_map _ d).
    - cbn [rbind]. f_equal. unfold py_sum.
      assert (G : forall l a, fold_left add (map d l) a = add a (sum_keys zero add d l)).
      { clear -RT. induction l as [|k l IH]; intros a; cbn; [ring|]. rewrite IH. ring. }
      rewrite G. transitivity (sum_keys zero add d l); [ring|]. apply (sum_keys_perm _ _ _ _ _ _ RT). apply NoDup_Permutation; auto; [apply En|].
      intros k. rewrite Hl, Hk. tauto.
    - intros k H. apply Hl in H. destruct H as [H1 H2]. destruct (D k H1 H2) as (r & Hr & Hd). unfold subscript. rewrite (In_assoc _ _ _ N Hr). cbn.
      rewrite (In_assoc _ _ _ (P _ _ Hr) Hd). auto.
  Qed.
End ExactMaps.
Example C56_dot_maps_example :
  let x := [("a", [("u", 1%Z); ("v", 2%Z)]); ("b", [("v", 3%Z)])] in let y := [("v", [("p", 10%Z)]); ("w", [("q", 7%Z)])] in
  dot_maps 0%Z Z.add Z.mul (nodup string_dec) (fun _ => false) x y = Ok [("a", [("p", 20%Z); ("q", 0%Z)]); ("b", [("p", 30%Z); ("q", 0%Z)])] /\
  trace_maps 0%Z Z.add (nodup string_dec) [("u", [("u", 1%Z); ("v", 2%Z)]); ("b", [("v", 3%Z)])] = Ok 1%Z.
Proof. split; reflexivity. Qed.

Print Assumptions C56_transpose.
Print Assumptions C56_transpose_errors.
Print Assumptions C56_add.
Print Assumptions C56_add_vectors.
Print Assumptions C56_scale.
Print Assumptions C56_map.
Print Assumptions C56_zipmap.
Print Assumptions C56_trace.
Print Assumptions C56_trace_errors.
Print Assumptions C56_symmetric.
Print Assumptions C56_symmetric_errors.
Print Assumptions C56_symmetric64.
Print Assumptions C56_symmetric_refuted.
Print Assumptions C56_truncate.
Print Assumptions C56_truncate_errors.
Print Assumptions C56_dot.
Print Assumptions C56_dot_vector.
Print Assumptions C56_dot_errors.
Print Assumptions C56_dot_empty.
Print Assumptions C56_scale_distributes.
Print Assumptions C56_product_transpose.
Print Assumptions C56_product_assoc.
Print Assumptions C56_product_add.
Print Assumptions C56_trace_product.
Print Assumptions C56_dot_ragged_refuted.
Print Assumptions C56_add_maps.
Print Assumptions C56_add_sparse.
Print Assumptions C56_transpose_maps.
Print Assumptions C56_transpose_maps_twice.
Print Assumptions C56_transpose_maps_errors.
Print Assumptions C56_symmetric_maps.
Print Assumptions C56_truncate_maps.
Print Assumptions C56_transpose_maps_refuted.
Print Assumptions C56_trace_maps_refuted.
Print Assumptions C56_scale_maps.
Print Assumptions C56_add_map.
Print Assumptions C56_map_maps.
Print Assumptions C56_dot_maps.
Print Assumptions C56_dot_map_vector.
Print Assumptions C56_dot_maps_errors.
Print Assumptions C56_trace_maps.
