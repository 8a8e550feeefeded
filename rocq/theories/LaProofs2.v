(** Lemmas about sums, products and maps of maps. *)
From Coq Require Import SpecFloat Ring Ring_theory Permutation.
From Verif Require Import Base PyNum Effects StatModel ArraySpec ArrayProofs2 LaModel LaSpec LaProofs.
Open Scope list_scope.
Open Scope nat_scope.

Section Any.
  Context {T : Type} (zero : T) (add mul : T -> T -> T).
  Lemma total_ext (f g : nat -> T) n : (forall k, k < n -> f k = g k) -> total zero add f n = total zero add g n.
  Proof. induction n as [|n IH]; cbn; auto. intros H. rewrite IH, H by auto. auto. Qed.
  Lemma py_sum_total (f : nat -> T) n : py_sum zero add (map f (seq 0 n)) = total zero add f n.
  Proof.
    unfold py_sum. induction n as [|n IH]; auto. rewrite seq_S, map_app, fold_left_app. cbn [map fold_left total Nat.add]. rewrite IH. auto.
  Qed.
  Lemma trace_of x n m (f : nat -> nat -> T) : n <> 0 -> represents x n m f ->
    trace zero add x = Ok (total zero add (fun i => f i i) (Nat.min n m)).
  Proof.
    intros N H. pose proof (represents_rect _ _ _ _ H) as R. destruct H as (L & W & C). unfold trace.
    destruct x as [|x0 x]; [cbn in L; congruence|]. rewrite (proj2 (ragged_spec _) R). rewrite L, (W x0) by (left; auto).
    rewrite (rmapM_map _ (fun i => f i i)).
    - cbn [rbind]. rewrite py_sum_total. auto.
    - intros i Hi. apply in_seq in Hi. apply cell_index. apply C; lia.
  Qed.
  Lemma column_of (g : nat -> nat -> T) k m j : j < m -> column zero (mat_of g k m) j = map (fun l => g l j) (seq 0 k).
  Proof.
    intros H. unfold column, mat_of. rewrite map_map. apply map_ext. intros l.
    apply nth_error_nth. rewrite nth_error_map, nth_error_seq, (proj2 (Nat.ltb_lt j m)) by auto. reflexivity.
  Qed.
  Lemma arraysToMatrix_of x n m (f : nat -> nat -> T) : represents x (S n) m f -> arraysToMatrix x = Ok (x, (Z.of_nat (S n), Z.of_nat m)).
  Proof.
    intros H. pose proof (represents_rect _ _ _ _ H) as R. destruct H as (L & W & _). unfold arraysToMatrix.
    destruct x as [|x0 x]; [discriminate|]. rewrite (proj2 (ragged_spec _) R). unfold count. rewrite L, (W x0) by (left; auto). auto.
  Qed.
End Any.

Section Ring.
  Context {T : Type} (zero one : T) (add mul sub : T -> T -> T) (opp : T -> T).
  Hypothesis RT : ring_theory zero one add mul sub opp (@eq T).
  Add Ring TRing : RT.
  Local Notation tot := (total zero add).
  Lemma total_add f g n : tot (fun k => add (f k) (g k)) n = add (tot f n) (tot g n).
  Proof using RT. induction n as [|n IH]; cbn; [ring|]. rewrite IH. ring. Qed.
  Lemma total_mul_l a f n : tot (fun k => mul a (f k)) n = mul a (tot f n).
  Proof using RT. induction n as [|n IH]; cbn; [ring|]. rewrite IH. ring. Qed.
  Lemma total_mul_r a f n : tot (fun k => mul (f k) a) n = mul (tot f n) a.
  Proof using RT. induction n as [|n IH]; cbn; [ring|]. rewrite IH. ring. Qed.
  Lemma total_zero n : tot (fun _ => zero) n = zero.
  Proof using RT. induction n as [|n IH]; cbn; [ring|]. rewrite IH. ring. Qed.
  Lemma total_swap (f : nat -> nat -> T) n m : tot (fun i => tot (f i) m) n = tot (fun j => tot (fun i => f i j) n) m.
  Proof using RT.
    induction n as [|n IH]; cbn; [symmetry; apply total_zero|]. rewrite IH, <- total_add. auto.
  Qed.
  Lemma fold_sum_seq (h : nat -> T) n : fold_right (fun i acc => add (h i) acc) zero (seq 0 n) = tot h n.
  Proof using RT.
    induction n as [|n IH]; auto. rewrite seq_S, fold_right_app. cbn [fold_right total Nat.add]. rewrite <- IH.
    generalize (seq 0 n). intros l. induction l; cbn; [ring|]. rewrite IHl. ring.
  Qed.
  Lemma inner_fold {A} (f g : A -> T) l : inner zero add mul (map f l) (map g l) = fold_right (fun i acc => add (mul (f i) (g i)) acc) zero l.
  Proof using. unfold inner. induction l as [|a l IH]; cbn; auto. rewrite IH. auto. Qed.
  Lemma inner_total f g k : inner zero add mul (map f (seq 0 k)) (map g (seq 0 k)) = tot (fun l => mul (f l) (g l)) k.
  Proof using RT. rewrite inner_fold. apply (fold_sum_seq (fun i => mul (f i) (g i))). Qed.
  Lemma np_dot_of f g n k m : np_dot zero add mul (mat_of f n k) (mat_of g k m) m = mat_of (fun i j => tot (fun l => mul (f i l) (g l j)) k) n m.
  Proof using RT.
    transitivity (map (fun i => map (fun j => inner zero add mul (map (f i) (seq 0 k)) (column zero (mat_of g k m) j)) (seq 0 m)) (seq 0 n)).
    { unfold np_dot, mat_of. rewrite map_map. reflexivity. }
    unfold mat_of at 2. apply map_ext. intros i. apply map_ext_in. intros j Hj. apply in_seq in Hj.
    rewrite column_of by lia. apply (inner_total (f i) (fun l => g l j)).
  Qed.
  (** sums over keys do not depend on their order, nor on keys that contribute zero *)
  Lemma sum_keys_perm f l l' : Permutation l l' -> sum_keys zero add f l = sum_keys zero add f l'.
  Proof using RT. induction 1; cbn; try congruence. ring. Qed.
  Lemma sum_keys_more f l l' : NoDup l -> NoDup l' -> (forall k, In k l -> In k l') -> (forall k, In k l' -> ~ In k l -> f k = zero) ->
    sum_keys zero add f l = sum_keys zero add f l'.
  Proof using RT.
    revert l'. induction l as [|k l IH]; intros l' N N' I Z.
    - cbn. assert (G : forall k, In k l' -> f k = zero) by (intros; apply Z; auto). clear -G RT. induction l' as [|k l' IH]; cbn; auto.
      rewrite <- IH by (intros; apply G; right; auto). rewrite G by (left; auto). ring.
    - inversion N; subst. assert (Hk : In k l') by (apply I; left; auto). apply in_split in Hk. destruct Hk as (p & q & ->).
      rewrite <- (sum_keys_perm f (k :: p ++ q) (p ++ k :: q)) by apply Permutation_middle. cbn [sum_keys]. f_equal.
      pose proof (NoDup_remove_1 _ _ _ N') as N1. pose proof (NoDup_remove_2 _ _ _ N') as N2.
      apply IH; auto.
      + intros j Hj. assert (j <> k) by congruence. specialize (I j (or_intror Hj)). rewrite in_app_iff in *. cbn in I. destruct I as [|[E|]]; auto. congruence.
      + intros j Hj Nj. apply Z; [rewrite in_app_iff in *; cbn; tauto|]. intros [<- | Hj2]; auto.
  Qed.
  Lemma sum_keys_fold {A} (f : string -> T) : forall (h : A -> T) (g : A -> string) l, (forall a, In a l -> h a = f (g a)) ->
    fold_right (fun i acc => add (h i) acc) zero l = sum_keys zero add f (map g l).
  Proof using. induction l as [|a l IH]; cbn; auto. intros H. rewrite H, IH by auto. auto. Qed.
  Lemma sum_keys_ext f g l : (forall k, In k l -> f k = g k) -> sum_keys zero add f l = sum_keys zero add g l.
  Proof using. induction l as [|a l IH]; cbn; auto. intros H. rewrite H, IH by auto. auto. Qed.
  Context (nonfinite : T -> bool).
  Definition all_finite (x : list (list T)) := forall row v, In row x -> In v row -> nonfinite v = false.
  Lemma finite_spec x : existsb (existsb nonfinite) x = false <-> all_finite x.
  Proof using.
    unfold all_finite. split.
    - intros H row v Hr Hv. destruct (nonfinite v) eqn:E; auto. rewrite <- H. symmetry. apply existsb_exists. exists row. split; auto. apply existsb_exists. eauto.
    - intros H. destruct (existsb _ x) eqn:E; auto. apply existsb_exists in E. destruct E as (row & Hr & E). apply existsb_exists in E. destruct E as (v & Hv & E). rewrite (H row v) in E; auto.
  Qed.
  Lemma dot_of x y n k m f g : represents x (S n) (S k) f -> represents y (S k) (S m) g -> all_finite x -> all_finite y ->
    dot zero add mul nonfinite x y = Ok (mat_of (fun i j => tot (fun l => mul (f i l) (g l j)) (S k)) (S n) (S m)).
  Proof using RT.
    intros H1 H2 F1 F2. unfold dot. rewrite (arraysToMatrix_of _ _ _ _ H1), (arraysToMatrix_of _ _ _ _ H2). cbn [rbind].
    rewrite (proj2 (finite_spec x) F1), (proj2 (finite_spec y) F2). cbn [orb]. rewrite Z.eqb_refl. cbn [negb].
    replace (_ || _)%bool with false by (symmetry; rewrite !orb_false_iff, !Z.eqb_neq; lia).
    rewrite to_nat_of. apply represents_mat_of in H1, H2. rewrite H1, H2, np_dot_of. auto.
  Qed.
End Ring.

(** ** Maps *)
Lemma assoc_In {A} (x : list (string * A)) k v : assoc k x = Some v -> In (k, v) x.
Proof.
  induction x as [|[j u] x IH]; cbn; [discriminate|]. destruct (String.eqb_spec k j) as [->|N]; [intros H; injection H as ->; auto|auto].
Qed.
Lemma In_assoc {A} (x : list (string * A)) k v : NoDup (map fst x) -> In (k, v) x -> assoc k x = Some v.
Proof.
  induction x as [|[j u] x IH]; cbn; [intros _ []|]. intros N [E|H].
  - injection E as -> ->. rewrite String.eqb_refl. auto.
  - inversion N; subst. destruct (String.eqb_spec k j) as [->|_]; auto. exfalso. apply H2. apply (in_map fst) in H. auto.
Qed.
Lemma assoc_none {A} (x : list (string * A)) k : assoc k x = None -> forall v, ~ In (k, v) x.
Proof.
  induction x as [|[j u] x IH]; cbn; [auto|]. destruct (String.eqb_spec k j) as [->|N]; [discriminate|]. intros H v [E|Hv]; [congruence|]. eapply IH; eauto.
Qed.
Lemma get_sparse {T} (zero : T) x i : NoDup (map fst x) -> forall v, sparse zero x i v <-> v = get zero x i.
Proof.
  intros N v. unfold sparse, get. destruct (assoc i x) as [u|] eqn:E.
  - split; [|intros ->; left; apply assoc_In; auto]. intros [H|[_ H]].
    + apply In_assoc in H; auto. congruence.
    + exfalso. eapply H. apply assoc_In; eauto.
  - pose proof (assoc_none _ _ E) as G. split; [intros [H|[-> _]]; auto; exfalso; eapply G; eauto|]. intros ->. auto.
Qed.
Lemma get2_sparse {T} (zero : T) x i j : proper2 x -> forall v, sparse2 zero x i j v <-> v = get2 zero x i j.
Proof.
  intros [N P] v. unfold sparse2, get2, entry2. destruct (assoc i x) as [r|] eqn:E.
  - pose proof (assoc_In _ _ _ E) as Hr. rewrite <- (get_sparse zero r j (P _ _ Hr)). unfold sparse. split.
    + intros [(r' & H1 & H2)|[-> H]].
      * apply In_assoc in H1; auto. left. congruence.
      * right. split; auto. intros u Hu. apply (H u). eauto.
    + intros [H|[-> H]]; [left; eauto|right; split; auto]. intros u (r' & H1 & H2). apply In_assoc in H1; auto. apply (H u). congruence.
  - pose proof (assoc_none _ _ E) as G. split; [intros [(r & H & _)|[-> _]]; auto; exfalso; eapply G; eauto|].
    intros ->. right. split; auto. intros u (r & H & _). eapply G; eauto.
Qed.
Lemma rowKeys_spec {T} (x : list (string * list (string * T))) i : In i (rowKeys x) <-> is_row x i.
Proof.
  unfold rowKeys, is_row. rewrite in_map_iff. split; [intros ([j r] & <- & H); eauto|intros (r & H); exists (i, r); auto].
Qed.
Lemma colKeys_spec {T} (x : list (string * list (string * T))) j : In j (colKeys x) <-> is_col x j.
Proof.
  unfold colKeys, is_col, entry2. rewrite in_concat. split.
  - intros (l & H & Hj). apply in_map_iff in H. destruct H as ([i r] & <- & H). apply in_map_iff in Hj. destruct Hj as ([j' v] & <- & Hv). cbn. exists i, v. eauto.
  - intros (i & v & r & H1 & H2). exists (map fst r). split; [apply in_map_iff; exists (i, r); auto|apply in_map_iff; exists (j, v); auto].
Qed.
(** a map of maps given by keys and a function *)
Lemma grid_proper {T} (h : string -> string -> T) rows cols : NoDup rows -> NoDup cols ->
  proper2 (map (fun i => (i, map (fun j => (j, h i j)) cols)) rows).
Proof.
  intros R C. split.
  - rewrite map_map. cbn. rewrite map_id. auto.
  - intros i r H. apply in_map_iff in H. destruct H as (i' & E & _). injection E as <- <-. rewrite map_map. cbn. rewrite map_id. auto.
Qed.
Lemma grid_entry {T} (h : string -> string -> T) rows cols i j v :
  entry2 (map (fun i => (i, map (fun j => (j, h i j)) cols)) rows) i j v <-> In i rows /\ In j cols /\ v = h i j.
Proof.
  unfold entry2. split.
  - intros (r & H1 & H2). apply in_map_iff in H1. destruct H1 as (i' & E & Hi). injection E as <- <-.
    apply in_map_iff in H2. destruct H2 as (j' & E & Hj). injection E as <- <-. auto.
  - intros (Hi & Hj & ->). exists (map (fun j => (j, h i j)) cols). split; apply in_map_iff; eauto.
Qed.
Lemma combine_keys {A B} (h : A -> B) l : combine l (map h l) = map (fun a => (a, h a)) l.
Proof. induction l; cbn; f_equal; auto. Qed.
Lemma count_zero {A} (l : list A) : (count l =? 0)%Z = true <-> l = [].
Proof. rewrite Z.eqb_eq. unfold count. destruct l; cbn; split; auto; try lia; discriminate. Qed.
Lemma count_lt1 {A} (l : list A) : (count l <? 1)%Z = true <-> l = [].
Proof. rewrite Z.ltb_lt. unfold count. destruct l; cbn; split; auto; try lia; discriminate. Qed.

(** ** binary64 *)
Lemma fsub_self v : isnan v = false -> isinf v = false -> exists s, fsub v v = S754_zero s.
Proof.
  destruct v as [s|s| |s m e]; cbn [isnan isinf]; try discriminate; intros _ _.
  - destruct s; eexists; reflexivity.
  - unfold fsub, SFsub. rewrite Z.min_id. rewrite Z.sub_diag. eexists. reflexivity.
Qed.
Lemma same64_refl tol v : num_lt (NF (f_of_Z 0)) (NF tol) = true -> same64 tol v v = true.
Proof.
  intros H. unfold same64. destruct (isinf v) eqn:I.
  - destruct v as [s|s| |s m e]; try discriminate. destruct s; reflexivity.
  - destruct (isnan v) eqn:N; [reflexivity|]. cbn [andb negb]. destruct (fsub_self v N I) as [s ->]. cbn [SFabs]. exact H.
Qed.
