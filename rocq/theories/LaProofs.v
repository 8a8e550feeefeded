(** Lemmas about matrices. *)
From Coq Require Import SpecFloat Ring_theory.
From Verif Require Import Base Effects ArraySpec ArrayProofs2 LaModel LaSpec.
Open Scope list_scope.
Open Scope nat_scope.

Definition mat_of {T} (f : nat -> nat -> T) n m : list (list T) := map (fun r => map (f r) (seq 0 m)) (seq 0 n).

Lemma nth_error_seq k : forall s n, nth_error (seq s n) k = if k <? n then Some (s + k) else None.
Proof.
  induction k as [|k IH]; intros s [|n]; cbn [seq nth_error]; auto.
  - change (0 <? S n) with true. cbv iota. f_equal. lia.
  - rewrite IH. replace (S k <? S n) with (k <? n) by reflexivity. replace (S s + k) with (s + S k) by lia. reflexivity.
Qed.
Lemma cell_mat_of {T} (f : nat -> nat -> T) n m r c : r < n -> c < m -> cell (mat_of f n m) r c = Some (f r c).
Proof.
  intros. unfold cell, mat_of. rewrite nth_error_map, nth_error_seq, (proj2 (Nat.ltb_lt r n)) by auto. cbn.
  rewrite nth_error_map, nth_error_seq, (proj2 (Nat.ltb_lt c m)) by auto. reflexivity.
Qed.
Lemma mat_of_represents {T} (f : nat -> nat -> T) n m : represents (mat_of f n m) n m f.
Proof.
  unfold represents. split; [unfold mat_of; rewrite map_length, seq_length; auto|]. split.
  - intros row H. apply in_map_iff in H. destruct H as (r & <- & _). rewrite map_length, seq_length. auto.
  - apply cell_mat_of.
Qed.
Lemma list_ext {A} (l l' : list A) : (forall k, nth_error l k = nth_error l' k) -> l = l'.
Proof.
  revert l'. induction l as [|a l IH]; intros [|b l'] H; auto.
  - specialize (H 0). discriminate.
  - specialize (H 0). discriminate.
  - f_equal; [specialize (H 0); injection H; auto|]. apply IH. intros k. apply (H (S k)).
Qed.
Lemma represents_mat_of {T} x n m (f : nat -> nat -> T) : represents x n m f <-> x = mat_of f n m.
Proof.
  split; [|intros ->; apply mat_of_represents]. intros (L & R & C). apply list_ext. intros r.
  unfold mat_of. rewrite nth_error_map, nth_error_seq. destruct (Nat.ltb_spec r n) as [Hr|Hr].
  - cbn. destruct (nth_error x r) as [row|] eqn:E; [|apply nth_error_None in E; lia]. f_equal.
    apply list_ext. intros c. rewrite nth_error_map, nth_error_seq.
    destruct (Nat.ltb_spec c m) as [Hc|Hc]; cbn.
    + specialize (C r c Hr Hc). unfold cell in C. rewrite E in C. auto.
    + apply nth_error_None. rewrite (R row); [auto|]. eapply nth_error_In; eauto.
  - cbn. apply nth_error_None. lia.
Qed.
Lemma mat_of_ext {T} (f g : nat -> nat -> T) n m : (forall r c, r < n -> c < m -> f r c = g r c) -> mat_of f n m = mat_of g n m.
Proof.
  intros H. unfold mat_of. apply map_ext_in. intros r Hr. apply map_ext_in. intros c Hc. apply in_seq in Hr, Hc. apply H; lia.
Qed.
Lemma rmapM_map {A B} (f : A -> res B) (g : A -> B) l : (forall a, In a l -> f a = Ok (g a)) -> rmapM f l = Ok (map g l).
Proof.
  induction l as [|a l IH]; cbn; auto. intros H. rewrite (H a) by auto. cbn. rewrite IH by auto. auto.
Qed.
Lemma cell_index {T} (x : list (list T)) r c v : cell x r c = Some v -> rbind (index x r) (fun row => index row c) = Ok v.
Proof.
  unfold cell, index. destruct (nth_error x r) as [row|]; [|discriminate]. cbn. intros ->. auto.
Qed.
Lemma fold_max_le l : forall c, (c <= fold_left Z.max l c)%Z /\ (forall z, In z l -> z <= fold_left Z.max l c)%Z.
Proof.
  induction l as [|a l IH]; intros c; cbn; [split; [lia|intros z []]|]. destruct (IH (Z.max c a)) as [H1 H2].
  split; [lia|]. intros z [<- | Hz]; [lia|auto].
Qed.
Lemma fold_min_le l : forall c, (fold_left Z.min l c <= c)%Z /\ (forall z, In z l -> fold_left Z.min l c <= z)%Z.
Proof.
  induction l as [|a l IH]; intros c; cbn; [split; [lia|intros z []]|]. destruct (IH (Z.min c a)) as [H1 H2].
  split; [lia|]. intros z [<- | Hz]; [lia|auto].
Qed.
Lemma fold_same l c : (forall z, In z l -> z = c) -> fold_left Z.max l c = c /\ fold_left Z.min l c = c.
Proof.
  induction l as [|a l IH]; cbn; auto. intros H. rewrite (H a) by auto. rewrite Z.max_id, Z.min_id. auto.
Qed.
Lemma ragged_spec {A} (x : list (list A)) : raggedArray x = false <-> rectangular x.
Proof.
  unfold raggedArray, rectangular. destruct x as [|x0 x]; cbn [map]; [split; [intros _ a b []|auto]|].
  rewrite negb_false_iff, Z.eqb_eq.
  destruct (fold_max_le (map (@count A) x) (count x0)) as [M1 M2]. destruct (fold_min_le (map (@count A) x) (count x0)) as [N1 N2].
  split.
  - intros E. assert (G : forall a, In a (x0 :: x) -> count a = count x0).
    { intros a [<- | H]; auto. pose proof (M2 (count a) (in_map _ _ _ H)). pose proof (N2 (count a) (in_map _ _ _ H)). lia. }
    intros a b Ha Hb. apply G in Ha, Hb. unfold count in *. lia.
  - intros R. destruct (fold_same (map (@count A) x) (count x0)) as [-> ->]; auto.
    intros z H. apply in_map_iff in H. destruct H as (a & <- & Ha). unfold count. rewrite (R a x0); auto; [right; auto|left; auto].
Qed.
Lemma represents_rect {T} x n m (f : nat -> nat -> T) : represents x n m f -> rectangular x.
Proof. intros (_ & R & _) a b Ha Hb. rewrite (R a), (R b); auto. Qed.
Lemma rect_represents {T} (d : T) (x : list (list T)) x0 l : x = x0 :: l -> rectangular x ->
  exists f, represents x (length x) (length x0) f.
Proof.
  intros E R. exists (fun r c => nth c (nth r x []) d). split; [auto|]. split.
  - intros row H. apply R; auto. subst. left. auto.
  - intros r c Hr Hc. unfold cell. rewrite (nth_error_nth' x []) by auto. apply nth_error_nth'.
    rewrite (R (nth r x []) x0); auto; [apply nth_In; auto|subst; left; auto].
Qed.
Lemma count_pos {A} (a : A) l : (count (a :: l) <? 1)%Z = false.
Proof. apply Z.ltb_ge. unfold count. cbn. lia. Qed.
Lemma guard_ok {T} code x n m (f : nat -> nat -> T) : represents x (S n) (S m) f ->
  guard_matrix code x = Ok (Z.of_nat (S n), Z.of_nat (S m)).
Proof.
  intros H. pose proof (represents_rect _ _ _ _ H) as R. destruct H as (L & W & _). unfold guard_matrix.
  destruct x as [|x0 x]; [discriminate|]. assert (W0 : length x0 = S m) by (apply W; left; auto).
  destruct x0 as [|a x0]; [discriminate|]. rewrite count_pos. rewrite (proj2 (ragged_spec _) R). unfold count. rewrite L, W0. auto.
Qed.
Lemma guard_inv {T} code (x : list (list T)) rc : guard_matrix code x = Ok rc ->
  exists n m f, represents x (S n) (S m) f /\ rc = (Z.of_nat (S n), Z.of_nat (S m)).
Proof.
  unfold guard_matrix. destruct x as [|[|d x0] x]; try discriminate. rewrite count_pos.
  destruct (raggedArray _) eqn:E; [discriminate|]. apply ragged_spec in E. intros H. injection H as <-.
  destruct (rect_represents d _ _ _ eq_refl E) as [f Hf]. exists (length x), (length x0), f. split; auto.
Qed.
(** exactly the three outcomes *)
Lemma guard_errors {T} code (x : list (list T)) :
  (x = [] \/ (exists l, x = [] :: l) -> guard_matrix code x = Raise (PFAErr code)) /\
  (x <> [] -> (forall l, x <> [] :: l) -> ~ rectangular x -> guard_matrix code x = Raise (PFAErr (code + 1))).
Proof.
  split.
  - intros [-> | (l & ->)]; reflexivity.
  - intros H1 H2 H3. unfold guard_matrix. destruct x as [|[|d x0] x]; [congruence|exfalso; eapply H2; eauto|].
    rewrite count_pos. destruct (raggedArray _) eqn:E; auto. apply ragged_spec in E. contradiction.
Qed.
Lemma to_nat_of n : Z.to_nat (Z.of_nat n) = n.
Proof. lia. Qed.
Lemma transpose_of {T} x n m (f : nat -> nat -> T) : represents x (S n) (S m) f -> transpose x = Ok (mat_of (fun c r => f r c) (S m) (S n)).
Proof.
  intros H. unfold transpose. rewrite (guard_ok _ _ _ _ _ H). cbn [rbind fst snd]. rewrite !to_nat_of.
  unfold mat_of. apply rmapM_map. intros c Hc. apply rmapM_map. intros r Hr. apply in_seq in Hc, Hr.
  apply cell_index. apply H; lia.
Qed.

(** ** Aligned matrices *)
Lemma count_eqb {A B} (a : list A) (b : list B) : (count a =? count b)%Z = Nat.eqb (length a) (length b).
Proof. unfold count. destruct (Nat.eqb_spec (length a) (length b)), (Z.eqb_spec (Z.of_nat (length a)) (Z.of_nat (length b))); auto; lia. Qed.
Lemma misaligned_spec {A B} (x : list (list A)) : forall y : list (list B), misaligned x y = false <-> aligned x y.
Proof.
  unfold misaligned, aligned. intros y. rewrite orb_false_iff, negb_false_iff, count_eqb, Nat.eqb_eq.
  revert y. induction x as [|a x IH]; intros [|b y]; cbn [map combine existsb length fst snd]; try (split; [intros [H _]; discriminate|discriminate]).
  { split; auto. }
  rewrite orb_false_iff, negb_false_iff, count_eqb, Nat.eqb_eq. specialize (IH y). split.
  - intros (L & E & F). rewrite E. f_equal. apply IH. auto.
  - intros H. injection H as E F. apply IH in F. destruct F. auto.
Qed.
Lemma combine_nth_error {A B} k : forall (a : list A) (b : list B),
  nth_error (combine a b) k = match nth_error a k, nth_error b k with Some u, Some v => Some (u, v) | _, _ => None end.
Proof.
  induction k as [|k IH]; intros [|u a] [|v b]; cbn; auto. destruct (nth_error a k); auto.
Qed.
Lemma aligned_zip_aligned {A B C} (f : A -> B -> C) : forall x y, aligned x y ->
  aligned x (map (fun xy => map (fun p => f (fst p) (snd p)) (combine (fst xy) (snd xy))) (combine x y)).
Proof.
  unfold aligned. induction x as [|a x IH]; intros [|b y] H; try discriminate; auto. cbn in *. injection H as E H.
  rewrite map_length, combine_length, E, Nat.min_id. f_equal. auto.
Qed.
Lemma zip_cell {A B C} (f : A -> B -> C) x y r c a b : cell x r c = Some a -> cell y r c = Some b ->
  cell (map (fun xy => map (fun p => f (fst p) (snd p)) (combine (fst xy) (snd xy))) (combine x y)) r c = Some (f a b).
Proof.
  unfold cell. destruct (nth_error x r) as [u|] eqn:E1; [|discriminate]. destruct (nth_error y r) as [v|] eqn:E2; [|discriminate].
  intros H1 H2. rewrite nth_error_map, combine_nth_error, E1, E2. cbn. rewrite nth_error_map, combine_nth_error, H1, H2. reflexivity.
Qed.
Lemma aligned_represents {A B} (x : list (list A)) (y : list (list B)) n m f g : represents x n m f -> represents y n m g -> aligned x y.
Proof.
  intros (L1 & R1 & _) (L2 & R2 & _). unfold aligned.
  assert (E1 : map (@length A) x = repeat m n). { clear -L1 R1. revert n L1. induction x; intros [|n] L1; try discriminate; auto. cbn. rewrite (R1 a) by (left; auto). f_equal. apply IHx; [intros; apply R1; right; auto|cbn in L1; congruence]. }
  assert (E2 : map (@length B) y = repeat m n). { clear -L2 R2. revert n L2. induction y; intros [|n] L2; try discriminate; auto. cbn. rewrite (R2 a) by (left; auto). f_equal. apply IHy; [intros; apply R2; right; auto|cbn in L2; congruence]. }
  congruence.
Qed.
Lemma zip_represents {A B C} (h : A -> B -> C) x y n m f g : represents x n m f -> represents y n m g ->
  represents (map (fun xy => map (fun p => h (fst p) (snd p)) (combine (fst xy) (snd xy))) (combine x y)) n m (fun r c => h (f r c) (g r c)).
Proof.
  intros H1 H2. pose proof (aligned_zip_aligned h x y (aligned_represents _ _ _ _ _ _ H1 H2)) as Al.
  destruct H1 as (L1 & R1 & C1), H2 as (L2 & R2 & C2). split; [|split].
  - rewrite map_length, combine_length. lia.
  - intros row H. apply in_map_iff in H. destruct H as ([u v] & <- & H). pose proof (in_combine_l _ _ _ _ H) as Hu. pose proof (in_combine_r _ _ _ _ H) as Hv.
    rewrite map_length, combine_length. cbn. rewrite (R1 u), (R2 v) by auto. lia.
  - intros r c Hr Hc. apply zip_cell; auto.
Qed.
(** ** Callbacks, row by row *)
Lemma app_inj_len {A} (a : list A) : forall b c d, length a = length c -> a ++ b = c ++ d -> a = c /\ b = d.
Proof. induction a as [|u a IH]; intros b [|v c] d L E; try discriminate; auto. cbn in *. injection E as -> E. destruct (IH b c d); auto. subst. auto. Qed.
Lemma calls_concat_map {S A B} (f : A -> M S B) : forall x s s' z,
  calls (fun row => mapM f row) s x s' z <-> calls f s (concat x) s' (concat z) /\ aligned x z.
Proof.
  unfold aligned. induction x as [|a x IH]; intros s s' z.
  - rewrite calls_nil_inv. cbn [concat]. rewrite calls_nil_inv. split.
    + intros [-> ->]. auto.
    + intros [[-> H] L]. destruct z; [auto|discriminate].
  - rewrite calls_cons_inv. cbn [concat]. rewrite calls_app. split.
    + intros (y & s1 & ys & H1 & H2 & ->). apply mapM_ok in H1. apply IH in H2. destruct H2 as [H2 L].
      split; [exists s1, y, (concat ys); auto|]. cbn [map]. rewrite (calls_length _ _ _ _ _ H1). f_equal. auto.
    + intros [(s1 & y1 & y2 & H1 & H2 & E) L]. destruct z as [|b z]; [discriminate|]. cbn [map] in L. injection L as L1 L2. cbn [concat] in E.
      pose proof (calls_length _ _ _ _ _ H1) as L3. assert (b = y1 /\ concat z = y2) as [-> <-].
      { apply app_inj_len; congruence. }
      exists y1, s1, z. split; [apply mapM_ok; auto|]. split; auto. apply IH. auto.
Qed.
