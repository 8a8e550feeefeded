(** Theorems about the array library: C18, C19, C20, C21 (sums), C27, C28, C60, C64. *)
From Verif Require Import Base Effects PyNum ArithModel ArithSpec ArithProps ArrayModel ArraySpec ArrayProofs SortProofs ArrayProofs2 ArrayProofs3.
From Coq Require Import Permutation Sorting.Sorted Factorial.
Open Scope Z_scope.

(** * C18: sorting *)
Theorem C18_sort_stable : forall A (lt : A -> A -> bool) (a : list A),
  weak_order lt -> stable_sorting lt a (a_sort lt a).
Proof. intros. apply sort_stable; auto. Qed.
(** the specification determines the result, so any stable sorting algorithm (CPython's included)
    returns the list computed by the model *)
Theorem C18_sort_unique : forall A (lt : A -> A -> bool) (a r : list A),
  weak_order lt -> (stable_sorting lt a r <-> r = a_sort lt a).
Proof.
  intros A lt a r W. split.
  - intros H. eapply stable_sorting_unique; eauto. apply sort_stable; auto.
  - intros ->. apply sort_stable; auto.
Qed.
Theorem C18_sort_permutation : forall A (lt : A -> A -> bool) (a : list A), Permutation (a_sort lt a) a.
Proof. intros. apply (insert_all_perm lt a []). Qed.
Theorem C18_sort_sorted : forall A (lt : A -> A -> bool) (a : list A), weak_order lt ->
  StronglySorted (fun x y => lt y x = false) (a_sort lt a).
Proof.
  intros A lt a W. unfold a_sort. rewrite <- sp_snd.
  apply SS_map with (R := pb lt); [|apply sp_sorted; auto].
  intros x y _ _ [H|(H & H' & _)]; auto. apply wo_asym; auto.
Qed.
(** non-vacuity: pairs compared by their first component (a weak order that is not total on pairs) *)
Definition fst_lt (p q : Z * string) : bool := fst p <? fst q.
Lemma fst_lt_weak : weak_order fst_lt.
Proof. constructor; unfold fst_lt; intros; repeat match goal with H : (_ <? _) = true |- _ => apply Z.ltb_lt in H end.
  - apply Z.ltb_irrefl.
  - apply Z.ltb_lt; lia.
  - destruct (Z.ltb_spec (fst x) (fst y)); auto. right. apply Z.ltb_lt; lia.
Qed.
Example C18_example : weak_order fst_lt /\
  a_sort fst_lt [(2,"a");(1,"b");(2,"c");(1,"d")]%string = [(1,"b");(1,"d");(2,"a");(2,"c")]%string.
Proof. split; [apply fst_lt_weak|reflexivity]. Qed.

(** * C19: top n *)
Theorem C19_argmaxN : forall A (lt : A -> A -> bool) (a : list A) n code,
  weak_order lt -> a <> [] -> 0 <= n ->
  exists l, a_argmaxN lt code a n = Ok l /\ best_positions (fun x y => lt y x) a n l.
Proof.
  intros A lt a n code W NE Hn. exists (map fst (firstn (Z.to_nat n) (sorted_pairs (fun x y => lt y x) a))).
  split.
  - unfold a_argmaxN, guard_n. destruct a; [congruence|]. destruct (Z.ltb_spec n 0); [lia|]. apply argHighestN_eq; auto.
  - apply best_positions_firstn; auto. apply weak_order_flip; auto.
Qed.
Theorem C19_argminN : forall A (lt : A -> A -> bool) (a : list A) n code,
  weak_order lt -> a <> [] -> 0 <= n ->
  exists l, a_argminN lt code a n = Ok l /\ best_positions lt a n l.
Proof.
  intros A lt a n code W NE Hn. exists (map fst (firstn (Z.to_nat n) (sorted_pairs lt a))).
  split.
  - unfold a_argminN, guard_n. destruct a; [congruence|]. destruct (Z.ltb_spec n 0); [lia|]. apply argLowestN_eq; auto.
  - apply best_positions_firstn; auto.
Qed.
(** the specification of the positions determines them *)
Theorem C19_positions_unique : forall A (lt : A -> A -> bool) (a : list A) n l l',
  weak_order lt -> best_positions lt a n l -> best_positions lt a n l' -> l = l'.
Proof. intros. eapply best_positions_unique; eauto. Qed.
(** maxN/minN return the items at those positions *)
Theorem C19_maxN_items : forall A (lt : A -> A -> bool) (a : list A) n code,
  a <> [] -> 0 <= n ->
  exists l r, a_argmaxN lt code a n = Ok l /\ a_maxN lt code a n = Ok r /\ items_at a l r.
Proof.
  intros A lt a n code NE Hn. unfold a_argmaxN, a_maxN, guard_n. destruct a; [congruence|].
  destruct (Z.ltb_spec n 0); [lia|]. rewrite argHighestN_eq, highestN_eq by auto.
  do 2 eexists. split; [reflexivity|]. split; [reflexivity|]. apply items_firstn.
Qed.
Theorem C19_minN_items : forall A (lt : A -> A -> bool) (a : list A) n code,
  a <> [] -> 0 <= n ->
  exists l r, a_argminN lt code a n = Ok l /\ a_minN lt code a n = Ok r /\ items_at a l r.
Proof.
  intros A lt a n code NE Hn. unfold a_argminN, a_minN, guard_n. destruct a; [congruence|].
  destruct (Z.ltb_spec n 0); [lia|]. rewrite argLowestN_eq, lowestN_eq by auto.
  do 2 eexists. split; [reflexivity|]. split; [reflexivity|]. apply items_firstn.
Qed.
(** minN is a prefix of the sorted array; maxN of the array sorted by the reversed order *)
Theorem C19_prefix_of_sort : forall A (lt : A -> A -> bool) (a : list A) n code,
  a <> [] -> 0 <= n ->
  a_minN lt code a n = Ok (firstn (Z.to_nat n) (a_sort lt a)) /\
  a_maxN lt code a n = Ok (firstn (Z.to_nat n) (a_sort (fun x y => lt y x) a)).
Proof.
  intros A lt a n code NE Hn. unfold a_maxN, a_minN, guard_n. destruct a; [congruence|].
  destruct (Z.ltb_spec n 0); [lia|]. rewrite lowestN_eq, highestN_eq by auto.
  unfold a_sort. rewrite <- !firstn_map, !sp_snd. auto.
Qed.
Theorem C19_errors : forall A (lt : A -> A -> bool) (a : list A) n code,
  (a = [] -> a_maxN lt code a n = Raise (PFAErr code) /\ a_minN lt code a n = Raise (PFAErr code) /\
             a_argmaxN lt code a n = Raise (PFAErr code) /\ a_argminN lt code a n = Raise (PFAErr code)) /\
  (a <> [] -> n < 0 -> a_maxN lt code a n = Raise (PFAErr (code + 1)) /\ a_minN lt code a n = Raise (PFAErr (code + 1)) /\
             a_argmaxN lt code a n = Raise (PFAErr (code + 1)) /\ a_argminN lt code a n = Raise (PFAErr (code + 1))).
Proof.
  intros. unfold a_maxN, a_minN, a_argmaxN, a_argminN, guard_n. split.
  - intros ->. auto.
  - intros NE Hn. destruct a; [congruence|]. destruct (Z.ltb_spec n 0); [auto|lia].
Qed.
Example C19_example : a_argmaxN Z.ltb 15360 [3;1;3;2;3] 2 = Ok [0;2] /\ a_maxN Z.ltb 15280 [3;1;3;2] 3 = Ok [3;3;2].
Proof. split; reflexivity. Qed.

(** * C20: extreme items *)
Theorem C20_max : forall A (lt : A -> A -> bool) (a : list A) code code', weak_order lt -> a <> [] ->
  exists i x, a_argmax lt code a = Ok i /\ a_max lt code' a = Ok x /\ at_ a i = Some x /\
    (forall y, In y a -> lt x y = false) /\
    (forall j y, at_ a j = Some y -> j < i -> lt y x = true).
Proof.
  intros A lt a code code' W NE.
  pose proof (best_positions_firstn _ (weak_order_flip lt W) a 1 ltac:(lia)) as B.
  destruct (best_one _ a _ (weak_order_flip lt W) B NE) as (i & x & E & X & R & G1 & G2).
  pose proof (items_firstn (fun x y => lt y x) a (Z.to_nat 1)) as IT.
  remember (firstn (Z.to_nat 1) (sorted_pairs (fun x y => lt y x) a)) as P eqn:EP.
  destruct P as [|[i' y] [|? ?]]; try discriminate. cbn in E. injection E as ->.
  inversion IT as [|? ? ? ? I1 I2]; subst. assert (y = x) by congruence. subst y.
  exists i, x. unfold a_argmax, a_max, guard. destruct a as [|z a]; [congruence|].
  rewrite argHighestN_eq, highestN_eq, <- EP by lia. cbn. do 3 (split; auto). split; auto.
  intros y Hy. change (In y (z :: a)) in Hy. apply In_nth_error in Hy as [k Hk]. apply (G1 (Z.of_nat k) y).
  unfold at_. destruct (Z.ltb_spec (Z.of_nat k) 0); [lia|]. rewrite Nat2Z.id. auto.
Qed.
Theorem C20_min : forall A (lt : A -> A -> bool) (a : list A) code code', weak_order lt -> a <> [] ->
  exists i x, a_argmin lt code a = Ok i /\ a_min lt code' a = Ok x /\ at_ a i = Some x /\
    (forall y, In y a -> lt y x = false) /\
    (forall j y, at_ a j = Some y -> j < i -> lt x y = true).
Proof.
  intros A lt a code code' W NE.
  pose proof (best_positions_firstn _ W a 1 ltac:(lia)) as B.
  destruct (best_one _ a _ W B NE) as (i & x & E & X & R & G1 & G2).
  pose proof (items_firstn lt a (Z.to_nat 1)) as IT.
  remember (firstn (Z.to_nat 1) (sorted_pairs lt a)) as P eqn:EP.
  destruct P as [|[i' y] [|? ?]]; try discriminate. cbn in E. injection E as ->.
  inversion IT as [|? ? ? ? I1 I2]; subst. assert (y = x) by congruence. subst y.
  exists i, x. unfold a_argmin, a_min, guard. destruct a as [|z a]; [congruence|].
  rewrite argLowestN_eq, lowestN_eq, <- EP by lia. cbn. do 3 (split; auto). split; auto.
  intros y Hy. change (In y (z :: a)) in Hy. apply In_nth_error in Hy as [k Hk]. apply (G1 (Z.of_nat k) y).
  unfold at_. destruct (Z.ltb_spec (Z.of_nat k) 0); [lia|]. rewrite Nat2Z.id. auto.
Qed.
Theorem C20_empty : forall A (lt : A -> A -> bool) code,
  a_max lt code [] = Raise (PFAErr code) /\ a_min lt code [] = Raise (PFAErr code) /\
  a_argmax lt code [] = Raise (PFAErr code) /\ a_argmin lt code [] = Raise (PFAErr code).
Proof. auto. Qed.
Example C20_example : a_argmax Z.ltb 15320 [3;5;5;2] = Ok 1 /\ a_argmin Z.ltb 15330 [3;2;5;2] = Ok 1.
Proof. split; reflexivity. Qed.

(** * C21: sums and products *)
Theorem C21_sum_int : forall a, (forall x, In x a -> fits (width TInt) x) ->
  let s := fold_right Z.add 0 a in
  (fits (width TInt) s -> a_sum TInt a = Ok s) /\ (~ fits (width TInt) s -> a_sum TInt a = Raise (PFAErr 15400)).
Proof.
  intros a _. cbn zeta. unfold a_sum. rewrite fold_add, Z.add_0_l.
  replace (zsum a) with (fold_right Z.add 0 a) by (induction a; cbn in *; congruence).
  unfold fits, range_or. destruct (Z.leb_spec INT_MIN_VALUE (fold_right Z.add 0 a)), (Z.leb_spec (fold_right Z.add 0 a) INT_MAX_VALUE);
  cbn [andb]; split; intros G; auto; exfalso; unfold INT_MIN_VALUE, INT_MAX_VALUE in *; cbn in G; lia.
Qed.
Theorem C21_sum_long : forall a, (forall x, In x a -> fits (width TLong) x) ->
  let s := fold_right Z.add 0 a in
  (fits (width TLong) s -> a_sum TLong a = Ok s) /\ (~ fits (width TLong) s -> a_sum TLong a = Raise (PFAErr 15401)).
Proof.
  intros a _. cbn zeta. unfold a_sum. rewrite fold_add, Z.add_0_l.
  replace (zsum a) with (fold_right Z.add 0 a) by (induction a; cbn in *; congruence).
  unfold fits, range_or. destruct (Z.leb_spec LONG_MIN_VALUE (fold_right Z.add 0 a)), (Z.leb_spec (fold_right Z.add 0 a) LONG_MAX_VALUE);
  cbn [andb]; split; intros G; auto; exfalso; unfold LONG_MIN_VALUE, LONG_MAX_VALUE in *; cbn in G; lia.
Qed.
Theorem C21_product_int : forall a, (forall x, In x a -> fits (width TInt) x) ->
  let s := fold_right Z.mul 1 a in
  (fits (width TInt) s -> a_product TInt a = Ok s) /\ (~ fits (width TInt) s -> a_product TInt a = Raise (PFAErr 15410)).
Proof.
  intros a _. cbn zeta. unfold a_product. rewrite fold_mul, Z.mul_1_l.
  replace (zprod a) with (fold_right Z.mul 1 a) by (induction a; cbn [fold_right zprod] in *; congruence).
  unfold fits, range_or. destruct (Z.leb_spec INT_MIN_VALUE (fold_right Z.mul 1 a)), (Z.leb_spec (fold_right Z.mul 1 a) INT_MAX_VALUE);
  cbn [andb]; split; intros G; auto; exfalso; unfold INT_MIN_VALUE, INT_MAX_VALUE in *; cbn in G; lia.
Qed.
Theorem C21_product_long : forall a, (forall x, In x a -> fits (width TLong) x) ->
  let s := fold_right Z.mul 1 a in
  (fits (width TLong) s -> a_product TLong a = Ok s) /\ (~ fits (width TLong) s -> a_product TLong a = Raise (PFAErr 15411)).
Proof.
  intros a _. cbn zeta. unfold a_product. rewrite fold_mul, Z.mul_1_l.
  replace (zprod a) with (fold_right Z.mul 1 a) by (induction a; cbn [fold_right zprod] in *; congruence).
  unfold fits, range_or. destruct (Z.leb_spec LONG_MIN_VALUE (fold_right Z.mul 1 a)), (Z.leb_spec (fold_right Z.mul 1 a) LONG_MAX_VALUE);
  cbn [andb]; split; intros G; auto; exfalso; unfold LONG_MIN_VALUE, LONG_MAX_VALUE in *; cbn in G; lia.
Qed.
Example C21_example : a_sum TInt [2147483647; 1; -1] = Ok 2147483647 /\ a_sum TInt [2147483647; 1] = Raise (PFAErr 15400).
Proof. split; reflexivity. Qed.

(** * C27: slices *)
Theorem C27_subseq : forall A (a : list A) s e,
  exists p q, cut3 a s e p (a_subseq a s e) q.
Proof. intros. apply py_slice_cut3. Qed.
Theorem C27_subseq_items : forall A (a : list A) s e k,
  at_ (a_subseq a s e) k =
  if (0 <=? k) && (k <? cut (len a) e - cut (len a) s) then at_ a (cut (len a) s + k) else None.
Proof. intros. apply subseq_nth. Qed.
Theorem C27_cut3_unique : forall A (a : list A) s e p m q p' m' q',
  cut3 a s e p m q -> cut3 a s e p' m' q' -> p = p' /\ m = m' /\ q = q'.
Proof. intros. eapply cut3_unique; eauto. Qed.
Theorem C27_subseqto : forall A (a : list A) s e r p m q,
  cut3 a s e p m q -> a_subseqto a s e r = p ++ r ++ q.
Proof. intros. eapply subseqto_cut3; eauto. Qed.
Theorem C27_subseqto_subseq : forall A (a : list A) s e, a_subseqto a s e (a_subseq a s e) = a.
Proof.
  intros. destruct (py_slice_cut3 a s e) as (p & q & C). rewrite (subseqto_cut3 _ _ _ _ _ _ _ C).
  destruct C as [C _]. symmetry. exact C.
Qed.
Theorem C27_split : forall A (a : list A) i, a_subseq a 0 i ++ a_subseq a i (a_len a) = a.
Proof.
  intros. unfold a_subseq, a_len. change (py_slice a 0 i) with (py_slice_to a i).
  change (py_slice a i (zlen a)) with (py_slice_from a i).
  rewrite py_slice_to_eq, py_slice_from_eq. apply firstn_skipn.
Qed.
Theorem C27_remove_range : forall A (a : list A) s e p m q, cut3 a s e p m q -> a_remove_range a s e = p ++ q.
Proof. intros. eapply remove_range_cut3; eauto. Qed.
Theorem C27_insert_replace_remove : forall A (p : list A) x q i y,
  valid_index (len (p ++ x :: q)) i -> len p = position (len (p ++ x :: q)) i ->
  a_insert (p ++ x :: q) i y = Ok (p ++ y :: x :: q) /\
  a_replace (p ++ x :: q) i y = Ok (p ++ y :: q) /\
  a_remove (p ++ x :: q) i = Ok (p ++ q).
Proof. intros. split; [|split]; [apply insert_ok|apply replace_ok|apply remove_ok]; auto. Qed.
Theorem C27_valid_index_splits : forall A (a : list A) i,
  valid_index (len a) i -> exists p x q, a = p ++ x :: q /\ len p = position (len a) i.
Proof. intros. apply index_split; auto. Qed.
Theorem C27_bad_index : forall A (a : list A) i y, ~ valid_index (len a) i ->
  a_insert a i y = Raise (PFAErr 15160) /\ a_replace a i y = Raise (PFAErr 15170) /\ a_remove a i = Raise (PFAErr 15180).
Proof. intros. apply irr_bad; auto. Qed.
Theorem C27_cycle : forall A (a : list A) x n,
  (n < 0 -> a_cycle a x n = Raise (PFAErr 15150)) /\
  (0 <= n -> exists p r, a_cycle a x n = Ok r /\ a ++ [x] = p ++ r /\ len r = Z.min n (len a + 1)).
Proof. intros. apply cycle_ok. Qed.
Theorem C27_rotate : forall A (a : list A) n,
  (n < 0 -> a_rotate a n = Raise (PFAErr 15190)) /\
  (0 <= n -> exists r, a_rotate a n = Ok r /\ len r = len a /\
      forall k, 0 <= k < len a -> at_ r k = at_ a ((k + n) mod len a)).
Proof. intros. apply rotate_ok. Qed.
Theorem C27_head_tail_last_init : forall A (a : list A),
  (a = [] -> a_head a = Raise (PFAErr 15020) /\ a_tail a = Raise (PFAErr 15030) /\
             a_last a = Raise (PFAErr 15040) /\ a_init a = Raise (PFAErr 15050)) /\
  (forall x q, a = x :: q -> a_head a = Ok x /\ a_tail a = Ok q) /\
  (forall p x, a = p ++ [x] -> a_last a = Ok x /\ a_init a = Ok p).
Proof. intros. apply head_tail. Qed.
Example C27_example : a_subseq [1;2;3;4;5] (-4) 100 = [2;3;4;5] /\ a_subseq [1;2;3] 2 1 = [] /\
  a_subseqto [1;2;3;4;5] (-3) (-1) [9] = [1;2;9;5] /\ cut3 [1;2;3;4;5] (-3) (-1) [1;2] [3;4] [5].
Proof. repeat split. Qed.

(** * C28: sets *)
Section C28.
  Variable A : Type.
  Variable eqb : A -> A -> bool.
  Hypothesis Q : equivalence eqb.
  Theorem C28_distinct : forall a x,
    no_repeats eqb (a_distinct eqb a) /\ (isin eqb x (a_distinct eqb a) <-> isin eqb x a).
  Proof. intros. apply distinct_spec; auto. Qed.
  Theorem C28_union : forall a b x, no_repeats eqb (a_union eqb a b) /\
    (isin eqb x (a_union eqb a b) <-> isin eqb x a \/ isin eqb x b).
  Proof. intros. apply union_spec; auto. Qed.
  Theorem C28_intersection_partial : forall a b x,
    isin eqb x (a_intersection eqb a b) <-> isin eqb x a /\ isin eqb x b.
  Proof. intros. apply intersection_spec; auto. Qed.
  Theorem C28_diff : forall a b x, (isin eqb x (a_diff eqb a b) <-> isin eqb x a /\ ~ isin eqb x b) /\
    (no_repeats eqb a -> no_repeats eqb (a_diff eqb a b)).
  Proof. intros. split; [apply diff_spec; auto|apply diff_no_repeats; auto]. Qed.
  Theorem C28_symdiff_partial : forall a b x, isin eqb x (a_symdiff eqb a b) <->
    (isin eqb x a /\ ~ isin eqb x b) \/ (isin eqb x b /\ ~ isin eqb x a).
  Proof. intros. apply symdiff_spec; auto. Qed.
  Theorem C28_subset : forall a b, a_subset eqb a b = true <-> forall x, isin eqb x a -> isin eqb x b.
  Proof. intros. apply subset_spec; auto. Qed.
  Theorem C28_seteq : forall a b, a_seteq eqb a b = true <-> forall x, isin eqb x a <-> isin eqb x b.
  Proof. intros. apply seteq_spec; auto. Qed.
  Theorem C28_disjoint : forall a b, a_disjoint eqb a b = true <-> forall x, ~ (isin eqb x a /\ isin eqb x b).
  Proof. intros. apply disjoint_spec; auto. Qed.
End C28.
Lemma Zeqb_equivalence : equivalence Z.eqb.
Proof. constructor; intros; repeat match goal with H : (_ =? _) = true |- _ => apply Z.eqb_eq in H; subst end; apply Z.eqb_refl. Qed.
(** Finding: a.intersection returns every common element (at least) twice, even when neither array
    has repeats. *)
Theorem C28_intersection_refuted : exists (a b : list Z),
  no_repeats Z.eqb a /\ no_repeats Z.eqb b /\ ~ no_repeats Z.eqb (a_intersection Z.eqb a b).
Proof.
  exists [1;2], [2;3]. cbn. unfold isin. cbn. repeat split; try (intros (y & H & E); intuition subst; discriminate).
  intros [H _]. apply H. exists 2. auto.
Qed.
(** every common item is repeated, for all arrays with at least one common item *)
Theorem C28_intersection_always_repeats : forall A (eqb : A -> A -> bool) (a b : list A),
  equivalence eqb -> (exists x, isin eqb x a /\ isin eqb x b) -> ~ no_repeats eqb (a_intersection eqb a b).
Proof.
  intros A eqb a b Q (x & Ha & Hb). unfold a_intersection.
  assert (isin eqb x (filter (fun x => py_in eqb x b) a)) as H1.
  { apply isin_filter; auto. { intros; apply py_in_resp; auto. } split; auto. apply py_in_iff; auto. }
  assert (isin eqb x (filter (fun x => py_in eqb x a) b)) as H2.
  { apply isin_filter; auto. { intros; apply py_in_resp; auto. } split; auto. apply py_in_iff; auto. }
  revert H1 H2. generalize (filter (fun x => py_in eqb x b) a) as l, (filter (fun x => py_in eqb x a) b) as l'.
  intros l l' (y & Hy & E) H2 NR. apply in_split in Hy as (l1 & l2 & ->).
  rewrite <- app_assoc in NR. induction l1; cbn in NR.
  - destruct NR as [N _]. apply N. apply isin_app; auto. right. eapply isin_eqv; eauto.
  - apply IHl1. tauto.
Qed.
Example C28_example : equivalence Z.eqb /\ a_union Z.eqb [1;2;1] [3;2] = [1;2;3] /\ a_intersection Z.eqb [1;2] [2;3] = [2;2].
Proof. split; [apply Zeqb_equivalence|split; reflexivity]. Qed.

(** * C64: searching *)
Section C64.
  Variable A : Type.
  Variable eqb : A -> A -> bool.
  Hypothesis E : forall x y, eqb x y = true <-> x = y.
  Theorem C64_contains_seq : forall h n, a_contains_seq eqb h n = true <-> exists i, occurs_at h n i.
  Proof. intros. apply contains_seq_iff; auto. Qed.
  Theorem C64_count_seq : forall h n, n <> [] ->
    exists l, NoDup l /\ (forall i, In i l <-> occurs_at h n i) /\ a_count_seq eqb h n = len l.
  Proof. intros. apply count_seq_iff; auto. Qed.
  Theorem C64_index_seq : forall h n,
    (a_index_seq eqb h n = -1 /\ forall i, ~ occurs_at h n i) \/
    (occurs_at h n (a_index_seq eqb h n) /\ forall i, occurs_at h n i -> a_index_seq eqb h n <= i).
  Proof. intros. apply index_seq_iff; auto. Qed.
  Theorem C64_rindex_seq : forall h n,
    (a_rindex_seq eqb h n = -1 /\ forall i, ~ occurs_at h n i) \/
    (occurs_at h n (a_rindex_seq eqb h n) /\ forall i, occurs_at h n i -> i <= a_rindex_seq eqb h n).
  Proof. intros. apply rindex_seq_iff; auto. Qed.
  Theorem C64_startswith : forall h n, a_startswith eqb h n = true <-> occurs_at h n 0.
  Proof. intros. apply startswith_iff; auto. Qed.
  Theorem C64_endswith : forall h n, a_endswith eqb h n = true <-> exists p, h = p ++ n.
  Proof. intros. apply endswith_iff; auto. Qed.
  Theorem C64_contains : forall h x, a_contains eqb h x = true <-> In x h.
  Proof. intros. apply contains_iff; auto. Qed.
  Theorem C64_index : forall h x,
    (a_index eqb h x = -1 /\ ~ In x h) \/
    (at_ h (a_index eqb h x) = Some x /\ forall i, at_ h i = Some x -> a_index eqb h x <= i).
  Proof. intros. apply index_iff; auto. Qed.
  Theorem C64_rindex : forall h x,
    (a_rindex eqb h x = -1 /\ ~ In x h) \/
    (at_ h (a_rindex eqb h x) = Some x /\ forall i, at_ h i = Some x -> i <= a_rindex eqb h x).
  Proof. intros. apply rindex_iff; auto. Qed.
  Theorem C64_count : forall (dec : forall x y : A, {x = y} + {x <> y}) h x,
    a_count eqb h x = Z.of_nat (count_occ dec h x).
  Proof. intros. apply count_iff; auto. Qed.
End C64.
Example C64_example : a_count_seq Z.eqb [1;1;1;2] [1;1] = 2 /\ a_rindex_seq Z.eqb [1;2;1;2] [1;2] = 2 /\ occurs_at [1;2;1;2] [1;2] 2.
Proof. split; [reflexivity|]. split; [reflexivity|]. exists [1;2], []. auto. Qed.
(** Finding: in an array of arrays, an item that is itself an array is not found. *)
Theorem C64_nested_array_refuted : exists h x, In x h /\ a_contains_dyn h x = false /\ a_index_dyn h x = -1.
Proof. exists [JList [JAtom 1]; JList [JAtom 2]], (JList [JAtom 2]). cbn. auto. Qed.

(** * C60: higher-order functions *)
Section C60.
  Variable S : Type.
  (** a.map calls the function on every item from left to right and returns the results; it fails
      exactly when some call fails, right after that call *)
  Theorem C60_map : forall A B (f : A -> M S B) a s ys s', a_map a f s = (Ok ys, s') <-> calls f s a s' ys.
  Proof. intros. apply mapM_ok. Qed.
  Theorem C60_map_raise : forall A B (f : A -> M S B) a s e s', a_map a f s = (Raise e, s') <->
    exists p x q s1 ys, a = p ++ x :: q /\ calls f s p s1 ys /\ f x s1 = (Raise e, s').
  Proof. intros. apply mapM_raise. Qed.
  Theorem C60_mapWithIndex : forall A B (f : Z -> A -> M S B) a s ys s', a_mapWithIndex a f s = (Ok ys, s') <->
    calls (fun ix => f (fst ix) (snd ix)) s (combine (map Z.of_nat (seq 0 (length a))) a) s' ys.
  Proof.
    intros. unfold a_mapWithIndex. rewrite mapM_ok. unfold enum, zrange, zlen.
    replace (map (fun i => 0 + Z.of_nat i) (seq 0 (Z.to_nat (Z.of_nat (length a) - 0)))) with (map Z.of_nat (seq 0 (length a))).
    - tauto.
    - rewrite Z.sub_0_r, Nat2Z.id. apply map_ext. intros; lia.
  Qed.
  Theorem C60_filter : forall A (f : A -> M S bool) a s r s', a_filter a f s = (Ok r, s') <->
    exists bs, calls f s a s' bs /\ r = flagged a bs.
  Proof.
    intros. rewrite filter_mapM. unfold bind. destruct (mapM f a s) as [[bs|e] s1] eqn:F; split; intros H.
    - injection H as <- <-. apply mapM_ok in F. eauto.
    - destruct H as (bs' & H & ->). apply mapM_ok in H. rewrite F in H. injection H as -> ->. reflexivity.
    - discriminate.
    - destruct H as (bs' & H & ->). apply mapM_ok in H. congruence.
  Qed.
  Theorem C60_filter_raise : forall A (f : A -> M S bool) a s e s', a_filter a f s = (Raise e, s') <->
    exists p x q s1 ys, a = p ++ x :: q /\ calls f s p s1 ys /\ f x s1 = (Raise e, s').
  Proof.
    intros. rewrite filter_mapM, <- mapM_raise. unfold bind, ret. destruct (mapM f a s) as [[bs|e'] s1]; split; congruence.
  Qed.
  Theorem C60_filterMap : forall A B (f : A -> M S (option B)) a s r s', a_filterMap a f s = (Ok r, s') <->
    exists ys, calls f s a s' ys /\ map Some r = filter (fun o => match o with Some _ => true | None => false end) ys.
  Proof.
    assert (G : forall B (ys : list (option B)), map Some (somes ys) = filter (fun o => match o with Some _ => true | None => false end) ys).
    { induction ys as [|[y|] ys IH]; cbn; [reflexivity|f_equal; exact IH|exact IH]. }
    intros. rewrite filterMap_mapM. unfold bind. destruct (mapM f a s) as [[ys|e] s1] eqn:F; split; intros H.
    - injection H as <- <-. apply mapM_ok in F. eauto.
    - destruct H as (ys' & H & E). apply mapM_ok in H. rewrite F in H. injection H as -> ->.
      rewrite <- G in E. unfold ret. do 2 f_equal.
      clear - E. revert r E. induction (somes ys'); destruct r; cbn; intros; try discriminate; auto. injection E as -> E. f_equal; auto.
    - discriminate.
    - destruct H as (bs' & H & ?). apply mapM_ok in H. congruence.
  Qed.
  Theorem C60_flatMap : forall A B (f : A -> M S (list B)) a s r s', a_flatMap a f s = (Ok r, s') <->
    exists ys, calls f s a s' ys /\ r = concat ys.
  Proof.
    intros. rewrite flatMap_mapM. unfold bind. destruct (mapM f a s) as [[bs|e] s1] eqn:F; split; intros H.
    - injection H as <- <-. apply mapM_ok in F. eauto.
    - destruct H as (bs' & H & ->). apply mapM_ok in H. rewrite F in H. injection H as -> ->. reflexivity.
    - discriminate.
    - destruct H as (bs' & H & ->). apply mapM_ok in H. congruence.
  Qed.
  Theorem C60_zipmap : forall A B C (f : A -> B -> M S C) a b s,
    (length a <> length b -> a_zipmap a b f s = (Raise (PFAErr 15650), s)) /\
    (length a = length b -> forall ys s', a_zipmap a b f s = (Ok ys, s') <-> calls (fun ab => f (fst ab) (snd ab)) s (combine a b) s' ys).
  Proof.
    intros. unfold a_zipmap. split.
    - intros N. apply Nat.eqb_neq in N. rewrite N. reflexivity.
    - intros N ys s'. apply Nat.eqb_eq in N. rewrite N. apply mapM_ok.
  Qed.
  Theorem C60_fold : forall A B (f : B -> A -> M S B) a z s b s', a_fold a z f s = (Ok b, s') <-> fold_calls f s z a s' b.
  Proof. intros. apply foldM_ok. Qed.
  Theorem C60_fold_raise : forall A B (f : B -> A -> M S B) a z s e s', a_fold a z f s = (Raise e, s') <->
    exists p x q s1 b1, a = p ++ x :: q /\ fold_calls f s z p s1 b1 /\ f b1 x s1 = (Raise e, s').
  Proof. intros. apply foldM_raise. Qed.
  Theorem C60_foldRight : forall A B (f : A -> B -> M S B) a z s b s', a_foldRight a z f s = (Ok b, s') <->
    fold_calls (fun y x => f x y) s z (rev a) s' b.
  Proof. intros. apply foldM_ok. Qed.
  Theorem C60_reduce : forall A (f : A -> A -> M S A) a s,
    (a = [] -> a_reduce a f s = (Raise (PFAErr 15670), s) /\ a_reduceRight a f s = (Raise (PFAErr 15680), s)) /\
    (forall x q, a = x :: q -> forall b s', a_reduce a f s = (Ok b, s') <-> fold_calls f s x q s' b) /\
    (forall p x, a = p ++ [x] -> forall b s', a_reduceRight a f s = (Ok b, s') <-> fold_calls (fun y z => f z y) s x (rev p) s' b).
  Proof.
    intros. split; [|split].
    - intros ->. auto.
    - intros x q -> b s'. apply foldM_ok.
    - intros p x -> b s'. unfold a_reduceRight. rewrite rev_app_distr. cbn. apply foldM_ok.
  Qed.
  (** for functions without side effects these are the usual list functions *)
  Theorem C60_pure : forall A B (f : A -> M S B) (g : A -> B) a s, is_pure f g -> a_map a f s = (Ok (map g a), s).
  Proof. intros. apply mapM_ok, calls_pure; auto. Qed.
  Theorem C60_pure_filter : forall A (f : A -> M S bool) g a s, is_pure f g -> a_filter a f s = (Ok (filter g a), s).
  Proof.
    intros A f g a s H. apply C60_filter. exists (map g a). split; [apply calls_pure; auto|].
    unfold flagged. induction a; cbn; auto. destruct (g a); cbn; congruence.
  Qed.
  Theorem C60_pure_fold : forall A B (f : B -> A -> M S B) g a z s, (forall b x s, f b x s = (Ok (g b x), s)) ->
    a_fold a z f s = (Ok (fold_left g a z), s).
  Proof. intros. apply foldM_ok, fold_calls_pure; auto. Qed.
  Theorem C60_pure_foldRight : forall A B (f : A -> B -> M S B) g a z s, (forall x b s, f x b s = (Ok (g x b), s)) ->
    a_foldRight a z f s = (Ok (fold_right g z a), s).
  Proof.
    intros. unfold a_foldRight. rewrite <- fold_left_rev_right || idtac.
    assert (fold_right g z a = fold_left (fun y x => g x y) (rev a) z) as -> by (symmetry; apply fold_left_rev_right || (rewrite <- fold_left_rev_right, rev_involutive; reflexivity)).
    apply foldM_ok, fold_calls_pure. auto.
  Qed.
  (** a.takeWhile stops calling at the first false *)
  Theorem C60_takeWhile : forall A (f : A -> M S bool) a s r s', a_takeWhile a f s = (Ok r, s') <->
    exists bs, (calls f s a s' bs /\ r = a /\ Forall (eq true) bs) \/
    (exists x q s1, a = r ++ x :: q /\ calls f s r s1 bs /\ Forall (eq true) bs /\ f x s1 = (Ok false, s')).
  Proof. intros. apply takeWhile_ok. Qed.
  Theorem C60_take_drop : forall A (f : A -> M S bool) a s,
    match a_takeWhile a f s with
    | (Ok r, s') => exists q, a = r ++ q /\ a_dropWhile a f s = (Ok q, s')
    | (Raise e, s') => a_dropWhile a f s = (Raise e, s')
    end.
  Proof. intros. apply dropWhile_take. Qed.
  Theorem C60_all : forall A (f : A -> M S bool) a s b s', a_all a f s = (Ok b, s') <->
    (b = true /\ exists bs, calls f s a s' bs /\ Forall (eq true) bs) \/
    (b = false /\ exists p x q s1 bs, a = p ++ x :: q /\ calls f s p s1 bs /\ Forall (eq true) bs /\ f x s1 = (Ok false, s')).
  Proof. intros. apply all_ok. Qed.
  Theorem C60_any : forall A (f : A -> M S bool) a s b s', a_any a f s = (Ok b, s') <->
    (b = false /\ exists bs, calls f s a s' bs /\ Forall (eq false) bs) \/
    (b = true /\ exists p x q s1 bs, a = p ++ x :: q /\ calls f s p s1 bs /\ Forall (eq false) bs /\ f x s1 = (Ok true, s')).
  Proof. intros. apply any_ok. Qed.
  Theorem C60_corresponds : forall A B (f : A -> B -> M S bool) a b s,
    (length a <> length b -> a_corresponds a b f s = (Ok false, s)) /\
    (length a = length b -> a_corresponds a b f s = a_all (combine a b) (fun ab => f (fst ab) (snd ab)) s).
  Proof.
    intros. unfold a_corresponds. split; intros N; [apply Nat.eqb_neq in N|apply Nat.eqb_eq in N]; rewrite N; reflexivity.
  Qed.
  (** a.groupby: every item lands in the group of its key, in order; no other groups *)
  Theorem C60_groupby : forall A (f : A -> M S string) a s r s', a_groupby a f s = (Ok r, s') ->
    exists ks, calls f s a s' ks /\ NoDup (keys r) /\
      forall k, (In k ks -> assoc k r = Some (flagged a (map (String.eqb k) ks))) /\ (~ In k ks -> assoc k r = None).
  Proof.
    intros A f a s r s' H. pose proof (groupby_spec f a s) as G.
    destruct (mapM f a s) as [[ks|e] s1] eqn:F; [|congruence].
    destruct G as (r' & H1 & H2). rewrite H in H1. injection H1 as -> ->.
    exists ks. split; [apply mapM_ok; auto|]. exact H2.
  Qed.
  Theorem C60_groupby_raise : forall A (f : A -> M S string) a s e s', a_groupby a f s = (Raise e, s') <->
    exists p x q s1 ys, a = p ++ x :: q /\ calls f s p s1 ys /\ f x s1 = (Raise e, s').
  Proof.
    intros. rewrite <- mapM_raise. pose proof (groupby_spec f a s) as G.
    destruct (mapM f a s) as [[ks|e'] s1] eqn:F; [|rewrite G; split; intros HH; injection HH as -> ->; reflexivity].
    destruct G as (r' & H1 & H2). rewrite H1. split; intros; discriminate.
  Qed.
End C60.
Theorem C60_flatten : forall A (a : list (list A)), a_flatten a = fold_right (@app A) [] a.
Proof. intros. unfold a_flatten. induction a; cbn; congruence. Qed.
Theorem C60_slidingWindow : forall A (a : list A) size step,
  (size < 1 -> a_slidingWindow a size step = Raise (PFAErr 15770)) /\
  (1 <= size -> step < 1 -> a_slidingWindow a size step = Raise (PFAErr 15771)) /\
  (1 <= size -> 1 <= step -> exists r, a_slidingWindow a size step = Ok r /\
     forall k w, nth_error r k = Some w <-> len w = size /\ occurs_at a w (Z.of_nat k * step)).
Proof.
  intros. unfold a_slidingWindow. split; [|split]; intros; destruct (Z.ltb_spec size 1); try lia; auto;
    destruct (Z.ltb_spec step 1); try lia; auto.
  eexists. split; [reflexivity|]. intros k w. rewrite windows_spec; auto; try lia. 2: unfold len; lia.
  rewrite Z.add_0_l. tauto.
Qed.
Theorem C60_combinations : forall A (a : list A) k,
  (k < 1 -> a_combinations a k = Raise (PFAErr 15780)) /\
  (1 <= k -> exists r, a_combinations a k = Ok r /\
     (forall c, In c r <-> sublist c a /\ len c = k) /\ length r = choose (length a) (Z.to_nat k) /\
     (NoDup a -> NoDup r)).
Proof.
  intros. unfold a_combinations. split; intros; destruct (Z.ltb_spec k 1); try lia; auto.
  eexists. split; [reflexivity|]. split; [|split].
  - intros c. rewrite combinations_iff. unfold len. split; intros [? ?]; split; auto; lia.
  - apply combinations_length.
  - apply combinations_NoDup.
Qed.
Theorem C60_permutations : forall A (a : list A),
  (forall p, In p (a_permutations a) <-> Permutation p a) /\
  length (a_permutations a) = fact (length a) /\ (NoDup a -> NoDup (a_permutations a)).
Proof.
  intros. unfold a_permutations. split; [|split].
  - intros. apply perms_iff; auto.
  - apply perms_length; auto.
  - apply perms_NoDup; auto.
Qed.
(** a function that logs its calls and fails on 0 *)
Definition log_call (x : Z) : M (list Z) Z := fun s => if x =? 0 then (Raise (UserErr "zero" None), s ++ [x]) else (Ok (10 / x), s ++ [x]).
Example C60_example : a_map [5;2;1] log_call [] = (Ok [2;5;10], [5;2;1]) /\
  a_map [5;0;1] log_call [] = (Raise (UserErr "zero" None), [5;0]) /\
  a_slidingWindow [1;2;3;4;5] 2 2 = Ok [[1;2];[3;4]] /\ a_combinations [1;2;3] 2 = Ok [[1;2];[1;3];[2;3]].
Proof. repeat split. Qed.

Print Assumptions C18_sort_unique.
Print Assumptions C19_argmaxN.
Print Assumptions C20_max.
Print Assumptions C21_sum_int.
Print Assumptions C27_subseqto.
Print Assumptions C28_union.
Print Assumptions C64_rindex_seq.
Print Assumptions C60_any.
Print Assumptions C60_permutations.
