From Verif Require Import Base Effects PyNum ArithModel ArithSpec ArrayModel ArraySpec.
From Coq Require Import Permutation Sorting.Sorted.
Open Scope Z_scope.

(** ** lengths, slices *)
Lemma zlen_len {A} (a : list A) : zlen a = len a. Proof. reflexivity. Qed.
Lemma len_nonneg {A} (a : list A) : 0 <= len a. Proof. unfold len; lia. Qed.
Lemma len_app {A} (a b : list A) : len (a ++ b) = len a + len b.
Proof. unfold len. rewrite app_length. lia. Qed.
Lemma len_cons {A} (x : A) b : len (x :: b) = 1 + len b.
Proof. unfold len. cbn [length]. lia. Qed.
Lemma len_nil {A} : len (@nil A) = 0. Proof. reflexivity. Qed.

Lemma slice_adjust_cut n i : 0 <= n -> slice_adjust n i = cut n i.
Proof.
  intros. unfold slice_adjust, cut.
  repeat match goal with |- context [?a <? ?b] => destruct (Z.ltb_spec a b) end; lia.
Qed.
Lemma cut_range n i : 0 <= n -> 0 <= cut n i <= n.
Proof. unfold cut. lia. Qed.
Lemma cut_id n i : 0 <= i <= n -> cut n i = i.
Proof. unfold cut. destruct (Z.ltb_spec i 0); lia. Qed.

Lemma py_slice_eq {A} (a : list A) s e :
  py_slice a s e = firstn (Z.to_nat (cut (len a) e - cut (len a) s)) (skipn (Z.to_nat (cut (len a) s)) a).
Proof.
  unfold py_slice. rewrite !zlen_len, !slice_adjust_cut by apply len_nonneg. reflexivity.
Qed.
Lemma py_slice_to_eq {A} (a : list A) e : py_slice_to a e = firstn (Z.to_nat (cut (len a) e)) a.
Proof.
  unfold py_slice_to. rewrite py_slice_eq. rewrite (cut_id _ 0) by (pose proof (len_nonneg a); lia).
  cbn [Z.to_nat skipn]. f_equal. f_equal. lia.
Qed.
Lemma py_slice_from_eq {A} (a : list A) s : py_slice_from a s = skipn (Z.to_nat (cut (len a) s)) a.
Proof.
  unfold py_slice_from. rewrite py_slice_eq. change (zlen a) with (len a). pose proof (len_nonneg a).
  rewrite (cut_id _ (len a)) by lia.
  pose proof (cut_range (len a) s H).
  rewrite firstn_all2; auto. rewrite skipn_length. unfold len in *. lia.
Qed.

Lemma py_slice_cut3 {A} (a : list A) s e :
  exists p q, cut3 a s e p (py_slice a s e) q.
Proof.
  rewrite py_slice_eq. pose proof (len_nonneg a) as Hn.
  pose proof (cut_range (len a) s Hn). pose proof (cut_range (len a) e Hn).
  set (i := cut (len a) s) in *. set (j := cut (len a) e) in *.
  exists (firstn (Z.to_nat i) a), (skipn (Z.to_nat (j - i)) (skipn (Z.to_nat i) a)).
  unfold cut3. fold i j. split; [|split].
  - rewrite firstn_skipn, firstn_skipn. reflexivity.
  - unfold len in *. rewrite firstn_length. lia.
  - rewrite len_app. unfold len in *. rewrite !firstn_length, skipn_length. lia.
Qed.

Lemma cut3_unique {A} (a : list A) s e p m q p' m' q' :
  cut3 a s e p m q -> cut3 a s e p' m' q' -> p = p' /\ m = m' /\ q = q'.
Proof.
  intros (E & L1 & L2) (E' & L1' & L2').
  assert (length p = length p') by (unfold len in *; lia).
  rewrite len_app in L2, L2'.
  assert (length m = length m') by (unfold len in *; lia).
  rewrite E in E'. apply app_inv_head_iff || idtac.
  assert (p = p' /\ m ++ q = m' ++ q') as [-> E2].
  { clear - H E'. revert p' H E'. induction p; destruct p'; cbn; intros; try discriminate; auto.
    injection E' as -> E'. apply IHp in E' as [-> ->]; auto. }
  assert (m = m' /\ q = q') as [-> ->]; auto.
  { clear - H0 E2. revert m' H0 E2. induction m; destruct m'; cbn; intros; try discriminate; auto.
    injection E2 as -> E2. apply IHm in E2 as [-> ->]; auto. }
Qed.

Lemma subseqto_cut3 {A} (a : list A) s e r p m q :
  cut3 a s e p m q -> a_subseqto a s e r = p ++ r ++ q.
Proof.
  intros C. unfold a_subseqto. rewrite zlen_len.
  pose proof (len_nonneg a) as Hn.
  assert (start_end (len a) s e = (cut (len a) s, Z.max (cut (len a) s) (cut (len a) e))) as ->.
  { unfold start_end, cut.
    destruct (Z.leb_spec 0 s), (Z.ltb_spec s 0), (Z.leb_spec 0 e), (Z.ltb_spec e 0); try lia;
    repeat match goal with |- context [if ?a <? ?b then _ else _] =>
      lazymatch a with context [if _ then _ else _] => fail | _ =>
      lazymatch b with context [if _ then _ else _] => fail | _ =>
        destruct (Z.ltb_spec a b) end end end;
    f_equal; lia. }
  rewrite py_slice_to_eq, py_slice_from_eq.
  destruct C as (E & L1 & L2).
  pose proof (cut_range (len a) s Hn). pose proof (cut_range (len a) e Hn).
  rewrite (cut_id _ (cut (len a) s)) by lia. rewrite (cut_id _ (Z.max _ _)) by lia.
  rewrite <- L2, <- L1. rewrite E.
  unfold len. rewrite !Nat2Z.id.
  rewrite firstn_app, firstn_all, Nat.sub_diag, firstn_O, app_nil_r.
  do 2 f_equal. replace (p ++ m ++ q) with ((p ++ m) ++ q) by (symmetry; apply app_assoc).
  rewrite skipn_app, skipn_all, Nat.sub_diag. reflexivity.
Qed.

Lemma remove_range_cut3 {A} (a : list A) s e p m q :
  cut3 a s e p m q -> a_remove_range a s e = p ++ q.
Proof.
  intros C. change (p ++ q) with (p ++ [] ++ q). rewrite <- (subseqto_cut3 a s e [] p m q C).
  unfold a_subseqto, a_remove_range. destruct (start_end _ _ _). reflexivity.
Qed.

Lemma subseq_nth {A} (a : list A) s e k :
  at_ (a_subseq a s e) k =
  if (0 <=? k) && (k <? cut (len a) e - cut (len a) s) then at_ a (cut (len a) s + k) else None.
Proof.
  unfold a_subseq. destruct (py_slice_cut3 a s e) as (p & q & E & L1 & L2).
  set (m := py_slice a s e) in *. rewrite len_app in L2.
  assert (len m = Z.max 0 (cut (len a) e - cut (len a) s)) as Lm by lia.
  rewrite <- L1 in *. unfold at_.
  destruct (Z.leb_spec 0 k), (Z.ltb_spec k 0); try lia; cbn; auto.
  destruct (Z.ltb_spec k (cut (len a) e - len p)); cbn.
  - destruct (Z.ltb_spec (len p + k) 0); [pose proof (len_nonneg p); lia|].
    rewrite E. rewrite nth_error_app2 by (unfold len; lia).
    rewrite nth_error_app1 by (unfold len in *; lia). f_equal. unfold len. lia.
  - apply nth_error_None. unfold len in *; lia.
Qed.

(** splitting at a valid item index *)
Lemma index_split {A} (a : list A) i :
  valid_index (len a) i -> exists p x q, a = p ++ x :: q /\ len p = position (len a) i.
Proof.
  intros V. unfold valid_index, position in *.
  set (j := if i <? 0 then len a + i else i) in *.
  assert (0 <= j < len a) by (unfold j; destruct (Z.ltb_spec i 0); lia).
  destruct (nth_error a (Z.to_nat j)) eqn:E.
  - apply nth_error_split in E as (p & q & -> & L). exists p, a0, q. split; auto.
    unfold len. lia.
  - apply nth_error_None in E. unfold len in *. lia.
Qed.
Lemma negative_index_position n i : negative_index n i = position n i.
Proof. unfold negative_index, position. destruct (Z.leb_spec 0 i), (Z.ltb_spec i 0); lia. Qed.
Lemma check_range_ok n i code : valid_index n i -> check_range n (position n i) code = Ok tt.
Proof.
  intros V. unfold check_range, valid_index, position in *.
  destruct (Z.ltb_spec i 0); cbn;
  repeat match goal with |- context [?a <? ?b] => destruct (Z.ltb_spec a b)
                         | |- context [?a <=? ?b] => destruct (Z.leb_spec a b) end; cbn; auto; lia.
Qed.
Lemma check_range_bad n i code : 0 <= n -> ~ valid_index n i -> check_range n (position n i) code = Raise (PFAErr code).
Proof.
  intros Hn V. unfold check_range, valid_index, position in *.
  destruct (Z.ltb_spec i 0); cbn;
  repeat match goal with |- context [?a <? ?b] => destruct (Z.ltb_spec a b)
                         | |- context [?a <=? ?b] => destruct (Z.leb_spec a b) end; cbn; auto; lia.
Qed.
Lemma slice_to_app {A} (p q : list A) : py_slice_to (p ++ q) (len p) = p.
Proof.
  rewrite py_slice_to_eq. rewrite cut_id by (rewrite len_app; pose proof (len_nonneg p); pose proof (len_nonneg q); lia).
  unfold len. rewrite Nat2Z.id, firstn_app, firstn_all, Nat.sub_diag, firstn_O, app_nil_r. reflexivity.
Qed.
Lemma slice_from_app {A} (p q : list A) : py_slice_from (p ++ q) (len p) = q.
Proof.
  rewrite py_slice_from_eq. rewrite cut_id by (rewrite len_app; pose proof (len_nonneg p); pose proof (len_nonneg q); lia).
  unfold len. rewrite Nat2Z.id, skipn_app, skipn_all, Nat.sub_diag. reflexivity.
Qed.
Lemma slice_from_app1 {A} (p : list A) x q : py_slice_from (p ++ x :: q) (len p + 1) = q.
Proof.
  replace (p ++ x :: q) with ((p ++ [x]) ++ q) by (rewrite <- app_assoc; reflexivity).
  replace (len p + 1) with (len (p ++ [x])) by (rewrite len_app; reflexivity).
  apply slice_from_app.
Qed.

Lemma insert_ok {A} (p : list A) x q i y :
  valid_index (len (p ++ x :: q)) i -> len p = position (len (p ++ x :: q)) i ->
  a_insert (p ++ x :: q) i y = Ok (p ++ y :: x :: q).
Proof.
  intros V L. unfold a_insert. rewrite zlen_len, negative_index_position, check_range_ok by auto. cbn [rbind].
  rewrite <- L, slice_to_app, slice_from_app. reflexivity.
Qed.
Lemma replace_ok {A} (p : list A) x q i y :
  valid_index (len (p ++ x :: q)) i -> len p = position (len (p ++ x :: q)) i ->
  a_replace (p ++ x :: q) i y = Ok (p ++ y :: q).
Proof.
  intros V L. unfold a_replace. rewrite zlen_len, negative_index_position, check_range_ok by auto. cbn [rbind].
  rewrite <- L, slice_to_app, slice_from_app1. reflexivity.
Qed.
Lemma remove_ok {A} (p : list A) x q i :
  valid_index (len (p ++ x :: q)) i -> len p = position (len (p ++ x :: q)) i ->
  a_remove (p ++ x :: q) i = Ok (p ++ q).
Proof.
  intros V L. unfold a_remove. rewrite zlen_len, negative_index_position, check_range_ok by auto. cbn [rbind].
  rewrite <- L, slice_to_app, slice_from_app1. reflexivity.
Qed.
Lemma irr_bad {A} (a : list A) i y :
  ~ valid_index (len a) i ->
  a_insert a i y = Raise (PFAErr 15160) /\ a_replace a i y = Raise (PFAErr 15170) /\ a_remove a i = Raise (PFAErr 15180).
Proof.
  intros V. unfold a_insert, a_replace, a_remove.
  rewrite !zlen_len, !negative_index_position, !check_range_bad by (auto using len_nonneg). auto.
Qed.

Lemma cycle_ok {A} (a : list A) x n :
  (n < 0 -> a_cycle a x n = Raise (PFAErr 15150)) /\
  (0 <= n -> exists p r, a_cycle a x n = Ok r /\ a ++ [x] = p ++ r /\ len r = Z.min n (len a + 1)).
Proof.
  unfold a_cycle. split; intros.
  - destruct (Z.ltb_spec n 0); auto; lia.
  - destruct (Z.ltb_spec n 0); [lia|]. destruct (Z.eqb_spec n 0).
    + exists (a ++ [x]), []. subst. rewrite app_nil_r, len_nil. repeat split. pose proof (len_nonneg a); lia.
    + rewrite py_slice_from_eq. set (k := Z.to_nat (cut (len (a ++ [x])) (- n))).
      exists (firstn k (a ++ [x])), (skipn k (a ++ [x])).
      split; auto. split. { symmetry. apply firstn_skipn. }
      unfold len in *. rewrite skipn_length. subst k. unfold cut.
      rewrite app_length. cbn [length]. destruct (Z.ltb_spec (- n) 0); lia.
Qed.

Lemma rotate_ok {A} (a : list A) n :
  (n < 0 -> a_rotate a n = Raise (PFAErr 15190)) /\
  (0 <= n -> exists r, a_rotate a n = Ok r /\ len r = len a /\
      forall k, 0 <= k < len a -> at_ r k = at_ a ((k + n) mod len a)).
Proof.
  unfold a_rotate. split; intros.
  - destruct (Z.ltb_spec n 0); auto; lia.
  - destruct (Z.ltb_spec n 0); [lia|]. rewrite zlen_len. destruct (Z.eqb_spec n 0); cbn [orb].
    + exists a. subst. repeat split; auto. intros. f_equal. rewrite Z.add_0_r, Z.mod_small; lia.
    + destruct (Z.eqb_spec (len a) 0).
      * exists a. repeat split; auto. intros. lia.
      * eexists. split; [reflexivity|].
        pose proof (len_nonneg a). assert (0 < len a) as P by lia.
        pose proof (Z.mod_pos_bound n (len a) P).
        rewrite py_slice_from_eq, py_slice_to_eq, !cut_id by lia.
        set (i := n mod len a) in *.
        split. { rewrite len_app. unfold len in *. rewrite skipn_length, firstn_length. lia. }
        intros k Hk. unfold at_.
        rewrite <- (Z.add_mod_idemp_r k n) by lia. fold i.
        pose proof (Z.mod_pos_bound (k + i) (len a) P).
        destruct (Z.ltb_spec k 0), (Z.ltb_spec ((k + i) mod len a) 0); try lia.
        destruct (Z.ltb_spec (k + i) (len a)).
        -- rewrite Z.mod_small by lia. rewrite nth_error_app1 by (rewrite skipn_length; unfold len in *; lia).
           rewrite <- (firstn_skipn (Z.to_nat i) a) at 2. rewrite nth_error_app2 by (rewrite firstn_length; lia).
           f_equal. rewrite firstn_length. unfold len in *. lia.
        -- assert ((k + i) mod len a = k + i - len a) as ->.
           { symmetry. apply Z.mod_unique_pos with 1; lia. }
           rewrite nth_error_app2 by (rewrite skipn_length; unfold len in *; lia).
           rewrite skipn_length. rewrite <- (firstn_skipn (Z.to_nat i) a) at 3.
           rewrite nth_error_app1 by (rewrite firstn_length; unfold len in *; lia).
           f_equal. unfold len in *. lia.
Qed.

Lemma head_tail {A} (a : list A) :
  (a = [] -> a_head a = Raise (PFAErr 15020) /\ a_tail a = Raise (PFAErr 15030) /\
             a_last a = Raise (PFAErr 15040) /\ a_init a = Raise (PFAErr 15050)) /\
  (forall x q, a = x :: q -> a_head a = Ok x /\ a_tail a = Ok q) /\
  (forall p x, a = p ++ [x] -> a_last a = Ok x /\ a_init a = Ok p).
Proof.
  repeat split; intros; subst; auto.
  - unfold a_tail. f_equal. apply (slice_from_app [x] q).
  - unfold a_last. destruct (p ++ [x]) eqn:E. { destruct p; discriminate. }
    rewrite <- E. rewrite app_length, nth_error_app2 by (cbn; lia).
    replace (length p + length [x] - 1 - length p)%nat with 0%nat by (cbn; lia). reflexivity.
  - unfold a_init. destruct (p ++ [x]) eqn:E. { destruct p; discriminate. }
    rewrite <- E. f_equal. rewrite py_slice_to_eq.
    replace (cut (len (p ++ [x])) (-1)) with (len p).
    2:{ unfold cut. rewrite len_app. unfold len. cbn. lia. }
    unfold len. rewrite Nat2Z.id, firstn_app, firstn_all, Nat.sub_diag, firstn_O, app_nil_r. reflexivity.
Qed.

(** ** sums and products *)
Fixpoint zprod (a : list Z) : Z := match a with [] => 1 | x :: a' => x * zprod a' end.
Lemma fold_add a acc : fold_left Z.add a acc = acc + zsum a.
Proof. revert acc. induction a; cbn; intros; [lia|]. rewrite IHa. lia. Qed.
Lemma fold_mul a acc : fold_left Z.mul a acc = acc * zprod a.
Proof. revert acc. induction a; cbn [fold_left zprod]; intros; [lia|]. rewrite IHa. lia. Qed.
Lemma range_or_eq lo hi code out : range_or lo hi code out = if (lo <=? out) && (out <=? hi) then Ok out else Raise (PFAErr code).
Proof. reflexivity. Qed.

(** ** zrange *)
Lemma zrange_In lo hi i : In i (zrange lo hi) <-> lo <= i < hi.
Proof.
  unfold zrange. rewrite in_map_iff. split.
  - intros (k & <- & H). apply in_seq in H. lia.
  - intros. exists (Z.to_nat (i - lo)). split; [lia|]. apply in_seq. lia.
Qed.
Lemma zrange_NoDup lo hi : NoDup (zrange lo hi).
Proof. unfold zrange. apply FinFun.Injective_map_NoDup; [intros ? ? ?; lia | apply seq_NoDup]. Qed.
