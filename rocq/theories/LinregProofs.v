(** Lemmas about linear models. *)
From Coq Require Import Ring Ring_theory Permutation.
From Verif Require Import Base Effects LaModel LaSpec LaProofs LaProofs2 LinregModel LinregSpec.
Open Scope string_scope.
Open Scope list_scope.
Open Scope nat_scope.

Lemma vec_map {T} (x : list T) n f : vec x n f <-> x = map f (seq 0 n).
Proof.
  split.
  - intros [L H]. apply list_ext. intros k. rewrite nth_error_map, nth_error_seq. destruct (Nat.ltb_spec k n) as [E|E].
    + rewrite H; auto.
    + cbn. apply nth_error_None. lia.
  - intros ->. split; [rewrite map_length, seq_length; auto|]. intros k Hk. rewrite nth_error_map, nth_error_seq.
    destruct (Nat.ltb_spec k n); [auto|lia].
Qed.
Lemma vec_nth {T} (d : T) (x : list T) : vec x (length x) (fun k => nth k x d).
Proof. split; auto. intros k Hk. apply nth_error_nth'. auto. Qed.
Lemma vec_ext {T} (x : list T) n f g : (forall k, k < n -> f k = g k) -> vec x n f -> vec x n g.
Proof. intros E [L H]. split; auto. intros k Hk. rewrite <- E by auto. auto. Qed.
Lemma vec_unique {T} (x y : list T) n f : vec x n f -> vec y n f -> x = y.
Proof. rewrite !vec_map. congruence. Qed.
Lemma vec_snoc {T} (x : list T) n f v : vec x n f -> vec (x ++ [v]) (S n) (then_at n f v).
Proof.
  intros [L H]. split; [rewrite app_length; cbn; lia|]. intros k Hk. unfold then_at. destruct (Nat.eqb_spec k n) as [->|N].
  - rewrite nth_error_app2 by lia. rewrite L, Nat.sub_diag. auto.
  - rewrite nth_error_app1 by lia. apply H. lia.
Qed.
Lemma count_snoc {A B} (x : list A) (y : list B) a b : (count (x ++ [a]) =? count (y ++ [b]))%Z = Nat.eqb (length x) (length y).
Proof.
  rewrite count_eqb, !app_length. cbn. destruct (Nat.eqb_spec (length x) (length y)) as [->|N]; [apply Nat.eqb_refl|].
  apply Nat.eqb_neq. lia.
Qed.
Lemma existsb_len {A B} (W : list (list A)) (x : list B) :
  existsb (fun row => negb (count row =? count x)%Z) W = false <-> forall row, In row W -> length row = length x.
Proof.
  split.
  - intros H row Hr. destruct (Nat.eq_dec (length row) (length x)) as [|N]; auto. exfalso.
    enough (existsb (fun row => negb (count row =? count x)%Z) W = true) by congruence.
    apply existsb_exists. exists row. split; auto. rewrite count_eqb. apply negb_true_iff, Nat.eqb_neq. auto.
  - intros H. destruct (existsb _ W) eqn:E; auto. apply existsb_exists in E. destruct E as (row & Hr & E).
    rewrite count_eqb, (H row Hr), Nat.eqb_refl in E. discriminate.
Qed.
Lemma existsb_len' {A B} (W : list (list A)) (x : list B) :
  existsb (fun row => negb (count x =? count row)%Z) W = existsb (fun row => negb (count row =? count x)%Z) W.
Proof. induction W as [|r W IH]; cbn; auto. rewrite IH, Z.eqb_sym. auto. Qed.

Section Ring.
  Context {T : Type} (zero one : T) (add mul sub : T -> T -> T) (opp : T -> T).
  Hypothesis RT : ring_theory zero one add mul sub opp (@eq T).
  Add Ring TRing : RT.
  Local Notation tot := (total zero add).
  Lemma inner_vec u v n f g : vec u n f -> vec v n g -> inner zero add mul u v = tot (fun k => mul (f k) (g k)) n.
  Proof using RT. rewrite !vec_map. intros -> ->. apply (inner_total zero one add mul sub opp RT). Qed.
  Lemma linear1_of datum coeff const n x c : vec datum n x -> vec coeff n c ->
    linear1 zero one add mul datum coeff const = Ok (add (tot (fun i => mul (c i) (x i)) n) const).
  Proof using RT.
    intros Hx Hc. unfold linear1. rewrite count_snoc, (proj1 Hx), (proj1 Hc), Nat.eqb_refl. cbn [negb]. f_equal. unfold np_vdot.
    rewrite (inner_vec _ _ (S n) _ _ (vec_snoc _ _ _ const Hc) (vec_snoc _ _ _ one Hx)).
    cbn [total]. unfold then_at at 3 4. rewrite Nat.eqb_refl.
    rewrite (total_ext zero add _ (fun i => mul (c i) (x i))).
    - ring.
    - intros k Hk. unfold then_at. destruct (Nat.eqb_spec k n); [lia|auto].
  Qed.
  Lemma linear1_bad datum coeff const : length datum <> length coeff -> linear1 zero one add mul datum coeff const = Raise (PFAErr 31000).
  Proof using. intros H. unfold linear1. rewrite count_snoc, (proj2 (Nat.eqb_neq _ _) H). auto. Qed.
  Lemma fold_left_keys f l a : fold_left (fun out key => add out (f key)) l a = add a (sum_keys zero add f l).
  Proof using RT. revert a. induction l as [|k l IH]; intros a; cbn; [ring|]. rewrite IH. ring. Qed.

  Lemma linear3_of order datum coeff const ks x c : enumerates order -> proper datum -> proper coeff ->
    (forall k, sparse zero datum k (x k)) -> (forall k, sparse zero coeff k (c k)) ->
    NoDup ks -> (forall k u v, In (k, u) datum -> In (k, v) coeff -> In k ks) ->
    linear3 zero add mul order datum coeff const = add (sum_keys zero add (fun k => mul (c k) (x k)) ks) const.
  Proof using RT.
    intros HO Pd Pc Hx Hc Nk Ck. unfold linear3. rewrite fold_left_keys. destruct (HO (map fst datum ++ map fst coeff)) as [N M].
    assert (Ex : forall k, x k = get zero datum k) by (intros k; apply get_sparse; auto).
    assert (Ec : forall k, c k = get zero coeff k) by (intros k; apply get_sparse; auto).
    assert (Z1 : forall k, (forall u, ~ In (k, u) datum) -> x k = zero).
    { intros k H. destruct (Hx k) as [G|[G _]]; auto. exfalso. eapply H; eauto. }
    assert (Z2 : forall k, (forall u, ~ In (k, u) coeff) -> c k = zero).
    { intros k H. destruct (Hc k) as [G|[G _]]; auto. exfalso. eapply H; eauto. }
    assert (DD : forall (l : list (string * T)) k, In k (map fst l) \/ (forall u, ~ In (k, u) l)).
    { intros l k. destruct (in_dec string_dec k (map fst l)) as [H|H]; auto. right. intros u Hu. apply H. apply (in_map fst) in Hu. auto. }
    rewrite (sum_keys_ext zero add _ (fun k => mul (c k) (x k))).
    2:{ intros k _. rewrite Ex, Ec. ring. }
    set (f := fun k => mul (c k) (x k)).
    set (both := filter (fun k => if in_dec string_dec k (map fst coeff) then true else false) (map fst datum)).
    assert (NB : NoDup both) by (apply NoDup_filter; auto).
    assert (IB : forall k, In k both <-> In k (map fst datum) /\ In k (map fst coeff)).
    { intros k. unfold both. rewrite filter_In. destruct (in_dec string_dec k (map fst coeff)); intuition discriminate. }
    assert (ZB : forall k, ~ In k both -> f k = zero).
    { intros k H. unfold f. destruct (DD datum k) as [D|D]; [|rewrite (Z1 k D); ring].
      destruct (DD coeff k) as [C|C]; [exfalso; apply H, IB; auto|rewrite (Z2 k C); ring]. }
    rewrite <- (sum_keys_more zero one add mul sub opp RT f both (order _)); auto.
    - rewrite (sum_keys_more zero one add mul sub opp RT f both ks); auto; [ring|].
      intros k Hk. apply IB in Hk. destruct Hk as [H1 H2]. apply in_map_iff in H1, H2. destruct H1 as ([? u] & <- & H1), H2 as ([? v] & E & H2). cbn in *. subst. eauto.
    - intros k Hk. apply M, in_app_iff. left. apply IB in Hk. tauto.
  Qed.
  Lemma np_vdot_keys (f g : string -> T) l : np_vdot zero add mul (map f l) (map g l) = sum_keys zero add (fun k => mul (f k) (g k)) l.
  Proof using. unfold np_vdot. rewrite inner_fold. rewrite (sum_keys_fold zero add (fun k => mul (f k) (g k)) _ (fun k => k)) by auto. rewrite map_id. auto. Qed.
  Lemma sum_keys_mul_l a f l : sum_keys zero add (fun k => mul a (f k)) l = mul a (sum_keys zero add f l).
  Proof using RT. induction l as [|k l IH]; cbn; [ring|]. rewrite IH. ring. Qed.

  Lemma quad_on_keys ks datum' covar :
    quad_on zero add mul ks datum' covar
    = sum_keys zero add (fun i => sum_keys zero add (fun j => mul (mul (get zero datum' i) (get2 zero covar i j)) (get zero datum' j)) ks) ks.
  Proof using RT.
    unfold quad_on, np_quad. rewrite map_map.
    rewrite (np_vdot_keys (get zero datum') (fun i => np_vdot zero add mul (map (fun j => get2 zero covar i j) ks) (map (get zero datum') ks))).
    apply sum_keys_ext. intros i _. rewrite (np_vdot_keys (fun j => get2 zero covar i j) (get zero datum')). rewrite <- sum_keys_mul_l.
    apply sum_keys_ext. intros j _. ring.
  Qed.
  Lemma quad_more ks ks' (x : string -> T) f : NoDup ks -> NoDup ks' ->
    (forall k, ~ In k ks -> x k = zero) -> (forall k, ~ In k ks' -> x k = zero) ->
    sum_keys zero add (fun i => sum_keys zero add (fun j => mul (mul (x i) (f i j)) (x j)) ks) ks
    = sum_keys zero add (fun i => sum_keys zero add (fun j => mul (mul (x i) (f i j)) (x j)) ks') ks'.
  Proof using RT.
    intros N N' Z Z'.
    assert (INNER : forall h : string -> T, (forall k, ~ In k ks -> h k = zero) -> (forall k, ~ In k ks' -> h k = zero) -> sum_keys zero add h ks = sum_keys zero add h ks').
    { intros h H H'. set (both := filter (fun k => if in_dec string_dec k ks' then true else false) ks).
      assert (IB : forall k, In k both <-> In k ks /\ In k ks').
      { intros k. unfold both. rewrite filter_In. destruct (in_dec string_dec k ks'); intuition discriminate. }
      assert (NB : NoDup both) by (apply NoDup_filter; auto).
      assert (ZB : forall k, ~ In k both -> h k = zero).
      { intros k Hk. destruct (in_dec string_dec k ks); [|auto]. destruct (in_dec string_dec k ks'); [|auto]. exfalso. apply Hk, IB. auto. }
      rewrite <- (sum_keys_more zero one add mul sub opp RT h both ks) by (auto; intros k; rewrite IB; tauto).
      apply (sum_keys_more zero one add mul sub opp RT h both ks'); auto. intros k. rewrite IB. tauto. }
    rewrite (sum_keys_ext zero add _ (fun i => sum_keys zero add (fun j => mul (mul (x i) (f i j)) (x j)) ks')).
    - apply INNER; intros k Hk.
      + assert (E : x k = zero) by auto. clear -E RT. induction ks' as [|j l IH]; cbn; auto. rewrite IH, E. ring.
      + assert (E : x k = zero) by auto. clear -E RT. induction ks' as [|j l IH]; cbn; auto. rewrite IH, E. ring.
    - intros i _. apply INNER; intros k Hk; [rewrite (Z k Hk)|rewrite (Z' k Hk)]; ring.
  Qed.

  Lemma variance_of_ok d C n x f : vec d n x -> represents C n n f ->
    variance_of zero add mul d C = Ok (tot (fun i => tot (fun j => mul (mul (x i) (f i j)) (x j)) n) n).
  Proof using RT.
    intros Hd HC. unfold variance_of. pose proof HC as (L & W & _). rewrite count_eqb, (proj1 Hd), L, Nat.eqb_refl. cbn [negb orb].
    rewrite existsb_len'. rewrite (proj2 (existsb_len C d)) by (intros row Hr; rewrite (proj1 Hd); auto). f_equal. unfold np_quad, np_vdot.
    apply represents_mat_of in HC. subst C. unfold mat_of. rewrite map_map. apply vec_map in Hd. subst d.
    rewrite (inner_total zero one add mul sub opp RT). apply total_ext. intros i Hi.
    rewrite (inner_total zero one add mul sub opp RT). rewrite <- (total_mul_l zero one add mul sub opp RT). apply total_ext. intros j Hj. ring.
  Qed.
  Lemma variance_of_bad d C : (length C <> length d \/ exists row, In row C /\ length row <> length d) -> variance_of zero add mul d C = Raise (PFAErr 31010).
  Proof using.
    intros H. unfold variance_of. destruct (orb _ _) eqn:E; auto. exfalso. apply orb_false_iff in E. destruct E as [E1 E2].
    rewrite count_eqb in E1. apply negb_false_iff, Nat.eqb_eq in E1. rewrite existsb_len' in E2. rewrite existsb_len in E2.
    destruct H as [H|(row & H1 & H2)]; auto.
  Qed.
End Ring.
Lemma combine_keys {A} (ks : list string) : forall l : list A, length l = length ks -> map fst (combine ks l) = ks.
Proof. induction ks as [|k ks IH]; intros [|a l] L; try discriminate; auto. cbn. rewrite IH; auto. Qed.
