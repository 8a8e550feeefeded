(** C80: linear models (model.reg.linear, model.reg.linearVariance), in exact arithmetic. *)
From Coq Require Import Ring Ring_theory InitialRing Permutation.
From Verif Require Import Base Effects LaModel LaSpec LaProofs LaProofs2 LinregModel LinregSpec LinregProofs.
Open Scope string_scope.
Open Scope list_scope.
Open Scope nat_scope.

(** an array model gives const + sum of coeff i * datum i, and rejects a datum of another length *)
Theorem C80_linear : forall T (zero one : T) add mul sub opp, ring_theory zero one add mul sub opp eq ->
  forall datum coeff const,
  (forall n x c, vec datum n x -> vec coeff n c ->
     linear1 zero one add mul datum coeff const = Ok (add (total zero add (fun i => mul (c i) (x i)) n) const)) /\
  (length datum <> length coeff -> linear1 zero one add mul datum coeff const = Raise (PFAErr 31000)).
Proof.
  intros T zero one add mul sub opp RT datum coeff const. split.
  - intros n x c. apply (linear1_of zero one add mul sub opp RT).
  - apply linear1_bad.
Qed.
Example C80_linear_example : linear1 0%Z 1%Z Z.add Z.mul [3; 5]%Z [10; 100]%Z 7%Z = Ok 537%Z /\ vec [3; 5]%Z 2 (fun k => if Nat.eqb k 0 then 3%Z else 5%Z).
Proof. split; [reflexivity|apply vec_map; reflexivity]. Qed.

(** a model with several outputs gives, for each output, what the model of that output alone gives *)
Theorem C80_linear_outputs : forall T (zero one : T) add mul sub opp, ring_theory zero one add mul sub opp eq ->
  forall datum coeff const,
  (length const = length coeff -> (forall row, In row coeff -> length row = length datum) ->
     exists ys, linear2 zero one add mul datum coeff const = Ok ys /\ length ys = length coeff /\
       forall i row c, nth_error coeff i = Some row -> nth_error const i = Some c ->
         exists y, linear1 zero one add mul datum row c = Ok y /\ nth_error ys i = Some y) /\
  (length const <> length coeff -> linear2 zero one add mul datum coeff const = Raise (PFAErr 31001)) /\
  (length const = length coeff -> (exists row, In row coeff /\ length row <> length datum) ->
     linear2 zero one add mul datum coeff const = Raise (PFAErr 31000)).
Proof.
  intros T zero one add mul sub opp RT datum coeff const. unfold linear2. rewrite count_eqb. split; [|split].
  - intros L W. rewrite (proj2 (Nat.eqb_eq _ _) L). cbn [negb]. rewrite (proj2 (existsb_len coeff datum) W).
    assert (G : forall i row c, nth_error coeff i = Some row -> nth_error const i = Some c ->
              linear1 zero one add mul datum row c = Ok (np_vdot zero add mul (row ++ [c]) (datum ++ [one]))).
    { intros i row c Hr _. unfold linear1. rewrite count_snoc. rewrite (W row) by (eapply nth_error_In; eauto). rewrite Nat.eqb_refl. auto. }
    destruct datum as [|d datum].
    + exists const. split; auto. split; auto. intros i row c Hr Hc. rewrite (G i row c Hr Hc). eexists. split; [reflexivity|].
      rewrite Hc. f_equal. specialize (W row (nth_error_In _ _ Hr)). destruct row; [|discriminate].
      unfold np_vdot, inner. cbn. destruct RT. rewrite Radd_comm, Radd_0_l, Rmul_comm, Rmul_1_l. auto.
    + destruct const as [|c0 const].
      * exists []. destruct coeff; [|discriminate]. split; auto. split; auto. intros [|i] row c H; discriminate.
      * eexists. split; [reflexivity|]. split; [rewrite map_length, combine_length, L, Nat.min_id; auto|].
        intros i row c Hr Hc. rewrite (G i row c Hr Hc). eexists. split; [reflexivity|]. rewrite nth_error_map, combine_nth_error, Hr, Hc. auto.
  - intros L. rewrite (proj2 (Nat.eqb_neq _ _) L). auto.
  - intros L (row & H1 & H2). rewrite (proj2 (Nat.eqb_eq _ _) L). cbn [negb]. destruct (existsb _ coeff) eqn:E; auto.
    rewrite existsb_len in E. exfalso. auto.
Qed.
Example C80_linear_outputs_example :
  linear2 0%Z 1%Z Z.add Z.mul [3; 5]%Z [[10; 100]; [1; 1]; [0; 2]]%Z [7; 0; -1]%Z = Ok [537; 8; 9]%Z /\
  linear2 0%Z 1%Z Z.add Z.mul [] [[]; []] [7; 0]%Z = Ok [7; 0]%Z.
Proof. split; reflexivity. Qed.

(** a map model: absent names count as zero, on either side; the iteration order does not matter *)
Theorem C80_linear_map : forall T (zero one : T) add mul sub opp, ring_theory zero one add mul sub opp eq ->
  forall order datum coeff const ks x c, enumerates order -> proper datum -> proper coeff ->
  (forall k, sparse zero datum k (x k)) -> (forall k, sparse zero coeff k (c k)) ->
  NoDup ks -> (forall k u v, In (k, u) datum -> In (k, v) coeff -> In k ks) ->
  linear3 zero add mul order datum coeff const = add (sum_keys zero add (fun k => mul (c k) (x k)) ks) const.
Proof. intros T zero one add mul sub opp RT. intros. eapply (linear3_of zero one add mul sub opp RT); eauto. Qed.
Example C80_linear_map_example :
  linear3 0%Z Z.add Z.mul (nodup string_dec) [("a", 3); ("b", 5); ("e", 1)]%Z [("b", 100); ("a", 10); ("c", 9)]%Z 7%Z = 537%Z /\
  enumerates (nodup string_dec).
Proof. split; [reflexivity|]. intros l. split; [apply NoDup_nodup|]. intros k. apply nodup_In. Qed.

(** the same model and datum written as arrays or as maps give the same result *)
Theorem C80_linear_map_array : forall T (zero one : T) add mul sub opp, ring_theory zero one add mul sub opp eq ->
  forall order ks xs cs const, enumerates order -> NoDup ks -> length xs = length ks -> length cs = length ks ->
  linear1 zero one add mul xs cs const = Ok (linear3 zero add mul order (combine ks xs) (combine ks cs) const).
Proof.
  intros T zero one add mul sub opp RT order ks xs cs const HO N L1 L2.
  assert (P : forall l : list T, length l = length ks -> proper (combine ks l)).
  { intros l L. unfold proper. rewrite combine_keys by auto. auto. }
  rewrite (linear3_of zero one add mul sub opp RT order _ _ const ks (get zero (combine ks xs)) (get zero (combine ks cs))); auto.
  2,3: intros k; apply get_sparse; [apply P; auto|auto].
  2:{ intros k u v H _. apply in_combine_l in H. auto. }
  assert (V : forall l : list T, length l = length ks -> map (get zero (combine ks l)) ks = l).
  { clear -N. induction ks as [|k ks IH]; intros [|a l] L; try discriminate; auto. injection L as L. inversion N; subst. cbn [map combine]. f_equal.
    - unfold get. cbn. rewrite String.eqb_refl. auto.
    - rewrite <- (IH H2 l L) at 2. apply map_ext_in. intros j Hj. unfold get. cbn. destruct (String.eqb_spec j k) as [->|]; [contradiction|auto]. }
  pose proof (V xs L1) as V1. pose proof (V cs L2) as V2.
  assert (E : forall f g : string -> T, inner zero add mul (map f ks) (map g ks) = sum_keys zero add (fun k => mul (f k) (g k)) ks).
  { intros f g. apply (np_vdot_keys zero add mul f g). }
  specialize (E (get zero (combine ks cs)) (get zero (combine ks xs))). rewrite V1, V2 in E. rewrite <- E.
  rewrite (linear1_of zero one add mul sub opp RT xs cs const (length ks) (fun k => nth k xs zero) (fun k => nth k cs zero)).
  - do 2 f_equal. symmetry. apply (inner_vec zero one add mul sub opp RT); [rewrite <- L2|rewrite <- L1]; apply vec_nth.
  - rewrite <- L1. apply vec_nth.
  - rewrite <- L2. apply vec_nth.
Qed.
(** and the form with several outputs gives what the form with one output gives, output by output *)
Theorem C80_linear_map_outputs : forall T (zero one : T) add mul sub opp, ring_theory zero one add mul sub opp eq ->
  forall order datum coeff const, enumerates order -> proper datum -> proper2 coeff -> proper const ->
  let ys := linear4 zero add mul order datum coeff const in
  proper ys /\
  (forall k, In k (map fst ys) <-> In k (map fst const) \/ In k (map fst coeff)) /\
  (forall k y row c, In (k, y) ys -> (In (k, row) coeff \/ row = [] /\ ~ In k (map fst coeff)) -> sparse zero const k c ->
     y = linear3 zero add mul order datum row c).
Proof.
  intros T zero one add mul sub opp RT order datum coeff const HO Pd [Pc Pr] Pk ys. unfold ys, linear4.
  set (outer := order (map fst const ++ map fst coeff)). set (inn := order (map fst datum ++ _)). destruct (HO (map fst const ++ map fst coeff)) as [No Mo]. fold outer in No, Mo.
  split; [|split].
  - unfold proper. rewrite map_map. cbn [fst]. rewrite map_id. auto.
  - intros k. rewrite map_map. cbn [fst]. rewrite map_id, Mo, in_app_iff. reflexivity.
  - intros k y row c Hy Hr Hc. apply in_map_iff in Hy. destruct Hy as (k' & E & Hk). injection E as -> <-.
    apply (get_sparse zero const k Pk) in Hc. rewrite <- Hc.
    assert (Prow : proper row) by (destruct Hr as [Hr|[-> _]]; [eapply Pr; eauto|constructor]).
    assert (Eg : forall j, get2 zero coeff k j = get zero row j).
    { intros j. unfold get2. destruct Hr as [Hr|[-> Hr]]; [rewrite (In_assoc _ _ _ Pc Hr); auto|].
      destruct (assoc k coeff) as [r|] eqn:E; auto. exfalso. apply Hr. apply assoc_In in E. apply (in_map fst) in E. auto. }
    rewrite (linear3_of zero one add mul sub opp RT order datum row c inn (get zero datum) (get zero row)); auto.
    + rewrite (fold_left_keys zero one add mul sub opp RT (fun j => mul (get zero datum j) (get2 zero coeff k j))).
      destruct RT. rewrite Radd_0_l. f_equal. apply sum_keys_ext. intros j _. rewrite Eg. apply Rmul_comm.
    + intros j. apply get_sparse; auto.
    + intros j. apply get_sparse; auto.
    + apply HO.
    + intros j u v Hj _. apply HO, in_app_iff. left. apply (in_map fst) in Hj. auto.
Qed.
Example C80_linear_map_outputs_example :
  linear4 0%Z Z.add Z.mul (nodup string_dec) [("a", 3); ("b", 5)]%Z [("p", [("a", 10); ("b", 100)]); ("q", [("z", 4)])]%Z [("p", 7); ("r", 2)]%Z
  = [("r", 2); ("p", 537); ("q", 0)]%Z.
Proof. reflexivity. Qed.

(** ** linearVariance: the quadratic form of the covariance matrix on the datum followed by 1 *)
Theorem C80_variance : forall T (zero one : T) add mul sub opp, ring_theory zero one add mul sub opp eq ->
  forall datum covar,
  (forall n x f, vec datum n x -> represents covar (S n) (S n) f ->
     let x1 := then_at n x one in
     variance1 zero one add mul datum covar = Ok (total zero add (fun i => total zero add (fun j => mul (mul (x1 i) (f i j)) (x1 j)) (S n)) (S n))) /\
  (length covar <> S (length datum) \/ (exists row, In row covar /\ length row <> S (length datum)) ->
     variance1 zero one add mul datum covar = Raise (PFAErr 31010)).
Proof.
  intros T zero one add mul sub opp RT datum covar. split.
  - intros n x f Hx HC. apply (variance_of_ok zero one add mul sub opp RT); auto. apply vec_snoc. auto.
  - intros H. apply variance_of_bad. rewrite app_length. cbn. rewrite Nat.add_1_r. auto.
Qed.
(** a covariance that is a sum of squares gives a sum of squares *)
Theorem C80_variance_squares : forall T (zero one : T) add mul sub opp, ring_theory zero one add mul sub opp eq ->
  forall datum covar n x f m g, vec datum n x -> represents covar (S n) (S n) f ->
  (forall i j, f i j = total zero add (fun l => mul (g l i) (g l j)) m) ->
  let p l := total zero add (fun i => mul (g l i) (then_at n x one i)) (S n) in
  variance1 zero one add mul datum covar = Ok (total zero add (fun l => mul (p l) (p l)) m).
Proof.
  intros T zero one add mul sub opp RT datum covar n x f m g Hx HC Hf p.
  rewrite (proj1 (C80_variance T zero one add mul sub opp RT datum covar) n x f Hx HC). cbv zeta. f_equal.
  set (x1 := then_at n x one) in *. pose proof (total_swap zero one add mul sub opp RT) as SW. pose proof (total_mul_l zero one add mul sub opp RT) as ML.
  pose proof (total_mul_r zero one add mul sub opp RT) as MR.
  transitivity (total zero add (fun i => total zero add (fun l => mul (mul (g l i) (x1 i)) (p l)) m) (S n)).
  - apply total_ext. intros i _.
    transitivity (total zero add (fun j => total zero add (fun l => mul (mul (x1 i) (mul (g l i) (g l j))) (x1 j)) m) (S n)).
    { apply total_ext. intros j _. rewrite Hf. rewrite <- ML, <- MR. auto. }
    rewrite SW. apply total_ext. intros l _. unfold p. rewrite <- ML. apply total_ext. intros j _.
    destruct RT. rewrite (Rmul_comm (g l i) (x1 i)). rewrite !Rmul_assoc. auto.
  - rewrite SW. apply total_ext. intros l _. rewrite MR. auto.
Qed.
Example C80_variance_example :
  variance1 0%Z 1%Z Z.add Z.mul [3; 5]%Z [[2; 1; 0]; [1; 3; 0]; [0; 0; 4]]%Z = Ok 127%Z /\
  variance1 0%Z 1%Z Z.add Z.mul [3; 5]%Z [[2; 1]; [1; 3]]%Z = Raise (PFAErr 31010).
Proof. split; reflexivity. Qed.
(** several outputs: each the variance of its own matrix; one bad matrix makes the call fail *)
Theorem C80_variance_outputs : forall T (zero one : T) add mul datum covars,
  (forall ys, variance2 zero one add mul datum covars = Ok ys <-> Forall2 (fun C y => variance1 zero one add mul datum C = Ok y) covars ys) /\
  (forall e, variance2 zero one add mul datum covars = Raise e -> exists C, In C covars /\ variance1 zero one add mul datum C = Raise e).
Proof.
  intros T zero one add mul datum covars. unfold variance2, variance1. set (v := variance_of _ _ _ _). clearbody v. split.
  - induction covars as [|C l IH]; intros ys; cbn.
    + split; [intros H; injection H as <-; constructor|]. intros H. inversion H. auto.
    + destruct (v C) as [y|e] eqn:E; cbn; [|split; [discriminate|]; intros H; inversion H; subst; congruence].
      destruct (rmapM v l) as [ys'|e] eqn:E'; cbn.
      * split; [intros H; injection H as <-; constructor; auto; apply IH; auto|]. intros H. inversion H; subst. apply IH in H4. congruence.
      * split; [discriminate|]. intros H. inversion H; subst. apply IH in H4. discriminate.
  - induction covars as [|C l IH]; intros e; cbn; [discriminate|]. destruct (v C) as [y|e'] eqn:E; cbn.
    + destruct (rmapM v l) as [ys'|e'] eqn:E'; cbn; [discriminate|]. intros H. injection H as <-. destruct (IH e' eq_refl) as (D & H1 & H2). eauto.
    + intros H. injection H as <-. eauto.
Qed.
(** maps: absent entries count as zero, the constant is the entry of the empty name *)
Theorem C80_variance_map : forall T (zero one : T) add mul sub opp, ring_theory zero one add mul sub opp eq ->
  forall order datum covar ks x f, enumerates order -> proper datum -> proper2 covar ->
  (forall k, k <> "" -> sparse zero datum k (x k)) -> x "" = one -> (forall i j, sparse2 zero covar i j (f i j)) ->
  covers ks datum -> In "" ks ->
  variance3 zero one add mul order datum covar
  = sum_keys zero add (fun i => sum_keys zero add (fun j => mul (mul (x i) (f i j)) (x j)) ks) ks.
Proof.
  intros T zero one add mul sub opp RT order datum covar ks x f HO Pd Pc Hx H1 Hf [Nk Ck] Ik. unfold variance3.
  rewrite (quad_on_keys zero one add mul sub opp RT). set (keys := order _). destruct (HO (map fst (with_one one datum) ++ col_names covar)) as [N M]. fold keys in N, M.
  assert (Ex : forall k, get zero (with_one one datum) k = x k).
  { intros k. unfold get, with_one. destruct (String.eqb_spec k "") as [->|Ne].
    - rewrite assoc_set_eq. auto.
    - rewrite assoc_set_neq by auto. symmetry. apply (get_sparse zero datum k Pd). auto. }
  assert (Ef : forall i j, get2 zero covar i j = f i j) by (intros i j; symmetry; apply (get2_sparse zero covar i j Pc); auto).
  assert (K : forall k, In k (map fst (with_one one datum)) <-> k = "" \/ In k (map fst datum)).
  { intros k. unfold with_one. clear. induction datum as [|[j v] l IH]; cbn [dict_set map fst].
    - cbn. intuition.
    - destruct (String.eqb_spec "" j) as [<-|Ne]; cbn [map fst In]; [intuition|]. rewrite IH. intuition. }
  rewrite (sum_keys_ext zero add _ (fun i => sum_keys zero add (fun j => mul (mul (x i) (f i j)) (x j)) keys)).
  2:{ intros i _. apply sum_keys_ext. intros j _. rewrite !Ex, Ef. auto. }
  apply (quad_more zero one add mul sub opp RT); auto.
  - intros k Hk. destruct (String.eqb_spec k "") as [->|Ne]; [exfalso; apply Hk, M, in_app_iff; left; apply K; auto|].
    destruct (Hx k Ne) as [H|[H _]]; auto. exfalso. apply Hk, M, in_app_iff. left. apply K. right. apply (in_map fst) in H. auto.
  - intros k Hk. destruct (String.eqb_spec k "") as [->|Ne]; [contradiction|]. destruct (Hx k Ne) as [H|[H _]]; auto. exfalso. eauto.
Qed.
(** several outputs *)
Theorem C80_variance_map_outputs : forall T (zero one : T) add mul sub opp, ring_theory zero one add mul sub opp eq ->
  forall order datum covars, enumerates order -> proper datum -> proper covars -> (forall d C, In (d, C) covars -> proper2 C) ->
  let ys := variance4 zero one add mul order datum covars in
  map fst ys = map fst covars /\
  forall d y C, In (d, C) covars -> In (d, y) ys -> y = variance3 zero one add mul order datum C.
Proof.
  intros T zero one add mul sub opp RT order datum covars HO Pd Pc PC ys. unfold ys, variance4. set (keys := order _). split; [rewrite map_map; auto|].
  destruct (HO (map fst (with_one one datum) ++ concat (map (fun r => col_names (snd r)) covars))) as [N M]. fold keys in N, M.
  intros d y C HC Hy. apply in_map_iff in Hy. destruct Hy as ([d' C'] & E & HC'). cbn [fst snd] in E. injection E as -> <-.
  assert (C' = C). { pose proof (In_assoc _ _ _ Pc HC). pose proof (In_assoc _ _ _ Pc HC'). congruence. } subst C'.
  rewrite (quad_on_keys zero one add mul sub opp RT). symmetry.
  assert (Eg : forall k, k <> "" -> get zero (with_one one datum) k = get zero datum k).
  { intros k Ne. unfold get, with_one. rewrite assoc_set_neq by auto. auto. }
  apply (C80_variance_map T zero one add mul sub opp RT order datum C keys); auto.
  - eapply PC; eauto.
  - intros k Ne. apply get_sparse; auto.
  - unfold get, with_one. rewrite assoc_set_eq. auto.
  - intros i j. apply (get2_sparse zero C i j (PC _ _ HC)). auto.
  - split; auto. intros k v Hk. apply M, in_app_iff. left. unfold with_one. clear -Hk. apply (in_map fst) in Hk. cbn in Hk. revert Hk.
    induction datum as [|[j u] l IH]; cbn [dict_set map fst In]; [tauto|]. destruct (String.eqb_spec "" j) as [<-|Ne]; cbn [map fst In]; intuition.
  - apply M, in_app_iff. left. unfold with_one. clear. induction datum as [|[j u] l IH]; cbn [dict_set map fst In]; auto.
    destruct (String.eqb_spec "" j) as [<-|Ne]; cbn [map fst In]; intuition.
Qed.
Example C80_variance_map_example :
  let covar := [("x", [("x", 2); ("y", 1)]); ("y", [("x", 1); ("y", 3)]); ("", [("", 4)])]%Z in
  variance3 0%Z 1%Z Z.add Z.mul (nodup string_dec) [("x", 3); ("y", 5)]%Z covar = 127%Z /\
  variance4 0%Z 1%Z Z.add Z.mul (nodup string_dec) [("x", 3); ("y", 5)]%Z [("out", covar); ("other", [("x", [("z", 9)])])]%Z = [("out", 127); ("other", 0)]%Z /\
  covers ["y"; ""; "x"] [("x", 3); ("y", 5)]%Z.
Proof.
  split; [reflexivity|]. split; [reflexivity|]. split; [repeat constructor; cbn; intuition discriminate|].
  intros k v [E|[E|[]]]; injection E as <- <-; cbn; auto.
Qed.
Print Assumptions C80_linear.
Print Assumptions C80_linear_outputs.
Print Assumptions C80_linear_map.
Print Assumptions C80_linear_map_array.
Print Assumptions C80_linear_map_outputs.
Print Assumptions C80_variance.
Print Assumptions C80_variance_squares.
Print Assumptions C80_variance_outputs.
Print Assumptions C80_variance_map.
Print Assumptions C80_variance_map_outputs.
