(** * C90: numbers of choices and the discrete distributions *)
From Coq Require Import Reals Lra Lia.
From Verif Require Import Base DistModel DistSpec DistProofs.
Open Scope R_scope.
Open Scope list_scope.

Lemma rlt_t a b : a < b -> rlt a b = true. Proof. unfold rlt. destruct (Rlt_dec a b); [auto|contradiction]. Qed.
Lemma rlt_f a b : b <= a -> rlt a b = false. Proof. unfold rlt. destruct (Rlt_dec a b); [lra|auto]. Qed.
Lemma rle_t a b : a <= b -> rle a b = true. Proof. unfold rle. destruct (Rle_dec a b); [auto|contradiction]. Qed.
Lemma rle_f a b : b < a -> rle a b = false. Proof. unfold rle. destruct (Rle_dec a b); [lra|auto]. Qed.
Lemma req_t a b : a = b -> req a b = true. Proof. unfold req. destruct (Req_EM_T a b); [auto|contradiction]. Qed.
Lemma req_f a b : a <> b -> req a b = false. Proof. unfold req. destruct (Req_EM_T a b); [contradiction|auto]. Qed.

(** ** m.special.nChooseK *)
Theorem C90_choose_partial : forall n k,
  ((0 <= k < n)%Z -> lib_nChooseK n k = Ok (Z.of_nat (ways (Z.to_nat n) (Z.to_nat k)))) /\
  ((k < 0 \/ n < k)%Z -> k <> 0%Z -> lib_nChooseK n k = Raise (PFAErr 36000)).
Proof.
  intros n k. split.
  - intros H. unfold lib_nChooseK. destruct (Z.eqb_spec n k); [lia|]. rewrite ways_choose.
    pose proof (nChooseK_choose (Z.to_nat n) (Z.to_nat k) ltac:(lia)) as E. rewrite !Z2Nat.id in E by lia. rewrite E. auto.
  - intros H K. unfold lib_nChooseK, nChooseK. destruct (Z.eqb_spec n k); auto. destruct (Z.eqb_spec k 0); [lia|]. cbn [orb].
    destruct (Z.ltb_spec n k); cbn [orb]; auto. destruct (Z.ltb_spec k 0); auto. lia.
Qed.
Example C90_choose_ex : (0 <= 2 < 5)%Z /\ ways 5 2 = 10%nat.
Proof. split; [lia|reflexivity]. Qed.
(** There is one way to choose all, but it is refused; and there is no check that the result is an int. *)
Lemma choose_middle n : (2 ^ n <= choose (n + n) n)%nat.
Proof.
  induction n; [cbn; lia|]. replace (S n + S n)%nat with (S (S (n + n))) by lia.
  assert (E : choose (S (n + n)) n = choose (S (n + n)) (S n)) by (rewrite choose_sym by lia; f_equal; lia).
  change (choose (S (S (n + n))) (S n)) with (choose (S (n + n)) n + choose (S (n + n)) (S n))%nat. rewrite E. cbn [choose Nat.pow]. lia.
Qed.
Theorem C90_choose_refuted :
  (forall n, lib_nChooseK (Z.of_nat n) (Z.of_nat n) = Raise (PFAErr 36000) /\ ways n n = 1%nat) /\
  (exists n k z, lib_nChooseK n k = Ok z /\ (2 ^ 31 - 1 < z)%Z).
Proof.
  split.
  - intro n. unfold lib_nChooseK. rewrite Z.eqb_refl, ways_choose, choose_full. auto.
  - exists 62%Z, 31%Z, (Z.of_nat (choose 62 31)). split.
    + unfold lib_nChooseK. change (62 =? 31)%Z with false. change 62%Z with (Z.of_nat 62). change 31%Z with (Z.of_nat 31).
      rewrite nChooseK_choose by lia. auto.
    + pose proof (choose_middle 31) as H. change (31 + 31)%nat with 62%nat in H. apply inj_le in H.
      rewrite Nat2Z.inj_pow in H. change (Z.of_nat 2 ^ Z.of_nat 31)%Z with (2 ^ 31)%Z in H. lia.
Qed.

(** ** Quantiles *)
Lemma upper_is_quantile f p x : is_upper_quantile f p x -> p <> total f x -> is_quantile f p x.
Proof. intros [A B] N. split; lra. Qed.

(** ** Binomial *)
Lemma binomial_ok n prob : (1 <= n)%nat -> 0 <= prob <= 1 -> bad_binomial (Z.of_nat n) prob = false.
Proof. intros N P. unfold bad_binomial. rewrite !rlt_f by lra. destruct (Z.leb_spec (Z.of_nat n) 0); [lia|auto]. Qed.
(** The probability of x successes in n trials, as long as not all are successes. *)
Theorem C90_binomial_pdf_partial : forall n prob x, (1 <= n)%nat -> 0 <= prob <= 1 -> (x < Z.of_nat n)%Z ->
  binomialPDF x (Z.of_nat n) prob = Ok (if (x <? 0)%Z then 0 else binomial_prob prob n (Z.to_nat x)).
Proof.
  intros n prob x N P X. unfold binomialPDF. rewrite binomial_ok by auto. destruct (Z.ltb_spec x 0); auto.
  destruct (Z.leb_spec (Z.of_nat n) x); [lia|]. rewrite <- (Z2Nat.id x) at 1 by lia. apply bin_PDF_nat. lia.
Qed.
(** The probability that all trials are successes is given as 0, so that the values do not add up to 1. *)
Theorem C90_binomial_pdf_refuted : forall n prob, (1 <= n)%nat -> 0 < prob <= 1 ->
  binomialPDF (Z.of_nat n) (Z.of_nat n) prob = Ok 0 /\ binomial_prob prob n n = prob ^ n /\ 0 < prob ^ n /\
  total (binomial_prob prob n) n = 1 - prob ^ n.
Proof.
  intros n prob N P. assert (E : binomial_prob prob n n = prob ^ n).
  { rewrite binomial_closed, choose_full, Nat.sub_diag by lia. cbn. ring. }
  split; [|split; [auto|split; [apply pow_lt; lra|]]].
  - unfold binomialPDF. rewrite binomial_ok by (auto; lra). destruct (Z.ltb_spec (Z.of_nat n) 0); [lia|]. rewrite Z.leb_refl. auto.
  - pose proof (binomial_total prob n) as T. rewrite total_S, E in T. lra.
Qed.
(** The quantile function ends and gives the quantile, for p other than 0 and 1. *)
Theorem C90_binomial_qf : forall n prob p fuel, (1 <= n)%nat -> 0 <= prob <= 1 -> 0 < p < 1 -> (n + 2 <= fuel)%nat ->
  exists x, (x <= n)%nat /\ binomialQF fuel p (Z.of_nat n) prob = Some (Ok (Z.of_nat x)) /\ is_quantile (binomial_prob prob n) p x.
Proof.
  intros n prob p fuel N P Pp F. unfold binomialQF. rewrite binomial_ok, !rle_t, !req_f by (auto; lra). cbn [andb negb].
  destruct fuel as [|fuel]; [lia|].
  destruct (search_stop (bin_PDF (Z.of_nat n) prob) (binomial_prob prob n) (fun p0 => rlt p0 p) fuel 0 0 (S n)) as (i & I & Si & Ci & Li).
  - lia.
  - rewrite binomial_total. apply rlt_f. lra.
  - intros i I. apply bin_PDF_nat. lia.
  - reflexivity.
  - destruct i as [|x].
    + unfold total in Ci. cbn in Ci. rewrite rlt_t in Ci by lra. discriminate.
    + exists x. split; [lia|]. split.
      * change (Z.of_nat 0) with 0%Z in Si. rewrite Si. do 2 f_equal. lia.
      * unfold rlt in Ci, Li. specialize (Li x ltac:(lia)). destruct (Rlt_dec _ _) in Ci; [discriminate|]. destruct (Rlt_dec _ _) in Li; [|discriminate].
        split; lra.
Qed.
Example C90_binomial_qf_ex : is_quantile (binomial_prob (1 / 2) 2) (1 / 2) 1.
Proof. unfold is_quantile, total, binomial_prob, probability. cbn. split; lra. Qed.
(** For p = 1 it gives the number of trials, even when no trial can be a success. *)
Theorem C90_binomial_qf_one_refuted : exists n x, binomialQF 1 1 (Z.of_nat n) 0 = Some (Ok (Z.of_nat n)) /\ (x < n)%nat /\
  is_quantile (binomial_prob 0 n) 1 x.
Proof.
  exists 1%nat, 0%nat. split; [|split; [lia|]].
  - unfold binomialQF. rewrite binomial_ok, !rle_t, req_t by (try lia; lra). reflexivity.
  - unfold is_quantile, total, binomial_prob, probability. cbn. split; lra.
Qed.
(** The distribution function, given the incomplete beta function: the probability of at least a successes in a + b - 1
    trials. *)
Lemma binomial_swap p n j : (j <= n)%nat -> binomial_prob (1 - p) n j = binomial_prob p n (n - j).
Proof.
  intros H. rewrite !binomial_closed by lia. rewrite <- (choose_sym n j) by lia. replace (n - (n - j))%nat with j by lia.
  replace (1 - (1 - p)) with p by ring. ring.
Qed.
Lemma tail_total (g : nat -> R) n : forall k, (k <= n)%nat -> rsum (map (fun j => g (n - j)%nat) (seq (n - k) (S k))) = total g (S k).
Proof.
  induction k; intros H.
  - rewrite total_S. unfold total. cbn [seq map rsum]. replace (n - (n - 0))%nat with 0%nat by lia. ring.
  - rewrite total_S, <- IHk by lia. replace (S (n - S k)) with (n - k)%nat by lia. change (seq (n - S k) (S (S k))) with ((n - S k)%nat :: seq (S (n - S k)) (S k)).
    replace (S (n - S k)) with (n - k)%nat by lia. cbn [map]. cbn [rsum]. replace (n - (n - S k))%nat with (S k) by lia. ring.
Qed.
Lemma Int_part_bounds x : IZR (Int_part x) <= x < IZR (Int_part x) + 1.
Proof. destruct (base_Int_part x). lra. Qed.
Lemma Int_part_pos x : 0 <= x -> (0 <= Int_part x)%Z.
Proof. intros H. pose proof (Int_part_bounds x) as B. apply Z.lt_succ_r. apply lt_IZR. unfold Z.succ. rewrite plus_IZR. lra. Qed.
Lemma binomial_total_over p n k : (n <= k)%nat -> total (binomial_prob p n) (S k) = 1.
Proof. intros H. induction H; [apply binomial_total|]. rewrite total_S, binomial_over, IHle by lia. ring. Qed.
Theorem C90_binomial_cdf : forall ibeta n prob x, (1 <= n)%nat -> 0 <= prob <= 1 ->
  (forall y a b, 0 <= y <= 1 -> (1 <= a)%nat -> (1 <= b)%nat ->
     ibeta y (Z.of_nat a) (Z.of_nat b) = rsum (map (binomial_prob y (a + b - 1)) (seq a b))) ->
  (x < 0 -> binomialCDF ibeta x (Z.of_nat n) prob = Ok 0) /\
  (forall k, INR k <= x < INR k + 1 -> binomialCDF ibeta x (Z.of_nat n) prob = Ok (total (binomial_prob prob n) (S k))).
Proof.
  intros ibeta n prob x N P B. unfold binomialCDF. rewrite binomial_ok by auto. split.
  - intros X. rewrite rlt_t by auto. auto.
  - intros k [K1 K2]. pose proof (pos_INR k) as K0. rewrite rlt_f by lra.
    assert (Tot : (n <= k)%nat -> total (binomial_prob prob n) (S k) = 1).
    { intros H. now apply binomial_total_over. }
    unfold rle. destruct (Rle_dec (IZR (Z.of_nat n)) x) as [L|L].
    + rewrite Tot; auto. rewrite <- INR_IZR_INZ in L. apply INR_le. assert (INR n < INR (S k)) by (rewrite S_INR; lra). apply INR_lt in H. apply le_INR. lia.
    + rewrite <- INR_IZR_INZ in L. assert (Kn : (k < n)%nat) by (apply INR_lt; lra).
      unfold req. destruct (Req_EM_T prob 1) as [->|N1]; [|destruct (Req_EM_T prob 0) as [->|N0]].
      * rewrite rlt_t by (rewrite <- INR_IZR_INZ; lra). f_equal. rewrite (total_ext _ (fun _ => 0)).
        -- unfold total. induction (seq 0 (S k)); cbn in *; lra.
        -- intros i I. rewrite binomial_closed by lia. replace (1 - 1) with 0 by ring. rewrite (pow_ne_zero (n - i)) by lia. ring.
      * f_equal. symmetry. rewrite total_first, (total_ext _ (fun _ => 0)).
        -- rewrite binomial_closed, choose_0 by lia. rewrite Rminus_0_r, pow1. unfold total. cbn [INR pow].
           replace (rsum (map (fun _ : nat => 0) (seq 0 k))) with 0; [ring|]. induction (seq 0 k); cbn in *; lra.
        -- intros i I. rewrite binomial_closed by lia. cbn [pow]. ring.
      * assert (Ek : Int_part x = Z.of_nat k).
        { pose proof (Int_part_bounds x) as Bx. rewrite INR_IZR_INZ in K1, K2. apply Z.le_antisymm; apply Z.lt_succ_r; apply lt_IZR; unfold Z.succ; rewrite plus_IZR; lra. }
        rewrite Ek. replace (Z.of_nat n - Z.of_nat k)%Z with (Z.of_nat (n - k)) by lia. replace (1 + Z.of_nat k)%Z with (Z.of_nat (S k)) by lia.
        rewrite B by (try lia; lra). replace (n - k + S k - 1)%nat with n by lia. f_equal. rewrite <- (tail_total _ n k) by lia.
        f_equal. apply map_ext_in. intros j J. apply in_seq in J. apply binomial_swap. lia.
Qed.
(** such a function exists *)
Example C90_binomial_cdf_ex : exists ibeta : R -> Z -> Z -> R, forall y a b, 0 <= y <= 1 -> (1 <= a)%nat -> (1 <= b)%nat ->
  ibeta y (Z.of_nat a) (Z.of_nat b) = rsum (map (binomial_prob y (a + b - 1)) (seq a b)).
Proof.
  exists (fun y a b => rsum (map (binomial_prob y (Z.to_nat a + Z.to_nat b - 1)) (seq (Z.to_nat a) (Z.to_nat b)))).
  intros. rewrite !Nat2Z.id. auto.
Qed.

(** ** Geometric *)
Lemma geometric_closed p x : geometric_prob p x = p * (1 - p) ^ x.
Proof. unfold geometric_prob. induction x; cbn in *; [ring|]. rewrite IHx. ring. Qed.
Lemma geometric_total p n : total (geometric_prob p) n = 1 - (1 - p) ^ n.
Proof. induction n; [unfold total; cbn; ring|]. rewrite total_S, IHn, geometric_closed. cbn. ring. Qed.
Lemma geometric_ok prob : 0 < prob <= 1 -> bad_geometric prob = false.
Proof. intros. unfold bad_geometric. rewrite rle_f, rlt_f by lra. auto. Qed.
Theorem C90_geometric : forall prob, 0 < prob <= 1 ->
  (forall x, (x < 0)%Z -> geometricPDF x prob = Ok 0) /\
  (forall x, geometricPDF (Z.of_nat x) prob = Ok (geometric_prob prob x)) /\
  (forall x, x < 0 -> geometricCDF x prob = Ok 0) /\
  (forall x k, INR k <= x < INR k + 1 -> geometricCDF x prob = Ok (total (geometric_prob prob) (S k))).
Proof.
  intros prob P. unfold geometricPDF, geometricCDF. rewrite geometric_ok by auto. repeat split.
  - intros x X. rewrite (proj2 (Z.ltb_lt x 0) X). auto.
  - intros x. destruct (Z.ltb_spec (Z.of_nat x) 0); [lia|]. rewrite py_pow_nat. cbn [rbind]. rewrite geometric_closed. auto.
  - intros x X. rewrite rlt_t by auto. auto.
  - intros x k [K1 K2]. pose proof (pos_INR k). rewrite rlt_f by lra.
    assert (Ek : Int_part x = Z.of_nat k).
    { pose proof (Int_part_bounds x) as Bx. rewrite INR_IZR_INZ in K1, K2. apply Z.le_antisymm; apply Z.lt_succ_r; apply lt_IZR; unfold Z.succ; rewrite plus_IZR; lra. }
    rewrite Ek. replace (Z.of_nat k + 1)%Z with (Z.of_nat (S k)) by lia. rewrite py_pow_nat. cbn [rbind]. rewrite geometric_total. auto.
Qed.
Lemma powers q n L : 0 < q < 1 -> (INR n <= L -> exp (L * ln q) <= q ^ n) /\ (L < INR n -> q ^ n < exp (L * ln q)).
Proof.
  intros Q. assert (Lq : ln q < 0) by (rewrite <- ln_1; apply ln_increasing; lra).
  rewrite <- (Rpower_pow n q) by lra. unfold Rpower. split; intros H.
  - destruct (Rle_lt_or_eq_dec _ _ H) as [H'|<-]; [|right; auto]. left. apply exp_increasing.
    apply Ropp_lt_cancel. rewrite !Ropp_mult_distr_r. apply Rmult_lt_compat_r; lra.
  - apply exp_increasing. apply Ropp_lt_cancel. rewrite !Ropp_mult_distr_r. apply Rmult_lt_compat_r; lra.
Qed.
(** The quantile function gives the least number at which the distribution function exceeds p ... *)
Theorem C90_geometric_qf_upper : forall p prob, 0 <= p < 1 -> 0 < prob <= 1 ->
  exists x, geometricQF p prob = Ok (Whole (Z.of_nat x)) /\ is_upper_quantile (geometric_prob prob) p x.
Proof.
  intros p prob P Pb. unfold geometricQF. rewrite geometric_ok, !rle_t, req_f by lra. cbn [andb negb].
  unfold is_upper_quantile. unfold rlt at 1. destruct (Rlt_dec 0 p) as [P0|P0].
  - rewrite rlt_t by lra. cbn [andb]. unfold req. destruct (Req_EM_T prob 1) as [->|N1].
    + exists 0%nat. split; auto. rewrite !geometric_total. cbn. lra.
    + set (L := ln (1 - p) / ln (1 - prob)).
      assert (L1 : ln (1 - p) < 0) by (rewrite <- ln_1; apply ln_increasing; lra).
      assert (L2 : ln (1 - prob) < 0) by (rewrite <- ln_1; apply ln_increasing; lra).
      assert (LP : 0 < L).
      { unfold L. replace (ln (1 - p) / ln (1 - prob)) with (- ln (1 - p) / - ln (1 - prob)) by (field; lra). apply Rdiv_lt_0_compat; lra. }
      assert (EL : exp (L * ln (1 - prob)) = 1 - p) by (unfold L; replace (ln (1 - p) / ln (1 - prob) * ln (1 - prob)) with (ln (1 - p)) by (field; lra); apply exp_ln; lra).
      pose proof (Int_part_pos L ltac:(lra)) as IP. pose proof (Int_part_bounds L) as B.
      exists (Z.to_nat (Int_part L)). rewrite Z2Nat.id by auto. split; auto. rewrite !geometric_total.
      assert (EI : INR (Z.to_nat (Int_part L)) = IZR (Int_part L)) by (rewrite INR_IZR_INZ, Z2Nat.id; auto).
      destruct (powers (1 - prob) (Z.to_nat (Int_part L)) L ltac:(lra)) as [A _].
      destruct (powers (1 - prob) (S (Z.to_nat (Int_part L))) L ltac:(lra)) as [_ A'].
      rewrite S_INR in A'. specialize (A ltac:(lra)). specialize (A' ltac:(lra)). rewrite EL in A, A'. lra.
  - cbn [andb]. exists 0%nat. split; auto. rewrite !geometric_total. cbn [pow]. lra.
Qed.
(** ... so that it gives the quantile unless p is a value of the distribution function, where it is one too large. *)
Theorem C90_geometric_qf_partial : forall p prob, 0 < p < 1 -> 0 < prob <= 1 -> (forall x, p <> total (geometric_prob prob) x) ->
  exists x, geometricQF p prob = Ok (Whole (Z.of_nat x)) /\ is_quantile (geometric_prob prob) p x.
Proof.
  intros p prob P Pb N. destruct (C90_geometric_qf_upper p prob ltac:(lra) Pb) as (x & E & U). exists x. split; auto. now apply upper_is_quantile.
Qed.
Example C90_geometric_qf_ex : forall x, 1 / 3 <> total (geometric_prob (1 / 2)) x.
Proof.
  intros x H. rewrite geometric_total in H. destruct x as [|x]; [cbn in H; lra|].
  replace (1 - 1 / 2) with (/ 2) in H by field. cbn [pow] in H. assert (0 < (/ 2) ^ x <= 1).
  { split; [apply pow_lt; lra|]. rewrite <- (pow1 x). apply pow_incr. lra. }
  lra.
Qed.
Theorem C90_geometric_qf_refuted : forall k prob, 0 < prob < 1 -> let p := total (geometric_prob prob) (S k) in
  geometricQF p prob = Ok (Whole (Z.of_nat (S k))) /\ is_quantile (geometric_prob prob) p k.
Proof.
  intros k prob P p. assert (Q : 0 < (1 - prob) ^ S k < 1).
  { split; [apply pow_lt; lra|]. cbn. assert ((1 - prob) ^ k <= 1) by (apply Rle_trans with (1 ^ k); [apply pow_incr; lra|rewrite pow1; lra]).
    assert (0 < (1 - prob) ^ k) by (apply pow_lt; lra). assert ((1 - prob) * (1 - prob) ^ k <= (1 - prob) * 1) by (apply Rmult_le_compat_l; lra). lra. }
  assert (Ep : p = 1 - (1 - prob) ^ S k) by apply geometric_total.
  split.
  - unfold geometricQF. rewrite geometric_ok, !rle_t, !rlt_t, !req_f by lra. cbn [andb negb]. do 2 f_equal.
    replace (1 - p) with ((1 - prob) ^ S k) by (rewrite Ep; ring). rewrite <- (Rpower_pow (S k)) by lra. unfold Rpower. rewrite ln_exp.
    replace (INR (S k) * ln (1 - prob) / ln (1 - prob)) with (INR (S k)).
    + rewrite INR_IZR_INZ. apply Int_part_IZR.
    + field. assert (ln (1 - prob) < 0) by (rewrite <- ln_1; apply ln_increasing; lra). lra.
  - split; [unfold p; lra|]. rewrite Ep, geometric_total. assert (0 < (1 - prob) ^ k) by (apply pow_lt; lra). cbn.
    assert ((1 - prob) * (1 - prob) ^ k < 1 * (1 - prob) ^ k) by (apply Rmult_lt_compat_r; lra). lra.
Qed.
Theorem C90_geometric_refused : forall x z p prob, prob <= 0 \/ 1 < prob ->
  geometricPDF z prob = Raise (PFAErr 13360) /\ geometricCDF x prob = Raise (PFAErr 13370) /\ geometricQF p prob = Raise (PFAErr 13380).
Proof.
  intros x z p prob H. unfold geometricPDF, geometricCDF, geometricQF. replace (bad_geometric prob) with true; auto.
  unfold bad_geometric. destruct H; [rewrite rle_t by auto; auto|rewrite (rlt_t 1 prob) by auto; rewrite orb_true_r; auto].
Qed.

(** ** Hypergeometric *)
Section Hyper.
  Variables m n k : nat.
  Hypothesis N : (1 <= n)%nat.
  Hypothesis K : (k <= m + n)%nat.
  Notation zm := (Z.of_nat m). Notation zn := (Z.of_nat n). Notation zk := (Z.of_nat k).
  Lemma hyper_ok : bad_hyper zm zn zk = false.
  Proof.
    unfold bad_hyper. destruct (Z.ltb_spec (zm + zn) zk); [lia|]. destruct (Z.ltb_spec zm 0); [lia|]. destruct (Z.leb_spec zn 0); [lia|].
    destruct (Z.eqb_spec (zm + zn) 0); [lia|]. destruct (Z.ltb_spec zk 0); [lia|]. auto.
  Qed.
  (** what the library takes for the probability of x white balls *)
  Definition lib_hyper (x : nat) : R := if (Nat.eqb x 0 || Nat.ltb x m)%bool then hyper_prob m n k x else 0.
  Lemma hyp_PDF_nat x : hyp_PDF zm zn zk (Z.of_nat x) = Ok (lib_hyper x).
  Proof.
    unfold hyp_PDF.
    assert (C3 : (if (zk =? 0)%Z then Ok 1%Z else if (zk <? 0)%Z || (zm + zn <? zk)%Z then Ok 0%Z else nChooseK (zm + zn) zk) = Ok (Z.of_nat (choose (m + n) k))).
    { destruct (Z.eqb_spec zk 0) as [E|E]; [assert (k = 0%nat) as -> by lia; rewrite choose_0; auto|].
      destruct (Z.ltb_spec zk 0); [lia|]. destruct (Z.ltb_spec (zm + zn) zk); [lia|]. cbn [orb]. rewrite <- Nat2Z.inj_add. apply nChooseK_choose. auto. }
    assert (C2 : (if (zk - Z.of_nat x =? 0)%Z then Ok 1%Z else if (zk - Z.of_nat x <? 0)%Z || (zn <? zk - Z.of_nat x)%Z then Ok 0%Z else nChooseK zn (zk - Z.of_nat x))
             = Ok (if Nat.leb x k then Z.of_nat (choose n (k - x)) else 0%Z)).
    { destruct (Z.eqb_spec (zk - Z.of_nat x) 0) as [E|E].
      - assert (x = k) as -> by lia. rewrite Nat.leb_refl, Nat.sub_diag, choose_0. auto.
      - destruct (Z.ltb_spec (zk - Z.of_nat x) 0).
        + destruct (Nat.leb_spec x k); [lia|]. auto.
        + destruct (Nat.leb_spec x k); [|lia]. cbn [orb]. destruct (Z.ltb_spec zn (zk - Z.of_nat x)).
          * rewrite choose_over by lia. auto.
          * replace (zk - Z.of_nat x)%Z with (Z.of_nat (k - x)) by lia. apply nChooseK_choose. lia. }
    assert (C1 : (if (Z.of_nat x =? 0)%Z then Ok 1%Z else if (Z.of_nat x <? 0)%Z || (zm <=? Z.of_nat x)%Z then Ok 0%Z else nChooseK zm (Z.of_nat x))
             = Ok (if (Nat.eqb x 0 || Nat.ltb x m)%bool then Z.of_nat (choose m x) else 0%Z)).
    { destruct (Z.eqb_spec (Z.of_nat x) 0) as [E|E].
      - assert (x = 0%nat) as -> by lia. rewrite choose_0. auto.
      - destruct (Nat.eqb_spec x 0); [lia|]. destruct (Z.ltb_spec (Z.of_nat x) 0); [lia|]. cbn [orb]. destruct (Z.leb_spec zm (Z.of_nat x)).
        + destruct (Nat.ltb_spec x m); [lia|]. auto.
        + destruct (Nat.ltb_spec x m); [|lia]. apply nChooseK_choose. lia. }
    rewrite C1, C2, C3. cbn [rbind]. pose proof (choose_pos (m + n) k K) as Cp.
    destruct (Z.eqb_spec (Z.of_nat (choose (m + n) k)) 0); [lia|]. f_equal. unfold lib_hyper.
    destruct (Nat.eqb x 0 || Nat.ltb x m)%bool; [|unfold Rdiv; ring].
    destruct (Nat.leb_spec x k); [rewrite hyper_closed, !INR_IZR_INZ by auto; auto|]. rewrite hyper_over by lia. unfold Rdiv. ring.
  Qed.
  Lemma lib_hyper_small x : (x < m)%nat \/ m = 0%nat -> lib_hyper x = hyper_prob m n k x.
  Proof.
    intros H. unfold lib_hyper. destruct (Nat.eqb_spec x 0); cbn [orb]; auto. destruct (Nat.ltb_spec x m); auto.
    destruct (Nat.leb_spec x k); [|rewrite hyper_over; auto]. rewrite hyper_closed, (choose_over m x) by lia. cbn. unfold Rdiv. ring.
  Qed.
  Lemma hyper_beyond x : (m < x)%nat -> hyper_prob m n k x = 0.
  Proof.
    intros H. destruct (Nat.leb_spec x k); [|apply hyper_over; auto]. rewrite hyper_closed, (choose_over m x) by lia. cbn. unfold Rdiv. ring.
  Qed.
  Lemma lib_hyper_total x : (x <= m)%nat \/ m = 0%nat -> total lib_hyper x = total (hyper_prob m n k) x.
  Proof. intros H. apply total_ext. intros i I. apply lib_hyper_small. lia. Qed.
  Lemma hyper_PDF_neg x : (x < 0)%Z -> hyp_PDF zm zn zk x = Ok 0.
  Proof.
    intros H. unfold hyp_PDF. destruct (Z.eqb_spec x 0); [lia|]. destruct (Z.ltb_spec x 0); [|lia]. cbn [orb].
    destruct (Z.eqb_spec (zk - x) 0); [lia|]. destruct (Z.ltb_spec (zk - x) 0); [lia|]. cbn [orb].
    assert (C3 : (if (zk =? 0)%Z then Ok 1%Z else if (zk <? 0)%Z || (zm + zn <? zk)%Z then Ok 0%Z else nChooseK (zm + zn) zk) = Ok (Z.of_nat (choose (m + n) k))).
    { destruct (Z.eqb_spec zk 0) as [E|E]; [assert (k = 0%nat) as -> by lia; rewrite choose_0; auto|].
      destruct (Z.ltb_spec zk 0); [lia|]. destruct (Z.ltb_spec (zm + zn) zk); [lia|]. cbn [orb]. rewrite <- Nat2Z.inj_add. apply nChooseK_choose. auto. }
    rewrite C3. pose proof (choose_pos (m + n) k K) as Cp.
    destruct (Z.ltb_spec zn (zk - x)); cbn [rbind].
    - destruct (Z.eqb_spec (Z.of_nat (choose (m + n) k)) 0); [lia|]. f_equal. unfold Rdiv. ring.
    - replace (zk - x)%Z with (Z.of_nat (Z.to_nat (zk - x))) by lia. rewrite nChooseK_choose by lia. cbn [rbind].
      destruct (Z.eqb_spec (Z.of_nat (choose (m + n) k)) 0); [lia|]. f_equal. unfold Rdiv. ring.
  Qed.

  (** The proportion of the draws with x white balls, unless these are all the white balls there are. *)
  Theorem C90_hyper_pdf_partial :
    (forall x, (x < 0)%Z -> hypergeometricPDF x zm zn zk = Ok 0) /\
    (forall x, x <> m \/ m = 0%nat -> hypergeometricPDF (Z.of_nat x) zm zn zk = Ok (hyper_prob m n k x)).
  Proof.
    unfold hypergeometricPDF. rewrite hyper_ok. split.
    - intros x X. destruct (Z.ltb_spec zm x); auto. now apply hyper_PDF_neg.
    - intros x X. destruct (Z.ltb_spec zm (Z.of_nat x)); [rewrite hyper_beyond by lia; auto|]. rewrite hyp_PDF_nat, lib_hyper_small; auto. lia.
  Qed.
  Theorem C90_hyper_pdf_refuted : (1 <= m <= k)%nat -> (k - m <= n)%nat ->
    hypergeometricPDF zm zm zn zk = Ok 0 /\ 0 < hyper_prob m n k m.
  Proof.
    intros M M'. split.
    - unfold hypergeometricPDF. rewrite hyper_ok, Z.ltb_irrefl, hyp_PDF_nat. unfold lib_hyper.
      destruct (Nat.eqb_spec m 0); [lia|]. rewrite Nat.ltb_irrefl. auto.
    - rewrite hyper_closed, choose_full by lia. pose proof (choose_pos n (k - m) M'). pose proof (choose_pos (m + n) k K).
      apply Rdiv_lt_0_compat; [rewrite Rmult_1_l|]; apply lt_0_INR; lia.
  Qed.
  (** The distribution function below the number of white balls; there and above it should be 1. *)
  Theorem C90_hyper_cdf_partial : forall x, (x < m)%nat -> hypergeometricCDF (Z.of_nat x) zm zn zk = Ok (total (hyper_prob m n k) (S x)).
  Proof.
    intros x X. unfold hypergeometricCDF. rewrite hyper_ok. destruct (Z.ltb_spec zm (Z.of_nat x)); [lia|].
    unfold range. replace (Z.to_nat (Z.of_nat x + 1)) with (S x) by lia.
    rewrite (add_pdf_total _ lib_hyper) by (intros; apply hyp_PDF_nat). f_equal. rewrite Rplus_0_l. apply lib_hyper_total. lia.
  Qed.
  Theorem C90_hyper_cdf_refuted : (1 <= m)%nat ->
    hypergeometricCDF zm zm zn zk = Ok (1 - hyper_prob m n k m) /\ (forall x, (zm < x)%Z -> hypergeometricCDF x zm zn zk = Ok 0) /\
    total (hyper_prob m n k) (S m) = 1.
  Proof.
    intros M. split; [|split].
    - unfold hypergeometricCDF. rewrite hyper_ok, Z.ltb_irrefl. unfold range. replace (Z.to_nat (zm + 1)) with (S m) by lia.
      rewrite (add_pdf_total _ lib_hyper) by (intros; apply hyp_PDF_nat). f_equal. rewrite Rplus_0_l. change (total lib_hyper (S m) = 1 - hyper_prob m n k m).
      rewrite total_S, lib_hyper_total by lia. pose proof (hyper_total m n k K) as T. rewrite total_S in T. unfold lib_hyper.
      destruct (Nat.eqb_spec m 0); [lia|]. rewrite Nat.ltb_irrefl. cbn [orb]. lra.
    - intros x X. unfold hypergeometricCDF. rewrite hyper_ok. destruct (Z.ltb_spec zm x); [auto|lia].
    - now apply hyper_total.
  Qed.
  Lemma lib_hyper_sup x : (1 <= m)%nat -> total lib_hyper x <= 1 - hyper_prob m n k m.
  Proof.
    intros M. pose proof (hyper_total m n k K) as T. rewrite total_S in T.
    assert (P : forall i, 0 <= lib_hyper i) by (intro i; unfold lib_hyper; destruct (_ || _)%bool; [apply hyper_nonneg|lra]).
    assert (E : forall d, total lib_hyper (m + d) = total lib_hyper m).
    { induction d; [f_equal; lia|]. replace (m + S d)%nat with (S (m + d)) by lia. rewrite total_S, IHd. unfold lib_hyper.
      destruct (Nat.eqb_spec (m + d) 0); [lia|]. destruct (Nat.ltb_spec (m + d) m); [lia|]. cbn [orb]. ring. }
    apply Rle_trans with (total lib_hyper (m + x)); [apply total_mono; auto; lia|]. rewrite E, lib_hyper_total by lia. lra.
  Qed.
  (** For p below the values it can reach the quantile function gives the least number at which the distribution
      function exceeds p; for any other p below 1 it never ends. *)
  Theorem C90_hyper_qf_partial : forall p fuel, (1 <= m)%nat -> 0 <= p < 1 - hyper_prob m n k m -> (m + 1 <= fuel)%nat ->
    exists x, (x < m)%nat /\ hypergeometricQF fuel p zm zn zk = Some (Ok (Z.of_nat x)) /\ is_upper_quantile (hyper_prob m n k) p x.
  Proof.
    intros p fuel M P F. pose proof (hyper_nonneg m n k m) as HN. unfold hypergeometricQF. rewrite hyper_ok, !rle_t, req_f by lra. cbn [andb negb].
    destruct fuel as [|fuel]; [lia|].
    destruct (search_stop (hyp_PDF zm zn zk) lib_hyper (fun p0 => rle p0 p) fuel 0 0 m) as (i & I & Si & Ci & Li).
    - lia.
    - apply rle_f. rewrite lib_hyper_total by lia. pose proof (hyper_total m n k K) as T. rewrite total_S in T. lra.
    - intros i I. apply hyp_PDF_nat.
    - reflexivity.
    - destruct i as [|x].
      + unfold total in Ci. cbn in Ci. rewrite rle_t in Ci by lra. discriminate.
      + exists x. split; [lia|]. split.
        * change (Z.of_nat 0) with 0%Z in Si. rewrite Si. do 2 f_equal. lia.
        * unfold rle in Ci, Li. specialize (Li x ltac:(lia)). destruct (Rle_dec _ _) in Ci; [discriminate|]. destruct (Rle_dec _ _) in Li; [|discriminate].
          rewrite !lib_hyper_total in * by lia. split; lra.
  Qed.
  Theorem C90_hyper_qf_refuted : forall p, (1 <= m)%nat -> 1 - hyper_prob m n k m <= p < 1 ->
    forall fuel, hypergeometricQF fuel p zm zn zk = None.
  Proof.
    intros p M P fuel. unfold hypergeometricQF.
    assert (0 <= 1 - hyper_prob m n k m).
    { pose proof (lib_hyper_sup 0 M) as H. unfold total in H. cbn in H. lra. }
    rewrite hyper_ok, !rle_t, req_f by lra. cbn [andb negb].
    apply (search_forever _ lib_hyper _ fuel 0 0); [intros; apply hyp_PDF_nat|reflexivity|]. intros i _. apply rle_t. pose proof (lib_hyper_sup i M). lra.
  Qed.
End Hyper.
Lemma hyper_111 x : hyper_prob 1 1 1 x = if Nat.leb x 1 then 1 / 2 else 0.
Proof. unfold hyper_prob. destruct x as [|[|x]]; cbn; lra. Qed.
Example C90_hyper_ex : (1 <= 1 <= 1)%nat /\ (1 - 1 <= 1)%nat /\ 0 <= 1 / 4 < 1 - hyper_prob 1 1 1 1 /\ 1 - hyper_prob 1 1 1 1 <= 3 / 4 < 1 /\
  hypergeometricQF 10 (3 / 4) 1 1 1 = None.
Proof.
  rewrite hyper_111. cbn [Nat.leb]. split; [lia|]. split; [lia|]. split; [lra|]. split; [lra|].
  apply (C90_hyper_qf_refuted 1 1 1); try lia. rewrite hyper_111. cbn [Nat.leb]. lra.
Qed.

(** ** Negative binomial *)
Lemma negbin_ok n prob : 0 < prob <= 1 -> bad_negbin (Z.of_nat n) prob = false.
Proof. intros P. unfold bad_negbin. rewrite rlt_f, rle_f by lra. destruct (Z.ltb_spec (Z.of_nat n) 0); [lia|auto]. Qed.
Lemma neg_PDF_nat n prob x : (1 <= n)%nat -> neg_PDF (Z.of_nat n) prob (Z.of_nat x) = Ok (negbin_prob prob n x).
Proof.
  intros N. rewrite negbin_closed by auto. unfold neg_PDF. destruct (Z.eqb_spec (Z.of_nat n) 0); [lia|]. cbn [andb].
  unfold req. destruct (Req_EM_T prob 1) as [->|N1]; cbn [andb].
  - destruct (Z.eqb_spec (Z.of_nat x) 0); cbn [negb].
    + assert (x = 0%nat) as -> by lia. rewrite choose_0, pow1. cbn. f_equal. ring.
    + replace (1 - 1) with 0 by ring. rewrite pow_ne_zero by lia. f_equal. ring.
  - destruct (Z.leb_spec 0 (Z.of_nat x)); [|lia]. rewrite !py_pow_nat.
    assert (C1 : (if (Z.of_nat x =? 0)%Z then Ok 1%Z else nChooseK (Z.of_nat n + Z.of_nat x - 1) (Z.of_nat x)) = Ok (Z.of_nat (choose (n + x - 1) x))).
    { destruct (Z.eqb_spec (Z.of_nat x) 0); [assert (x = 0%nat) as -> by lia; rewrite choose_0; auto|].
      replace (Z.of_nat n + Z.of_nat x - 1)%Z with (Z.of_nat (n + x - 1)) by lia. apply nChooseK_choose. lia. }
    rewrite C1. cbn [rbind]. rewrite <- INR_IZR_INZ. auto.
Qed.
Theorem C90_negbin_partial : forall n prob, (1 <= n)%nat -> 0 < prob <= 1 ->
  (forall x, (x < 0)%Z -> negativeBinomialPDF x (Z.of_nat n) prob = Ok 0) /\
  (forall x, negativeBinomialPDF (Z.of_nat x) (Z.of_nat n) prob = Ok (negbin_prob prob n x)) /\
  (forall x, x < 0 -> negativeBinomialCDF x (Z.of_nat n) prob = Ok 0) /\
  (forall x k, INR k <= x < INR k + 1 -> negativeBinomialCDF x (Z.of_nat n) prob = Ok (total (negbin_prob prob n) (S k))).
Proof.
  intros n prob N P. unfold negativeBinomialPDF, negativeBinomialCDF. rewrite negbin_ok by auto. destruct (Z.eqb_spec (Z.of_nat n) 0); [lia|].
  repeat split.
  - intros x X. rewrite andb_false_r. unfold neg_PDF. destruct (Z.eqb_spec (Z.of_nat n) 0); [lia|]. cbn [andb].
    destruct (Z.eqb_spec x 0); [lia|]. destruct (req prob 1); auto. cbn [andb]. destruct (Z.leb_spec 0 x); [lia|]. auto.
  - intros x. rewrite andb_false_r. now apply neg_PDF_nat.
  - intros x X. rewrite andb_false_r, rlt_t by auto. auto.
  - intros x k [K1 K2]. pose proof (pos_INR k). rewrite andb_false_r, rlt_f by lra.
    assert (Ek : Int_part (x + 1) = Z.of_nat (S k)).
    { pose proof (Int_part_bounds (x + 1)) as Bx. rewrite INR_IZR_INZ in K1, K2. rewrite Nat2Z.inj_succ. unfold Z.succ.
      apply Z.le_antisymm; apply Z.lt_succ_r; apply lt_IZR; unfold Z.succ; rewrite !plus_IZR; lra. }
    rewrite Ek. unfold range. rewrite Nat2Z.id. rewrite (add_pdf_total _ (negbin_prob prob n)) by (intros; now apply neg_PDF_nat).
    f_equal. rewrite Rplus_0_l. reflexivity.
Qed.
(** With size 0 the distribution function is 1 at 0 and 0 beyond. *)
Theorem C90_negbin_cdf_refuted : forall prob x, 0 < prob <= 1 -> 0 < x ->
  negativeBinomialCDF 0 0 prob = Ok 1 /\ negativeBinomialCDF x 0 prob = Ok 0.
Proof.
  intros prob x P X. unfold negativeBinomialCDF. rewrite !(negbin_ok 0) by auto. rewrite req_t, req_f by lra. auto.
Qed.
(** The quantile function ends and gives the least number at which the distribution function exceeds p, unless the
    estimate [w] is above 100000. *)
Theorem C90_negbin_qf_upper_partial : forall w n prob p, (w <= 100000)%Z -> (1 <= n)%nat -> 0 < prob <= 1 -> 0 <= p < 1 ->
  exists x enough, is_upper_quantile (negbin_prob prob n) p x /\
    forall fuel, (enough <= fuel)%nat -> negativeBinomialQF w fuel p (Z.of_nat n) prob = Some (Ok (Whole (Z.of_nat x))).
Proof.
  intros w n prob p W N P Pp. unfold negativeBinomialQF. rewrite negbin_ok, !rle_t by lra. cbn [andb negb].
  destruct (Z.eqb_spec (Z.of_nat n) 0); [lia|]. rewrite (req_f p 1) by lra.
  assert (E : forall x, negbin_prob prob n x = nb prob n x) by (intro; now apply negbin_closed).
  assert (T1 : total (negbin_prob prob n) 1 = prob ^ n).
  { unfold total. cbn [seq map rsum]. rewrite E. unfold nb. rewrite choose_0. cbn. ring. }
  assert (T0 : total (negbin_prob prob n) 0 = 0) by reflexivity.
  unfold req. destruct (Req_EM_T p 0) as [->|N0].
  { exists 0%nat, 0%nat. split; auto. split; [rewrite T1; apply pow_lt; lra|lra]. }
  destruct (Req_EM_T prob 1) as [->|N1].
  { exists 0%nat, 0%nat. split; auto. split; [rewrite T1, pow1; lra|lra]. }
  destruct (Z.ltb_spec 100000 w); [lia|].
  destruct (nb_limit prob P n N (1 - p) ltac:(lra)) as [i0 Hi]. specialize (Hi i0 (le_n _)).
  assert (Hi' : p < total (negbin_prob prob n) i0) by (rewrite (total_ext _ (nb prob n)) by (intros; apply E); lra).
  assert (Any : forall fuel, (i0 <= fuel)%nat -> exists x, (is_upper_quantile (negbin_prob prob n) p x) /\
    search (neg_PDF (Z.of_nat n) prob) (fun s => rle s p) (S fuel) 0 0 = Some (Ok (Z.of_nat x))).
  { intros fuel F.
    destruct (search_stop (neg_PDF (Z.of_nat n) prob) (negbin_prob prob n) (fun p0 => rle p0 p) fuel 0 0 i0) as (i & I & Si & Ci & Li).
    - lia.
    - now apply rle_f.
    - intros; now apply neg_PDF_nat.
    - reflexivity.
    - destruct i as [|x].
      + rewrite T0, rle_t in Ci by lra. discriminate.
      + exists x. split.
        * unfold rle in Ci, Li. specialize (Li x ltac:(lia)). destruct (Rle_dec _ _) in Ci; [discriminate|]. destruct (Rle_dec _ _) in Li; [|discriminate]. split; lra.
        * change (Z.of_nat 0) with 0%Z in Si. rewrite Si. do 2 f_equal. lia. }
  destruct (Any i0 (le_n _)) as (x & U & _). exists x, (S i0). split; auto. intros fuel F. destruct fuel as [|fuel]; [lia|].
  destruct (Any fuel ltac:(lia)) as (y & Uy & ->). do 3 f_equal. f_equal.
  assert (Pos : forall i, 0 <= negbin_prob prob n i) by (intro; apply probability_nonneg; lra).
  destruct U as [U1 U2]. destruct Uy as [V1 V2].
  destruct (Nat.lt_trichotomy x y) as [L|[L|L]]; auto.
  - pose proof (total_mono _ Pos (S x) y ltac:(lia)). lra.
  - pose proof (total_mono _ Pos (S y) x ltac:(lia)). lra.
Qed.
Example C90_negbin_ex : is_upper_quantile (negbin_prob (1 / 2) 1) (1 / 2) 1 /\ is_quantile (negbin_prob (1 / 2) 1) (1 / 2) 0.
Proof. unfold is_upper_quantile, is_quantile, total, negbin_prob, probability. cbn. repeat split; lra. Qed.

(** When p is a value of the distribution function, that is one too many. *)
Theorem C90_negbin_qf_refuted : forall w, (w <= 100000)%Z -> exists enough, is_quantile (negbin_prob (1 / 2) 1) (1 / 2) 0 /\
  forall fuel, (enough <= fuel)%nat -> negativeBinomialQF w fuel (1 / 2) 1 (1 / 2) = Some (Ok (Whole 1)).
Proof.
  intros w W. destruct (C90_negbin_qf_upper_partial w 1 (1 / 2) (1 / 2) W ltac:(lia) ltac:(lra) ltac:(lra)) as (x & e & [U1 U2] & F).
  exists e. split; [apply C90_negbin_ex|]. intros fuel H. change 1%Z with (Z.of_nat 1) in F. rewrite F by auto. do 4 f_equal.
  assert (T : forall y, total (negbin_prob (1 / 2) 1) y = 1 - (1 / 2) ^ y).
  { intro y. rewrite (total_ext _ (nb (1 / 2) 1)) by (intros; now apply negbin_closed). rewrite nb_1_total. replace (1 - 1 / 2) with (1 / 2) by field. auto. }
  rewrite T in U1, U2. destruct x as [|[|x]]; auto.
  - cbn in U1. lra.
  - cbn [pow] in U2. assert ((1 / 2) ^ x <= 1) by (apply Rle_trans with (1 ^ x); [apply pow_incr; lra|rewrite pow1; lra]).
    assert (0 < (1 / 2) ^ x) by (apply pow_lt; lra). lra.
Qed.

(** ** Refusals *)
Theorem C90_refused : forall ib w fuel x z p size prob m n k,
  ((size <= 0)%Z \/ prob < 0 \/ 1 < prob -> binomialPDF z size prob = Raise (PFAErr 13300) /\ binomialCDF ib x size prob = Raise (PFAErr 13310) /\
    binomialQF fuel p size prob = Some (Raise (PFAErr 13320))) /\
  ((size < 0)%Z \/ prob <= 0 \/ 1 < prob -> negativeBinomialPDF z size prob = Raise (PFAErr 13450) /\ negativeBinomialCDF x size prob = Raise (PFAErr 13460) /\
    negativeBinomialQF w fuel p size prob = Some (Raise (PFAErr 13470))) /\
  ((m + n < k \/ m < 0 \/ n <= 0 \/ k < 0)%Z -> hypergeometricPDF z m n k = Raise (PFAErr 13390) /\ hypergeometricCDF z m n k = Raise (PFAErr 13400) /\
    hypergeometricQF fuel p m n k = Some (Raise (PFAErr 13410))) /\
  (p < 0 \/ 1 < p -> (1 <= size)%Z -> 0 < prob <= 1 -> binomialQF fuel p size prob = Some (Raise (PFAErr 13321)) /\
    negativeBinomialQF w fuel p size prob = Some (Raise (PFAErr 13471)) /\ geometricQF p prob = Raise (PFAErr 13381)).
Proof.
  intros. split; [|split; [|split]].
  - intros H. assert (B : bad_binomial size prob = true).
    { unfold bad_binomial. destruct H as [H|[H|H]]; [rewrite (proj2 (Z.leb_le _ _) H); auto|rewrite (rlt_t prob 0) by auto|rewrite (rlt_t 1 prob) by auto]; rewrite ?orb_true_r; auto. }
    unfold binomialPDF, binomialCDF, binomialQF. rewrite B. auto.
  - intros H. assert (B : bad_negbin size prob = true).
    { unfold bad_negbin. destruct H as [H|[H|H]]; [rewrite (proj2 (Z.ltb_lt _ _) H)|rewrite (rle_t prob 0) by auto|rewrite (rlt_t 1 prob) by auto]; rewrite ?orb_true_r; auto. }
    unfold negativeBinomialPDF, negativeBinomialCDF, negativeBinomialQF. rewrite B. auto.
  - intros H. assert (B : bad_hyper m n k = true).
    { unfold bad_hyper. destruct (Z.ltb_spec (m + n) k); auto. destruct (Z.ltb_spec m 0); auto. destruct (Z.leb_spec n 0); auto.
      destruct (Z.eqb_spec (m + n) 0); auto. destruct (Z.ltb_spec k 0); auto. lia. }
    unfold hypergeometricPDF, hypergeometricCDF, hypergeometricQF. rewrite B. auto.
  - intros P S1 Pb. assert (Q : negb (rle 0 p && rle p 1) = true).
    { destruct P; [rewrite (rle_f 0 p) by auto; auto|rewrite (rle_f p 1) by auto; rewrite andb_false_r; auto]. }
    unfold binomialQF, negativeBinomialQF, geometricQF. rewrite geometric_ok, Q by auto.
    rewrite <- (Z2Nat.id size) by lia. rewrite binomial_ok, negbin_ok by (try lia; lra). auto.
Qed.

(** ** Poisson *)
Definition poisson_prob (lamda : R) (x : nat) : R := exp (- lamda) * (lamda ^ x / INR (fact x)).
Theorem C90_poisson_pdf : forall lamda, 0 <= lamda ->
  (forall x, (x < 0)%Z -> poissonPDF x lamda = Ok 0) /\
  (forall x, poissonPDF (Z.of_nat x) lamda = Ok (poisson_prob lamda x)) /\
  infinite_sum (poisson_prob lamda) 1.
Proof.
  intros lamda L. unfold poissonPDF. rewrite rlt_f by auto. split; [|split].
  - intros x X. unfold req. destruct (Req_EM_T lamda 0); destruct (Z.eqb_spec x 0); try lia; auto. all: destruct (Z.ltb_spec x 0); auto; lia.
  - intros x. unfold req, poisson_prob. destruct (Req_EM_T lamda 0) as [->|N].
    + destruct (Z.eqb_spec (Z.of_nat x) 0); cbn [negb]; f_equal.
      * assert (x = 0%nat) as -> by lia. rewrite Ropp_0, exp_0. cbn. field.
      * rewrite pow_ne_zero by lia. unfold Rdiv. ring.
    + destruct (Z.ltb_spec (Z.of_nat x) 0); [lia|]. f_equal. unfold lgamma1. rewrite Nat2Z.id, <- INR_IZR_INZ.
      unfold Rminus. rewrite !exp_plus, (exp_Ropp (ln _)), exp_ln by apply INR_fact_lt_0.
      rewrite <- (Rpower_pow x lamda) by lra. unfold Rpower, Rdiv. ring.
  - assert (H : infinite_sum (fun i => / INR (fact i) * lamda ^ i) (exp lamda)) by (unfold exp; destruct (exist_exp lamda) as [l Hl]; exact Hl).
    intros e E. destruct (H (e * exp lamda)) as [N HN]; [apply Rmult_gt_0_compat; auto; apply exp_pos|]. exists N. intros k K. specialize (HN k K).
    unfold R_dist in *. replace (sum_f_R0 (poisson_prob lamda) k - 1) with (exp (- lamda) * (sum_f_R0 (fun i => / INR (fact i) * lamda ^ i) k - exp lamda)).
    + rewrite Rabs_mult, (Rabs_pos_eq (exp (- lamda))) by (left; apply exp_pos). apply Rmult_lt_reg_l with (exp lamda); [apply exp_pos|].
      rewrite <- Rmult_assoc, <- exp_plus. replace (lamda + - lamda) with 0 by ring. rewrite exp_0. lra.
    + rewrite Rmult_minus_distr_l, <- exp_plus. replace (- lamda + lamda) with 0 by ring. rewrite exp_0. f_equal. rewrite scal_sum. apply sum_eq.
      intros i _. unfold poisson_prob, Rdiv. ring.
Qed.
Lemma total_sum f n : total f (S n) = sum_f_R0 f n.
Proof. induction n; [unfold total; cbn; ring|]. rewrite total_S, IHn. reflexivity. Qed.
(** The distribution and quantile functions, given the incomplete gamma function. *)
Theorem C90_poisson_cdf : forall gammaQ lamda, 0 <= lamda ->
  (forall s, (1 <= s)%nat -> 0 < lamda -> gammaQ (Z.of_nat s) lamda = total (poisson_prob lamda) s) ->
  (forall x, (x < 0)%Z -> poissonCDF gammaQ x lamda = Ok 0) /\
  (forall x, poissonCDF gammaQ (Z.of_nat x) lamda = Ok (total (poisson_prob lamda) (S x))).
Proof.
  intros gammaQ lamda L G. unfold poissonCDF. rewrite rlt_f by auto. split.
  - intros x X. destruct (Z.leb_spec 0 x); [lia|]. destruct (req lamda 0); auto.
  - intros x. destruct (Z.leb_spec 0 (Z.of_nat x)); [|lia]. unfold req. destruct (Req_EM_T lamda 0) as [->|N].
    + f_equal. rewrite total_first, (total_ext _ (fun _ => 0)).
      * unfold poisson_prob. rewrite Ropp_0, exp_0. unfold total. replace (rsum (map (fun _ : nat => 0) (seq 0 x))) with 0; [cbn; field|].
        induction (seq 0 x); cbn in *; lra.
      * intros i _. unfold poisson_prob. cbn [pow]. unfold Rdiv. ring.
    + replace (Z.of_nat x + 1)%Z with (Z.of_nat (S x)) by lia. rewrite G by (try lia; lra). auto.
Qed.
Theorem C90_poisson_qf_upper : forall gammaQ lamda p, 0 < lamda -> 0 < p < 1 ->
  (forall s, (1 <= s)%nat -> gammaQ (Z.of_nat s) lamda = total (poisson_prob lamda) s) ->
  exists x enough, is_upper_quantile (poisson_prob lamda) p x /\
    forall fuel, (enough <= fuel)%nat -> poissonQF gammaQ fuel p lamda = Some (Ok (Whole (Z.of_nat x))).
Proof.
  intros gammaQ lamda p L P G. unfold poissonQF. rewrite rlt_f, !rle_t, !req_f by lra. cbn [andb negb].
  destruct (C90_poisson_pdf lamda ltac:(lra)) as (_ & _ & I). destruct (I (1 - p) ltac:(lra)) as [N HN]. specialize (HN N (le_n _)).
  rewrite <- total_sum in HN. unfold R_dist in HN. apply Rabs_def2 in HN.
  assert (Any : forall fuel, (S N <= fuel)%nat -> exists x, is_upper_quantile (poisson_prob lamda) p x /\
    poi_search (fun x => gammaQ (x + 1)%Z lamda) p (S fuel) 0 0 = Some (Ok (Whole (Z.of_nat x)))).
  { intros fuel F. destruct (poi_search_stop (fun x => gammaQ (x + 1)%Z lamda) (poisson_prob lamda) p fuel 0 0 (S N)) as (i & Ii & Si & Ci & Li).
    - lia.
    - lra.
    - intros i. replace (Z.of_nat i + 1)%Z with (Z.of_nat (S i)) by lia. apply G. lia.
    - reflexivity.
    - destruct i as [|x]; [unfold total in Ci; cbn in Ci; lra|]. exists x. split.
      + split; [auto|]. apply Li. lia.
      + change (Z.of_nat 0) with 0%Z in Si. rewrite Si. do 3 f_equal. lia. }
  destruct (Any (S N) (le_n _)) as (x & U & _). exists x, (S (S N)). split; auto. intros fuel F. destruct fuel as [|fuel]; [lia|].
  destruct (Any fuel ltac:(lia)) as (y & Uy & ->). do 3 f_equal. f_equal.
  assert (Pos : forall i, 0 <= poisson_prob lamda i).
  { intro i. unfold poisson_prob. apply Rmult_le_pos; [left; apply exp_pos|]. apply Rmult_le_pos; [apply pow_le; lra|]. left. apply Rinv_0_lt_compat, INR_fact_lt_0. }
  destruct U as [U1 U2]. destruct Uy as [V1 V2].
  destruct (Nat.lt_trichotomy x y) as [X|[X|X]]; auto.
  - pose proof (total_mono _ Pos (S x) y ltac:(lia)). lra.
  - pose proof (total_mono _ Pos (S y) x ltac:(lia)). lra.
Qed.
Example C90_poisson_ex : exists gammaQ : Z -> R -> R, forall lamda s, (1 <= s)%nat -> gammaQ (Z.of_nat s) lamda = total (poisson_prob lamda) s.
Proof. exists (fun s lamda => total (poisson_prob lamda) (Z.to_nat s)). intros. rewrite Nat2Z.id. auto. Qed.
Print Assumptions C90_choose_partial.
Print Assumptions C90_choose_refuted.
Print Assumptions C90_binomial_pdf_partial.
Print Assumptions C90_binomial_pdf_refuted.
Print Assumptions C90_binomial_qf.
Print Assumptions C90_binomial_qf_one_refuted.
Print Assumptions C90_binomial_cdf.
Print Assumptions C90_geometric.
Print Assumptions C90_geometric_qf_upper.
Print Assumptions C90_geometric_qf_partial.
Print Assumptions C90_geometric_qf_refuted.
Print Assumptions C90_geometric_refused.
Print Assumptions C90_hyper_pdf_partial.
Print Assumptions C90_hyper_pdf_refuted.
Print Assumptions C90_hyper_cdf_partial.
Print Assumptions C90_hyper_cdf_refuted.
Print Assumptions C90_hyper_qf_partial.
Print Assumptions C90_hyper_qf_refuted.
Print Assumptions C90_negbin_partial.
Print Assumptions C90_negbin_cdf_refuted.
Print Assumptions C90_negbin_qf_upper_partial.
Print Assumptions C90_negbin_qf_refuted.
Print Assumptions C90_refused.
Print Assumptions C90_poisson_pdf.
Print Assumptions C90_poisson_cdf.
Print Assumptions C90_poisson_qf_upper.
