(** Lemmas for C90. *)
From Coq Require Import Reals Lra Lia.
From Verif Require Import Base DistModel DistSpec.
Open Scope R_scope.
Open Scope list_scope.

(** ** Sums *)
Lemma rsum_app a b : rsum (a ++ b) = rsum a + rsum b.
Proof. induction a; cbn; [ring|]. rewrite IHa. ring. Qed.
Lemma rsum_scale {A} (f : A -> R) c l : rsum (map (fun x => c * f x) l) = c * rsum (map f l).
Proof. induction l; cbn; [ring|]. rewrite IHl. ring. Qed.
Lemma rsum_plus {A} (f g : A -> R) l : rsum (map (fun x => f x + g x) l) = rsum (map f l) + rsum (map g l).
Proof. induction l; cbn; [ring|]. rewrite IHl. ring. Qed.
Lemma rsum_nonneg l : (forall x, In x l -> 0 <= x) -> 0 <= rsum l.
Proof. induction l; cbn; intros H; [lra|]. assert (0 <= a) by auto. assert (0 <= rsum l) by auto. lra. Qed.
Lemma total_S f n : total f (S n) = total f n + f n.
Proof. unfold total. rewrite seq_S, map_app, rsum_app. cbn. ring. Qed.
Lemma total_ext f g n : (forall i, (i < n)%nat -> f i = g i) -> total f n = total g n.
Proof. intros H. unfold total. f_equal. apply map_ext_in. intros i I. apply in_seq in I. apply H. lia. Qed.
Lemma total_first f n : total f (S n) = f 0%nat + total (fun i => f (S i)) n.
Proof. unfold total. cbn [seq map rsum]. rewrite <- seq_shift, map_map. reflexivity. Qed.
Lemma total_mono f : (forall i, 0 <= f i) -> forall m n, (m <= n)%nat -> total f m <= total f n.
Proof. intros P m n H. induction H; [lra|]. rewrite total_S. specialize (P m0). lra. Qed.

(** ** Sequences of trials *)
Lemma filter_map {A B} (f : A -> B) t l : filter t (map f l) = map f (filter (fun x => t (f x)) l).
Proof. induction l; cbn; auto. destruct (t (f a)); cbn; rewrite IHl; auto. Qed.
Lemma filter_false {A} (l : list A) : filter (fun _ => false) l = [].
Proof. induction l; auto. Qed.
Lemma probability_ext p n t t' : (forall o, length o = n -> t o = t' o) -> probability p n t = probability p n t'.
Proof.
  intros H. unfold probability. do 2 f_equal. apply filter_ext_in. intros o I. apply H. revert o I. clear.
  induction n; cbn; intros o I.
  - destruct I as [<-|[]]. auto.
  - apply in_app_iff in I. destruct I as [I|I]; apply in_map_iff in I; destruct I as (o' & <- & I); cbn; f_equal; auto.
Qed.
Lemma probability_S p n t :
  probability p (S n) t = p * probability p n (fun o => t (true :: o)) + (1 - p) * probability p n (fun o => t (false :: o)).
Proof.
  unfold probability. cbn [outcomes]. rewrite filter_app, map_app, rsum_app, !filter_map, !map_map. cbn [chance].
  rewrite !rsum_scale. auto.
Qed.
Lemma probability_none p n : probability p n (fun _ => false) = 0.
Proof. unfold probability. rewrite filter_false. auto. Qed.
Lemma successes_true o : successes (true :: o) = S (successes o).
Proof. reflexivity. Qed.
Lemma successes_false o : successes (false :: o) = successes o.
Proof. reflexivity. Qed.

(** Pascal's triangle *)
Fixpoint choose (n k : nat) : nat :=
  match n, k with
  | _, O => 1
  | O, S _ => 0
  | S n', S k' => choose n' k' + choose n' k
  end%nat.
Lemma choose_0 n : choose n 0 = 1%nat. Proof. destruct n; auto. Qed.
Lemma choose_over n : forall k, (n < k)%nat -> choose n k = 0%nat.
Proof. induction n; intros [|k] H; try lia; auto. cbn. rewrite !IHn by lia. auto. Qed.
Lemma choose_full n : choose n n = 1%nat.
Proof. induction n; auto. cbn. rewrite IHn, choose_over by lia. lia. Qed.
Lemma choose_pos n : forall k, (k <= n)%nat -> (1 <= choose n k)%nat.
Proof. induction n; intros [|k] H; cbn; try lia. specialize (IHn k ltac:(lia)). lia. Qed.
Lemma choose_C n : forall k, (k <= n)%nat -> INR (choose n k) = C n k.
Proof.
  induction n; intros k H.
  - assert (k = 0%nat) by lia. subst. cbn. unfold C. cbn. field.
  - destruct k as [|k]; [rewrite choose_0; unfold C; rewrite Nat.sub_0_r; change (fact 0) with 1%nat; change (INR 1) with 1; field; apply INR_fact_neq_0|].
    cbn [choose]. rewrite plus_INR. destruct (Nat.eq_dec k n) as [->|Ne].
    + rewrite choose_full, choose_over by lia. unfold C. rewrite Nat.sub_diag. change (fact 0) with 1%nat. change (INR 1) with 1. change (INR 0) with 0. field. apply INR_fact_neq_0.
    + rewrite !IHn by lia. apply pascal. lia.
Qed.
Lemma choose_sym n k : (k <= n)%nat -> choose n k = choose n (n - k).
Proof. intros H. apply INR_eq. rewrite !choose_C by lia. unfold C. replace (n - (n - k))%nat with k by lia. f_equal. ring. Qed.

Lemma ways_choose n : forall k, ways n k = choose n k.
Proof.
  unfold ways. induction n; intros k.
  - destruct k; reflexivity.
  - cbn [outcomes]. rewrite filter_app, app_length, !filter_map, !map_length. destruct k as [|k].
    + rewrite (filter_ext _ (fun _ => false)) by (intro o; reflexivity). rewrite filter_false. cbn [length plus].
      rewrite (filter_ext _ (fun o => Nat.eqb (successes o) 0)) by (intro o; reflexivity). rewrite IHn, !choose_0. auto.
    + rewrite (filter_ext _ (fun o => Nat.eqb (successes o) k)) by (intro o; reflexivity).
      rewrite (filter_ext (fun o => Nat.eqb (successes (false :: o)) (S k)) (fun o => Nat.eqb (successes o) (S k))) by (intro o; reflexivity).
      rewrite !IHn. reflexivity.
Qed.

(** ** The binomial probabilities *)
Lemma binomial_00 p : binomial_prob p 0 0 = 1.
Proof. unfold binomial_prob, probability. cbn. ring. Qed.
Lemma binomial_0S p x : binomial_prob p 0 (S x) = 0.
Proof. reflexivity. Qed.
Lemma binomial_S0 p n : binomial_prob p (S n) 0 = (1 - p) * binomial_prob p n 0.
Proof.
  unfold binomial_prob. rewrite probability_S. rewrite (probability_ext p n _ (fun _ => false)) by (intros; reflexivity).
  rewrite probability_none. rewrite (probability_ext p n (fun o => Nat.eqb (successes (false :: o)) 0) (fun o => Nat.eqb (successes o) 0)) by (intros; reflexivity). ring.
Qed.
Lemma binomial_SS p n x : binomial_prob p (S n) (S x) = p * binomial_prob p n x + (1 - p) * binomial_prob p n (S x).
Proof.
  unfold binomial_prob. rewrite probability_S. reflexivity.
Qed.
Lemma binomial_over p n : forall x, (n < x)%nat -> binomial_prob p n x = 0.
Proof.
  induction n; intros x H; (destruct x as [|x]; [lia|]); [reflexivity|]. rewrite binomial_SS, !IHn by lia. ring.
Qed.
Lemma binomial_closed p n : forall x, (x <= n)%nat -> binomial_prob p n x = INR (choose n x) * p ^ x * (1 - p) ^ (n - x).
Proof.
  induction n; intros x H.
  - assert (x = 0%nat) by lia. subst. rewrite binomial_00. cbn. ring.
  - destruct x as [|x].
    + rewrite binomial_S0, IHn by lia. rewrite !choose_0, Nat.sub_0_r. replace (S n - 0)%nat with (S n) by lia. cbn [pow INR]. ring.
    + rewrite binomial_SS. cbn [choose]. rewrite plus_INR. rewrite (IHn x) by lia. replace (S n - S x)%nat with (n - x)%nat by lia.
      destruct (Nat.eq_dec x n) as [->|Ne].
      * rewrite binomial_over by lia. rewrite (choose_over n (S n)) by lia. rewrite Nat.sub_diag. cbn [pow INR]. ring.
      * rewrite (IHn (S x)) by lia. replace (n - x)%nat with (S (n - S x)) by lia. cbn [pow]. ring.
Qed.
Lemma binomial_total p n : total (binomial_prob p n) (S n) = 1.
Proof.
  induction n.
  - rewrite total_S, binomial_00. unfold total. cbn [seq map rsum]. ring.
  - rewrite total_first, binomial_S0.
    rewrite (total_ext _ (fun i => p * binomial_prob p n i + (1 - p) * binomial_prob p n (S i))) by (intros; apply binomial_SS).
    unfold total. rewrite (rsum_plus (fun i => p * binomial_prob p n i) (fun i => (1 - p) * binomial_prob p n (S i))).
    rewrite !rsum_scale. fold (total (binomial_prob p n) (S n)). rewrite IHn.
    fold (total (fun i => binomial_prob p n (S i)) (S n)).
    assert (E : total (binomial_prob p n) (S (S n)) = 1) by (rewrite total_S, IHn, binomial_over by lia; ring).
    rewrite total_first in E. replace (total (fun i => binomial_prob p n (S i)) (S n)) with (1 - binomial_prob p n 0) by lra. ring.
Qed.
Lemma chance_nonneg p o : 0 <= p <= 1 -> 0 <= chance p o.
Proof.
  intros H. induction o as [|b o IH]; cbn; [lra|]. apply Rmult_le_pos; auto. destruct b; lra.
Qed.
Lemma probability_nonneg p n t : 0 <= p <= 1 -> 0 <= probability p n t.
Proof.
  intros H. unfold probability. apply rsum_nonneg. intros x I. apply in_map_iff in I. destruct I as (o & <- & _). now apply chance_nonneg.
Qed.

(** ** The last trial *)
Lemma last_cons (b : bool) o d : o <> [] -> last (b :: o) d = last o d.
Proof. destruct o; [congruence|reflexivity]. Qed.
Lemma probability_last p : forall n t,
  probability p (S n) (fun o => t (successes o) && last o false) = p * probability p n (fun o => t (S (successes o))).
Proof.
  induction n; intros t.
  - unfold probability. cbn. destruct (t 1%nat); cbn; [|destruct (t 0%nat); cbn]; destruct (t 0%nat); cbn; ring.
  - rewrite probability_S.
    rewrite (probability_ext p (S n) (fun o => t (successes (true :: o)) && last (true :: o) false)
      (fun o => t (S (successes o)) && last o false)).
    2:{ intros o L. rewrite last_cons; [reflexivity|]. intros ->. discriminate. }
    rewrite (probability_ext p (S n) (fun o => t (successes (false :: o)) && last (false :: o) false)
      (fun o => t (successes o) && last o false)).
    2:{ intros o L. rewrite last_cons; [reflexivity|]. intros ->. discriminate. }
    rewrite (IHn (fun k => t (S k))), (IHn t). rewrite probability_S. cbn [successes]. 
    change (fun o : list bool => t (S (successes (true :: o)))) with (fun o : list bool => t (S (S (successes o)))).
    change (fun o : list bool => t (S (successes (false :: o)))) with (fun o : list bool => t (S (successes o))). ring.
Qed.
Lemma negbin_closed p n x : (1 <= n)%nat -> negbin_prob p n x = INR (choose (n + x - 1) x) * (1 - p) ^ x * p ^ n.
Proof.
  intros H. destruct n as [|n]; [lia|]. unfold negbin_prob. cbn [plus].
  rewrite (probability_last p (n + x) (fun k => Nat.eqb k (S n))).
  change (probability p (n + x) (fun o => Nat.eqb (S (successes o)) (S n))) with (binomial_prob p (n + x) n).
  rewrite binomial_closed by lia. replace (n + x - n)%nat with x by lia. replace (S (n + x) - 1)%nat with (n + x)%nat by lia.
  rewrite (choose_sym (n + x) x) by lia. replace (n + x - x)%nat with n by lia. cbn [pow]. ring.
Qed.

(** ** Draws *)
Lemma draws_length {A} : forall (urn : list A) k, length (draws k urn) = choose (length urn) k.
Proof.
  induction urn as [|a r IH]; intros [|k]; auto. cbn [draws length choose]. rewrite app_length, map_length, !IH. auto.
Qed.
Definition white (k x : nat) (urn : list bool) : nat := length (filter (fun d => Nat.eqb (successes d) x) (draws k urn)).
Lemma white_S0 k urn : white (S k) 0 (true :: urn) = white (S k) 0 urn.
Proof.
  unfold white. cbn [draws]. rewrite filter_app, app_length, filter_map.
  rewrite (filter_ext _ (fun _ => false)) by (intro; reflexivity). rewrite filter_false. auto.
Qed.
Lemma white_SS k x urn : white (S k) (S x) (true :: urn) = (white k x urn + white (S k) (S x) urn)%nat.
Proof.
  unfold white. cbn [draws]. rewrite filter_app, app_length, filter_map, map_length.
  rewrite (filter_ext _ (fun o => Nat.eqb (successes o) x)) by (intro; reflexivity). auto.
Qed.
Lemma white_black n : forall k x, white k x (repeat false n) = if Nat.eqb x 0 then choose n k else 0%nat.
Proof.
  induction n; intros [|k] [|x]; auto.
  - cbn [repeat]. unfold white. cbn [draws]. rewrite filter_app, app_length, filter_map, map_length.
    rewrite (filter_ext (fun o => Nat.eqb (successes (false :: o)) 0) (fun o => Nat.eqb (successes o) 0)) by (intro; reflexivity).
    pose proof (IHn k 0%nat) as H1. pose proof (IHn (S k) 0%nat) as H2. unfold white in H1, H2. rewrite H1, H2. auto.
  - cbn [repeat]. unfold white. cbn [draws]. rewrite filter_app, app_length, filter_map, map_length.
    rewrite (filter_ext (fun o => Nat.eqb (successes (false :: o)) (S x)) (fun o => Nat.eqb (successes o) (S x))) by (intro; reflexivity).
    pose proof (IHn k (S x)) as H1. pose proof (IHn (S k) (S x)) as H2. unfold white in H1, H2. rewrite H1, H2. auto.
Qed.
Lemma white_0 x urn : white 0 x urn = if Nat.eqb x 0 then 1%nat else 0%nat.
Proof. unfold white. destruct urn; destruct x; reflexivity. Qed.
Lemma white_closed m n : forall k x, white k x (repeat true m ++ repeat false n) = if Nat.leb x k then (choose m x * choose n (k - x))%nat else 0%nat.
Proof.
  induction m; intros k x.
  - cbn [repeat app]. rewrite white_black. destruct x as [|x].
    + cbn [Nat.eqb Nat.leb choose]. rewrite Nat.sub_0_r. lia.
    + cbn [Nat.eqb choose]. destruct (Nat.leb (S x) k); auto.
  - cbn [repeat app]. destruct k as [|k].
    + rewrite white_0. destruct x; cbn; rewrite ?choose_0; auto.
    + destruct x as [|x].
      * rewrite white_S0, IHm. cbn [Nat.leb]. rewrite !choose_0. auto.
      * rewrite white_SS, !IHm. cbn [Nat.leb]. change (S k - S x)%nat with (k - x)%nat. destruct (Nat.leb x k); [|lia]. cbn [choose]. lia.
Qed.
Lemma hyper_closed m n k x : (x <= k)%nat -> hyper_prob m n k x = INR (choose m x) * INR (choose n (k - x)) / INR (choose (m + n) k).
Proof.
  intros H. unfold hyper_prob. fold (white k x (repeat true m ++ repeat false n)). rewrite white_closed.
  rewrite (proj2 (Nat.leb_le x k) H), mult_INR, draws_length, app_length, !repeat_length. auto.
Qed.
Lemma hyper_over m n k x : (k < x)%nat -> hyper_prob m n k x = 0.
Proof.
  intros H. unfold hyper_prob. fold (white k x (repeat true m ++ repeat false n)). rewrite white_closed.
  rewrite (proj2 (Nat.leb_gt x k) H). cbn. unfold Rdiv. ring.
Qed.
Lemma hyper_nonneg m n k x : 0 <= hyper_prob m n k x.
Proof.
  unfold hyper_prob. destruct (Nat.eq_dec (length (draws k (repeat true m ++ repeat false n))) 0) as [E|E].
  - apply length_zero_iff_nil in E. rewrite E. cbn. unfold Rdiv. lra.
  - apply Rmult_le_pos; [apply pos_INR|]. left. apply Rinv_0_lt_compat. apply lt_0_INR. lia.
Qed.
(** every draw has some number of white balls *)
Lemma successes_draws urn : forall k d, In d (draws k urn) -> (successes d <= successes urn)%nat.
Proof.
  induction urn as [|a r IH]; intros [|k] d I; cbn [draws] in I; try (destruct I as [<-|[]]; cbn; lia).
  - destruct I.
  - apply in_app_iff in I. destruct I as [I|I].
    + apply in_map_iff in I. destruct I as (d' & <- & I). apply IH in I. destruct a; [rewrite !successes_true|rewrite !successes_false]; lia.
    + apply IH in I. destruct a; [rewrite successes_true|rewrite successes_false]; lia.
Qed.
Lemma count_total (f : list bool -> nat) l : forall n, (forall d, In d l -> (f d < n)%nat) ->
  total (fun x => INR (length (filter (fun d => Nat.eqb (f d) x) l))) n = INR (length l).
Proof.
  induction l as [|d l IH]; intros n H.
  - cbn. unfold total. induction (seq 0 n); cbn in *; [auto|]. rewrite IHl. ring.
  - cbn [length]. rewrite S_INR, <- (IH n) by (intros; apply H; right; auto).
    assert (E : total (fun x => if Nat.eqb (f d) x then 1 else 0) n = 1).
    { specialize (H d ltac:(left; auto)). clear IH. generalize (f d) as y, H. clear. intros y. induction n; intros H; [lia|]. rewrite total_S.
      destruct (Nat.eq_dec y n) as [->|Ne].
      - rewrite Nat.eqb_refl. rewrite (total_ext _ (fun _ => 0)).
        + unfold total. induction (seq 0 n); cbn in *; lra.
        + intros i I. destruct (Nat.eqb_spec n i); [lia|auto].
      - rewrite IHn by lia. destruct (Nat.eqb_spec y n); [lia|ring]. }
    rewrite <- E. unfold total. rewrite <- rsum_plus. f_equal. apply map_ext. intro x. cbn [filter].
    destruct (Nat.eqb (f d) x); cbn [length]; rewrite ?S_INR; ring.
Qed.
Lemma hyper_total m n k : (k <= m + n)%nat -> total (hyper_prob m n k) (S m) = 1.
Proof.
  intros H. set (all := draws k (repeat true m ++ repeat false n)).
  assert (L : (1 <= length all)%nat) by (unfold all; rewrite draws_length, app_length, !repeat_length; now apply choose_pos).
  assert (N : INR (length all) <> 0) by (apply not_0_INR; lia).
  rewrite (total_ext _ (fun x => / INR (length all) * INR (length (filter (fun d => Nat.eqb (successes d) x) all)))).
  2:{ intros i _. unfold hyper_prob. fold all. unfold Rdiv. ring. }
  unfold total. rewrite rsum_scale. fold (total (fun x => INR (length (filter (fun d => Nat.eqb (successes d) x) all))) (S m)).
  rewrite count_total; [field; auto|]. intros d I. apply successes_draws in I.
  assert (E : successes (repeat true m ++ repeat false n) = m).
  { clear. induction m; cbn [repeat app]; [induction n; auto|]. rewrite successes_true, IHm. auto. }
  lia.
Qed.

(** ** The functions of the library *)
Lemma Int_part_IZR z : Int_part (IZR z) = z.
Proof.
  unfold Int_part. rewrite <- (tech_up (IZR z) (z + 1)); [lia| |]; rewrite plus_IZR; lra.
Qed.
Lemma py_round_IZR z : py_round (IZR z) = z.
Proof. unfold py_round. rewrite Int_part_IZR. destruct (Rlt_dec _ _); auto. exfalso. apply n. lra. Qed.
Lemma nChooseK_choose n k : (k <= n)%nat -> nChooseK (Z.of_nat n) (Z.of_nat k) = Ok (Z.of_nat (choose n k)).
Proof.
  intros H. unfold nChooseK. destruct (Z.eqb_spec (Z.of_nat n) (Z.of_nat k)) as [E|E].
  - assert (n = k) by lia. subst. rewrite choose_full. auto.
  - destruct (Z.eqb_spec (Z.of_nat k) 0) as [E0|E0]; cbn [orb].
    + assert (k = 0%nat) by lia. subst. rewrite choose_0. auto.
    + destruct (Z.ltb_spec (Z.of_nat n) (Z.of_nat k)); [lia|]. destruct (Z.ltb_spec (Z.of_nat k) 0); [lia|]. cbn [orb]. f_equal.
      rewrite <- (py_round_IZR (Z.of_nat (choose n k))). f_equal. rewrite <- INR_IZR_INZ, choose_C by lia.
      unfold lgamma1. replace (Z.to_nat (Z.of_nat n - Z.of_nat k)) with (n - k)%nat by lia. rewrite !Nat2Z.id.
      unfold Rminus. rewrite !exp_plus, !exp_Ropp, !exp_ln by apply INR_fact_lt_0. unfold C. field. split; apply INR_fact_neq_0.
Qed.
Lemma py_pow_nat b n : py_pow b (Z.of_nat n) = Ok (b ^ n).
Proof. unfold py_pow. destruct (Z.ltb_spec (Z.of_nat n) 0); [lia|]. rewrite <- pow_powerRZ. auto. Qed.
Lemma bin_PDF_nat n p x : (x <= n)%nat -> bin_PDF (Z.of_nat n) p (Z.of_nat x) = Ok (binomial_prob p n x).
Proof.
  intros H. unfold bin_PDF. destruct (Z.ltb_spec (Z.of_nat x) 0); [lia|].
  replace (Z.of_nat n - Z.of_nat x)%Z with (Z.of_nat (n - x)) by lia. rewrite !py_pow_nat, binomial_closed, INR_IZR_INZ by auto.
  destruct (Z.eqb_spec (Z.of_nat x) 0) as [E|E].
  - assert (x = 0%nat) by lia. subst. rewrite choose_0. cbn [rbind]. auto.
  - destruct (Z.ltb_spec (Z.of_nat n) (Z.of_nat x)); [lia|]. cbn [orb]. rewrite nChooseK_choose by auto. cbn [rbind]. auto.
Qed.

(** The loops. *)
Lemma search_stop pdf f cont : forall fuel x p0 i0,
  (x <= i0 <= x + fuel)%nat -> cont (total f i0) = false ->
  (forall i, (x <= i < i0)%nat -> pdf (Z.of_nat i) = Ok (f i)) -> p0 = total f x ->
  exists i, (x <= i <= i0)%nat /\ search pdf cont (S fuel) (Z.of_nat x) p0 = Some (Ok (Z.of_nat i - 1)%Z) /\
    cont (total f i) = false /\ forall j, (x <= j < i)%nat -> cont (total f j) = true.
Proof.
  induction fuel; intros x p0 i I Ci P E.
  - assert (i = x) by lia. subst i. exists x. split; [lia|]. cbn [search]. rewrite E, Ci. split; auto. split; auto. intros; lia.
  - cbn [search]. destruct (cont p0) eqn:Cp.
    + assert (i <> x) by (intros ->; congruence). rewrite P by lia. replace (Z.of_nat x + 1)%Z with (Z.of_nat (S x)) by lia.
      destruct (IHfuel (S x) (p0 + f x) i) as (i' & I' & S' & C' & L'); [lia|auto|intros j J; apply P; lia|rewrite total_S, <- E; auto|].
      exists i'. split; [lia|]. split; [exact S'|]. split; auto. intros j J. destruct (Nat.eq_dec j x) as [->|N]; [congruence|]. apply L'. lia.
    + exists x. split; [lia|]. split; auto. split; [congruence|]. intros; lia.
Qed.
Lemma search_forever pdf f cont : forall fuel x p0,
  (forall i, (x <= i)%nat -> pdf (Z.of_nat i) = Ok (f i)) -> p0 = total f x ->
  (forall i, (x <= i)%nat -> cont (total f i) = true) -> search pdf cont fuel (Z.of_nat x) p0 = None.
Proof.
  induction fuel; intros x p0 P E Ct; auto. cbn [search]. rewrite E, Ct, P by lia.
  replace (Z.of_nat x + 1)%Z with (Z.of_nat (S x)) by lia. apply IHfuel; [intros; apply P; lia|rewrite total_S; auto|intros; apply Ct; lia].
Qed.
Lemma search_partial pdf f cont : forall fuel x p0 z,
  (forall i, (x <= i)%nat -> pdf (Z.of_nat i) = Ok (f i)) -> p0 = total f x ->
  search pdf cont fuel (Z.of_nat x) p0 = Some (Ok z) ->
  exists i, (x <= i)%nat /\ z = (Z.of_nat i - 1)%Z /\ cont (total f i) = false /\ forall j, (x <= j < i)%nat -> cont (total f j) = true.
Proof.
  induction fuel; intros x p0 z P E H; [discriminate|]. cbn [search] in H. destruct (cont p0) eqn:Cp.
  - rewrite P in H by lia. replace (Z.of_nat x + 1)%Z with (Z.of_nat (S x)) in H by lia.
    apply IHfuel in H; [|intros; apply P; lia|rewrite total_S, <- E; auto]. destruct H as (i & I & -> & C' & L).
    exists i. split; [lia|]. split; auto. split; auto. intros j J. destruct (Nat.eq_dec j x) as [->|N]; [congruence|]. apply L. lia.
  - injection H as <-. exists x. split; [lia|]. split; auto. split; [congruence|]. intros; lia.
Qed.
Lemma add_pdf_total pdf f : forall n x v, (forall i, (x <= i < x + n)%nat -> pdf (Z.of_nat i) = Ok (f i)) ->
  add_pdf pdf (map Z.of_nat (seq x n)) v = Ok (v + rsum (map f (seq x n))).
Proof.
  induction n; intros x v P; cbn [seq map add_pdf rsum]; [f_equal; ring|]. rewrite P by lia. cbn [rbind]. rewrite IHn by (intros; apply P; lia). f_equal. ring.
Qed.

Lemma poi_search_stop cdf f p : forall fuel x p0 i0,
  (x <= i0 <= x + fuel)%nat -> p < total f i0 ->
  (forall i, cdf (Z.of_nat i) = total f (S i)) -> p0 = total f x ->
  exists i, (x <= i <= i0)%nat /\ poi_search cdf p (S fuel) (Z.of_nat x) p0 = Some (Ok (Whole (Z.of_nat i - 1)%Z)) /\
    p < total f i /\ forall j, (x <= j < i)%nat -> total f j <= p.
Proof.
  induction fuel; intros x p0 i I Ci P E; cbn [poi_search]; unfold rle; (destruct (Rle_dec p0 p) as [L|L]).
  - assert (i = x) by lia. subst. lra.
  - exists x. split; [lia|]. split; auto. split; [lra|]. intros; lia.
  - assert (i <> x) by (intros ->; lra). rewrite P. replace (Z.of_nat x + 1)%Z with (Z.of_nat (S x)) by lia.
    destruct (IHfuel (S x) (total f (S x)) i) as (i' & I' & S' & C' & L'); [lia|auto|auto|auto|].
    exists i'. split; [lia|]. split; [exact S'|]. split; auto. intros j J. destruct (Nat.eq_dec j x) as [->|N]; [lra|]. apply L'. lia.
  - exists x. split; [lia|]. split; auto. split; [lra|]. intros; lia.
Qed.

(** the sums of the negative binomial probabilities come close to 1 *)
Definition nb (p : R) (n x : nat) : R := INR (choose (n + x - 1) x) * (1 - p) ^ x * p ^ n.
Lemma nb_step p n x : (1 <= n)%nat -> nb p (S n) (S x) = p * nb p n (S x) + (1 - p) * nb p (S n) x.
Proof.
  intros H. unfold nb. replace (S n + S x - 1)%nat with (S (n + x)) by lia. cbn [choose]. rewrite plus_INR.
  replace (n + S x - 1)%nat with (n + x)%nat by lia. replace (S n + x - 1)%nat with (n + x)%nat by lia. cbn [pow]. ring.
Qed.
Lemma nb_total_step p n x : (1 <= n)%nat -> total (nb p (S n)) (S x) = p * total (nb p n) (S x) + (1 - p) * total (nb p (S n)) x.
Proof.
  intros H. induction x.
  - unfold total. cbn [seq map rsum]. unfold nb. rewrite !choose_0. cbn [pow INR]. ring.
  - rewrite (total_S (nb p (S n)) (S x)), (total_S (nb p n) (S x)), nb_step by auto.
    pose proof (total_S (nb p (S n)) x) as E. set (A := total (nb p (S n)) (S x)) in *. rewrite E at 2. rewrite IHx. ring.
Qed.
Lemma nb_1_total p x : total (nb p 1) x = 1 - (1 - p) ^ x.
Proof.
  induction x; [unfold total; cbn; ring|]. rewrite total_S, IHx. unfold nb. replace (1 + x - 1)%nat with x by lia. rewrite choose_full. cbn [pow INR]. ring.
Qed.
Lemma power_small q : 0 <= q < 1 -> forall e, 0 < e -> exists N, forall k, (N <= k)%nat -> q ^ k < e.
Proof.
  intros Q e E. destruct (pow_lt_1_zero q) with (y := e) as [N H]; auto; [rewrite Rabs_pos_eq; lra|].
  exists N. intros k K. specialize (H k ltac:(lia)). rewrite Rabs_pos_eq in H; auto. apply pow_le. lra.
Qed.
Lemma nb_limit p : 0 < p <= 1 -> forall n, (1 <= n)%nat -> forall e, 0 < e -> exists N, forall x, (N <= x)%nat -> 1 - e < total (nb p n) x.
Proof.
  intros Hp n H. induction H as [|n H IH]; intros e E.
  - destruct (power_small (1 - p) ltac:(lra) e E) as [N HN]. exists N. intros x X. rewrite nb_1_total. specialize (HN x X). lra.
  - destruct (IH (e / 2) ltac:(lra)) as [N HN]. set (D := fun x => 1 - total (nb p (S n)) x).
    assert (St : forall k, D (N + k)%nat <= e / 2 + (1 - p) ^ k * Rabs (D N)).
    { induction k.
      - rewrite Nat.add_0_r. cbn [pow]. pose proof (Rle_abs (D N)). lra.
      - replace (N + S k)%nat with (S (N + k)) by lia. unfold D at 1. rewrite nb_total_step by auto.
        specialize (HN (S (N + k)) ltac:(lia)). unfold D in IHk at 1. cbn [pow].
        assert (A : p * (1 - e / 2) <= p * total (nb p n) (S (N + k))) by (apply Rmult_le_compat_l; lra).
        assert (B : (1 - p) * (1 - total (nb p (S n)) (N + k)) <= (1 - p) * (e / 2 + (1 - p) ^ k * Rabs (D N))) by (apply Rmult_le_compat_l; lra).
        lra. }
    destruct (power_small (1 - p) ltac:(lra) (e / 2 / (1 + Rabs (D N)))) as [K HK].
    { pose proof (Rabs_pos (D N)). apply Rdiv_lt_0_compat; lra. }
    exists (N + K)%nat. intros x X. replace x with (N + (x - N))%nat by lia. specialize (St (x - N)%nat). specialize (HK (x - N)%nat ltac:(lia)).
    unfold D in St at 1. pose proof (Rabs_pos (D N)) as PD.
    assert ((1 - p) ^ (x - N) * Rabs (D N) < e / 2).
    { apply Rle_lt_trans with (e / 2 / (1 + Rabs (D N)) * Rabs (D N)); [apply Rmult_le_compat_r; lra|].
      apply Rmult_lt_reg_r with (1 + Rabs (D N)); [lra|]. field_simplify; lra. }
    lra.
Qed.
