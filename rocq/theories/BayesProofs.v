(** Lemmas about naive Bayes models. *)
From Coq Require Import Reals Lra Permutation.
From Verif Require Import Base LaModel LaProofs LaProofs2 LinkModel LinkSpec LinkProofs.
Open Scope string_scope.
Open Scope list_scope.
Open Scope R_scope.

Lemma py_log_pos x : 0 < x -> py_log x = Ok (ln x).
Proof. intros H. unfold py_log. destruct (Rle_dec x 0); [lra|auto]. Qed.
Lemma py_rdiv_ok x y : y <> 0 -> py_rdiv x y = Ok (x / y).
Proof. intros H. unfold py_rdiv. destruct (Req_EM_T y 0); [contradiction|auto]. Qed.
Lemma rfoldM_sum {A} (f : R -> A -> res R) (g : A -> R) l : (forall ll a, In a l -> f ll a = Ok (ll + g a)) ->
  forall ll, rfoldM f ll l = Ok (ll + rtotal (map g l)).
Proof.
  intros H. induction l as [|a l IH]; intros ll; cbn.
  - f_equal. lra.
  - rewrite H by (left; auto). cbn. rewrite IH by (intros; apply H; right; auto). f_equal. unfold rtotal. lra.
Qed.
Lemma rfoldM_raise {A} (f : R -> A -> res R) (g : A -> R) e l : (forall ll a, In a l -> f ll a = Ok (ll + g a) \/ (forall ll', f ll' a = Raise e)) ->
  (exists a, In a l /\ forall ll, f ll a = Raise e) -> forall ll, rfoldM f ll l = Raise e.
Proof.
  intros H (a & Ha & E). induction l as [|b l IH]; [destruct Ha|]. intros ll. cbn.
  destruct (H ll b (or_introl eq_refl)) as [G|G].
  - rewrite G. cbn. destruct Ha as [<- |Ha]; [rewrite E in G; discriminate|]. apply IH; auto. intros; apply H; right; auto.
  - rewrite G. auto.
Qed.
Lemma ln_product {A} (f : A -> R) l : (forall a, In a l -> 0 < f a) -> 0 < product (map f l) /\ rtotal (map (fun a => ln (f a)) l) = ln (product (map f l)).
Proof.
  intros H. induction l as [|a l IH]; cbn; [split; [lra|rewrite ln_1; auto]|]. destruct IH as [P E]; [intros; apply H; right; auto|].
  specialize (H a (or_introl eq_refl)). unfold product, rtotal in *. split; [apply Rmult_lt_0_compat; auto|]. rewrite ln_mult by auto. rewrite E. auto.
Qed.
Lemma density_pos x mu v : 0 < v -> 0 < normal_density x mu v.
Proof.
  intros H. unfold normal_density. apply Rmult_lt_0_compat; [|apply exp_pos]. apply Rinv_0_lt_compat, sqrt_lt_R0.
  pose proof PI_RGT_0. apply Rmult_lt_0_compat; [lra|auto].
Qed.
Lemma ln_sqrt_half x : 0 < x -> ln (sqrt x) = 1 / 2 * ln x.
Proof.
  intros H. pose proof (sqrt_lt_R0 x H) as P. assert (E : ln x = ln (sqrt x) + ln (sqrt x)) by (rewrite <- ln_mult by auto; rewrite sqrt_sqrt by lra; auto). lra.
Qed.
Lemma gaussian_feature_ok ll x mu v : 0 < v -> gaussian_feature ll x mu v = Ok (ll + ln (normal_density x mu v)).
Proof.
  intros H. unfold gaussian_feature. destruct (Rle_dec v 0); [lra|]. pose proof PI_RGT_0.
  assert (P : 0 < 2 * PI * v) by (apply Rmult_lt_0_compat; lra).
  rewrite py_log_pos by auto. cbn [rbind]. rewrite py_rdiv_ok by lra. cbn [rbind]. f_equal. unfold normal_density.
  rewrite (ln_mult (/ sqrt (2 * PI * v))); [|apply Rinv_0_lt_compat, sqrt_lt_R0; auto|apply exp_pos]. rewrite ln_exp, ln_Rinv by (apply sqrt_lt_R0; auto).
  rewrite ln_sqrt_half by auto. field. lra.
Qed.
Lemma gaussian_feature_bad ll x mu v : v <= 0 -> gaussian_feature ll x mu v = Raise (PFAErr 10001).
Proof. intros H. unfold gaussian_feature. destruct (Rle_dec v 0); [auto|lra]. Qed.

(** the loop over positions is a loop over pairs *)
Lemma rfoldM_index {B} (f : R -> R -> B -> res R) (cm : list B) : forall datum k ll, (k + length datum <= length cm)%nat ->
  rfoldM (fun ll ix => rbind (index cm (fst ix)) (fun mv => f ll (snd ix) mv)) ll (combine (seq k (length datum)) datum)
  = rfoldM (fun ll xm => f ll (fst xm) (snd xm)) ll (combine datum (skipn k cm)).
Proof.
  induction datum as [|x datum IH]; intros k ll H; auto. cbn [length seq combine] in *.
  assert (E : exists m, nth_error cm k = Some m /\ skipn k cm = m :: skipn (S k) cm).
  { assert (Hk : (k < length cm)%nat) by lia. clear -Hk. revert k Hk. induction cm as [|a cm IHc]; intros k Hk; [cbn in Hk; lia|]. destruct k; [exists a; auto|]. cbn in Hk. destruct (IHc k) as (m & H1 & H2); [lia|]. exists m. auto. }
  destruct E as (m & E1 & E2). rewrite E2. cbn [rfoldM fst snd]. unfold index at 1. rewrite E1. cbn [rbind].
  destruct (f ll x m); auto. cbn [rbind]. apply IH. lia.
Qed.
Lemma gaussian_array_pairs datum cm : length datum = length cm ->
  gaussian_array datum cm = rfoldM (fun ll xm => gaussian_feature ll (fst xm) (fst (snd xm)) (snd (snd xm))) 0 (combine datum cm).
Proof.
  intros L. unfold gaussian_array. rewrite count_eqb, L, Nat.eqb_refl. cbn [negb]. rewrite <- L.
  rewrite (rfoldM_index (fun ll x mv => gaussian_feature ll x (fst mv) (snd mv)) cm datum 0 0) by (rewrite L; auto with arith). auto.
Qed.
Lemma same_keys_spec a b : same_keys a b = true <-> (forall k, In k a <-> In k b).
Proof.
  unfold same_keys. rewrite andb_true_iff, !forallb_forall. split.
  - intros [H1 H2] k. split; intros H; [specialize (H1 k H)|specialize (H2 k H)];
      [apply existsb_exists in H1; destruct H1 as (j & Hj & E)|apply existsb_exists in H2; destruct H2 as (j & Hj & E)]; apply String.eqb_eq in E; subst; auto.
  - intros H. split; intros k Hk; apply existsb_exists; exists k; (split; [apply H; auto|apply String.eqb_refl]).
Qed.
Lemma rfoldM_map {A C} (h : C -> A) (f : R -> A -> res R) l : forall ll, rfoldM f ll (map h l) = rfoldM (fun ll c => f ll (h c)) ll l.
Proof. induction l as [|c l IH]; intros ll; auto. cbn. destruct (f ll (h c)); auto. apply IH. Qed.
Lemma rfoldM_ext {A} (f g : R -> A -> res R) l : (forall ll a, In a l -> f ll a = g ll a) -> forall ll, rfoldM f ll l = rfoldM g ll l.
Proof. induction l as [|a l IH]; intros H ll; auto. cbn. rewrite H by (left; auto). destruct (g ll a); auto. cbn. apply IH. intros; apply H; right; auto. Qed.
(** a map model is the loop over the entries of the datum *)
Lemma gaussian_map_pairs datum cm : NoDup (map fst datum) -> (forall k, In k (map fst datum) <-> In k (map fst cm)) ->
  gaussian_map datum cm = rfoldM (fun ll kx => rbind (subscript cm (fst kx)) (fun mv => gaussian_feature ll (snd kx) (fst mv) (snd mv))) 0 datum.
Proof.
  intros N K. unfold gaussian_map. rewrite (proj2 (same_keys_spec _ _) K). cbn [negb]. rewrite rfoldM_map. apply rfoldM_ext. intros ll [k x] Hk.
  cbn [fst snd]. unfold subscript at 1. rewrite (In_assoc _ _ _ N Hk). auto.
Qed.
Lemma some_not_positive_spec l : some_not_positive l = false <-> forall x, In x l -> 0 < x.
Proof.
  unfold some_not_positive. split.
  - intros H x Hx. destruct (Rlt_dec 0 x) as [|N]; auto. exfalso. assert (existsb (fun x => if Rlt_dec 0 x then false else true) l = true); [|congruence].
    apply existsb_exists. exists x. split; auto. destruct (Rlt_dec 0 x); auto.
  - intros H. destruct (existsb _ l) eqn:E; auto. apply existsb_exists in E. destruct E as (x & Hx & E). destruct (Rlt_dec 0 x); [discriminate|]. exfalso. auto.
Qed.
Lemma tiny_pos : 0 < tiny.
Proof. unfold tiny. apply Rinv_0_lt_compat. apply pow_lt. lra. Qed.
Lemma tiny_lt_1 : tiny < 1.
Proof. unfold tiny. rewrite <- Rinv_1. apply Rinv_lt_contravar; [rewrite Rmult_1_l; apply pow_lt; lra|]. apply Rlt_pow_R1; [lra|lia]. Qed.
