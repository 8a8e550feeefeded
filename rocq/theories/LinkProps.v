(** C83: link functions (m.link), over the real numbers with the overflow of math.exp. *)
From Coq Require Import Reals Lra Permutation.
From Verif Require Import Base LaModel LinkModel LinkSpec LinkProofs.
Open Scope string_scope.
Open Scope list_scope.
Open Scope R_scope.

(** ** m.link.softmax *)
Lemma softmax_ok x ys : softmax x = Ok ys -> x <> [] /\ ys = map (fun v => exp v / rtotal (map exp x)) x.
Proof. destruct x as [|x0 l]; [discriminate|]. intros H. split; [discriminate|]. apply softmax_values_ok. auto. Qed.
Lemma exp_total_pos x : x <> [] -> 0 < rtotal (map exp x).
Proof.
  intros N. apply rtotal_pos; [destruct x; [congruence|discriminate]|]. intros z Hz. apply in_map_iff in Hz. destruct Hz as (w & <- & _). apply exp_pos.
Qed.
(** a result is a probability distribution, with the shares of the exponentials, in the order of the input *)
Theorem C83_softmax : forall x ys, softmax x = Ok ys ->
  rtotal ys = 1 /\ length ys = length x /\
  (forall i v, nth_error x i = Some v -> exists y, nth_error ys i = Some y /\ y = exp v / rtotal (map exp x) /\ 0 < y <= 1) /\
  (forall i j v w y z, nth_error x i = Some v -> nth_error x j = Some w -> nth_error ys i = Some y -> nth_error ys j = Some z -> (v < w <-> y < z)).
Proof.
  intros x ys H. apply softmax_ok in H. destruct H as [N ->]. pose proof (exp_total_pos x N) as P. set (Z := rtotal (map exp x)) in *.
  assert (T : rtotal (map (fun v => exp v / Z) x) = 1).
  { rewrite (map_ext _ (fun v => / Z * exp v)) by (intros; unfold Rdiv; ring). rewrite rtotal_mul. fold Z. field. lra. }
  assert (POS : forall v, 0 < exp v / Z) by (intros v; apply Rdiv_lt_0_compat; [apply exp_pos|auto]).
  assert (LE : forall l v, In v l -> (forall u, In u l -> 0 < u) -> v <= rtotal l).
  { induction l as [|a l IH]; intros v []; intros Q; cbn.
    - subst a. destruct l as [|b l]; [cbn; lra|]. assert (0 < rtotal (b :: l)) by (apply rtotal_pos; [discriminate|intros; apply Q; right; auto]). unfold rtotal in *. lra.
    - assert (v <= rtotal l) by (apply IH; auto; intros; apply Q; right; auto). assert (0 < a) by (apply Q; left; auto). unfold rtotal in *. lra. }
  split; [exact T|]. split; [apply map_length|]. split.
  - intros i v Hi. exists (exp v / Z). split; [rewrite nth_error_map, Hi; auto|]. split; [auto|]. split; [auto|]. rewrite <- T. apply LE.
    + apply in_map_iff. exists v. split; auto. eapply nth_error_In; eauto.
    + intros u Hu. apply in_map_iff in Hu. destruct Hu as (w & <- & _). auto.
  - intros i j v w y z Hi Hj. rewrite !nth_error_map, Hi, Hj. cbn. intros E1 E2. injection E1 as <-. injection E2 as <-. unfold Rdiv. split; intros L.
    + apply Rmult_lt_compat_r; [apply Rinv_0_lt_compat; auto|]. apply exp_increasing. auto.
    + apply Rmult_lt_reg_r in L; [|apply Rinv_0_lt_compat; auto]. apply exp_lt_inv. auto.
Qed.
(** adding the same number to all the inputs does not change the result *)
Theorem C83_softmax_shift : forall x c ys zs, softmax x = Ok ys -> softmax (map (fun v => v + c) x) = Ok zs -> zs = ys.
Proof.
  intros x c ys zs H1 H2. apply softmax_ok in H1, H2. destruct H1 as [N ->], H2 as [_ ->]. rewrite !map_map. apply map_ext. intros v.
  rewrite (map_ext (fun v => exp (v + c)) (fun v => exp c * exp v)) by (intros u; rewrite Rplus_comm; apply exp_plus).
  rewrite rtotal_mul, Rplus_comm, exp_plus. pose proof (exp_pos c). pose proof (exp_total_pos x N). field. lra.
Qed.
(** It fails for no input (25000), and otherwise only by an overflow. There is none when the inputs differ by less
    than 512, or when one that is not negative is larger in magnitude than all the others. *)
Theorem C83_softmax_errors : forall x,
  (x = [] -> softmax x = Raise (PFAErr 25000)) /\
  (x <> [] -> (exists ys, softmax x = Ok ys) \/ softmax x = Raise (PyErr "OverflowError")) /\
  (x <> [] -> (forall u v, In u x -> In v x -> u - v < 512) -> exists ys, softmax x = Ok ys) /\
  ((exists v, In v x /\ 0 <= v /\ forall u, In u x -> u = v \/ Rabs u < v) -> exists ys, softmax x = Ok ys).
Proof.
  intros x. split; [intros ->; auto|]. destruct x as [|x0 l]; [split; [congruence|split; [congruence|intros (v & [] & _)]]|]. cbn [softmax].
  split; [intros _|split; [intros _ H|intros (v & Hv & P & H)]].
  - destruct (all_or_some (fun v => py_exp (v - softmax_shift x0 l) = Ok (exp (v - softmax_shift x0 l)))
                (fun v => py_exp (v - softmax_shift x0 l) = Raise (PyErr "OverflowError")) (x0 :: l) (fun v _ => py_exp_cases _)) as [F|E].
    + left. apply softmax_values_runs. auto.
    + right. apply softmax_values_fails. auto.
  - apply softmax_values_runs. intros v Hv. apply py_exp_small. apply H; auto. apply softmax_shift_in.
  - apply softmax_values_runs. intros u Hu. apply py_exp_small. rewrite (softmax_shift_max x0 l v) by auto.
    pose proof (proj2 (r_max_in l x0) u Hu). lra.
Qed.
Example C83_softmax_example : exists ys, softmax [1; 1; -2] = Ok ys /\ softmax [1 + 5; 1 + 5; -2 + 5] = Ok ys.
Proof.
  destruct (C83_softmax_errors [1; 1; -2]) as (_ & _ & A & _). destruct (C83_softmax_errors [1 + 5; 1 + 5; -2 + 5]) as (_ & _ & B & _).
  destruct A as [ys Hy]; [discriminate|intros u v; cbn; intros [<-|[<-|[<-|[]]]] [<-|[<-|[<-|[]]]]; lra|].
  destruct B as [zs Hz]; [discriminate|intros u v; cbn; intros [<-|[<-|[<-|[]]]] [<-|[<-|[<-|[]]]]; lra|].
  exists ys. split; auto. rewrite Hz. f_equal. eapply (C83_softmax_shift _ 5); eauto.
Qed.
(** Refuted: a result for every input. When the input of largest magnitude is negative the shift is the minimum, and
    the exponentials of the others overflow: two log-likelihoods far apart are enough. *)
Theorem C83_softmax_total_refuted : exists x, x <> [] /\ softmax x = Raise (PyErr "OverflowError").
Proof.
  exists [-1000; -3000]. split; [discriminate|]. cbn [softmax]. apply softmax_values_fails. exists (-1000). split; [left; auto|].
  rewrite softmax_shift_min by (intros u [<-|[<-|[]]]; lra). apply py_exp_big. unfold r_min. cbn. unfold Rmin. destruct (Rle_dec _ _); lra.
Qed.
(** on a map: the result of the values, under the same keys *)
Theorem C83_softmax_map : forall x,
  (forall ys, softmax_map x = Ok ys <-> exists zs, softmax (map snd x) = Ok zs /\ ys = combine (map fst x) zs) /\
  (forall e, softmax_map x = Raise e <-> softmax (map snd x) = Raise e) /\
  (forall ys, softmax_map x = Ok ys -> map fst ys = map fst x /\ rtotal (map snd ys) = 1).
Proof.
  intros x. assert (G : softmax_map x = match softmax (map snd x) with Ok zs => Ok (combine (map fst x) zs) | Raise e => Raise e end).
  { unfold softmax_map, softmax. destruct (map snd x) as [|x0 l]; auto. }
  rewrite G. destruct (softmax (map snd x)) as [zs|e] eqn:E.
  - split; [|split; [split; discriminate|]].
    + intros ys. split; [intros H; injection H as <-; eauto|]. intros (zs' & H & ->). congruence.
    + intros ys H. injection H as <-. pose proof (C83_softmax _ _ E) as (T & L & _). rewrite map_length in L.
      assert (CF : forall (a : list string) (b : list R), length b = length a -> map fst (combine a b) = a /\ map snd (combine a b) = b).
      { induction a as [|k a IH]; intros [|u b]; try discriminate; auto. cbn. intros Q. destruct (IH b) as [-> ->]; auto. }
      destruct (CF (map fst x) zs) as [-> ->]; [rewrite map_length; auto|]. auto.
  - split; [intros ys; split; [discriminate|intros (zs & H & _); discriminate]|]. split; [intros e'; split; congruence|discriminate].
Qed.

(** ** The element-wise functions *)
(** arrays and maps are treated element by element; the keys are kept *)
Theorem C83_elementwise : forall f,
  (forall l l', unwrapForNorm (NArray l) f = Ok l' <-> exists ys, l' = NArray ys /\ Forall2 (fun x y => f x = Ok y) l ys) /\
  (forall d d', unwrapForNorm (NMap d) f = Ok d' <-> exists ys, d' = NMap ys /\ Forall2 (fun kx ky => fst kx = fst ky /\ f (snd kx) = Ok (snd ky)) d ys) /\
  (forall x y, unwrapForNorm (NNumber x) f = Ok y <-> exists z, y = NNumber z /\ f x = Ok z).
Proof.
  assert (G : forall A B (h : A -> res B) l ys, rmapM h l = Ok ys <-> Forall2 (fun x y => h x = Ok y) l ys).
  { intros A B h. induction l as [|a l IH]; intros ys; cbn.
    - split; [intros H; injection H as <-; constructor|]. intros H. inversion H. auto.
    - destruct (h a) as [y|e] eqn:E; cbn; [|split; [discriminate|]; intros H; inversion H; subst; congruence].
      destruct (rmapM h l) as [ys'|e] eqn:E'; cbn.
      + split; [intros H; injection H as <-; constructor; auto; apply IH; auto|]. intros H. inversion H; subst. apply IH in H4. congruence.
      + split; [discriminate|]. intros H. inversion H; subst. apply IH in H4. discriminate. }
  intros f. split; [|split].
  - intros l l'. cbn. destruct (rmapM f l) as [ys|e] eqn:E; cbn.
    + apply G in E. split; [intros H; injection H as <-; eauto|]. intros (zs & -> & H). apply G in E, H. congruence.
    + split; [discriminate|]. intros (zs & -> & H). apply G in H. congruence.
  - intros d d'. cbn. set (h := fun kv : string * R => _).
    assert (K : forall a b, h a = Ok b <-> fst a = fst b /\ f (snd a) = Ok (snd b)).
    { intros [k x] [k' y]. unfold h. cbn. destruct (f x) as [z|e]; cbn; split; try (intros [H1 H2]); try intros H1; try congruence; try discriminate. injection H1 as -> ->. auto. }
    assert (F : forall ys, Forall2 (fun x y => h x = Ok y) d ys <-> Forall2 (fun kx ky => fst kx = fst ky /\ f (snd kx) = Ok (snd ky)) d ys).
    { intros ys. split; intros H; (eapply Forall2_imp_in; [|exact H]); intros; apply K; auto. }
    destruct (rmapM h d) as [ys|e] eqn:E; cbn.
    + apply G in E. split; [intros H; injection H as <-; exists ys; split; auto; apply F; auto|]. intros (zs & -> & H). apply F in H. apply G in E, H. congruence.
    + split; [discriminate|]. intros (zs & -> & H). apply F in H. apply G in H. congruence.
  - intros x y. cbn. destruct (f x) as [z|e]; cbn; split; [intros H; injection H as <-; eauto|intros (w & -> & H); congruence|discriminate|intros (w & _ & H); discriminate].
Qed.
Example C83_elementwise_example : unwrapForNorm (NMap [("a", 2); ("b", -3)]) relu = Ok (NMap [("a", 2); ("b", 0)]).
Proof. cbn. unfold Rmax. repeat destruct (Rle_dec _ _); auto; lra. Qed.

(** m.link.logit *)
Lemma logit_ok y p : logit y = Ok p -> p = / (1 + exp (- y)).
Proof.
  unfold logit. destruct (py_exp (- y)) as [e|] eqn:E; cbn; [|discriminate]. apply py_exp_ok in E. subst e. unfold py_rdiv.
  destruct (Req_EM_T _ _); [discriminate|]. intros H. injection H as <-. unfold Rdiv. ring.
Qed.
Lemma logit_runs y : - 512 < y -> logit y = Ok (/ (1 + exp (- y))).
Proof.
  intros H. unfold logit. rewrite py_exp_small by lra. cbn. unfold py_rdiv. pose proof (exp_pos (- y)). destruct (Req_EM_T _ _); [lra|]. f_equal. unfold Rdiv. ring.
Qed.
Theorem C83_logit :
  (forall y, - 512 < y -> exists p, logit y = Ok p) /\
  (forall y p, logit y = Ok p -> 0 < p < 1 /\ ln (p / (1 - p)) = y) /\
  (forall y z p q, logit y = Ok p -> logit z = Ok q -> (y < z <-> p < q)) /\
  (forall y p q, logit y = Ok p -> logit (- y) = Ok q -> q = 1 - p).
Proof.
  assert (B : forall y, 0 < / (1 + exp (- y)) < 1).
  { intros y. pose proof (exp_pos (- y)). split; [apply Rinv_0_lt_compat; lra|]. rewrite <- Rinv_1. apply Rinv_lt_contravar; lra. }
  split; [intros y H; rewrite logit_runs; eauto|]. split; [|split].
  - intros y p H. apply logit_ok in H. subst p. split; auto. pose proof (exp_pos (- y)).
    replace (/ (1 + exp (- y)) / (1 - / (1 + exp (- y)))) with (exp y); [apply ln_exp|].
    rewrite exp_Ropp in *. pose proof (exp_pos y). field. repeat split; try lra.
  - intros y z p q H1 H2. apply logit_ok in H1, H2. subst. pose proof (exp_pos (- y)). pose proof (exp_pos (- z)). split; intros L.
    + apply Rinv_lt_contravar; [apply Rmult_lt_0_compat; lra|]. apply Rplus_lt_compat_l, exp_increasing. lra.
    + destruct (Rlt_dec y z) as [|N]; auto. exfalso. assert (exp (- y) <= exp (- z)).
      { destruct (Req_EM_T y z) as [->|D]; [lra|]. left. apply exp_increasing. lra. }
      assert (/ (1 + exp (- z)) <= / (1 + exp (- y))) by (apply Rinv_le_contravar; lra). lra.
  - intros y p q H1 H2. apply logit_ok in H1, H2. subst. rewrite Ropp_involutive, exp_Ropp. pose proof (exp_pos y). field. lra.
Qed.
(** softmax of two numbers is the logit of their difference *)
Theorem C83_softmax_logit : forall u v ys p, softmax [u; v] = Ok ys -> logit (u - v) = Ok p -> ys = [p; 1 - p].
Proof.
  intros u v ys p H1 H2. apply softmax_ok in H1. destruct H1 as [_ ->]. apply logit_ok in H2. subst p. cbn.
  replace (- (u - v)) with (v + - u) by ring. rewrite exp_plus, exp_Ropp. pose proof (exp_pos u). pose proof (exp_pos v).
  f_equal; [|f_equal]; field; repeat split; lra.
Qed.
Example C83_logit_example : exists ys p, softmax [3; 1] = Ok ys /\ logit (3 - 1) = Ok p /\ logit 0 = Ok (/ 2).
Proof.
  destruct (C83_softmax_errors [3; 1]) as (_ & _ & A & _). destruct A as [ys Hy]; [discriminate|intros u v; cbn; intros [<-|[<-|[]]] [<-|[<-|[]]]; lra|].
  exists ys. eexists. split; [eauto|]. split; [apply logit_runs; lra|]. rewrite logit_runs by lra. rewrite Ropp_0, exp_0. auto.
Qed.
(** Refuted: a result for every number. The limit is 0, but math.exp overflows. *)
Theorem C83_logit_total_refuted : exists y, logit y = Raise (PyErr "OverflowError").
Proof. exists (-2000). unfold logit. rewrite py_exp_big by lra. auto. Qed.

(** m.link.loglog and m.link.cloglog: complementary, between 0 and 1, decreasing and increasing *)
Lemma loglog_ok y p : loglog y = Ok p -> p = exp (- exp y).
Proof. unfold loglog. destruct (py_exp y) as [e|] eqn:E; cbn; [|discriminate]. apply py_exp_ok in E. subst e. apply py_exp_ok. Qed.
Lemma cloglog_ok y p : cloglog y = Ok p -> p = 1 - exp (- exp y).
Proof.
  unfold cloglog. destruct (py_exp y) as [e|] eqn:E; cbn; [|discriminate]. apply py_exp_ok in E. subst e.
  destruct (py_exp (- exp y)) as [e|] eqn:E; cbn; [|discriminate]. apply py_exp_ok in E. congruence.
Qed.
Theorem C83_loglog :
  (forall y, y < 512 -> exists p q, loglog y = Ok p /\ cloglog y = Ok q) /\
  (forall y p, loglog y = Ok p -> 0 < p < 1 /\ cloglog y = Ok (1 - p)) /\
  (forall y z p q, loglog y = Ok p -> loglog z = Ok q -> y < z -> q < p).
Proof.
  split; [|split].
  - intros y H. exists (exp (- exp y)), (1 - exp (- exp y)). unfold loglog, cloglog. rewrite (py_exp_small y H). cbn. rewrite py_exp_small; auto.
    pose proof (exp_pos y). lra.
  - intros y p H. pose proof H as H'. apply loglog_ok in H'. pose proof (exp_pos y). split.
    + subst p. split; [apply exp_pos|]. rewrite <- exp_0. apply exp_increasing. lra.
    + unfold loglog in H. unfold cloglog. destruct (py_exp y) as [e|]; cbn in *; [|discriminate]. rewrite H. auto.
  - intros y z p q H1 H2 L. apply loglog_ok in H1, H2. subst. apply exp_increasing. apply exp_increasing in L. lra.
Qed.
Theorem C83_cloglog_total_refuted : exists y, loglog y = Raise (PyErr "OverflowError") /\ cloglog y = Raise (PyErr "OverflowError").
Proof. exists 2000. unfold loglog, cloglog. rewrite py_exp_big by lra. auto. Qed.
(** m.link.softplus: above 0 and above y, with softplus y - softplus (-y) = y; m.link.relu is the larger of 0 and y *)
Lemma softplus_ok y p : softplus y = Ok p -> p = ln (1 + exp y).
Proof.
  unfold softplus. destruct (py_exp y) as [e|] eqn:E; cbn; [|discriminate]. apply py_exp_ok in E. subst e. unfold py_log. destruct (Rle_dec _ _); congruence.
Qed.
Theorem C83_softplus :
  (forall y, y < 512 -> exists p, softplus y = Ok p) /\
  (forall y p, softplus y = Ok p -> 0 < p /\ y < p) /\
  (forall y p q, softplus y = Ok p -> softplus (- y) = Ok q -> p - q = y) /\
  (forall y p r, softplus y = Ok p -> relu y = Ok r -> r < p <= r + ln 2) /\
  (forall y r, relu y = Ok r -> (0 <= y -> r = y) /\ (y <= 0 -> r = 0)).
Proof.
  assert (A : forall y, 0 < ln (1 + exp y) /\ y < ln (1 + exp y)).
  { intros y. pose proof (exp_pos y). split; [rewrite <- ln_1; apply ln_increasing; lra|]. rewrite <- (ln_exp y) at 1. apply ln_increasing; lra. }
  assert (Rl : forall y r, relu y = Ok r -> r = Rmax 0 y) by (unfold relu; congruence).
  split; [|split; [|split; [|split]]].
  - intros y H. unfold softplus. rewrite py_exp_small by auto. cbn. unfold py_log. pose proof (exp_pos y). destruct (Rle_dec _ _); [lra|eauto].
  - intros y p H. apply softplus_ok in H. subst. auto.
  - intros y p q H1 H2. apply softplus_ok in H1, H2. subst. pose proof (exp_pos y). rewrite exp_Ropp.
    replace (1 + exp y) with (exp y * (1 + / exp y)) by (field; lra). assert (0 < / exp y) by (apply Rinv_0_lt_compat; auto).
    rewrite ln_mult by lra. rewrite ln_exp. ring.
  - intros y p r H1 H2. apply softplus_ok in H1. apply Rl in H2. subst. destruct (A y). split; [unfold Rmax; destruct (Rle_dec 0 y); lra|].
    pose proof (exp_pos y). unfold Rmax. destruct (Rle_dec 0 y) as [P|P].
    + rewrite <- (ln_exp y) at 2. rewrite <- ln_mult by lra. assert (1 <= exp y).
      { rewrite <- exp_0. destruct P as [P|<-]; [left; apply exp_increasing; auto|lra]. }
      destruct (Req_EM_T (1 + exp y) (exp y * 2)) as [->|]; [lra|]. left. apply ln_increasing; lra.
    + assert (exp y < 1) by (rewrite <- exp_0; apply exp_increasing; lra). rewrite Rplus_0_l. left. apply ln_increasing; lra.
  - intros y r H. apply Rl in H. subst. unfold Rmax. destruct (Rle_dec 0 y); split; intros; lra.
Qed.
(** m.link.cauchit: between 0 and 1, increasing, symmetric *)
Theorem C83_cauchit : forall y, exists p, cauchit y = Ok p /\ 0 < p < 1 /\ cauchit (- y) = Ok (1 - p) /\
  forall z, y < z -> exists q, cauchit z = Ok q /\ p < q.
Proof.
  assert (G : forall y, cauchit y = Ok (1 / 2 + / PI * atan y)).
  { intros y. unfold cauchit, py_rdiv. pose proof PI_RGT_0. destruct (Req_EM_T PI 0); [lra|]. cbn. do 2 f_equal. field. auto. }
  intros y. pose proof PI_RGT_0 as P. pose proof (atan_bound y) as [L U]. assert (Q : 0 < / PI) by (apply Rinv_0_lt_compat; auto).
  rewrite (G y). eexists. split; [reflexivity|]. split; [|split].
  - assert (/ PI * (- PI / 2) < / PI * atan y < / PI * (PI / 2)) by (split; apply Rmult_lt_compat_l; auto; lra).
    replace (/ PI * (- PI / 2)) with (- (1 / 2)) in * by (field; lra). replace (/ PI * (PI / 2)) with (1 / 2) in * by (field; lra). lra.
  - rewrite G, atan_opp. f_equal. lra.
  - intros z Hz. rewrite (G z). eexists. split; [reflexivity|]. apply Rplus_lt_compat_l. apply Rmult_lt_compat_l; auto. apply atan_increasing. auto.
Qed.
Print Assumptions C83_softmax.
Print Assumptions C83_softmax_shift.
Print Assumptions C83_softmax_errors.
Print Assumptions C83_softmax_total_refuted.
Print Assumptions C83_softmax_map.
Print Assumptions C83_elementwise.
Print Assumptions C83_logit.
Print Assumptions C83_softmax_logit.
Print Assumptions C83_logit_total_refuted.
Print Assumptions C83_loglog.
Print Assumptions C83_cloglog_total_refuted.
Print Assumptions C83_softplus.
Print Assumptions C83_cauchit.
