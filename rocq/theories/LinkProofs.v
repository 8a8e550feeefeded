(** Lemmas about link functions. *)
From Coq Require Import Reals Lra Permutation.
From Verif Require Import Base LaModel LinkModel LinkSpec.
Open Scope string_scope.
Open Scope list_scope.
Open Scope R_scope.

Lemma py_exp_cases x : py_exp x = Ok (exp x) \/ py_exp x = Raise (PyErr "OverflowError").
Proof. unfold py_exp. destruct (Rle_dec _ _); auto. Qed.
Lemma py_exp_ok x y : py_exp x = Ok y -> y = exp x.
Proof. unfold py_exp. destruct (Rle_dec _ _); congruence. Qed.
Lemma exp_nat n : exp (INR n) = exp 1 ^ n.
Proof. induction n as [|n IH]; [apply exp_0|]. rewrite S_INR, exp_plus, IH. cbn. ring. Qed.
Lemma exp_512 : exp 512 < 2 ^ 1024.
Proof.
  replace 512 with (INR 512) by (rewrite INR_IZR_INZ; f_equal). rewrite exp_nat. pose proof exp_le_3. pose proof (exp_pos 1).
  replace 1024%nat with (2 * 512)%nat by auto. rewrite pow_mult.
  enough (G : forall n, (0 < n)%nat -> exp 1 ^ n < (2 ^ 2) ^ n) by (apply G; auto with arith).
  intros n Hn. destruct n as [|n]; [exfalso; inversion Hn|]. clear Hn.
  induction n as [|n IH]; [cbn; lra|].
  change (exp 1 * exp 1 ^ S n < 2 ^ 2 * (2 ^ 2) ^ S n). assert (0 < exp 1 ^ S n) by (apply pow_lt; auto).
  apply Rmult_le_0_lt_compat; lra.
Qed.
Lemma exp_2000 : 2 ^ 1024 <= exp 2000.
Proof.
  replace 2000 with (INR 2000) by (rewrite INR_IZR_INZ; f_equal). rewrite exp_nat.
  apply Rle_trans with (2 ^ 2000).
  - apply Rle_pow; [lra|]. apply Nat.leb_le. reflexivity.
  - apply pow_incr. pose proof (exp_ineq1 1). lra.
Qed.
Lemma py_exp_small x : x < 512 -> py_exp x = Ok (exp x).
Proof.
  intros H. unfold py_exp. destruct (Rle_dec _ _) as [L|]; auto. exfalso. pose proof exp_512. apply exp_increasing in H. lra.
Qed.
Lemma py_exp_big x : 2000 <= x -> py_exp x = Raise (PyErr "OverflowError").
Proof.
  intros H. unfold py_exp. destruct (Rle_dec _ _) as [L|N]; auto. exfalso. apply N. pose proof exp_2000.
  destruct H as [H| <-]; [apply exp_increasing in H|]; lra.
Qed.
Lemma r_sum_total l : r_sum l = rtotal l.
Proof.
  unfold r_sum, rtotal. enough (G : forall a, fold_left Rplus l a = a + fold_right Rplus 0 l) by (rewrite G; ring).
  induction l as [|x l IH]; intros a; cbn; [ring|]. rewrite IH. ring.
Qed.
Lemma rtotal_pos l : l <> [] -> (forall x, In x l -> 0 < x) -> 0 < rtotal l.
Proof.
  intros N H. destruct l as [|x l]; [congruence|]. assert (0 <= rtotal l).
  { clear N. induction l as [|y l IH]; cbn; [lra|]. assert (0 < y) by (apply H; right; left; auto). enough (0 <= rtotal l) by (unfold rtotal in *; lra).
    apply IH. intros z [<- |Hz]; apply H; [left; auto|right; right; auto]. }
  cbn. specialize (H x (or_introl eq_refl)). unfold rtotal in *. lra.
Qed.
Lemma rtotal_mul {A} (f : A -> R) c l : rtotal (map (fun x => c * f x) l) = c * rtotal (map f l).
Proof. unfold rtotal. induction l as [|x l IH]; cbn; [ring|]. rewrite IH. ring. Qed.
Lemma rtotal_perm l l' : Permutation l l' -> rtotal l = rtotal l'.
Proof. unfold rtotal. induction 1; cbn; lra. Qed.
Lemma rmapM_ok_inv {A B} (f : A -> res B) (g : A -> B) l ys : (forall a y, f a = Ok y -> y = g a) -> rmapM f l = Ok ys -> ys = map g l.
Proof.
  intros H. revert ys. induction l as [|a l IH]; intros ys; cbn; [congruence|]. destruct (f a) as [y|e] eqn:E; cbn; [|discriminate].
  destruct (rmapM f l) as [ys'|e]; cbn; [|discriminate]. intros G. injection G as <-. rewrite (H a y E), (IH ys' eq_refl). auto.
Qed.
Lemma rmapM_all {A B} (f : A -> res B) (g : A -> B) l : (forall a, In a l -> f a = Ok (g a)) -> rmapM f l = Ok (map g l).
Proof. induction l as [|a l IH]; intros H; auto. cbn. rewrite (H a) by (left; auto). cbn. rewrite IH by (intros; apply H; right; auto). auto. Qed.
Lemma rmapM_raises {A B} (f : A -> res B) e l : (forall a, (exists y, f a = Ok y) \/ f a = Raise e) -> (exists a, In a l /\ f a = Raise e) -> rmapM f l = Raise e.
Proof.
  intros H (a & Ha & E). induction l as [|b l IH]; [destruct Ha|]. cbn. destruct (H b) as [[y Hy]|Hb]; [|rewrite Hb; auto]. rewrite Hy. cbn.
  destruct Ha as [<-|Ha]; [congruence|]. rewrite IH; auto.
Qed.

(** whatever the shift, the values are the shares of the exponentials *)
Lemma softmax_values_ok x0 l ys : softmax_values x0 l = Ok ys -> ys = map (fun v => exp v / rtotal (map exp (x0 :: l))) (x0 :: l).
Proof.
  unfold softmax_values. set (m := softmax_shift x0 l). destruct (rmapM (fun v => py_exp (v - m)) (x0 :: l)) as [es|e] eqn:E; [|discriminate].
  cbn [rbind]. apply (rmapM_ok_inv _ (fun v => exp (v - m))) in E; [|intros a y; apply py_exp_ok]. subst es. intros H.
  apply (rmapM_ok_inv _ (fun v => exp v / rtotal (map exp (x0 :: l)))) in H; auto.
  intros a y Hy. destruct (py_exp (a - m)) as [e|] eqn:Ea; [|discriminate]. cbn [rbind] in Hy. apply py_exp_ok in Ea. subst e.
  unfold py_rdiv in Hy. destruct (Req_EM_T _ _) as [|N]; [discriminate|]. injection Hy as <-. rewrite r_sum_total in *.
  assert (G : rtotal (map (fun v => exp (v - m)) (x0 :: l)) = exp (- m) * rtotal (map exp (x0 :: l))).
  { rewrite <- rtotal_mul. f_equal. apply map_ext. intros v. rewrite <- exp_plus. f_equal. ring. }
  rewrite G in *. replace (a - m) with (- m + a) by ring. rewrite exp_plus. pose proof (exp_pos (- m)).
  assert (0 < rtotal (map exp (x0 :: l))).
  { apply rtotal_pos; [discriminate|]. intros z Hz. apply in_map_iff in Hz. destruct Hz as (w & <- & _). apply exp_pos. }
  cbv beta. set (Z := rtotal (map exp (x0 :: l))) in *. change (exp (x0 - m) :: map (fun v => exp (v - m)) l) with (map (fun v => exp (v - m)) (x0 :: l)). rewrite G. field. split; lra.
Qed.
Lemma softmax_values_runs x0 l : (forall v, In v (x0 :: l) -> py_exp (v - softmax_shift x0 l) = Ok (exp (v - softmax_shift x0 l))) ->
  exists ys, softmax_values x0 l = Ok ys.
Proof.
  intros H. unfold softmax_values. set (m := softmax_shift x0 l) in *. rewrite (rmapM_all _ (fun v => exp (v - m))) by auto. cbn [rbind].
  eexists. apply (rmapM_all _ (fun v => exp (v - m) / r_sum (map (fun v => exp (v - m)) (x0 :: l)))). intros a Ha. rewrite H by auto. cbn [rbind].
  unfold py_rdiv. destruct (Req_EM_T _ _) as [E|]; auto. exfalso. rewrite r_sum_total in E.
  assert (0 < rtotal (map (fun v => exp (v - m)) (x0 :: l))); [|lra].
  apply rtotal_pos; [discriminate|]. intros z Hz. apply in_map_iff in Hz. destruct Hz as (w & <- & _). apply exp_pos.
Qed.
Lemma softmax_values_fails x0 l : (exists v, In v (x0 :: l) /\ py_exp (v - softmax_shift x0 l) = Raise (PyErr "OverflowError")) ->
  softmax_values x0 l = Raise (PyErr "OverflowError").
Proof.
  intros H. unfold softmax_values. set (m := softmax_shift x0 l) in *. rewrite (rmapM_raises (fun v => py_exp (v - m)) (PyErr "OverflowError")); auto.
  intros a. destruct (py_exp_cases (a - m)) as [E|E]; eauto.
Qed.
(** max and min *)
Lemma r_max_in l : forall x0, In (r_max x0 l) (x0 :: l) /\ forall v, In v (x0 :: l) -> v <= r_max x0 l.
Proof.
  unfold r_max. induction l as [|y l IH]; intros x0; cbn [fold_left]; [split; [left; auto|intros v [<- |[]]; lra]|].
  destruct (IH (Rmax x0 y)) as [I B]. split.
  - destruct I as [I|I]; [|right; right; auto]. rewrite <- I. unfold Rmax. destruct (Rle_dec x0 y); cbn; auto.
  - pose proof (B _ (or_introl eq_refl)) as B0. pose proof (Rmax_l x0 y). pose proof (Rmax_r x0 y). intros v [<- |[<- |Hv]]; [lra|lra|]. apply B. right. auto.
Qed.
Lemma r_min_in l : forall x0, In (r_min x0 l) (x0 :: l) /\ forall v, In v (x0 :: l) -> r_min x0 l <= v.
Proof.
  unfold r_min. induction l as [|y l IH]; intros x0; cbn [fold_left]; [split; [left; auto|intros v [<- |[]]; lra]|].
  destruct (IH (Rmin x0 y)) as [I B]. split.
  - destruct I as [I|I]; [|right; right; auto]. rewrite <- I. unfold Rmin. destruct (Rle_dec x0 y); cbn; auto.
  - pose proof (B _ (or_introl eq_refl)) as B0. pose proof (Rmin_l x0 y). pose proof (Rmin_r x0 y). intros v [<- |[<- |Hv]]; [lra|lra|]. apply B. right. auto.
Qed.
Lemma r_index_nth {A} (f : A -> R) v d l : In v (map f l) -> f (nth (r_index v (map f l)) l d) = v /\ In (nth (r_index v (map f l)) l d) l.
Proof.
  induction l as [|x l IH]; [intros []|]. cbn [map r_index]. destruct (Req_EM_T (f x) v) as [E|N]; [intros _; cbn; auto|].
  intros [E|H]; [congruence|]. destruct (IH H). cbn. auto.
Qed.
Lemma softmax_shift_in x0 l : In (softmax_shift x0 l) (x0 :: l).
Proof. unfold softmax_shift. destruct (Rle_dec _ _); [apply r_max_in|apply r_min_in]. Qed.
(** the value of largest magnitude decides between the maximum and the minimum *)
Lemma softmax_shift_max x0 l v : In v (x0 :: l) -> 0 <= v -> (forall u, In u (x0 :: l) -> u = v \/ Rabs u < v) -> softmax_shift x0 l = r_max x0 l.
Proof.
  intros Hv P H. unfold softmax_shift. set (w := r_max (Rabs x0) (map Rabs l)).
  destruct (r_max_in (map Rabs l) (Rabs x0)) as [I B]. fold w in I, B. change (Rabs x0 :: map Rabs l) with (map Rabs (x0 :: l)) in I, B.
  destruct (r_index_nth Rabs w 0 (x0 :: l) I) as [E Hu]. set (u := nth _ _ _) in *. destruct (Rle_dec 0 u) as [|N]; auto. exfalso.
  destruct (H u Hu) as [->|L]; [auto|]. specialize (B (Rabs v) (in_map _ _ _ Hv)). rewrite (Rabs_pos_eq v) in B by auto. lra.
Qed.
Lemma softmax_shift_min x0 l : (forall u, In u (x0 :: l) -> u < 0) -> softmax_shift x0 l = r_min x0 l.
Proof.
  intros H. unfold softmax_shift. destruct (r_max_in (map Rabs l) (Rabs x0)) as [I _]. change (Rabs x0 :: map Rabs l) with (map Rabs (x0 :: l)) in I.
  destruct (r_index_nth Rabs _ 0 (x0 :: l) I) as [_ Hu]. cbn zeta. change (Rabs x0 :: map Rabs l) with (map Rabs (x0 :: l)).
  match goal with |- context [Rle_dec 0 ?u] => destruct (Rle_dec 0 u) as [P|]; auto end. exfalso. apply H in Hu. lra.
Qed.
Lemma all_or_some {A} (P Q : A -> Prop) l : (forall a, In a l -> P a \/ Q a) -> (forall a, In a l -> P a) \/ (exists a, In a l /\ Q a).
Proof.
  intros H. induction l as [|a l IH]; [left; intros a []|].
  destruct IH as [IH|(b & H1 & H2)]; [intros; apply H; right; auto| |right; exists b; split; [right|]; auto].
  destruct (H a (or_introl eq_refl)) as [Pa|Qa]; [|right; exists a; split; [left|]; auto]. left. intros b [<- |Hb]; auto.
Qed.
Lemma Forall2_imp_in {A B} (P Q : A -> B -> Prop) l l' : (forall a b, P a b -> Q a b) -> Forall2 P l l' -> Forall2 Q l l'.
Proof. intros H. induction 1; constructor; auto. Qed.
