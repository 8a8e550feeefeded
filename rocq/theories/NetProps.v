(** C81: neural networks, support vector machines and kernels. *)
From Coq Require Import SpecFloat Ring Ring_theory InitialRing Permutation.
From Verif Require Import Base PyNum Effects LaModel LaSpec LaProofs LaProofs2 LinregModel LinregSpec LinregProofs NetProofs NetProofs2.
Open Scope string_scope.
Open Scope list_scope.
Open Scope nat_scope.

(** ** model.neural.simpleLayers *)
(** With an activation that is a pure function, the result is the one of the network: affine layers with the
    activation between them and not after the last. Every other call fails: 11000 without layers, 11001 when
    a layer does not fit. *)
Theorem C81_network : forall T S (zero one : T) add mul sub opp, ring_theory zero one add mul sub opp eq ->
  forall (g : T -> T) (act : T -> M S T), is_pure act g ->
  forall model datum s,
  (forall y, fst (simple_layers zero add mul datum model act s) = Ok y <-> forward zero add mul g model datum y) /\
  (model = [] -> simple_layers zero add mul datum model act s = (Raise (PFAErr 11000), s)) /\
  (model <> [] -> (forall y, ~ forward zero add mul g model datum y) -> simple_layers zero add mul datum model act s = (Raise (PFAErr 11001), s)).
Proof.
  intros T S zero one add mul sub opp RT g act HP model. induction model as [|[W b] rest IH]; intros datum s.
  - split; [|split; auto; congruence]. intros y. cbn. split; [discriminate|]. intros H. inversion H.
  - split; [|split; [discriminate|intros _]].
    + intros y. destruct rest as [|l2 rest].
      * rewrite net_last. unfold lift. cbn [fst]. rewrite (affine_spec zero one add mul sub opp RT). split; [constructor; auto|]. intros H. inversion H; auto.
      * rewrite net_more. unfold bind, lift. cbn [fst snd]. destruct (affine zero add mul W b datum) as [h|e] eqn:E.
        -- rewrite (mapM_pure_act g act h s HP). rewrite (proj1 (IH (map g h) s) y). apply (affine_spec zero one add mul sub opp RT) in E. split.
           ++ intros H. econstructor; eauto.
           ++ intros H. inversion H; subst. apply (affine_spec zero one add mul sub opp RT) in E, H6. assert (h = h0) by congruence. subst. auto.
        -- cbn [fst]. split; [discriminate|]. intros H. inversion H; subst. apply (affine_spec zero one add mul sub opp RT) in H6. congruence.
    + intros H. destruct rest as [|l2 rest].
      * rewrite net_last. unfold lift. rewrite (affine_bad zero one add mul sub opp RT); auto. intros y Hy. apply (H y). constructor. auto.
      * rewrite net_more. unfold bind, lift. cbn [fst snd]. destruct (affine zero add mul W b datum) as [h|e] eqn:E.
        -- rewrite (mapM_pure_act g act h s HP). apply (proj2 (proj2 (IH (map g h) s))); [discriminate|]. intros y Hy. apply (H y).
           apply (affine_spec zero one add mul sub opp RT) in E. econstructor; eauto.
        -- rewrite (affine_bad zero one add mul sub opp RT) in E; [congruence|]. intros y Hy. apply (affine_spec zero one add mul sub opp RT) in Hy. congruence.
Qed.
Definition relu_act : Z -> M unit Z := fun x s => (Ok (Z.max 0 x), s).
Example C81_network_example :
  simple_layers 0%Z Z.add Z.mul [3; 5]%Z [([[1; -1]; [2; 0]; [0; 1]], [0; 1; 0]); ([[1; 1; 1]; [1; -1; 0]], [0; 100])]%Z relu_act tt = (Ok [12; 93]%Z, tt) /\
  is_pure relu_act (Z.max 0) /\
  simple_layers 0%Z Z.add Z.mul [3; 5]%Z [([[1; -1]; [2]], [0; 1]); ([[1; 1; 1]], [0])]%Z relu_act tt = (Raise (PFAErr 11001), tt).
Proof. split; [reflexivity|]. split; [intros x s; reflexivity|reflexivity]. Qed.

(** The activation is called on the outputs of the hidden layers, in order, and never on those of the last layer;
    [log] records its arguments. *)
Theorem C81_activation_calls : forall T (zero one : T) add mul sub opp, ring_theory zero one add mul sub opp eq ->
  forall (g : T -> T) model datum log y,
  forward zero add mul g model datum y ->
  exists vs, hidden_values zero add mul g model datum vs /\
    simple_layers zero add mul datum model (fun x => fun log : list T => (Ok (g x), log ++ [x])) log = (Ok y, log ++ vs).
Proof.
  intros T zero one add mul sub opp RT g model datum log y H. revert log. induction H as [W b x y H|W b l rest x h y H HF IH]; intros log.
  - exists []. split; [constructor|]. rewrite net_last. unfold lift. apply (affine_spec zero one add mul sub opp RT) in H. rewrite H, app_nil_r. auto.
  - destruct (IH (log ++ h)) as (vs & Hv & E). exists (h ++ vs). split; [econstructor; eauto|]. rewrite net_more. unfold bind, lift. cbn [fst snd].
    pose proof (proj2 (affine_spec zero one add mul sub opp RT W b x h) H) as EA. rewrite EA.
    assert (G : forall l0 lg, mapM (fun x0 => fun log0 : list T => (Ok (g x0), log0 ++ [x0])) l0 lg = (Ok (map g l0), lg ++ l0)).
    { induction l0 as [|a l0 IHl]; intros lg; cbn [mapM map]; [rewrite app_nil_r; auto|]. unfold bind. rewrite IHl. cbn. rewrite <- app_assoc. auto. }
    rewrite G. cbv beta iota. rewrite E, app_assoc. auto.
Qed.
(** With any activation at all: a network is the composition of two networks with the activation between them. *)
Theorem C81_composition : forall T S (zero : T) add mul datum (first second : list (list (list T) * list T)) (act : T -> M S T) s,
  first <> [] -> second <> [] ->
  simple_layers zero add mul datum (first ++ second) act s
  = bind (simple_layers zero add mul datum first act) (fun h => bind (mapM act h) (fun h' => simple_layers zero add mul h' second act)) s.
Proof.
  intros T S zero add mul datum first second act s N1 N2. destruct second as [|l2 second]; [congruence|]. clear N2.
  destruct first as [|l first]; [congruence|]. clear N1. revert l datum s. induction first as [|l' first IH]; intros l datum s.
  - destruct l as [W b]. cbn [app]. rewrite net_more, net_last. auto.
  - cbn [app]. rewrite net_more. unfold bind in *. rewrite net_more. unfold bind, lift.
    destruct (affine zero add mul (fst l) (snd l) datum) as [h|e]; auto. destruct (mapM act h s) as [[x'|e] s']; auto.
    exact (IH l' x' s').
Qed.
(** One layer is a linear model with several outputs. *)
Theorem C81_single_layer : forall T S (zero one : T) add mul sub opp, ring_theory zero one add mul sub opp eq ->
  forall W b datum (act : T -> M S T) s y,
  simple_layers zero add mul datum [(W, b)] act s = (Ok y, s) <-> linear2 zero one add mul datum W b = Ok y.
Proof.
  intros T S zero one add mul sub opp RT W b datum act s y. rewrite net_last. unfold lift.
  assert (E : (affine zero add mul W b datum, s) = (Ok y, s) <-> affine zero add mul W b datum = Ok y) by (split; congruence).
  rewrite E. clear E. unfold affine, layer_misaligned, linear2. rewrite count_eqb.
  destruct (Nat.eqb_spec (length b) (length W)) as [L|L]; cbn [negb orb]; [|split; discriminate].
  destruct (existsb _ W) eqn:X; [split; discriminate|]. rewrite existsb_len in X.
  rewrite (mvm_ok zero one add mul sub opp RT) by auto. cbn [rbind].
  assert (E : map (fun y0 => py_sum zero add [fst y0; snd y0]) (combine (map (fun row => inner zero add mul row datum) W) b)
              = map (fun rc => np_vdot zero add mul (fst rc ++ [snd rc]) (datum ++ [one])) (combine W b)).
  { clear -RT X. revert b. induction W as [|row W IH]; intros [|c b]; auto. cbn [map combine fst snd]. f_equal; [|apply IH; intros; apply X; right; auto].
    unfold py_sum. cbn [fold_left]. unfold np_vdot.
    rewrite (inner_snoc zero one add mul sub opp RT) by (rewrite (X row (or_introl eq_refl)); auto).
    destruct RT. rewrite Radd_0_l. f_equal. rewrite Rmul_comm, Rmul_1_l. auto. }
  destruct datum as [|d datum].
  - assert (map (fun y0 => py_sum zero add [fst y0; snd y0]) (combine (map (fun row => inner zero add mul row []) W) b) = b); [|rewrite H; tauto].
    clear -RT X L. revert b L. induction W as [|row W IH]; intros [|c b] L; try discriminate; auto. cbn [map combine fst snd]. f_equal; [|apply IH; auto; intros; apply X; right; auto].
    rewrite (proj1 (length_zero_iff_nil row) (X row (or_introl eq_refl))). unfold py_sum, inner. cbn. destruct RT. rewrite !Radd_0_l. auto.
  - destruct b as [|c b]; [destruct W; [|discriminate]; cbn; tauto|]. rewrite E. tauto.
Qed.

(** ** model.svm.score *)
(** the score is const + sum of K(support vector, datum) * coefficient over both classes; it fails without
    support vectors (12000) and when one of them has another length than the datum (12001) *)
Theorem C81_svm : forall T S (zero one : T) add mul sub opp, ring_theory zero one add mul sub opp eq ->
  forall (kernel : list T -> list T -> M S T) (K : list T -> list T -> T) datum const posClass negClass s,
  (forall a b s', kernel a b s' = (Ok (K a b), s')) ->
  let svs := posClass ++ negClass in
  let r := svm_score zero add mul datum const posClass negClass kernel s in
  (svs = [] -> r = (Raise (PFAErr 12000), s)) /\
  ((exists sv, In sv svs /\ length (fst sv) <> length datum) -> r = (Raise (PFAErr 12001), s)) /\
  (svs <> [] -> (forall sv, In sv svs -> length (fst sv) = length datum) ->
     r = (Ok (add (sum_list zero add (map (fun sv => mul (K (fst sv) datum) (snd sv)) svs)) const), s)).
Proof.
  intros T S zero one add mul sub opp RT kernel K datum const posClass negClass s HK svs r. subst svs r. unfold svm_score.
  assert (B : ((count negClass =? 0) && (count posClass =? 0))%Z = true <-> posClass ++ negClass = []).
  { unfold count. destruct negClass, posClass; cbn; split; intros; auto; discriminate. }
  split; [|split].
  - intros H. rewrite (proj2 B H). auto.
  - intros H. destruct (_ && _)%Z; [pose proof (proj1 B eq_refl) as E; rewrite E in H; destruct H as (? & [] & _)|]. unfold bind.
    destruct (existsb (fun sv => negb (length (fst sv) =? length datum)) negClass) eqn:X.
    + rewrite (class_score_bad zero add mul kernel (fun a => K a datum)); auto. apply existsb_exists in X. destruct X as (sv & X1 & X2).
      exists sv. split; auto. apply negb_true_iff, Nat.eqb_neq in X2. auto.
    + assert (X' : forall sv, In sv negClass -> length (fst sv) = length datum).
      { intros sv Hsv. destruct (Nat.eq_dec (length (fst sv)) (length datum)) as [|N]; auto. exfalso.
        enough (existsb (fun sv => negb (length (fst sv) =? length datum)) negClass = true) by congruence.
        apply existsb_exists. exists sv. split; auto. apply negb_true_iff, Nat.eqb_neq. auto. }
      rewrite (class_score_ok zero one add mul sub opp RT kernel (fun a => K a datum)) by (intros sv Hsv; split; auto).
      rewrite (class_score_bad zero add mul kernel (fun a => K a datum)); auto. destruct H as (sv & H1 & H2). exists sv. split; auto.
      apply in_app_iff in H1. destruct H1 as [H1|H1]; auto. exfalso. apply H2. auto.
  - intros N H. destruct (_ && _)%Z; [exfalso; apply N, B; auto|]. unfold bind.
    rewrite (class_score_ok zero one add mul sub opp RT kernel (fun a => K a datum)) by (intros sv Hsv; split; auto; apply H, in_app_iff; auto).
    rewrite (class_score_ok zero one add mul sub opp RT kernel (fun a => K a datum)) by (intros sv Hsv; split; auto; apply H, in_app_iff; auto).
    unfold ret. do 2 f_equal. rewrite map_app, (sum_list_app zero one add mul sub opp RT). destruct RT. f_equal. apply Radd_comm.
Qed.
(** only the coefficients matter: moving support vectors between the classes, or reordering them, changes nothing *)
Theorem C81_svm_classes : forall T S (zero one : T) add mul sub opp, ring_theory zero one add mul sub opp eq ->
  forall (kernel : list T -> list T -> M S T) (K : list T -> list T -> T) datum const p n p' n' s,
  (forall a b s', kernel a b s' = (Ok (K a b), s')) -> Permutation (p ++ n) (p' ++ n') ->
  svm_score zero add mul datum const p n kernel s = svm_score zero add mul datum const p' n' kernel s.
Proof.
  intros T S zero one add mul sub opp RT kernel K datum const p n p' n' s HK HP.
  destruct (C81_svm T S zero one add mul sub opp RT kernel K datum const p n s HK) as (A1 & A2 & A3).
  destruct (C81_svm T S zero one add mul sub opp RT kernel K datum const p' n' s HK) as (B1 & B2 & B3).
  destruct (p ++ n) as [|sv l] eqn:E.
  - apply Permutation_nil in HP. rewrite A1, B1; auto.
  - rewrite <- E in *. assert (N : p ++ n <> []) by (rewrite E; discriminate).
    assert (N' : p' ++ n' <> []) by (intros E'; rewrite E' in HP; apply Permutation_sym, Permutation_nil in HP; contradiction).
    destruct (existsb (fun sv => negb (length (fst sv) =? length datum)) (p ++ n)) eqn:X.
    + apply existsb_exists in X. destruct X as (sv' & X1 & X2). apply negb_true_iff, Nat.eqb_neq in X2. rewrite A2, B2; eauto.
      exists sv'. split; auto. eapply Permutation_in; eauto.
    + assert (X' : forall sv, In sv (p ++ n) -> length (fst sv) = length datum).
      { intros sv' Hsv. destruct (Nat.eq_dec (length (fst sv')) (length datum)) as [|Q]; auto. exfalso.
        enough (existsb (fun sv => negb (length (fst sv) =? length datum)) (p ++ n) = true) by congruence.
        apply existsb_exists. exists sv'. split; auto. apply negb_true_iff, Nat.eqb_neq. auto. }
      rewrite A3, B3; auto.
      * do 3 f_equal. apply (sum_list_perm zero one add mul sub opp RT). apply Permutation_map. auto.
      * intros sv' Hsv. apply X'. eapply Permutation_in; [apply Permutation_sym|]; eauto.
Qed.
(** with the linear kernel the score is a linear model: the coefficients are the weighted sums of the support vectors *)
Theorem C81_svm_linear : forall T S (zero one : T) add mul sub opp, ring_theory zero one add mul sub opp eq ->
  forall datum const p n coeff (s : S), p ++ n <> [] -> (forall sv, In sv (p ++ n) -> length (fst sv) = length datum) ->
  vec coeff (length datum) (fun i => sum_list zero add (map (fun sv => mul (snd sv) (nth i (fst sv) zero)) (p ++ n))) ->
  svm_score zero add mul datum const p n (fun a b => lift (kernel_linear zero add mul a b)) s = (linear1 zero one add mul datum coeff const, s).
Proof.
  intros T S zero one add mul sub opp RT datum const p n coeff s N L HC.
  assert (KL : forall a, length a = length datum -> kernel_linear zero add mul a datum = Ok (inner zero add mul a datum)).
  { intros a La. unfold kernel_linear, kernel_dot. rewrite count_eqb, La, Nat.eqb_refl. cbn [negb]. rewrite (py_sum_inner zero one add mul sub opp RT). auto. }
  set (K := fun a => inner zero add mul a datum).
  unfold svm_score. destruct (_ && _)%Z eqn:E.
  { exfalso. apply N. apply andb_true_iff in E. unfold count in E. destruct E as [E1 E2]. destruct n; [|discriminate]. destruct p; [auto|discriminate]. }
  unfold bind.
  rewrite (class_score_ok zero one add mul sub opp RT _ K)
    by (intros sv Hsv; split; [apply L, in_app_iff; auto|]; intros s'; unfold lift; rewrite KL by (apply L, in_app_iff; auto); auto).
  rewrite (class_score_ok zero one add mul sub opp RT _ K)
    by (intros sv Hsv; split; [apply L, in_app_iff; auto|]; intros s'; unfold lift; rewrite KL by (apply L, in_app_iff; auto); auto).
  unfold ret. rewrite (linear1_of zero one add mul sub opp RT _ _ const _ _ _ (vec_nth zero datum) HC). do 2 f_equal.
  transitivity (add (sum_list zero add (map (fun sv => mul (K (fst sv)) (snd sv)) (p ++ n))) const).
  { rewrite map_app, (sum_list_app zero one add mul sub opp RT). destruct RT. f_equal. apply Radd_comm. }
  f_equal. clear HC N E KL. induction (p ++ n) as [|sv l IH].
  - apply (total_zero_mul zero one add mul sub opp RT).
  - unfold sum_list in *. cbn [map fold_right]. rewrite IH by (intros; apply L; right; auto).
    assert (V : vec (fst sv) (length datum) (fun i => nth i (fst sv) zero)) by (rewrite <- (L sv (or_introl eq_refl)); apply vec_nth).
    unfold K at 1. rewrite (inner_vec zero one add mul sub opp RT _ _ _ _ _ V (vec_nth zero datum)).
    rewrite <- (total_mul_r zero one add mul sub opp RT), <- (total_add zero one add mul sub opp RT). apply total_ext. intros i _.
    rewrite (Rdistr_l RT). f_equal. apply (mul_rotate zero one add mul sub opp RT).
Qed.
Example C81_svm_example :
  let p := [([1; 2], 3)]%Z in let n := [([5; -1], -2); ([0; 1], 1)]%Z in
  svm_score 0%Z Z.add Z.mul [4; 7]%Z 10%Z p n (fun a b => lift (kernel_linear 0%Z Z.add Z.mul a b)) tt = (Ok 45%Z, tt) /\
  linear1 0%Z 1%Z Z.add Z.mul [4; 7]%Z [-7; 9]%Z 10%Z = Ok 45%Z /\
  vec [-7; 9]%Z 2 (fun i => sum_list 0%Z Z.add (map (fun sv => snd sv * nth i (fst sv) 0)%Z (p ++ n))).
Proof. split; [reflexivity|]. split; [reflexivity|]. apply vec_map. reflexivity. Qed.

(** ** Kernels *)
(** m.kernel.* are symmetric, bit for bit in binary64, failures included *)
Theorem C81_kernels_symmetric : forall exp tanh pow x y gamma intercept degree,
  kernel_linear f0 fadd fmul x y = kernel_linear f0 fadd fmul y x /\
  kernel_rbf f0 fadd fsub fmul fneg fabs py_square exp x y gamma = kernel_rbf f0 fadd fsub fmul fneg fabs py_square exp y x gamma /\
  kernel_poly f0 fadd fmul pow x y gamma intercept degree = kernel_poly f0 fadd fmul pow y x gamma intercept degree /\
  kernel_sigmoid f0 fadd fmul tanh x y gamma intercept = kernel_sigmoid f0 fadd fmul tanh y x gamma intercept.
Proof.
  intros exp tanh pow x y gamma intercept degree.
  assert (D : forall code, kernel_dot f0 fadd fmul code x y = kernel_dot f0 fadd fmul code y x).
  { intros code. unfold kernel_dot. rewrite (Z.eqb_sym (count y)). destruct (negb _); auto. do 2 f_equal.
    revert y. induction x as [|a l IH]; intros [|b y]; auto. cbn [combine map fst snd]. rewrite IH, fmul_comm. auto. }
  split; [apply D|]. split; [|split; [unfold kernel_poly|unfold kernel_sigmoid]; rewrite D; auto].
  unfold kernel_rbf. rewrite (Z.eqb_sym (count y)). destruct (negb _); auto.
  assert (E : rmapM (fun ij => py_square (fabs (fsub (fst ij) (snd ij)))) (combine x y) = rmapM (fun ij => py_square (fabs (fsub (fst ij) (snd ij)))) (combine y x)).
  { revert y D. induction x as [|a l IH]; intros [|b y] _; auto. cbn [combine rmapM fst snd]. rewrite fabs_fsub_comm.
    destruct (py_square (fabs (fsub b a))); auto. cbn [rbind]. rewrite (IH y); auto.
    intros code. unfold kernel_dot. rewrite (Z.eqb_sym (count y)). destruct (negb _); auto. do 2 f_equal.
    clear. revert y. induction l as [|a l IH]; intros [|b y]; auto. cbn [combine map fst snd]. rewrite IH, fmul_comm. auto. }
  rewrite E. auto.
Qed.
(** the kernels are defined exactly for arrays of one length; each refuses others with its own code *)
Theorem C81_kernels_refused : forall exp tanh pow x y gamma intercept degree,
  (length x <> length y ->
   kernel_linear f0 fadd fmul x y = Raise (PFAErr 23000) /\
   kernel_rbf f0 fadd fsub fmul fneg fabs py_square exp x y gamma = Raise (PFAErr 23010) /\
   kernel_poly f0 fadd fmul pow x y gamma intercept degree = Raise (PFAErr 23020) /\
   kernel_sigmoid f0 fadd fmul tanh x y gamma intercept = Raise (PFAErr 23030)) /\
  (length x = length y -> exists d, kernel_linear f0 fadd fmul x y = Ok d /\
   kernel_poly f0 fadd fmul pow x y gamma intercept degree = pow (fadd (fmul gamma d) intercept) degree /\
   kernel_sigmoid f0 fadd fmul tanh x y gamma intercept = Ok (tanh (fadd (fmul gamma d) intercept))).
Proof.
  intros. unfold kernel_linear, kernel_rbf, kernel_poly, kernel_sigmoid, kernel_dot, count. split; intros E.
  - assert ((Z.of_nat (length x) =? Z.of_nat (length y))%Z = false) as -> by (apply Z.eqb_neq; lia). auto.
  - rewrite E, Z.eqb_refl. cbn [negb rbind]. eexists. auto.
Qed.
Example C81_kernels_refused_case : kernel_linear f0 fadd fmul [f0; f0] [f0] = Raise (PFAErr 23000) /\
  kernel_sigmoid f0 fadd fmul (fun z => z) [f0; f0] [f0] f0 f0 = Raise (PFAErr 23030).
Proof. split; reflexivity. Qed.
(** of equal arrays, the rbf kernel is exp of a zero *)
Theorem C81_rbf_self : forall exp x gamma, Forall (fun a => isnan a = false /\ isinf a = false) x -> isnan gamma = false -> isinf gamma = false ->
  exists z, is_fzero z = true /\ kernel_rbf f0 fadd fsub fmul fneg fabs py_square exp x x gamma = exp z.
Proof.
  intros exp x gamma F G1 G2. unfold kernel_rbf. rewrite Z.eqb_refl. cbn [negb].
  assert (E : rmapM (fun ij => py_square (fabs (fsub (fst ij) (snd ij)))) (combine x x) = Ok (map (fun _ => f0) x)).
  { induction F as [|a l [A1 A2] F IH]; auto. cbn [combine rmapM fst snd].
    assert (Z : fabs (fsub a a) = f0).
    { destruct a as [s|s| |s m e]; try discriminate; [destruct s; reflexivity|]. unfold fabs, fsub, SFsub. cbv zeta. rewrite Z.sub_diag. reflexivity. }
    rewrite Z. change (py_square f0) with (@Ok pf f0). cbn [rbind]. rewrite IH. auto. }
  rewrite E. cbn [rbind]. assert (Z : py_sum f0 fadd (map (fun _ : pf => f0) x) = f0).
  { unfold py_sum. clear. induction x; auto. }
  rewrite Z. eexists. split; [|reflexivity]. destruct gamma as [s|s| |s m e]; try discriminate; reflexivity.
Qed.
Example C81_rbf_self_example : Forall (fun a => isnan a = false /\ isinf a = false) [f_of_Z 3; f_of_Z (-7)].
Proof. repeat constructor. Qed.
(** but the rbf kernel of finite arrays may raise OverflowError where the limit value is 0: the square of the
    difference is computed by ** *)
Theorem C81_rbf_total_refuted : exists exp x y gamma, Forall (fun a => isnan a = false /\ isinf a = false) (gamma :: x ++ y) /\ length x = length y /\
  kernel_rbf f0 fadd fsub fmul fneg fabs py_square exp x y gamma = Raise (PyErr "OverflowError").
Proof.
  exists (fun z => Ok z), [f_of_Z (2 ^ 600)], [f0], (f_of_Z 1). split; [repeat constructor|]. split; [auto|]. vm_compute. reflexivity.
Qed.
Print Assumptions C81_network.
Print Assumptions C81_activation_calls.
Print Assumptions C81_composition.
Print Assumptions C81_single_layer.
Print Assumptions C81_svm.
Print Assumptions C81_svm_classes.
Print Assumptions C81_svm_linear.
Print Assumptions C81_kernels_symmetric.
Print Assumptions C81_kernels_refused.
Print Assumptions C81_rbf_self.
Print Assumptions C81_rbf_total_refuted.
