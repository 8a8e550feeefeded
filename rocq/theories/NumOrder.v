(** Python's comparison of ints and floats is the order of the numbers they stand for. *)
From Verif Require Import Base PyNum PyNumProofs.
From Coq Require Import SpecFloat.
Open Scope Z_scope.

(** the floats that exist: canonical mantissa and exponent *)
Definition vfloat (f : pf) : Prop := valid_binary 53 1024 f = true.
Definition vnum (a : num) : Prop := match a with NI _ => True | NF f => vfloat f end.
Definition num_nan (a : num) : bool := match a with NF f => isnan f | NI _ => false end.

(** The number in units of 2^E, with the infinities below and above. *)
Definition fkey (E : Z) (f : pf) : Z * Z :=
  match f with
  | S754_infinity true => (-1, 0)
  | S754_infinity false => (1, 0)
  | S754_finite s m e => (0, zsign s (Zpos m) * 2 ^ (e - E))
  | _ => (0, 0)
  end.
Definition nkey (E : Z) (a : num) : Z * Z := match a with NI z => (0, z * 2 ^ (- E)) | NF f => fkey E f end.
Definition fexp_of (f : pf) : Z := match f with S754_finite _ _ e => Z.min e 0 | _ => 0 end.
Definition exp_of (a : num) : Z := match a with NI _ => 0 | NF f => fexp_of f end.
Definition kcmp (p q : Z * Z) : comparison :=
  match fst p ?= fst q with Eq => snd p ?= snd q | c => c end.

Lemma pos_pow_bounds m e : valid_binary 53 1024 (S754_finite false m e) = true ->
  Zpos m < 2 ^ 53 /\ -1074 <= e /\ (-1074 < e -> 2 ^ 52 <= Zpos m).
Proof.
  intros H. unfold valid_binary, bounded in H. apply andb_true_iff in H as [H1 H2]. unfold canonical_mantissa in H1.
  apply Zeq_bool_eq in H1. unfold fexp, emin in H1. rewrite digits2_log2 in H1.
  pose proof (Z.log2_spec (Zpos m) ltac:(lia)) as [L1 L2].
  assert (Z.log2 (Zpos m) + 1 <= 53) by lia.
  split; [|split; [lia|]].
  - eapply Z.lt_le_trans; [exact L2|]. apply Z.pow_le_mono_r; lia.
  - intros He. assert (Z.log2 (Zpos m) = 52) by lia. rewrite H0 in L1. exact L1.
Qed.
Lemma cmp_scale x y k : 0 <= k -> (x * 2 ^ k ?= y * 2 ^ k) = (x ?= y).
Proof. intros Hk. pose proof (Z.pow_pos_nonneg 2 k ltac:(lia) Hk). destruct (Z.compare_spec x y); [apply Z.compare_eq_iff|apply Z.compare_lt_iff|apply Z.compare_gt_iff]; nia. Qed.
Lemma Pcmp_key m1 e1 m2 e2 E :
  valid_binary 53 1024 (S754_finite false m1 e1) = true -> valid_binary 53 1024 (S754_finite false m2 e2) = true ->
  E <= e1 -> E <= e2 ->
  (match e1 ?= e2 with Lt => Lt | Gt => Gt | Eq => Pos.compare_cont Eq m1 m2 end) = (Zpos m1 * 2 ^ (e1 - E) ?= Zpos m2 * 2 ^ (e2 - E)).
Proof.
  intros V1 V2 H1 H2. apply pos_pow_bounds in V1 as (U1 & M1 & N1). apply pos_pow_bounds in V2 as (U2 & M2 & N2).
  assert (P : forall k, 0 <= k -> 0 < 2 ^ k) by (intros; apply Z.pow_pos_nonneg; lia).
  destruct (Z.compare_spec e1 e2) as [->|L|L].
  - rewrite cmp_scale by lia. reflexivity.
  - symmetry. apply Z.compare_lt_iff. specialize (N2 ltac:(lia)).
    replace (e2 - E) with (1 + (e2 - e1 - 1) + (e1 - E)) by lia. rewrite !Z.pow_add_r by lia.
    pose proof (P (e1 - E) ltac:(lia)). pose proof (P (e2 - e1 - 1) ltac:(lia)).
    apply Z.lt_le_trans with (2 ^ 53 * 2 ^ (e1 - E)); [apply Z.mul_lt_mono_pos_r; lia|].
    rewrite Z.mul_assoc. apply Z.mul_le_mono_nonneg_r; [lia|]. nia.
  - symmetry. apply Z.compare_gt_iff. specialize (N1 ltac:(lia)).
    replace (e1 - E) with (1 + (e1 - e2 - 1) + (e2 - E)) by lia. rewrite !Z.pow_add_r by lia.
    pose proof (P (e2 - E) ltac:(lia)). pose proof (P (e1 - e2 - 1) ltac:(lia)).
    apply Z.lt_le_trans with (2 ^ 53 * 2 ^ (e2 - E)); [apply Z.mul_lt_mono_pos_r; lia|].
    rewrite Z.mul_assoc. apply Z.mul_le_mono_nonneg_r; [lia|]. nia.
Qed.
Lemma pow_pos k : 0 < 2 ^ k \/ k < 0.
Proof. destruct (Z_lt_le_dec k 0); [auto|left; apply Z.pow_pos_nonneg; lia]. Qed.
Lemma num_cmp_key E x y : vnum x -> vnum y -> num_nan x = false -> num_nan y = false -> E <= exp_of x -> E <= exp_of y ->
  num_cmp x y = Some (kcmp (nkey E x) (nkey E y)).
Proof.
  assert (FZ : forall f z, vfloat f -> isnan f = false -> E <= fexp_of f -> E <= 0 -> f_cmp_Z f z = Some (kcmp (fkey E f) (0, z * 2 ^ (- E)))).
  { intros f z V N H1 H2. unfold f_cmp_Z, kcmp. destruct f as [s|[]| |s m e]; cbn [fkey fst snd]; try reflexivity; try discriminate.
    - f_equal. symmetry. change (match 0 ?= 0 with Eq => 0 ?= z * 2 ^ (- E) | c => c end) with (0 ?= z * 2 ^ (- E)).
      rewrite <- (cmp_scale 0 z (- E)) by lia. reflexivity.
    - change (0 ?= 0) with Eq. cbv iota. cbn in H1. destruct (Z.leb_spec 0 e) as [He|He].
      + replace (e - E) with (e + (- E)) by lia. rewrite Z.pow_add_r, Z.mul_assoc, cmp_scale by lia. reflexivity.
      + replace (- E) with ((- e) + (e - E)) by lia. rewrite Z.pow_add_r, Z.mul_assoc, cmp_scale by lia. reflexivity. }
  destruct x as [x|x], y as [y|y]; cbn [num_cmp nkey vnum exp_of num_nan]; intros Vx Vy Nx Ny Ex Ey.
  - unfold kcmp. cbn. rewrite cmp_scale by lia. reflexivity.
  - rewrite FZ by auto. cbn. unfold kcmp. cbn [fst snd].
    rewrite (Z.compare_antisym (fst (fkey E y)) 0). rewrite (Z.compare_antisym (snd (fkey E y))).
    destruct (fst (fkey E y) ?= 0); reflexivity.
  - now apply FZ.
  - unfold kcmp. destruct x as [s|[]| |s m e], y as [s'|[]| |s' m' e']; try discriminate; cbn [fkey fst snd SFcompare]; try reflexivity;
      cbn in Ex, Ey; change (0 ?= 0) with Eq; cbv iota.
    + destruct (pow_pos (e' - E)) as [P|]; [|lia]. destruct s'; symmetry; f_equal; [apply Z.compare_gt_iff|apply Z.compare_lt_iff]; cbn [zsign]; nia.
    + destruct (pow_pos (e - E)) as [P|]; [|lia]. destruct s; symmetry; f_equal; [apply Z.compare_lt_iff|apply Z.compare_gt_iff]; cbn [zsign]; nia.
    + assert (Vx' : valid_binary 53 1024 (S754_finite false m e) = true) by exact Vx.
      assert (Vy' : valid_binary 53 1024 (S754_finite false m' e') = true) by exact Vy.
      destruct (pow_pos (e - E)) as [P|]; [|lia]. destruct (pow_pos (e' - E)) as [P'|]; [|lia].
      pose proof (Pcmp_key m e m' e' E Vx' Vy' ltac:(lia) ltac:(lia)) as K.
      destruct s, s'; cbn [zsign]; f_equal.
      * rewrite !Z.mul_opp_l, Z.compare_opp. pose proof (Pcmp_key m' e' m e E Vy' Vx' ltac:(lia) ltac:(lia)) as K'. rewrite <- K'.
        rewrite (Z.compare_antisym e e'). destruct (e ?= e'); cbn; try reflexivity. now rewrite (Pos.compare_cont_antisym m m' Eq).
      * symmetry. apply Z.compare_lt_iff. nia.
      * symmetry. apply Z.compare_gt_iff. nia.
      * rewrite <- K. reflexivity.
Qed.
Lemma kcmp_spec p q : (kcmp p q = Lt <-> fst p < fst q \/ fst p = fst q /\ snd p < snd q) /\
                      (kcmp p q = Eq <-> fst p = fst q /\ snd p = snd q) /\
                      (kcmp p q = Gt <-> fst q < fst p \/ fst p = fst q /\ snd q < snd p).
Proof.
  unfold kcmp. destruct (Z.compare_spec (fst p) (fst q)); [|intuition (try discriminate; lia)..].
  destruct (Z.compare_spec (snd p) (snd q)); intuition (try discriminate; lia).
Qed.
