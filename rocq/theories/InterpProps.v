(** Theorems about lib/interp.py: C50 (bins), C74 (interpolation tables). *)
From Coq Require Import QArith Qabs Qround Lqa SpecFloat.
From Verif Require Import Base PyNum Effects ArraySpec StatModel ClusterModel ClusterSpec ClusterProofs InterpModel InterpSpec InterpProofs.
Open Scope string_scope.
Open Scope list_scope.
Open Scope Z_scope.

(** * C50: interp.bin *)
(** The index is in range, whatever the arithmetic (binary64 included). *)
Theorem C50_range : forall T (o : real_ops T) weird x n low high i, bin_fixed o weird x n low high = Ok i -> 0 <= i < n.
Proof. exact bin_fixed_range. Qed.
(** With exact arithmetic a point in range falls in the bin containing it ... *)
Theorem C50_right_bin : forall x n low high, (low < high)%Q -> 1 <= n -> (low <= x < high)%Q ->
  exists i, bin_fixed_rat x n low high = Ok i /\ 0 <= i < n /\
    let w := ((high - low) / inject_Z n)%Q in (low + inject_Z i * w <= x < low + (inject_Z i + 1) * w)%Q.
Proof.
  intros x n low high H1 H2 H3. destruct (bin_fixed_rat_ok x n low high H1 H2 H3) as (i & E & B).
  exists i. split; auto. split; auto. eapply C50_range; eauto.
Qed.
(** ... and every other argument is reported. *)
Theorem C50_errors : forall x n low high,
  ((high <= low)%Q -> bin_fixed_rat x n low high = Raise (PFAErr 22000)) /\
  ((low < high)%Q -> n < 1 -> bin_fixed_rat x n low high = Raise (PFAErr 22001)) /\
  ((low < high)%Q -> 1 <= n -> (x < low \/ high <= x)%Q -> bin_fixed_rat x n low high = Raise (PFAErr 22002)).
Proof.
  intros x n low high. unfold bin_fixed_rat, bin_fixed. cbn [op_le op_isnan op_lt rat_ops orb].
  split; [|split].
  - intros H. rewrite (proj2 (Qle_bool_iff _ _) H). auto.
  - intros H Hn. rewrite (proj2 (qle_false high low)) by auto. cbn [orb]. destruct (Z.ltb_spec n 1); [auto|lia].
  - intros H Hn B. rewrite (proj2 (qle_false high low)) by auto. cbn [orb]. destruct (Z.ltb_spec n 1); [lia|].
    destruct B as [B|B].
    + rewrite (proj2 (qle_false low x)) by auto. auto.
    + rewrite (proj2 (Qle_bool_iff high x)) by auto. rewrite Bool.orb_true_r. auto.
Qed.
Theorem C50_open_right_bin : forall x origin width,
  ((0 < width)%Q -> exists i, bin_open_rat x origin width = Ok i /\
    (origin + inject_Z i * width <= x < origin + (inject_Z i + 1) * width)%Q) /\
  ((width <= 0)%Q -> bin_open_rat x origin width = Raise (PFAErr 22001)).
Proof.
  intros x origin width. split; [apply bin_open_rat_ok|]. intros H.
  unfold bin_open_rat, bin_open. cbn [op_le op_isnan op_isinf rat_ops orb op_of_Z].
  rewrite (proj2 (Qle_bool_iff width (inject_Z 0)) H). auto.
Qed.
Example C50_example : bin_fixed_rat (7 # 2) 5 1 6 = Ok 2 /\ bin_open_rat (-7 # 2) 1 2 = Ok (-3) /\
  bin_fixed_float (f_of_Z 3) 5 (f_of_Z 1) (f_of_Z 6) = Ok 2.
Proof. repeat split; vm_compute; reflexivity. Qed.

(** ** The same claims for binary64 fail at the edges *)
Definition fl (s : bool) (m : positive) (e : Z) : pf := S754_finite s m e.
(** 2^-60 *)
Definition tiny : pf := fl false 4503599627370496 (-112).
(** low <= x < high, but the point is rejected as out of range: (x - low)/(high - low) rounds to 1 *)
Theorem C50_rejected_refuted : exists x n low high,
  num_le (NF low) (NF x) = true /\ num_lt (NF x) (NF high) = true /\ 1 <= n /\
  bin_fixed_float x n low high = Raise (PFAErr 22002).
Proof. exists f0, 4, (f_of_Z (-1)), tiny. repeat split; vm_compute; congruence. Qed.
(** a range of infinite width, accepted by the checks, ends in a Python ValueError (floor of nan) *)
Theorem C50_infinite_refuted : exists x n low high, isnan x = false /\
  num_lt (NF low) (NF x) = true /\ num_lt (NF x) (NF high) = true /\ 1 <= n /\
  bin_fixed_float x n low high = Raise (PyErr "ValueError").
Proof. exists (f_of_Z 0), 4, fninf, finf. repeat split; vm_compute; congruence. Qed.
(** when high - low overflows every point falls in bin 0: here x is in the upper of two bins *)
Definition big (s : bool) : pf := fl s 9007199254740991 971.
Theorem C50_overflow_refuted : 
  num_lt (NF f0) (NF (f_of_Z 1)) = true /\ num_lt (NF (f_of_Z 1)) (NF (big false)) = true /\
  fadd (big true) (big false) = f0 /\ bin_fixed_float (f_of_Z 1) 2 (big true) (big false) = Ok 0.
Proof. repeat split; vm_compute; congruence. Qed.
(** the three-argument form returns numbers that are no ints, and overflows *)
Theorem C50_open_int_refuted : exists x origin width i,
  bin_open_float x origin width = Ok i /\ ~ (-2147483648 <= i <= 2147483647).
Proof. exists (f_of_Z 4294967296), f0, (f_of_Z 1), 4294967296. split; [vm_compute; reflexivity|lia]. Qed.
Theorem C50_open_crash_refuted : exists x origin width,
  isinf x = false /\ isinf width = false /\ bin_open_float x origin width = Raise (PyErr "OverflowError").
Proof. exists (big false), f0, tiny. repeat split; vm_compute; reflexivity. Qed.

(** * C74: interpolation tables *)
Lemma single_line x e0 e1 y : ~ (fst e0 == fst e1)%Q -> interpolateSingle x e0 e1 = Ok y -> on_line e0 e1 x y.
Proof.
  unfold interpolateSingle, unitless. intros N H. inversion H; subst. split; auto. field. lra.
Qed.
(** Between two table entries the three functions agree and give the point of the straight line through
    the two entries around x, between their values. *)
Theorem C74_inside : forall (table : list (Q * Q)) x, inside table x ->
  exists b a y, last_below table x b /\ next_above table x a /\ on_line b a x y /\
    linear interpolateSingle x table = Ok y /\ linearFlat interpolateSingle x table = Ok y /\
    linearMissing interpolateSingle x table = Ok (Some y) /\
    (forall lo hi, lo <= snd b <= hi -> lo <= snd a <= hi -> lo <= y <= hi)%Q.
Proof.
  intros table x H.
  destruct (closest_inside x table 22020 H) as (b & a & E & B & A).
  destruct (closest_inside x table 22030 H) as (b2 & a2 & E2 & _).
  destruct (closest_inside x table 22040 H) as (b3 & a3 & E3 & _).
  assert (Same : b2 = b /\ a2 = a /\ b3 = b /\ a3 = a).
  { unfold closest_entries in *. destruct (below_above x None None table) as [[?|] [?|]];
      try (destruct (two_closest x None None table) as [[?|] [?|]]; congruence).
    inversion E; inversion E2; inversion E3; subst; auto. }
  destruct Same as (-> & -> & -> & ->).
  assert (L : (fst b <= x < fst a)%Q). { destruct B as (? & ? & _ & ? & _), A as (? & ? & _ & ? & _). auto. }
  destruct L as [L1 L2].
  assert (Ne : ~ (fst b == fst a)%Q) by lra.
  destruct (interpolateSingle x b a) as [y|] eqn:I1; [|discriminate].
  exists b, a, y. split; auto. split; auto. split; [apply single_line; auto|].
  unfold linear, linearFlat, linearMissing. rewrite E, E2, E3. cbn [rbind negb andb]. rewrite I1. cbn [rbind].
  split; auto. split; auto. split; auto.
  intros lo hi [B1 B2] [A1 A2]. unfold interpolateSingle in I1. inversion I1 as [Iy]. unfold unitless.
  set (u := ((x - fst b) / (fst a - fst b))%Q).
  assert (U : (0 <= u <= 1)%Q).
  { unfold u. split; [apply Qle_shift_div_l|apply Qle_shift_div_r]; lra. }
  destruct U as [U1 U2].
  assert (P1 : (0 <= (1 - u) * (snd b - lo))%Q) by (apply Qmult_le_0_compat; lra).
  assert (P2 : (0 <= u * (snd a - lo))%Q) by (apply Qmult_le_0_compat; lra).
  assert (P3 : (0 <= (1 - u) * (hi - snd b))%Q) by (apply Qmult_le_0_compat; lra).
  assert (P4 : (0 <= u * (hi - snd a))%Q) by (apply Qmult_le_0_compat; lra).
  split; lra.
Qed.
(** Outside, linear extrapolates along the line of the two nearest entries with different x, linearFlat
    gives the nearest entry's value, linearMissing null unless x is exactly the nearest entry's. *)
Theorem C74_outside : forall (table : list (Q * Q)) x, ~ inside table x -> two_distinct table ->
  exists e e2 y, nearest_entry table x e /\ second_entry table x e e2 /\ on_line e e2 x y /\
    linear interpolateSingle x table = Ok y /\ linearFlat interpolateSingle x table = Ok (snd e) /\
    (~ (fst e == x)%Q -> linearMissing interpolateSingle x table = Ok None) /\
    ((fst e == x)%Q -> linearMissing interpolateSingle x table = Ok (Some y)).
Proof.
  intros table x H D.
  destruct (closest_outside x table 22020 H D) as (b & a & E & B & A).
  destruct (closest_outside x table 22030 H D) as (b2 & a2 & E2 & _).
  destruct (closest_outside x table 22040 H D) as (b3 & a3 & E3 & _).
  assert (Same : b2 = b /\ a2 = a /\ b3 = b /\ a3 = a).
  { unfold closest_entries in *. destruct (below_above x None None table) as [[?|] [?|]]; try congruence;
      destruct (two_closest x None None table) as [[?|] [?|]]; try congruence;
      inversion E; inversion E2; inversion E3; subst; auto. }
  destruct Same as (-> & -> & -> & ->).
  destruct (interpolateSingle x b a) as [y|] eqn:I1; [|discriminate].
  exists b, a, y. split; auto. split; auto. split.
  { apply single_line; auto. destruct A as (? & ? & _ & N & _). intros K. apply N. symmetry. auto. }
  unfold linear, linearFlat, linearMissing. rewrite E, E2, E3. cbn [rbind negb andb]. rewrite I1. cbn [rbind].
  split; auto. split; auto. split.
  - intros N. destruct (Qeq_bool (fst b) x) eqn:K; auto. apply Qeq_bool_iff in K. contradiction.
  - intros K. apply Qeq_bool_iff in K. rewrite K. auto.
Qed.
(** fewer than two different x values: the documented error, even for x in the table *)
Theorem C74_too_few : forall Y (interpolate : Q -> Q * Y -> Q * Y -> res Y) (table : list (Q * Y)) x, ~ two_distinct table ->
  linear interpolate x table = Raise (PFAErr 22020) /\ linearFlat interpolate x table = Raise (PFAErr 22030) /\
  linearMissing interpolate x table = Raise (PFAErr 22040).
Proof.
  intros Y interpolate table x H. unfold linear, linearFlat, linearMissing. rewrite !closest_single by auto. auto.
Qed.
(** The interpolation passes through the points of the table. *)
Theorem C74_through_points : forall (table : list (Q * Q)) x y, two_distinct table ->
  (exists e, In e table /\ (fst e == x)%Q) -> (forall e, In e table -> fst e == x -> snd e == y)%Q ->
  (exists y1, linear interpolateSingle x table = Ok y1 /\ y1 == y)%Q /\
  (exists y2, linearFlat interpolateSingle x table = Ok y2 /\ y2 == y)%Q /\
  (exists y3, linearMissing interpolateSingle x table = Ok (Some y3) /\ y3 == y)%Q.
Proof.
  intros table x y D (e & He & Ex) F.
  assert (Dec : inside table x \/ ~ inside table x).
  { destruct (Exists_dec (fun e => fst e <= x)%Q table) as [K1|K1]. { intros z. destruct (Qlt_le_dec x (fst z)); [right; lra|left; auto]. }
    - destruct (Exists_dec (fun e => x < fst e)%Q table) as [K2|K2]. { intros z. destruct (Qlt_le_dec x (fst z)); [left; auto|right; lra]. }
      + left. rewrite Exists_exists in *. split; auto.
      + right. intros [_ K]. apply K2. apply Exists_exists. auto.
    - right. intros [K _]. apply K1. apply Exists_exists. auto. }
  destruct Dec as [I1|I1].
  - destruct (C74_inside table x I1) as (b & a & yy & B & A & [N L] & E1 & E2 & E3 & _).
    assert (Eb : (fst b == x)%Q).
    { destruct B as (p & q & Et & B1 & B2 & B3). rewrite Et in He. apply in_app_or in He. destruct He as [He | [<- | He]]; auto.
      - specialize (B2 e He ltac:(lra)). lra.
      - specialize (B3 e He ltac:(lra)). lra. }
    assert (Sb : (snd b == y)%Q). { apply F; auto. destruct B as (p & q & Et & _). eapply mid_In; eauto. }
    assert (Ey : (yy == y)%Q).
    { rewrite <- Sb. assert (K : ((yy - snd b) * (fst a - fst b) == 0)%Q).
      { rewrite L. rewrite Eb. ring. }
      apply Qmult_integral in K. destruct K; lra. }
    split; [|split]; exists yy; auto.
  - destruct (C74_outside table x I1 D) as (o & t & yy & O1 & T & [N L] & E1 & E2 & _ & E3).
    assert (Eo : (fst o == x)%Q).
    { destruct O1 as (p & q & Et & O2 & O3).
      assert (Z0 : (apart x e == 0)%Q). { unfold apart. rewrite Ex. setoid_replace (x - x)%Q with 0%Q by ring. reflexivity. }
      assert (K : (apart x o <= 0)%Q).
      { rewrite Et in He. apply in_app_or in He. destruct He as [He | [<- | He]].
        - specialize (O2 e He). lra.
        - lra.
        - specialize (O3 e He). lra. }
      unfold apart in K. apply Qabs_Qle_condition in K. lra. }
    assert (So : (snd o == y)%Q). { apply F; auto. destruct O1 as (p & q & Et & _). eapply mid_In; eauto. }
    assert (Ey : (yy == y)%Q).
    { rewrite <- So. assert (K : ((yy - snd o) * (fst t - fst o) == 0)%Q).
      { rewrite L. rewrite Eo. ring. }
      apply Qmult_integral in K. destruct K; lra. }
    split; [exists yy; auto|]. split; [exists (snd o); auto|]. exists yy. auto.
Qed.
(** Vector-valued tables are interpolated coordinate by coordinate. *)
Definition coordinate (i : nat) (e : Q * list Q) : Q * Q := (fst e, nth i (snd e) 0%Q).
Lemma below_above_map {Y Z0} (f : Q * Y -> Q * Z0) (Hf : forall e, fst (f e) = fst e) x table : forall b a,
  below_above x (option_map f b) (option_map f a) (map f table) =
  (let r := below_above x b a table in (option_map f (fst r), option_map f (snd r))).
Proof.
  induction table as [|e table IH]; intros b a; cbn [map below_above]; auto.
  rewrite Hf.
  replace (match option_map f b with Some b0 => qltb (x - fst e) (x - fst b0) | None => true end)
     with (match b with Some b0 => qltb (x - fst e) (x - fst b0) | None => true end) by (destruct b; cbn [option_map]; rewrite ?Hf; auto).
  replace (match option_map f a with Some a0 => qltb (fst e - x) (fst a0 - x) | None => true end)
     with (match a with Some a0 => qltb (fst e - x) (fst a0 - x) | None => true end) by (destruct a; cbn [option_map]; rewrite ?Hf; auto).
  destruct (Qle_bool (fst e) x && _), (qltb x (fst e) && _).
  - apply (IH (Some e) (Some e)).
  - apply (IH (Some e) a).
  - apply (IH b (Some e)).
  - apply IH.
Qed.
Lemma two_closest_map {Y Z0} (f : Q * Y -> Q * Z0) (Hf : forall e, fst (f e) = fst e) x table : forall b a,
  two_closest x (option_map f b) (option_map f a) (map f table) =
  (let r := two_closest x b a table in (option_map f (fst r), option_map f (snd r))).
Proof.
  assert (Ha : forall e, away x (f e) = away x e) by (intros; unfold away; rewrite Hf; auto).
  induction table as [|e table IH]; intros b a; cbn [map two_closest]; auto.
  destruct b as [b|]; cbn [option_map].
  2:{ apply (IH (Some e) None). }
  rewrite !Ha.
  replace (match option_map f a with Some t => qltb (away x e) (away x t) | None => true end)
     with (match a with Some t => qltb (away x e) (away x t) | None => true end) by (destruct a; cbn [option_map]; rewrite ?Ha; auto).
  destruct (qltb (away x e) (away x b)). { apply (IH (Some e) (Some b)). }
  destruct (_ && _); [apply (IH (Some b) (Some e))|apply (IH (Some b) a)].
Qed.
Lemma closest_map {Y Z0} (f : Q * Y -> Q * Z0) (Hf : forall e, fst (f e) = fst e) x table code :
  closest_entries x (map f table) code =
  (c <- closest_entries x table code ;; let '(a, b, w) := c in Ok (f a, f b, w)).
Proof.
  unfold closest_entries.
  pose proof (below_above_map f Hf x table None None) as B. cbn [option_map] in B. rewrite B. cbn zeta.
  pose proof (two_closest_map f Hf x table None None) as T. cbn [option_map] in T. rewrite T. cbn zeta.
  destruct (below_above x None None table) as [[b|] [a|]]; cbn; auto;
    destruct (two_closest x None None table) as [[o|] [t|]]; cbn; auto.
Qed.
Lemma mix_nth u a b i : length a = length b -> (nth i (mix u a b) 0 == (1 - u) * nth i a 0 + u * nth i b 0)%Q.
Proof.
  revert b i. induction a as [|x a IH]; intros [|y b] [|i] L; try discriminate; cbn [mix nth]; try ring. 
  apply IH. auto.
Qed.
Lemma mix_length u a b : length a = length b -> length (mix u a b) = length a.
Proof. revert b. induction a; intros [|y b] L; try discriminate; cbn; auto. Qed.
Theorem C74_coordinates : forall (table : list (Q * list Q)) x ys, linear (interpolateMulti 22021) x table = Ok ys ->
  forall i, exists y, linear interpolateSingle x (map (coordinate i) table) = Ok y /\ (y == nth i ys 0)%Q.
Proof.
  intros table x ys H i. unfold linear in *. rewrite closest_map by auto.
  destruct (closest_entries x table 22020) as [[[o t] w]|e]; [|discriminate]. cbn [rbind] in *.
  unfold interpolateMulti in H. destruct (Nat.eqb_spec (length (snd o)) (length (snd t))) as [L|L]; [|discriminate].
  cbn in H. inversion H; subst. eexists. split; [reflexivity|]. rewrite mix_nth by auto. reflexivity.
Qed.
(** It succeeds if the table has two different x values and vectors of one dimension, which the result has;
    values of different dimension at the two chosen entries are reported. *)
Theorem C74_vectors : forall (table : list (Q * list Q)) x dim, two_distinct table ->
  Forall (fun e => length (snd e) = dim) table ->
  exists ys, linear (interpolateMulti 22021) x table = Ok ys /\ length ys = dim.
Proof.
  intros table x dim D F. rewrite Forall_forall in F.
  assert (K : exists o t w, closest_entries x table 22020 = Ok (o, t, w) /\ In o table /\ In t table).
  { destruct (closest_entries x table 22020) as [[[o t] w]|ex] eqn:E.
    - exists o, t, w. split; auto. unfold closest_entries in E.
      pose proof (below_above_spec x table [] None None) as [B A]. { intros ? []. } { intros ? []. }
      pose proof (two_closest_spec x table [] None None (conj eq_refl eq_refl)) as T. cbn [app] in *. cbn zeta in T.
      assert (G : forall r, (match two_closest x None None table with (Some one, Some two) => Ok (one, two, false) | _ => Raise (PFAErr 22020) end) = Ok r ->
         r = (o, t, w) -> In o table /\ In t table).
      { intros r Er ->. destruct (two_closest x None None table) as [[o'|] [t'|]]; try discriminate. inversion Er; subst.
        cbn in T. destruct T as [(? & ? & T1 & _) (? & ? & T2 & _)]. split; eapply mid_In; eauto. }
      destruct (below_above x None None table) as [[b|] [a|]]; try (eapply G; eauto; fail).
      inversion E; subst. cbn in B, A. destruct B as (? & ? & B & _), A as (? & ? & A & _). split; eapply mid_In; eauto.
    - exfalso.
      assert (Ex : ex = PFAErr 22020).
      { unfold closest_entries in E. destruct (below_above x None None table) as [[b|] [a|]];
          destruct (two_closest x None None table) as [[o'|] [t'|]]; congruence. }
      pose proof (closest_single x table 22020) as CS.
      destruct D as (e & e' & He & He' & Ne).
      unfold closest_entries in E.
      pose proof (below_above_spec x table [] None None) as [B A]. { intros ? []. } { intros ? []. }
      pose proof (two_closest_spec x table [] None None (conj eq_refl eq_refl)) as T. cbn [app] in *. cbn zeta in T.
      assert (In1 : ~ inside table x).
      { intros I1. destruct (closest_inside x table 22020 I1) as (? & ? & E' & _). unfold closest_entries in E'. congruence. }
      destruct (closest_outside x table 22020 In1) as (? & ? & E' & _). { exists e, e'. auto. }
      unfold closest_entries in E'. congruence. }
  destruct K as (o & t & w & E & Ho & Ht). unfold linear. rewrite E. cbn [rbind]. unfold interpolateMulti.
  rewrite (F _ Ho), (F _ Ht), Nat.eqb_refl. cbn [negb]. eexists. split; [reflexivity|]. rewrite mix_length; auto.
  rewrite (F _ Ho), (F _ Ht). auto.
Qed.
Example C74_example :
  let table := [(5 # 1, 10 # 1); (1 # 1, 2 # 1); (3 # 1, 0 # 1)]%Q in
  inside table (2 # 1) /\ ~ inside table (7 # 1) /\ two_distinct table /\
  match linear interpolateSingle (2 # 1) table, linear interpolateSingle (7 # 1) table,
        linearFlat interpolateSingle (7 # 1) table, linearMissing interpolateSingle (7 # 1) table, linearMissing interpolateSingle (5 # 1) table with
  | Ok a, Ok b, Ok c, Ok None, Ok (Some d) => (a == 1 /\ b == 20 /\ c == 10 /\ d == 10)%Q | _, _, _, _, _ => False end.
Proof.
  cbn zeta. split; [|split; [|split]].
  - split; [exists (1 # 1, 2 # 1)%Q | exists (3 # 1, 0 # 1)%Q]; (split; [cbn; auto|reflexivity || discriminate]).
  - intros [_ (e & H & K)]. cbn in H. destruct H as [<- | [<- | [<- | []]]]; discriminate.
  - exists (5 # 1, 10 # 1)%Q, (1 # 1, 2 # 1)%Q. cbn. split; auto. split; auto. discriminate.
  - vm_compute. repeat split; reflexivity.
Qed.

(** interp.nearest returns the "to" of the first entry at the smallest distance, calling the metric once per entry. *)
Theorem C74_nearest : forall S R T (to : R -> T) (dist : R -> M S pf) table s s' ds,
  table <> [] -> calls dist s table s' ds -> no_nan ds ->
  exists i r, nearest to dist table s = (Ok (to r), s') /\ at_ table i = Some r /\ first_nearest ds i.
Proof.
  intros S R T to dist table s s' ds NE H N. unfold nearest. destruct table as [|r0 table]; [congruence|].
  inversion H as [|? ? d s1 ? ? ds' Hd Hc]; subst. cbn [nearest_loop]. unfold bind. rewrite Hd.
  destruct (nearest_loop_spec to dist _ _ _ _ Hc [r0] [d] (r0, d) 0) as (i & r & E & A & F); auto.
  - cbn [snd]. intros j d' Hj. unfold at_ in Hj. destruct (Z.ltb_spec j 0); [discriminate|].
    destruct (Z.to_nat j) as [|[|]] eqn:Ej; cbn in Hj; try discriminate. inversion Hj; subst.
    split; [apply flt_irrefl|lia].
  - exists i, r. auto.
Qed.
Theorem C74_nearest_errors : forall S R T (to : R -> T) (dist : R -> M S pf) (x : R -> list pf) datum table s,
  nearest to dist [] s = (Raise (PFAErr 22010), s) /\
  (forall p r q ds s', table = p ++ r :: q -> calls (vec_dist x datum) s p s' ds -> length (x r) <> length datum ->
     nearest to (vec_dist x datum) table s = (Raise (PFAErr 22011), s')).
Proof.
  intros S R T to dist x datum table s. split; [reflexivity|]. intros p r q ds s' -> H NL.
  assert (G : forall b, nearest_loop to (vec_dist x datum) b (p ++ r :: q) s = (Raise (PFAErr 22011), s')).
  { clear -H NL. induction H as [s|s y d s1 l s' ds Hd Hc IH]; intros b; cbn [app nearest_loop]; unfold bind.
    - unfold vec_dist. destruct (Nat.eqb_spec (length (x r)) (length datum)); [congruence|]. reflexivity.
    - rewrite Hd. apply IH; auto. }
  unfold nearest. destruct (p ++ r :: q) eqn:E; [destruct p; discriminate|]. apply G.
Qed.
Example C74_nearest_example :
  nearest (S := unit) snd (abs_dist fst (f_of_Z 4)) [(f_of_Z 0, "a"); (f_of_Z 6, "b"); (f_of_Z 2, "c")] tt = (Ok "b", tt) /\
  nearest (S := unit) snd (vec_dist fst [f_of_Z 4]) [([f_of_Z 0], "a"); ([], "b")] tt = (Raise (PFAErr 22011), tt).
Proof. split; vm_compute; reflexivity. Qed.

Print Assumptions C50_range.
Print Assumptions C50_right_bin.
Print Assumptions C50_errors.
Print Assumptions C50_open_right_bin.
Print Assumptions C50_rejected_refuted.
Print Assumptions C50_infinite_refuted.
Print Assumptions C50_overflow_refuted.
Print Assumptions C50_open_int_refuted.
Print Assumptions C50_open_crash_refuted.
Print Assumptions C74_inside.
Print Assumptions C74_outside.
Print Assumptions C74_too_few.
Print Assumptions C74_through_points.
Print Assumptions C74_coordinates.
Print Assumptions C74_vectors.
Print Assumptions C74_nearest.
Print Assumptions C74_nearest_errors.
