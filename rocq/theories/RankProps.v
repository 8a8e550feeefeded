(** C78: median, mode and quantiles of an array. *)
From Coq Require Import Lia Permutation Sorted Reals Lra SpecFloat.
From Flocq Require Import Core.
From Flocq Require Import Relative BinarySingleNaN.
From Verif Require Import Base PyNum FloatBridge ArrayModel ArraySpec ArrayProofs ArrayProps SortProofs CastProps FloatBridge2 RankModel RankSpec RankProofs.
Open Scope string_scope.
Open Scope list_scope.
Open Scope Z_scope.

(** The median is the middle item in increasing order; of two middle items it is the lower one, or their mean for real numbers. *)
Theorem C78_median : forall A (lt : A -> A -> bool) real middle a, weak_order lt -> a <> [] ->
  (len a mod 2 = 1 -> exists r, a_median lt real middle a = Ok r /\ order_stat lt a (len a / 2) r)
  /\ (len a mod 2 = 0 -> real = false -> exists r, a_median lt real middle a = Ok r /\ order_stat lt a (len a / 2 - 1) r)
  /\ (len a mod 2 = 0 -> real = true -> exists x y, a_median lt real middle a = Ok (middle x y) /\ order_stat lt a (len a / 2 - 1) x /\ order_stat lt a (len a / 2) y).
Proof.
  intros A lt real middle a W NE. assert (L : 0 < len a) by (destruct a; [congruence|]; unfold len; cbn; lia).
  assert (Ls : zlen (a_sort lt a) = len a) by (unfold zlen, len; now rewrite (Permutation_length (C18_sort_permutation A lt a))).
  unfold a_median. rewrite Ls. change (zlen a) with (len a). destruct (Z.eqb_spec (len a) 0); [lia|].
  pose proof (Z.div_mod (len a) 2 ltac:(lia)) as DM. pose proof (Z.mod_pos_bound (len a) 2 ltac:(lia)) as MB.
  split; [|split].
  - intros O. rewrite O. cbn [Z.eqb negb]. destruct (item_total lt a (len a / 2)) as [r E]; [lia|]. exists r. split; auto. apply (item_stat lt W); auto; lia.
  - intros O ->. rewrite O. cbn [Z.eqb negb]. destruct (item_total lt a (len a / 2 - 1)) as [r E]; [lia|]. exists r. split; auto. apply (item_stat lt W); auto; lia.
  - intros O ->. rewrite O. cbn [Z.eqb negb]. destruct (item_total lt a (len a / 2 - 1)) as [x Ex]; [lia|]. destruct (item_total lt a (len a / 2)) as [y Ey]; [lia|].
    exists x, y. rewrite Ex, Ey. split; [reflexivity|]. split; apply (item_stat lt W); auto; lia.
Qed.
(** At most half of the items are smaller, and at most half are greater. *)
Theorem C78_median_halves : forall A (lt : A -> A -> bool) real middle a r, weak_order lt -> real = false \/ len a mod 2 = 1 -> a_median lt real middle a = Ok r ->
  In r a /\ 2 * len (filter (fun x => lt x r) a) <= len a /\ 2 * len (filter (fun x => lt r x) a) <= len a.
Proof.
  intros A lt real middle a r W K E. assert (NE : a <> []) by (intros ->; discriminate). destruct (C78_median A lt real middle a W NE) as (M1 & M2 & _).
  pose proof (Z.div_mod (len a) 2 ltac:(lia)) as DM. pose proof (Z.mod_pos_bound (len a) 2 ltac:(lia)) as MB.
  assert (S : forall (f : A -> bool) l, len (filter f l) + len (filter (fun x => negb (f x)) l) = len l).
  { intros f l. unfold len. induction l as [|x l IH]; cbn; auto. destruct (f x); cbn [negb length]; lia. }
  pose proof (S (fun x => lt r x) a) as Sr. unfold order_stat, smaller, not_greater in *.
  destruct (Z.eq_dec (len a mod 2) 1) as [O|O].
  - destruct (M1 O) as (r' & E' & I & R). assert (r' = r) by congruence. subst r'. split; auto. lia.
  - destruct K as [K|K]; [|contradiction]. destruct (M2 ltac:(lia) K) as (r' & E' & I & R). assert (r' = r) by congruence. subst r'. split; auto. lia.
Qed.
(** The order of the array does not matter (up to items that compare equal). *)
Theorem C78_median_order : forall A (lt : A -> A -> bool) real middle a b r s, weak_order lt -> Permutation a b -> real = false \/ len a mod 2 = 1 ->
  a_median lt real middle a = Ok r -> a_median lt real middle b = Ok s -> tied lt r s.
Proof.
  intros A lt real middle a b r s W P K Ea Eb. assert (Na : a <> []) by (intros ->; discriminate). assert (Nb : b <> []) by (intros ->; discriminate).
  assert (L : len a = len b) by (unfold len; now rewrite (Permutation_length P)).
  destruct (C78_median A lt real middle a W Na) as (M1 & M2 & _). destruct (C78_median A lt real middle b W Nb) as (N1 & N2 & _).
  destruct (Z.eq_dec (len a mod 2) 1) as [O|O].
  - destruct (M1 O) as (r' & E1 & R1). destruct (N1 ltac:(congruence)) as (s' & E2 & R2). assert (r' = r) by congruence. assert (s' = s) by congruence. subst.
    eapply stat_tied; eauto. rewrite L. eapply perm_stat; [|exact R2]. now apply Permutation_sym.
  - destruct K as [K|K]; [|contradiction]. pose proof (Z.mod_pos_bound (len a) 2 ltac:(lia)).
    destruct (M2 ltac:(lia) K) as (r' & E1 & R1). destruct (N2 ltac:(rewrite <- L; lia) K) as (s' & E2 & R2). assert (r' = r) by congruence. assert (s' = s) by congruence. subst.
    eapply stat_tied; eauto. rewrite L. eapply perm_stat; [|exact R2]. now apply Permutation_sym.
Qed.
Theorem C78_empty : forall A (lt : A -> A -> bool) real middle mix same p,
  a_median lt real middle [] = Raise (PFAErr 15450) /\ a_mode lt real middle same [] = Raise (PFAErr 15470) /\ a_ntile lt real mix [] p = Raise (PFAErr 15460).
Proof. repeat split. Qed.

(** The mode is the median of the most frequent items. *)
Theorem C78_mode : forall A (lt : A -> A -> bool) real middle same a,
  (forall x, same x x = true) -> (forall x y, same x y = same y x) -> (forall x y z, same x y = true -> same y z = true -> same x z = true) -> a <> [] ->
  exists ms, most_frequent same a ms /\ ms <> [] /\ a_mode lt real middle same a = a_median lt real middle ms.
Proof.
  intros A lt real middle same a S1 S2 S3 NE. destruct (besties_most_frequent same S1 S2 S3 a NE) as [M N]. exists (besties (counts same a)).
  split; auto. split; auto. unfold a_mode. destruct (Z.eqb_spec (zlen a) 0) as [E|]; auto. destruct a; [congruence|discriminate].
Qed.
(** If one item is more frequent than all others it is the mode, whatever the order. *)
Theorem C78_mode_single : forall A (lt : A -> A -> bool) real middle same a x,
  (forall x, same x x = true) -> (forall x y, same x y = same y x) -> (forall x y z, same x y = true -> same y z = true -> same x z = true) ->
  In x a -> (forall y, In y a -> same x y = false -> times same a y < times same a x) -> exists r, a_mode lt real middle same a = Ok r /\ In r a /\ same x r = true.
Proof.
  intros A lt real middle same a x S1 S2 S3 I M. assert (NE : a <> []) by (intros ->; destruct I).
  destruct (C78_mode A lt real middle same a S1 S2 S3 NE) as (ms & (F1 & F2 & F3) & N & E).
  assert (X : exists m, In m ms /\ same x m = true).
  { apply F2; auto. intros y Iy. destruct (same x y) eqn:Q; [|specialize (M y Iy Q); lia]. rewrite (times_congr same S1 S2 S3 a x y Q) || rewrite (times_congr same S2 S3 a x y Q). lia. }
  destruct X as (m & Im & Em).
  assert (O : ms = [m]).
  { assert (U : forall z, In z ms -> same x z = true).
    { intros z Iz. destruct (F1 z Iz) as [Iza Mz]. specialize (Mz x I). destruct (same x z) eqn:Q; auto. specialize (M z Iza Q). lia. }
    destruct ms as [|p [|q ms]]; [destruct Im|destruct Im as [->|[]]; reflexivity|].
    assert (C : 0%nat = 1%nat); [|discriminate]. apply (F3 0%nat 1%nat p q); auto. eapply S3; [rewrite S2; apply U; now left|apply U; right; now left]. }
  subst ms. exists m. rewrite E. split; [reflexivity|]. split; auto. apply (F1 m). now left.
Qed.
(** For real numbers the mode need not be an item; and equal maps with entries in different order are counted apart. *)
Theorem C78_mode_item_refuted : exists a r, a_mode Z.ltb true (fun x y => (x + y) / 2) Z.eqb a = Ok r /\ ~ In r a.
Proof. exists [10; 20], 15. split; [reflexivity|]. cbn. lia. Qed.
Definition map_eqb (x y : list (string * Z)) : bool := if list_eq_dec (fun p q : string * Z => ltac:(decide equality; [apply Z.eq_dec|apply string_dec])) x y then true else false.
Theorem C78_mode_maps_refuted : exists lt (m m' k r : list (string * Z)), weak_order lt /\ Permutation m m' /\ ~ Permutation m k /\
  a_mode lt false (fun x _ => x) map_eqb [m; m'; m; k; k] = Ok r /\ r = k.
Proof.
  exists (fun x y => Nat.ltb (length x) (length y)), [("a", 1); ("b", 2)], [("b", 2); ("a", 1)], [("a", 1)], [("a", 1)].
  split. { constructor; intros x; [apply Nat.ltb_irrefl|intros y z H1 H2; apply Nat.ltb_lt in H1, H2; apply Nat.ltb_lt; lia|intros y z H; apply Nat.ltb_lt in H; rewrite !Nat.ltb_lt; lia]. }
  split; [apply perm_swap|]. split; [intros P; apply Permutation_length in P; discriminate|]. split; reflexivity.
Qed.

(** ** Quantiles *)
Lemma flip_last A (lt : A -> A -> bool) a r : weak_order lt -> order_stat (fun x y => lt y x) a 0 r -> order_stat lt a (len a - 1) r.
Proof.
  intros W [I [R _]]. unfold smaller in R. split; auto. unfold smaller, not_greater, len in *.
  assert (G : filter (fun x => lt r x) a = []) by (destruct (filter (fun x => lt r x) a); auto; cbn in R; lia).
  assert (N : filter (fun x => negb (lt r x)) a = a).
  { apply filter_all. intros x Ix. destruct (lt r x) eqn:E; auto. assert (J : In x (filter (fun x => lt r x) a)) by (apply filter_In; auto). rewrite G in J. destruct J. }
  rewrite N. split; [|lia].
  apply in_split in I as (p & q & ->). rewrite filter_app, !app_length. cbn [filter length]. rewrite (wo_irrefl _ W).
  pose proof (filter_le (fun x => lt x r) p). pose proof (filter_le (fun x => lt x r) q). lia.
Qed.
Lemma lowest_item A (lt : A -> A -> bool) a : a <> [] -> item (lowestN lt a 1) 0 = item (a_sort lt a) 0 /\ item (highestN lt a 1) 0 = item (a_sort (fun x y => lt y x) a) 0.
Proof.
  intros NE. destruct (C19_prefix_of_sort A lt a 1 0 NE ltac:(lia)) as [E1 E2]. unfold a_minN, a_maxN, guard_n in E1, E2. destruct a as [|x a]; [congruence|].
  cbn [Z.ltb Z.compare] in E1, E2. inversion E1 as [H1]. inversion E2 as [H2]. rewrite H1, H2. unfold item. cbn [Z.to_nat].
  split; [destruct (a_sort lt (x :: a)); reflexivity|destruct (a_sort (fun x y => lt y x) (x :: a)); reflexivity].
Qed.

Lemma py_ceil_val f : finite f -> py_ceil f = Ok (Zceil (fval f)).
Proof.
  intros F. assert (F' : finite (fneg f)) by now apply fneg_finite. pose proof (py_floor_val _ F') as E. rewrite fneg_val in E. unfold Zceil.
  destruct f as [s|s| |s m e]; try discriminate; cbn [fneg SFopp] in E.
  - destruct s; cbn in E |- *; rewrite ?Ropp_0 in E; rewrite Ropp_0; inversion E; reflexivity.
  - unfold py_floor in E. unfold py_ceil. assert (Z1 : zsign (negb s) (Z.pos m) = - zsign s (Z.pos m)) by (destruct s; reflexivity). rewrite Z1 in E.
    destruct (0 <=? e); apply (f_equal (fun r => match r with Ok z => z | _ => 0 end)) in E; cbv beta iota in E; rewrite <- E; f_equal; lia.
Qed.

Lemma num_ge_le x y : num_ge (NF x) (NF y) = num_le (NF y) (NF x).
Proof.
  unfold num_ge, num_le, num_cmp. destruct x as [sx|sx| |sx mx ex], y as [sy|sy| |sy my ey]; try (destruct sx); try (destruct sy); try reflexivity; cbn [SFcompare].
  all: rewrite (Z.compare_antisym ex ey); destruct (ex ?= ey); cbn [CompOpp]; try reflexivity.
  all: change (Pos.compare_cont Eq mx my) with (mx ?= my)%positive; change (Pos.compare_cont Eq my mx) with (my ?= mx)%positive; rewrite (Pos.compare_antisym mx my); destruct (mx ?= my)%positive; reflexivity.
Qed.
(** The position that is looked up. *)
Definition position_in (n : Z) (p : pf) : R := rnd (IZR (n - 1) * fval p).
Lemma f_of_Z_valid z : valid (f_of_Z z).
Proof. apply normalize_valid. Qed.
Lemma ntile_position n p : 0 < n < 2 ^ 53 -> valid p -> num_le (NF p) (NF f0) = false -> num_ge (NF p) (NF f1) = false -> isnan p = false ->
  exists k, k = fmul (fsub (f_of_Z n) f1) p /\ finite k /\ valid k /\ fval k = position_in n p /\ (0 < fval p < 1)%R /\ (0 <= position_in n p <= IZR (n - 1))%R.
Proof.
  intros N V P0 P1 Nn. assert (Fp : finite p /\ (0 < fval p < 1)%R).
  { assert (F1v : fval f1 = 1%R /\ finite f1) by (destruct (f_of_Z_val 1 ltac:(lia)) as [E F]; rewrite rnd_int in E by lia; auto). destruct F1v as [E1 F1].
    assert (F : finite p). { destruct p as [s|s| |s m e]; try reflexivity; try discriminate. destruct s; cbn in P0, P1; discriminate. }
    split; auto. split.
    - apply Rnot_le_lt. intros L. assert (num_le (NF p) (NF f0) = true); [|congruence]. apply fle_val; auto; try reflexivity.
    - apply Rnot_le_lt. intros L. assert (num_le (NF f1) (NF p) = true) by (apply (proj2 (fle_val f1 p F1 F (f_of_Z_valid 1) V)); rewrite E1; auto).
      rewrite <- num_ge_le in H. congruence. }
  destruct Fp as [Fp Rp].
  assert (N1 : fval (fsub (f_of_Z n) f1) = IZR (n - 1) /\ finite (fsub (f_of_Z n) f1)).
  { destruct (f_of_Z_val n ltac:(lia)) as [En Fn]. rewrite rnd_int in En by lia. destruct (f_of_Z_val 1 ltac:(lia)) as [E1 F1]. rewrite rnd_int in E1 by lia.
    destruct (fsub_diff (f_of_Z n) f1 Fn F1 (f_of_Z_valid _) (f_of_Z_valid _)) as [[E F]|[B _]].
    - split; auto. rewrite E. unfold f1. rewrite En, E1, <- minus_IZR. apply rnd_int. lia.
    - exfalso. unfold f1 in B. rewrite En, E1, <- minus_IZR, rnd_int in B by lia. apply Rle_not_lt in B. apply B.
      apply Rle_lt_trans with (bpow radix2 53); [|apply bpow_lt; lia]. rewrite <- abs_IZR. change (bpow radix2 53) with (IZR (2 ^ 53)). apply IZR_le. lia. }
  destruct N1 as [E1 F1]. assert (V1 : valid (fsub (f_of_Z n) f1)) by (apply fsub_valid; apply f_of_Z_valid).
  assert (B : (0 <= IZR (n - 1) * fval p <= IZR (n - 1))%R).
  { assert (H : (0 <= IZR (n - 1))%R) by (apply IZR_le; lia). split; [apply Rmult_le_pos; lra|]. rewrite <- (Rmult_1_r (IZR (n - 1))) at 2. apply Rmult_le_compat_l; lra. }
  assert (Bk : (0 <= position_in n p <= IZR (n - 1))%R).
  { apply rnd_between; auto; [apply rnd0|apply rnd_int; lia]. }
  exists (fmul (fsub (f_of_Z n) f1) p). split; [reflexivity|].
  destruct (fmul_prod _ p F1 Fp V1 V) as [[Ek Fk]|[Big _]].
  - rewrite E1 in Ek. split; auto. split; [now apply fmul_valid|]. split; auto.
  - exfalso. rewrite E1 in Big. fold (position_in n p) in Big. rewrite Rabs_pos_eq in Big by tauto. apply Rle_not_lt in Big. apply Big.
    eapply Rle_lt_trans; [apply Bk|]. apply Rlt_le_trans with (bpow radix2 53); [|apply bpow_le; lia]. change (bpow radix2 53) with (IZR (2 ^ 53)). apply IZR_lt. lia.
Qed.
(** a.ntile for p between 0 and 1: the item at position floor(k), k the binary64 product of n - 1 and p; for real numbers a mixture of two neighbours. *)
Theorem C78_ntile : forall A (lt : A -> A -> bool) real mix a p, weak_order lt -> a <> [] -> len a < 2 ^ 53 -> valid p ->
  (isnan p = true -> a_ntile lt real mix a p = Raise (PFAErr 15461))
  /\ (num_le (NF p) (NF f0) = true -> exists r, a_ntile lt real mix a p = Ok r /\ order_stat lt a 0 r)
  /\ (num_ge (NF p) (NF f1) = true -> exists r, a_ntile lt real mix a p = Ok r /\ order_stat lt a (len a - 1) r)
  /\ (isnan p = false -> num_le (NF p) (NF f0) = false -> num_ge (NF p) (NF f1) = false ->
      let k := position_in (len a) p in 0 <= Zfloor k <= len a - 1 /\
      (real = false \/ IZR (Zfloor k) = k -> exists r, a_ntile lt real mix a p = Ok r /\ order_stat lt a (Zfloor k) r)
      /\ (real = true -> IZR (Zfloor k) <> k -> exists x y u v, a_ntile lt real mix a p = Ok (mix x y u v) /\ order_stat lt a (Zfloor k) x /\ order_stat lt a (Zfloor k + 1) y
           /\ fval u = rnd (IZR (Zfloor k + 1) - k) /\ fval v = rnd (k - IZR (Zfloor k)))).
Proof.
  intros A lt real mix a p W NE LA V. assert (L : 0 < len a) by (destruct a; [congruence|]; unfold len; cbn; lia).
  unfold a_ntile. change (zlen a) with (len a). destruct (Z.eqb_spec (len a) 0); [lia|]. destruct (lowest_item A lt a NE) as [EL EH]. rewrite EL, EH.
  assert (NF0 : isnan p = true -> num_le (NF p) (NF f0) = false /\ num_ge (NF p) (NF f1) = false) by (destruct p; discriminate || (intros _; split; reflexivity)).
  split; [intros ->; reflexivity|]. split; [|split].
  - intros P0. destruct (isnan p) eqn:Nn; [destruct (NF0 eq_refl); congruence|]. rewrite P0. destruct (item_total lt a 0) as [r E]; [lia|]. exists r. split; auto. apply (item_stat lt W); auto; lia.
  - intros P1. destruct (isnan p) eqn:Nn; [destruct (NF0 eq_refl); congruence|]. assert (P0 : num_le (NF p) (NF f0) = false).
    { clear - P1 Nn. destruct p as [s|[|]| |[|] m e]; try reflexivity; exfalso; revert P1; unfold num_ge, num_cmp; change f1 with (S754_finite false 4503599627370496 (-52)); cbn [SFcompare]; congruence. }
    rewrite P0, P1. destruct (item_total (fun x y => lt y x) a 0) as [r E]; [lia|]. exists r. split; auto. apply flip_last; auto.
    apply (item_stat (fun x y => lt y x) (weak_order_flip lt W)); auto; lia.
  - intros Nn P0 P1. rewrite Nn, P0, P1. destruct (ntile_position (len a) p ltac:(lia) V P0 P1 Nn) as (k & Ek & Fk & Vk & Rk & Rp & Bk).
    set (kk := position_in (len a) p) in *. cbv zeta.
    assert (Fl : 0 <= Zfloor kk <= len a - 1).
    { split; [apply Zfloor_lub; tauto|]. apply le_IZR. eapply Rle_trans; [apply Zfloor_lb|]. tauto. }
    split; auto. assert (PF : py_float (len a) = Ok (f_of_Z (len a))).
    { unfold py_float. destruct (f_of_Z_val (len a) ltac:(lia)) as [_ F]. destruct (f_of_Z (len a)); try discriminate; reflexivity. }
    rewrite PF. cbn [rbind]. rewrite <- Ek. rewrite (py_floor_val k Fk), Rk. cbn [rbind].
    assert (PI : py_int k = Ok (Zfloor kk)).
    { rewrite (py_int_val k Fk), Rk. f_equal. apply Ztrunc_floor. tauto. }
    destruct (item_total lt a (Zfloor kk)) as [r Er]; [lia|].
    split.
    + intros K. exists r. split; [|apply (item_stat lt W); auto; lia].
      destruct real.
      * destruct K as [K|K]; [discriminate|]. rewrite (py_ceil_val k Fk), Rk. cbn [rbind]. replace (Zceil kk) with (Zfloor kk) by (rewrite <- K at 2; now rewrite Zceil_IZR).
        rewrite Z.eqb_refl, PI. exact Er.
      * rewrite PI. cbn [rbind]. destruct (_ =? 1); exact Er.
    + intros -> K. assert (C : Zceil kk = Zfloor kk + 1) by now apply Zceil_floor_neq.
      rewrite (py_ceil_val k Fk), Rk. cbn [rbind]. rewrite C. destruct (Z.eqb_spec (Zfloor kk) (Zfloor kk + 1)); [lia|].
      assert (C1 : Zfloor kk + 1 <= len a - 1) by (rewrite <- C; apply Zceil_glb; tauto).
      destruct (item_total lt a (Zfloor kk + 1)) as [y Ey]; [lia|]. rewrite Er, Ey. cbn [rbind].
      assert (PFz : forall z, Z.abs z < 2 ^ 53 -> py_float z = Ok (f_of_Z z) /\ fval (f_of_Z z) = IZR z /\ finite (f_of_Z z)).
      { intros z Hz. destruct (f_of_Z_val z ltac:(lia)) as [E F]. rewrite rnd_int in E by lia. split; auto. unfold py_float. destruct (f_of_Z z); try discriminate; reflexivity. }
      destruct (PFz (Zfloor kk + 1)) as (Q1 & Q2 & Q3); [lia|]. destruct (PFz (Zfloor kk)) as (T1 & T2 & T3); [lia|]. rewrite Q1, T1. cbn [rbind].
      exists r, y. do 2 eexists. split; [reflexivity|]. split; [apply (item_stat lt W); auto; lia|]. split; [apply (item_stat lt W); auto; lia|].
      assert (Sm : forall x, (0 <= x <= 1)%R -> (Rabs (rnd x) < big)%R).
      { intros x Hx. assert (H : (0 <= rnd x <= 1)%R) by (apply rnd_between; auto; [apply rnd0|apply (rnd_int 1); lia]). rewrite Rabs_pos_eq by tauto.
        eapply Rle_lt_trans; [apply H|]. unfold big. change 1%R with (bpow radix2 0). apply bpow_lt. lia. }
      pose proof (Zfloor_lb kk) as LB. pose proof (Zfloor_ub kk) as UB. rewrite plus_IZR in *.
      split.
      * destruct (fsub_diff (f_of_Z (Zfloor kk + 1)) k Q3 Fk (f_of_Z_valid _) Vk) as [[E _]|[B _]]; [now rewrite E, Q2, Rk|].
        exfalso. rewrite Q2, Rk in B. apply (Rle_not_lt _ _ B). apply Sm. lra.
      * destruct (fsub_diff k (f_of_Z (Zfloor kk)) Fk T3 Vk (f_of_Z_valid _)) as [[E _]|[B _]]; [now rewrite E, T2, Rk|].
        exfalso. rewrite T2, Rk in B. apply (Rle_not_lt _ _ B). apply Sm. lra.
Qed.
(** For other types than real numbers, a greater p does not give a smaller item. *)
Theorem C78_ntile_monotone : forall A (lt : A -> A -> bool) mix a p q r s, weak_order lt -> len a < 2 ^ 53 -> valid p -> valid q -> finite p -> finite q -> (fval p <= fval q)%R ->
  a_ntile lt false mix a p = Ok r -> a_ntile lt false mix a q = Ok s -> lt s r = false.
Proof.
  intros A lt mix a p q r s W LA Vp Vq Fp Fq L Ep Eq. assert (NE : a <> []) by (intros ->; discriminate).
  assert (F1v : fval f1 = 1%R /\ finite f1 /\ valid f1).
  { destruct (f_of_Z_val 1 ltac:(lia)) as [E F]. rewrite rnd_int in E by lia. split; [exact E|]. split; [exact F|]. apply f_of_Z_valid. }
  destruct F1v as (E1 & F1 & V1).
  assert (Ge : forall x, valid x -> finite x -> num_ge (NF x) (NF f1) = true <-> (1 <= fval x)%R).
  { intros x Vx Fx. rewrite <- E1. rewrite <- (fle_val f1 x F1 Fx V1 Vx). now rewrite num_ge_le. }
  assert (Le : forall x, valid x -> finite x -> num_le (NF x) (NF f0) = true <-> (fval x <= 0)%R).
  { intros x Vx Fx. rewrite (fle_val x f0 Fx); try reflexivity; auto. }
  assert (Nan : forall x, finite x -> isnan x = false) by (intros x; destruct x; cbn; auto; discriminate).
  assert (P : 0 < len a) by (destruct a; [congruence|]; unfold len; cbn; lia).
  assert (St : forall x t, valid x -> finite x -> a_ntile lt false mix a x = Ok t ->
    exists i, order_stat lt a i t /\ ((fval x <= 0)%R /\ i = 0 \/ (1 <= fval x)%R /\ i = len a - 1 \/ (0 < fval x < 1)%R /\ i = Zfloor (position_in (len a) x) /\ 0 <= i <= len a - 1)).
  { intros x t Vx Fx Ex. destruct (C78_ntile A lt false mix a x W NE LA Vx) as (_ & N0 & N1 & N2).
    destruct (num_le (NF x) (NF f0)) eqn:X0.
    - destruct (N0 eq_refl) as (t' & Et & St). assert (t' = t) by congruence. subst. exists 0. split; auto. left. split; auto. now apply Le.
    - destruct (num_ge (NF x) (NF f1)) eqn:X1.
      + destruct (N1 eq_refl) as (t' & Et & St). assert (t' = t) by congruence. subst. exists (len a - 1). split; auto. right; left. split; auto. now apply Ge.
      + destruct (N2 (Nan x Fx) eq_refl eq_refl) as (B & N3 & _). destruct (N3 (or_introl eq_refl)) as (t' & Et & St). assert (t' = t) by congruence. subst.
        eexists. split; [exact St|]. right; right. split; [|auto]. split; apply Rnot_le_lt; intros H; [apply Le in H|apply Ge in H]; auto; congruence. }
  destruct (St p r Vp Fp Ep) as (i & Si & Hi). destruct (St q s Vq Fq Eq) as (j & Sj & Hj).
  eapply (stat_order lt W); eauto.
  destruct Hi as [[H1 ->]|[[H1 ->]|(H1 & -> & B1)]], Hj as [[H2 ->]|[[H2 ->]|(H2 & -> & B2)]]; try lia; try lra.
  apply Zfloor_le. unfold position_in. apply rnd_mono. apply Rmult_le_compat_l; [apply IZR_le; lia|exact L].
Qed.

(** ** Examples *)
Example medians : a_median Z.ltb false (fun x _ => x) [5; 1; 4] = Ok 4 /\ a_median Z.ltb false (fun x _ => x) [5; 1; 4; 2] = Ok 2 /\ a_median Z.ltb true (fun x y => (x + y) / 2) [5; 1; 7; 3] = Ok 4.
Proof. repeat split. Qed.
Lemma Zltb_weak : weak_order Z.ltb.
Proof. constructor; intros x; [apply Z.ltb_irrefl|intros y z H1 H2; apply Z.ltb_lt in H1, H2; apply Z.ltb_lt; lia|intros y z H; apply Z.ltb_lt in H; rewrite !Z.ltb_lt; lia]. Qed.
Example a_stat : weak_order Z.ltb /\ order_stat Z.ltb [5; 1; 4; 1] 1 1 /\ order_stat Z.ltb [5; 1; 4; 1] 2 4.
Proof. split; [apply Zltb_weak|]. split; (split; [cbn; auto 10|cbv; split; congruence]). Qed.
Example modes : a_mode Z.ltb false (fun x _ => x) Z.eqb [3; 1; 3; 2; 1; 3] = Ok 3 /\ a_mode Z.ltb false (fun x _ => x) Z.eqb [9; 1; 9; 2; 1; 2] = Ok 2.
Proof. split; reflexivity. Qed.
(** 0.7 of five items; 0.5 *)
Example ntiles : a_ntile Z.ltb false (fun x _ _ _ => x) [50; 10; 40; 20; 30] (S754_finite false 6305039478318694 (-53)) = Ok 30
  /\ a_ntile Z.ltb false (fun x _ _ _ => x) [50; 10; 40; 20] (S754_finite false 4503599627370496 (-53)) = Ok 20
  /\ a_ntile Z.ltb false (fun x _ _ _ => x) [50; 10; 40; 20] (S754_finite false 4503599627370496 (-50)) = Ok 50
  /\ valid (S754_finite false 6305039478318694 (-53)).
Proof. repeat split; vm_compute; reflexivity. Qed.
Print Assumptions C78_median.
Print Assumptions C78_median_halves.
Print Assumptions C78_median_order.
Print Assumptions C78_empty.
Print Assumptions C78_mode.
Print Assumptions C78_mode_single.
Print Assumptions C78_mode_item_refuted.
Print Assumptions C78_mode_maps_refuted.
Print Assumptions C78_ntile.
Print Assumptions C78_ntile_monotone.
