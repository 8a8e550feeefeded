From Coq Require Import SpecFloat.
From Verif Require Import Base PyNum PyNumProofs ArithModel ArithSpec ArithProofs.
Open Scope Z_scope.

Lemma cmp_bounds f lo hi : lo <= 0 <= hi -> isnan f = false ->
  num_lt (NF f) (NI lo) = false -> num_gt (NF f) (NI hi) = false ->
  exists z, py_int f = Ok z /\ lo <= z <= hi.
Proof.
  intros H0 Hn Hl Hg. unfold num_lt, num_gt, num_cmp in *.
  destruct f as [s|s| |s m e]; simpl in *; try discriminate.
  - exists 0. split; [reflexivity|lia].
  - destruct s; discriminate.
  - destruct (0 <=? e) eqn:E.
    + eexists; split; [reflexivity|]. split.
      * destruct (Z.compare_spec (zsign s (Z.pos m) * 2 ^ e) lo); try lia; discriminate.
      * destruct (Z.compare_spec (zsign s (Z.pos m) * 2 ^ e) hi); try lia; discriminate.
    + eexists; split; [reflexivity|]. apply Z.leb_gt in E.
      assert (P : 0 < 2 ^ (- e)) by (apply Z.pow_pos_nonneg; lia).
      pose proof (Z.div_pos (Z.pos m) (2 ^ (- e))).
      pose proof (Z.div_mod (Z.pos m) (2 ^ (- e))). pose proof (Z.mod_pos_bound (Z.pos m) (2 ^ (- e))).
      destruct (Z.compare_spec (zsign s (Z.pos m)) (lo * 2 ^ (- e))); try discriminate;
      destruct (Z.compare_spec (zsign s (Z.pos m)) (hi * 2 ^ (- e))); try discriminate;
      unfold zsign in *; destruct s; nia.
Qed.

Lemma pow_like_java_ok c_pow x y : Z.abs x <= 2 ^ 63 -> Z.abs y <= 2 ^ 63 ->
  exists r, pow_like_java_int c_pow x y = Ok r.
Proof.
  intros Hx Hy. unfold pow_like_java_int. destruct ((x =? 0) && (y <? 0)); [eauto|].
  destruct (py_float_ok x) as (fx & -> & _); [lia|].
  destruct (py_float_ok y) as (fy & -> & _); [lia|]. simpl. destruct (c_pow fx fy); eauto.
Qed.

Lemma pow_range : forall c_pow t x y, integral t -> fits (width t) x -> fits (width t) y ->
  (exists z, lib_pow_int c_pow t x y = Ok (NI z) /\ fits (width t) z) \/
  lib_pow_int c_pow t x y = Raise (PFAErr (match t with TInt => 18080 | _ => 18081 end)).
Proof.
  intros c_pow t x y Ht Hx Hy.
  destruct (pow_like_java_ok c_pow x y) as [r Hr]; try (eapply fits_bound; eauto).
  unfold lib_pow_int. rewrite Hr. simpl rbind.
  destruct Ht as [-> | ->].
  - destruct (isnan r) eqn:N; simpl orb; [now right|].
    destruct (num_lt (NF r) (NI INT_MIN_VALUE)) eqn:L; simpl orb; [now right|].
    destruct (num_gt (NF r) (NI INT_MAX_VALUE)) eqn:G; [now right|]. left.
    destruct (cmp_bounds r INT_MIN_VALUE INT_MAX_VALUE) as [z [-> Hz]]; try assumption.
    { unfold INT_MIN_VALUE, INT_MAX_VALUE; lia. }
    exists z; split; [reflexivity|]. unfold fits, width; consts; lia.
  - destruct (isnan r) eqn:N; simpl orb; [now right|].
    destruct (num_lt (NF r) (NI LONG_MIN_VALUE)) eqn:L; simpl orb; [now right|].
    destruct (num_gt (NF r) (NI LONG_MAX_VALUE)) eqn:G; [now right|]. left.
    destruct (cmp_bounds r LONG_MIN_VALUE LONG_MAX_VALUE) as [z [-> Hz]]; try assumption.
    { unfold LONG_MIN_VALUE, LONG_MAX_VALUE; lia. }
    exists z; split; [reflexivity|]. unfold fits, width; consts; lia.
Qed.

Lemma py_int_not_big_odd f v : valid_binary 53 1024 f = true ->
  2 ^ 53 < v -> Z.odd v = true -> py_int f <> Ok v.
Proof.
  intros Hv Hbig Hodd H. destruct f as [s|s| |s m e]; simpl in H; try discriminate.
  - injection H as <-. lia.
  - assert (Hm : Zpos m < 2 ^ 53).
    { simpl in Hv. unfold bounded, canonical_mantissa in Hv. apply andb_true_iff in Hv. destruct Hv as [Hc _].
      apply Zeq_bool_eq in Hc. unfold fexp, emin in Hc. rewrite digits2_log2 in Hc.
      destruct (Z_lt_ge_dec (Zpos m) (2 ^ 53)) as [|G]; [assumption|exfalso].
      assert (53 <= Z.log2 (Zpos m)) by (apply Z.log2_le_pow2; lia). lia. }
    destruct (0 <=? e) eqn:E; injection H as H.
    + apply Z.leb_le in E. destruct (Z.eq_dec e 0) as [->|].
      * unfold zsign in H. destruct s; lia.
      * rewrite <- H, Z.odd_mul in Hodd. apply andb_true_iff in Hodd. destruct Hodd as [_ Ho].
        rewrite Z.odd_pow in Ho by lia. discriminate.
    + apply Z.leb_gt in E. assert (P : 0 < 2 ^ (- e)) by (apply Z.pow_pos_nonneg; lia).
      assert (Z.pos m / 2 ^ (- e) <= Z.pos m) by (apply Z.div_le_upper_bound; nia).
      assert (0 <= Z.pos m / 2 ^ (- e)) by (apply Z.div_pos; lia).
      unfold zsign in H. destruct s; lia.
Qed.

Lemma pow_inexact : forall c_pow,
  (forall a b r, c_pow a b = Some r -> valid_binary 53 1024 r = true) ->
  fits 64 (3 ^ 39) /\ lib_pow_int c_pow TLong 3 39 <> Ok (NI (3 ^ 39)).
Proof.
  intros c_pow Hv. split; [unfold fits; simpl; lia|].
  unfold lib_pow_int, pow_like_java_int.
  change ((3 =? 0) && (39 <? 0)) with false. cbv iota.
  destruct (py_float_ok 3) as (fx & -> & _); [simpl; lia|].
  destruct (py_float_ok 39) as (fy & -> & _); [simpl; lia|]. simpl rbind.
  destruct (c_pow fx fy) as [r|] eqn:E.
  - simpl rbind. destruct (isnan r || _ || _); [discriminate|].
    destruct (py_int r) as [z|] eqn:Ez; simpl; [|discriminate]. intros H. injection H as H.
    apply (py_int_not_big_odd r z (Hv _ _ _ E)); try assumption; subst z; [reflexivity|reflexivity].
  - change (39 =? 0) with false. vm_compute. discriminate.
Qed.
