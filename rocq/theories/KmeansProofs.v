(** Exact arithmetic: assignment to the nearest center and the step to the means. *)
From Coq Require Import Permutation Reals Lra Sorted.
From Verif Require Import Base ScopeModel CartModel CartProofs3 KmeansModel KmeansSpec.
Open Scope list_scope.
Open Scope R_scope.

(** *** Sums *)
Lemma rsum_le {B} (f g : B -> R) l : (forall x, In x l -> f x <= g x) -> rsum (map f l) <= rsum (map g l).
Proof.
  induction l as [|x l IH]; intros H; cbn; [lra|]. pose proof (H x (or_introl eq_refl)).
  assert (rsum (map f l) <= rsum (map g l)) by (apply IH; intros; apply H; now right). lra.
Qed.
Lemma rsum_lt {B} (f g : B -> R) l : (forall x, In x l -> f x <= g x) -> (exists x, In x l /\ f x < g x) -> rsum (map f l) < rsum (map g l).
Proof.
  induction l as [|x l IH]; intros H (y & I & L); [destruct I|]. cbn. pose proof (H x (or_introl eq_refl)).
  assert (G : forall x, In x l -> f x <= g x) by (intros; apply H; now right). pose proof (rsum_le f g l G).
  destruct I as [<-|I]; [lra|]. assert (rsum (map f l) < rsum (map g l)) by (apply IH; eauto). lra.
Qed.
Lemma rsum_add {B} (f g : B -> R) l : rsum (map (fun x => f x + g x) l) = rsum (map f l) + rsum (map g l).
Proof. induction l as [|x l IH]; cbn; [ring|]. rewrite IH. ring. Qed.
Lemma rsum_scale {B} c (f : B -> R) l : rsum (map (fun x => c * f x) l) = c * rsum (map f l).
Proof. induction l as [|x l IH]; cbn; [ring|]. rewrite IH. ring. Qed.
Lemma rsum_zero {B} (l : list B) : rsum (map (fun _ => 0) l) = 0.
Proof. induction l as [|x l IH]; cbn; [ring|]. rewrite IH. ring. Qed.
Lemma rsum_swap {B C} (f : B -> C -> R) l m : rsum (map (fun x => rsum (map (f x) m)) l) = rsum (map (fun y => rsum (map (fun x => f x y) l)) m).
Proof.
  induction l as [|x l IH]; cbn. { now rewrite rsum_zero. } rewrite IH. now rewrite <- rsum_add.
Qed.
Lemma rsum_ext {B} (f g : B -> R) l : (forall x, In x l -> f x = g x) -> rsum (map f l) = rsum (map g l).
Proof. intros H. f_equal. now apply map_ext_in. Qed.
Lemma rsum_one (k j : nat) (v : R) : (j < k)%nat -> rsum (map (fun i => if Nat.eqb j i then v else 0) (seq 0 k)) = v.
Proof.
  intros L. assert (G : forall a n, rsum (map (fun i => if Nat.eqb j i then v else 0) (seq a n)) = if (andb (Nat.leb a j) (Nat.ltb j (a + n)))%bool then v else 0).
  { intros a n. revert a. induction n as [|n IH]; intros a; cbn [seq map rsum].
    - destruct (Nat.leb_spec a j), (Nat.ltb_spec j (a + 0)); cbn; try lra; lia.
    - rewrite IH. destruct (Nat.eqb_spec j a), (Nat.leb_spec (S a) j), (Nat.ltb_spec j (S a + n)), (Nat.leb_spec a j), (Nat.ltb_spec j (a + S n)); cbn; try lra; lia. }
  rewrite G. destruct (Nat.leb_spec 0 j), (Nat.ltb_spec j (0 + k)); cbn; auto; lia.
Qed.

Section Exact.
  Variable srt : list R -> list nat.
  Notation N := (RA srt).
  Lemma sum_is l : sum N l = rsum l.
  Proof. unfold sum. cbn. rewrite fold_plus. ring. Qed.
  Lemma coord_at k x : coord N k x = at_k k x.
  Proof. reflexivity. Qed.
  Lemma at_table (f : nat -> R) dim k : (k < dim)%nat -> at_k k (map f (seq 0 dim)) = f k.
  Proof.
    intros L. unfold at_k. rewrite nth_indep with (d' := f 0%nat) by now rewrite map_length, seq_length.
    rewrite map_nth with (d := 0%nat). now rewrite seq_nth.
  Qed.

  (** *** argmin *)
  Lemma argmin_from_spec l : forall seen best m,
    (best < length seen)%nat -> nth best seen 0 = m ->
    (forall j, (j < length seen)%nat -> m <= nth j seen 0 /\ ((j < best)%nat -> m < nth j seen 0)) ->
    let i := argmin_from N (length seen) best m l in
    (i < length (seen ++ l))%nat /\ forall j, (j < length (seen ++ l))%nat ->
      nth i (seen ++ l) 0 <= nth j (seen ++ l) 0 /\ ((j < i)%nat -> nth i (seen ++ l) 0 < nth j (seen ++ l) 0).
  Proof.
    induction l as [|x l IH]; intros seen best m L E H; cbn [argmin_from].
    - rewrite app_nil_r. subst m. auto.
    - replace (seen ++ x :: l) with ((seen ++ [x]) ++ l) by now rewrite <- app_assoc.
      assert (LS : length (seen ++ [x]) = S (length seen)) by (rewrite app_length; cbn; lia).
      cbn [gt RA]. destruct (Rlt_dec x m) as [G|G]; rewrite <- LS; apply IH; try (rewrite LS; lia).
      + now rewrite app_nth2, Nat.sub_diag by lia.
      + intros j Lj. destruct (Nat.eq_dec j (length seen)) as [->|NE].
        * rewrite app_nth2, Nat.sub_diag by lia. cbn. split; [lra|lia].
        * rewrite app_nth1 by lia. destruct (H j ltac:(lia)). split; intros; lra.
      + now rewrite app_nth1.
      + intros j Lj. destruct (Nat.eq_dec j (length seen)) as [->|NE].
        * rewrite app_nth2, Nat.sub_diag by lia. cbn. split; [lra|lia].
        * rewrite app_nth1 by lia. apply H. lia.
  Qed.
  Lemma argmin_spec (l : list R) : l <> [] ->
    (argmin N l < length l)%nat /\ forall j, (j < length l)%nat -> nth (argmin N l) l 0 <= nth j l 0 /\ ((j < argmin N l)%nat -> nth (argmin N l) l 0 < nth j l 0).
  Proof.
    destruct l as [|x l]; [easy|]. intros _. apply (argmin_from_spec l [x] 0 x); cbn; auto.
    intros j Lj. destruct j; [|lia]. split; [lra|lia].
  Qed.

  Variable metric : list R -> list R -> R.
  Variable dim : nat.
  Hypothesis order : euclidean_order dim metric.
  Lemma closest_nearest x centers : centers <> [] -> nearest dim x centers (argmin N (map (metric x) centers)).
  Proof.
    intros NE. destruct (argmin_spec (map (metric x) centers)) as [L H]; [now destruct centers|].
    set (i := argmin N (map (metric x) centers)) in *. rewrite map_length in L, H.
    assert (M : forall j, (j < length centers)%nat -> nth j (map (metric x) centers) 0 = metric x (nth j centers [])).
    { intros j Lj. rewrite nth_indep with (d' := metric x []) by now rewrite map_length. apply map_nth. }
    split; auto. intros j Lj. destruct (H j Lj) as [H1 H2]. rewrite !M in * by auto. split.
    - destruct (Rle_dec (dist2 dim x (nth i centers [])) (dist2 dim x (nth j centers []))) as [|G]; auto.
      apply Rnot_le_lt in G. apply order in G. lra.
    - intros Lt. now apply order, H2.
  Qed.
  Lemma nearest_unique x centers i j : nearest dim x centers i -> nearest dim x centers j -> i = j.
  Proof.
    intros [Li Hi] [Lj Hj]. destruct (Nat.lt_trichotomy i j) as [L|[L|L]]; auto.
    - destruct (Hi j Lj) as [A _], (Hj i Li) as [_ B]. specialize (B L). lra.
    - destruct (Hj i Li) as [A _], (Hi j Lj) as [_ B]. specialize (B L). lra.
  Qed.
  Lemma dist2_nonneg x y : 0 <= dist2 dim x y.
  Proof.
    unfold dist2. assert (H : rsum (map (fun _ : nat => 0) (seq 0 dim)) <= rsum (map (fun k => (at_k k x - at_k k y) ^ 2) (seq 0 dim)))
      by (apply rsum_le; intros; apply pow2_ge_0).
    now rewrite rsum_zero in H.
  Qed.
  Lemma dist2_zero x y : dist2 dim x y = 0 -> forall k, (k < dim)%nat -> at_k k x = at_k k y.
  Proof.
    intros H k L. destruct (Req_dec (at_k k x - at_k k y) 0) as [E|NE]; [lra|]. exfalso.
    assert (G : rsum (map (fun _ : nat => 0) (seq 0 dim)) < dist2 dim x y).
    { apply rsum_lt; [intros; apply pow2_ge_0|]. exists k. split; [apply in_seq; lia|]. apply Rsqr_pos_lt in NE. rewrite Rsqr_pow2 in NE. lra. }
    rewrite rsum_zero in G. lra.
  Qed.

  (** *** the step to the mean *)
  Definition spread (c : list R) (sel : list (list R)) : R := rsum (map (fun x => dist2 dim x c) sel).
  Lemma mean_step c (sel : list (list R)) k : sel <> [] -> (k < dim)%nat ->
    at_k k (plus N dim c (mean_of N dim (residuals_of N dim c sel))) = mean (map (at_k k) sel).
  Proof.
    intros NE L. unfold plus. rewrite at_table by auto. cbn [add RA]. rewrite !coord_at. unfold mean_of. rewrite at_table by auto.
    unfold mean. cbn [div ofn RA]. rewrite sum_is. unfold residuals_of. rewrite map_map, !map_length.
    rewrite (rsum_ext _ (fun x => at_k k x + (-1) * at_k k c)).
    2: { intros x _. rewrite coord_at, at_table by auto. change (@Logic.eq R (at_k k x - at_k k c) (at_k k x + -1 * at_k k c)). ring. }
    rewrite rsum_add. assert (S : rsum (map (fun _ : list R => -1 * at_k k c) sel) = - INR (length sel) * at_k k c).
    { clear. induction sel as [|x l IH]; [cbn; ring|]. cbn [map rsum length]. rewrite IH, S_INR. ring. }
    change (num N) with R in *. rewrite S.
    assert (INR (length sel) <> 0) by (apply not_0_INR; destruct sel; [easy|discriminate]).
    change (@Logic.eq R (at_k k c + (rsum (map (at_k k) sel) + - INR (length sel) * at_k k c) / INR (length sel)) (rsum (map (at_k k) sel) / INR (length sel))).
    field. auto.
  Qed.
  Lemma square_split l c : l <> [] -> rsum (map (fun x => (x - c) ^ 2) l) = rsum (map (fun x => (x - mean l) ^ 2) l) + INR (length l) * (c - mean l) ^ 2.
  Proof.
    intros NE. assert (Hn : INR (length l) <> 0) by (apply not_0_INR; destruct l; [easy|discriminate]).
    assert (G : forall a k, rsum (map (fun x => (x - a) ^ 2) k) = rsum (map (fun x => x * x) k) - 2 * a * rsum k + INR (length k) * (a * a)).
    { intros a k. induction k as [|x k IH]; [cbn; ring|]. cbn [map length rsum]. rewrite IH, S_INR. ring. }
    rewrite !G. unfold mean. field. auto.
  Qed.
  (** the squared distances to a center are those to the mean, plus the number of points times the squared distance of center and mean *)
  Lemma spread_step c sel : sel <> [] ->
    let c' := plus N dim c (mean_of N dim (residuals_of N dim c sel)) in
    spread c sel = spread c' sel + INR (length sel) * dist2 dim c c'.
  Proof.
    intros NE c'. assert (W : forall a, spread a sel = rsum (map (fun k => rsum (map (fun x => (at_k k x - at_k k a) ^ 2) sel)) (seq 0 dim)))
      by (intros a; apply (rsum_swap (fun x k => (at_k k x - at_k k a) ^ 2))).
    rewrite !W. unfold dist2. rewrite <- rsum_scale, <- rsum_add. apply rsum_ext. intros k I. apply in_seq in I.
    unfold c'. rewrite mean_step by (auto; lia). set (m := mean (map (at_k k) sel)).
    pose proof (square_split (map (at_k k) sel) (at_k k c)) as Q. rewrite !map_map, map_length in Q. apply Q. now destruct sel.
  Qed.
End Exact.
