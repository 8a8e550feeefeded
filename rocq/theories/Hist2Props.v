(** * C53, two dimensions: stat.sample.fillHistogram2d *)
From Coq Require Import QArith SpecFloat.
From Verif Require Import Base PyNum StatModel HistSpec HistProofs Hist2Model.
Open Scope string_scope.
Open Scope list_scope.
Open Scope Z_scope.

(** ** Specification *)
(** comparisons of numbers that are not nan are total *)
Definition orderly {T} (o : real_ops T) : Prop :=
  forall a b, op_isnan o a = false -> op_isnan o b = false -> op_lt o a b = negb (op_le o b a).
Inductive zone := Below | Within | Above.
Inductive slot2 := Cell2 (i j : nat) | Flow2 (f : flow2).

Section Spec2.
  Context {W T : Type} (wadd : W -> W -> W) (wzero : W) (o : real_ops T).
  Local Notation hist2 := (hist2 (W := W) (T := T)).

  Definition lies (a : axis (T := T)) (x : T) (z : zone) : Prop :=
    match z with
    | Below => op_lt o x (ax_low a) = true
    | Within => op_le o (ax_low a) x = true /\ op_lt o x (ax_high a) = true
    | Above => op_le o (ax_high a) x = true
    end.
  Definition flow_of (zx zy : zone) : option flow2 :=
    match zx, zy with
    | Below, Below => Some UnderUnder | Below, Within => Some UnderMid | Below, Above => Some UnderOver
    | Within, Below => Some MidUnder | Within, Within => None | Within, Above => Some MidOver
    | Above, Below => Some OverUnder | Above, Within => Some OverMid | Above, Above => Some OverOver
    end.
  (** where a datum belongs: nan wins over infinities, which count as such only if the record has infflow *)
  Definition belongs (h : hist2) (x y : T) (s : slot2) : Prop :=
    let nan := op_isnan o x = true \/ op_isnan o y = true in
    let inf := g_flow h Inf2 <> None /\ (op_isinf o x = true \/ op_isinf o y = true) in
    nan /\ s = Flow2 Nan2 \/
    ~ nan /\ inf /\ s = Flow2 Inf2 \/
    ~ nan /\ ~ inf /\ exists zx zy, lies (g_x h) x zx /\ lies (g_y h) y zy /\
      match flow_of zx zy with Some f => s = Flow2 f | None => exists i j, s = Cell2 i j end.

  Definition cell (h : hist2) (i j : nat) : option W := match nth_error (g_values h) i with Some r => nth_error r j | None => None end.
  Definition content2 (h : hist2) (s : slot2) : option W := match s with Cell2 i j => cell h i j | Flow2 f => g_flow h f end.
  Definition took2 (w : W) (h h' : hist2) (s : slot2) : Prop := content2 h' s = option_map (fun v => wadd v w) (content2 h s).
  Definition kept2 (h h' : hist2) (s : slot2) : Prop :=
    match s with
    | Cell2 _ _ => content2 h' s = content2 h s
    | Flow2 _ => content2 h' s = option_map (fun v => wadd v wzero) (content2 h s)
    end.
  Definition flows2 : list flow2 := [UnderUnder; UnderMid; UnderOver; MidUnder; MidOver; OverUnder; OverMid; OverOver; Nan2; Inf2].
  Definition total2 (h : hist2) : W :=
    wadd (fold_right wadd wzero (concat (g_values h))) (fold_right wadd wzero (map (fun f => flow_sum wzero (g_flow h f)) flows2)).
End Spec2.

(** ** Proofs *)
Lemma split_mid {A} (l1 l2 : list A) a a' :
  firstn (length l1) (l1 ++ a :: l2) ++ [a'] ++ skipn (S (length l1)) (l1 ++ a :: l2) = l1 ++ a' :: l2.
Proof. induction l1 as [|x l1 IH]; cbn; auto. f_equal. exact IH. Qed.
Lemma change_at_spec {A} (l : list A) i f l' : change_at l i f = Ok l' ->
  exists j a a' l1 l2, l = l1 ++ a :: l2 /\ length l1 = j /\ f a = Ok a' /\ l' = l1 ++ a' :: l2 /\ (0 <= i -> j = Z.to_nat i).
Proof.
  unfold change_at. set (j := if i <? 0 then i + Z.of_nat (length l) else i).
  destruct (j <? 0); [discriminate|]. destruct (nth_error l (Z.to_nat j)) as [a|] eqn:E; [|discriminate].
  destruct (f a) as [a'|] eqn:Fa; [|discriminate]. cbn [rbind]. intro H. injection H as <-.
  apply nth_error_split in E as (l1 & l2 & -> & EL). exists (Z.to_nat j), a, a', l1, l2.
  split; auto. split; auto. split; auto. split.
  - rewrite <- EL. apply split_mid.
  - intros P. unfold j. destruct (Z.ltb_spec i 0); [lia|auto].
Qed.

Section Proofs2.
  Context {W T : Type} (wadd : W -> W -> W) (wzero : W) (o : real_ops T).
  Local Notation hist2 := (hist2 (W := W) (T := T)).
  Local Notation fill := (fillHistogram2d wadd wzero o).

  Lemma fill_inv x y w (h h' : hist2) : fill x y w h = Ok h' ->
    bad_axis o (g_x h) = false /\ bad_axis o (g_y h) = false /\
    (forall r, In r (g_values h) -> Z.of_nat (length r) = ax_n (g_y h)) /\ Z.of_nat (length (g_values h)) = ax_n (g_x h) /\
    let f := which_flow o (is_some (g_flow h Inf2)) (g_x h) (g_y h) x y in
    g_x h' = g_x h /\ g_y h' = g_y h /\
    (forall k, g_flow h' k = addflow wadd wzero (g_flow h k) w (match f with Some k' => flow2_eqb k k' | None => false end)) /\
    match f with
    | Some _ => g_values h' = g_values h
    | None => exists xi yi, bin_index o x (ax_low (g_x h)) (ax_high (g_x h)) (ax_n (g_x h)) = Ok xi /\
                bin_index o y (ax_low (g_y h)) (ax_high (g_y h)) (ax_n (g_y h)) = Ok yi /\
                change_at (g_values h) xi (fun row => add_at wadd wzero row yi w) = Ok (g_values h')
    end.
  Proof.
    unfold fillHistogram2d. destruct (_ || _)%bool; [discriminate|].
    destruct (negb _ || existsb _ _)%bool eqn:E1; [discriminate|].
    destruct (_ || _ || _ || _)%bool eqn:E2; [discriminate|].
    apply orb_false_iff in E2 as [E2 B2]. apply orb_false_iff in E2 as [E2 B1].
    apply orb_false_iff in E1 as [E1 E3]. apply negb_false_iff, Z.eqb_eq in E1. intro H. split; auto. split; auto.
    split.
    { intros r Hr. destruct (Z.eqb_spec (Z.of_nat (length r)) (ax_n (g_y h))) as [|N]; auto. exfalso.
      assert (X : existsb (fun r => negb (Z.of_nat (length r) =? ax_n (g_y h))) (g_values h) = true).
      { apply existsb_exists. exists r. split; auto. apply negb_true_iff, Z.eqb_neq. auto. } congruence. }
    split; auto. cbn zeta. revert H.
    destruct (which_flow _ _ _ _ _ _) as [k|].
    - cbn [rbind]. intro H. injection H as <-. cbn. auto.
    - destruct (bin_index o x _ _ _) as [xi|]; [|discriminate]. cbn [rbind].
      destruct (bin_index o y _ _ _) as [yi|]; [|discriminate]. cbn [rbind].
      destruct (change_at _ _ _) as [vs|] eqn:E; [|discriminate]. cbn [rbind]. intro H. injection H as <-. cbn.
      split; auto. split; auto. split; auto. exists xi, yi. auto.
  Qed.

  Lemma flow2_eqb_eq a b : flow2_eqb a b = true <-> a = b.
  Proof. destruct a, b; cbn; split; intro; congruence. Qed.

  Lemma which_spec hasInf ax ay x y : orderly o -> bad_axis o ax = false -> bad_axis o ay = false ->
    let nan := op_isnan o x = true \/ op_isnan o y = true in
    let inf := hasInf = true /\ (op_isinf o x = true \/ op_isinf o y = true) in
    let f := which_flow o hasInf ax ay x y in
    nan /\ f = Some Nan2 \/ ~ nan /\ inf /\ f = Some Inf2 \/
    ~ nan /\ ~ inf /\ exists zx zy, lies o ax x zx /\ lies o ay y zy /\ f = flow_of zx zy.
  Proof.
    intros O Bx By. unfold bad_axis, bad in Bx, By.
    apply orb_false_iff in Bx as [B1 B2]. apply orb_false_iff in By as [B3 B4].
    apply orb_false_iff in B1 as [N1 _], B2 as [N2 _], B3 as [N3 _], B4 as [N4 _].
    cbn zeta. unfold which_flow.
    destruct (op_isnan o x) eqn:Nx; [left; auto|]. destruct (op_isnan o y) eqn:Ny; [left; cbn; auto|]. right. cbn [orb].
    assert (NN : ~ (false = true \/ false = true)) by (intros [ | ]; discriminate).
    destruct (hasInf && (op_isinf o x || op_isinf o y))%bool eqn:I.
    { left. split; auto. apply andb_true_iff in I as [I1 I2]. apply orb_true_iff in I2. auto. }
    right. split; auto. split.
    { intros [I1 I2]. subst. cbn in I. apply orb_false_iff in I as [I3 I4]. rewrite I3, I4 in I2. destruct I2; discriminate. }
    unfold lies. rewrite (O x (ax_high ax)), (O x (ax_low ax)), (O y (ax_high ay)), (O y (ax_low ay)) by auto.
    destruct (op_le o (ax_high ax) x) eqn:A1.
    - exists (Above). destruct (op_le o (ax_high ay) y) eqn:A2.
      + exists Above. cbn. auto.
      + destruct (op_le o (ax_low ay) y) eqn:A3; [exists Within|exists Below]; cbn; auto.
    - destruct (op_le o (ax_low ax) x) eqn:A4.
      + exists Within. destruct (op_le o (ax_high ay) y) eqn:A2.
        * exists Above. cbn. auto.
        * destruct (op_le o (ax_low ay) y) eqn:A3; [exists Within|exists Below]; cbn; auto.
      + exists Below. destruct (op_le o (ax_high ay) y) eqn:A2.
        * exists Above. cbn. auto.
        * destruct (op_le o (ax_low ay) y) eqn:A3; [exists Within|exists Below]; cbn; auto.
  Qed.

  Lemma is_some_iff (x : option W) : is_some x = true <-> x <> None.
  Proof. destruct x; cbn; split; intro; congruence. Qed.

  Lemma nth_error_set {A} (l1 l2 : list A) a a' k : k <> length l1 -> nth_error (l1 ++ a' :: l2) k = nth_error (l1 ++ a :: l2) k.
  Proof.
    intros N. destruct (Nat.ltb_spec k (length l1)).
    - rewrite !nth_error_app1 by lia. auto.
    - rewrite !nth_error_app2 by lia. destruct (k - length l1)%nat eqn:E; [lia|]. auto.
  Qed.
  Lemma nth_error_mid {A} (l1 l2 : list A) a : nth_error (l1 ++ a :: l2) (length l1) = Some a.
  Proof. rewrite nth_error_app2, Nat.sub_diag by lia. auto. Qed.
End Proofs2.

(** One slot takes the weight, the one the datum belongs to; all the others keep their content; the table of bins keeps
    its shape. Over any arithmetic whose comparisons are total outside nan, floats in particular. *)
Theorem C53_2d_one_slot : forall W T (wadd : W -> W -> W) wzero (o : real_ops T) x y w h h',
  orderly o -> fillHistogram2d wadd wzero o x y w h = Ok h' ->
  exists s, belongs o h x y s /\ took2 wadd w h h' s /\ (forall s', s' <> s -> kept2 wadd wzero h h' s') /\
    (forall i j, s = Cell2 i j -> content2 h s <> None) /\
    g_x h' = g_x h /\ g_y h' = g_y h /\ map (@length W) (g_values h') = map (@length W) (g_values h).
Proof.
  intros W T wadd wzero o x y w h h' O E.
  destruct (fill_inv wadd wzero o x y w h h' E) as (B1 & B2 & _ & _ & X & Y & Fl & V).
  pose proof (which_spec o (is_some (g_flow h Inf2)) (g_x h) (g_y h) x y O B1 B2) as S. cbn zeta in S.
  rewrite is_some_iff in S. set (f := which_flow o (is_some (g_flow h Inf2)) (g_x h) (g_y h) x y) in *.
  destruct f as [k|] eqn:Ef.
  - exists (Flow2 k). split; [|split; [|split; [|split; [|split; [|split]]]]]; auto.
    + unfold belongs. cbn zeta. destruct S as [[S1 S2]|[(S1 & S2 & S3)|(S1 & S2 & zx & zy & L1 & L2 & S3)]].
      * left. split; auto. congruence.
      * right; left. split; auto. split; auto. congruence.
      * right; right. split; auto. split; auto. exists zx, zy. split; auto. split; auto. rewrite <- S3. auto.
    + unfold took2. cbn. rewrite Fl. replace (flow2_eqb k k) with true by (destruct k; auto). destruct (g_flow h k); auto.
    + intros [i j|k'] N; cbn.
      * unfold cell. rewrite V. auto.
      * rewrite Fl. destruct (flow2_eqb k' k) eqn:Q; [apply flow2_eqb_eq in Q; congruence|]. destruct (g_flow h k'); auto.
    + discriminate.
    + rewrite V. auto.
  - destruct V as (xi & yi & _ & _ & V). apply change_at_spec in V as (i & row & row' & l1 & l2 & EV & EL & AR & EV' & _).
    apply add_at_spec in AR as (j & Lj & _ & LR & G & K).
    exists (Cell2 i j). split; [|split; [|split; [|split; [|split; [|split]]]]]; auto.
    + unfold belongs. cbn zeta. destruct S as [[S1 S2]|[(S1 & S2 & S3)|(S1 & S2 & zx & zy & L1 & L2 & S3)]]; try discriminate.
      right; right. split; auto. split; auto. exists zx, zy. split; auto. split; auto. rewrite <- S3. eauto.
    + unfold took2. cbn. unfold cell. rewrite EV, EV', <- EL, !nth_error_mid. auto.
    + intros [i' j'|k'] N; cbn.
      * unfold cell. rewrite EV, EV'. destruct (Nat.eq_dec i' i) as [->|Ni].
        -- rewrite <- EL, !nth_error_mid. apply K. congruence.
        -- rewrite (nth_error_set l1 l2 row row') by congruence. auto.
      * rewrite Fl. destruct (g_flow h k'); auto.
    + intros i' j' Q. cbn. unfold cell. rewrite EV, <- EL, nth_error_mid. apply nth_error_Some. auto.
    + rewrite EV, EV', !map_app. cbn. rewrite LR. auto.
Qed.

(** The sum of everything grows by the weight, when the record has all the fields for flows but perhaps infflow. *)
Theorem C53_2d_conserved : forall W T (wadd : W -> W -> W) wzero (o : real_ops T) x y w h h',
  exact_weights wadd wzero -> (forall f, f <> Inf2 -> g_flow h f <> None) ->
  fillHistogram2d wadd wzero o x y w h = Ok h' ->
  total2 wadd wzero h' = wadd (total2 wadd wzero h) w.
Proof.
  intros W T wadd wzero o x y w h h' EW A E.
  destruct (fill_inv wadd wzero o x y w h h' E) as (_ & _ & _ & _ & _ & _ & Fl & V).
  assert (WZ := wz_l wadd wzero EW). pose proof (swap wadd wzero EW) as Sw. pose proof (ew_zero _ _ EW) as Z0. pose proof (ew_assoc _ _ EW) as As.
  unfold total2. set (f := which_flow o (is_some (g_flow h Inf2)) (g_x h) (g_y h) x y) in *.
  assert (FZ : forall k, f = None -> flow_sum wzero (g_flow h' k) = flow_sum wzero (g_flow h k)).
  { intros k N. rewrite Fl, N. destruct (g_flow h k); cbn; auto. }
  destruct f as [k|] eqn:Ef.
  - rewrite V, <- As. f_equal.
    assert (H1 : g_flow h k <> None).
    { destruct (flow2_eqb k Inf2) eqn:Q; [|apply A; intro; subst; discriminate]. apply flow2_eqb_eq in Q. subst k.
      unfold f in Ef. unfold which_flow in Ef. destruct (g_flow h Inf2); cbn in Ef; [discriminate|].
      exfalso. repeat match type of Ef with context [if ?b then _ else _] => destruct b; try discriminate end. }
    assert (H2 : forall k', flow_sum wzero (g_flow h' k') = if flow2_eqb k' k then wadd (flow_sum wzero (g_flow h k)) w else flow_sum wzero (g_flow h k')).
    { intro k'. rewrite Fl. destruct (flow2_eqb k' k) eqn:Q.
      - apply flow2_eqb_eq in Q. subst k'. destruct (g_flow h k); cbn; [auto|congruence].
      - destruct (g_flow h k'); cbn; auto. }
    unfold flows2. cbn [map fold_right]. rewrite !H2.
    destruct k; cbn [flow2_eqb]; rewrite ?As;
      repeat (rewrite (Sw _ w) || f_equal); auto.
  - destruct V as (xi & yi & _ & _ & V). apply change_at_spec in V as (i & row & row' & l1 & l2 & EV & EL & AR & EV' & _).
    apply (add_at_sum wadd wzero EW) in AR.
    rewrite EV, EV', !concat_app. cbn [concat]. rewrite !(sum_app wadd wzero EW), AR.
    unfold flows2. cbn [map fold_right]. rewrite !FZ by auto. rewrite !As. repeat (rewrite (Sw _ w) || f_equal). 
Qed.

(** floats and rationals are orderly *)
Lemma SFcompare_swap a b : SFcompare b a = option_map CompOpp (SFcompare a b).
Proof.
  destruct a as [s|s| |s m e], b as [s'|s'| |s' m' e']; cbn; auto; try (destruct s, s'; reflexivity); try (destruct s; reflexivity); try (destruct s'; reflexivity).
  destruct s, s'; cbn; auto; rewrite (Z.compare_antisym e e');
    change (Pos.compare_cont Eq m' m) with (Pos.compare m' m); change (Pos.compare_cont Eq m m') with (Pos.compare m m');
    rewrite (Pos.compare_antisym m m'); destruct (e ?= e'); cbn; auto; destruct (Pos.compare m m'); auto.
Qed.
Lemma SFcompare_some a b : isnan a = false -> isnan b = false -> exists c, SFcompare a b = Some c.
Proof. destruct a as [s|s| |s m e], b as [s'|s'| |s' m' e']; cbn; try discriminate; intros _ _; try (destruct s, s'; eauto; fail); try (destruct s; eauto; fail); try (destruct s'; eauto; fail); eauto; destruct s, s'; eauto; destruct (e ?= e'); eauto. Qed.
Lemma float_orderly : orderly float_ops.
Proof.
  intros a b Na Nb. cbn in *. unfold num_lt, num_le, num_cmp. rewrite (SFcompare_swap a b).
  destruct (SFcompare_some a b Na Nb) as (c & ->). destruct c; auto.
Qed.
Lemma rat_orderly : orderly rat_ops.
Proof. intros a b _ _. auto. Qed.

(** With exact positions every datum inside is counted, in the bin that contains it. *)
Theorem C53_2d_right_bin : forall W (wadd : W -> W -> W) wzero x y w h nx xlow xhigh ny ylow yhigh,
  g_x h = Axis nx xlow xhigh -> g_y h = Axis ny ylow yhigh -> 1 <= nx -> 1 <= ny ->
  Z.of_nat (length (g_values h)) = nx -> (forall r, In r (g_values h) -> Z.of_nat (length r) = ny) ->
  (xlow < xhigh)%Q -> (xlow <= x)%Q -> (x < xhigh)%Q -> (ylow < yhigh)%Q -> (ylow <= y)%Q -> (y < yhigh)%Q ->
  exists h' i j, fillHistogram2d wadd wzero rat_ops x y w h = Ok h' /\ took2 wadd w h h' (Cell2 i j) /\
    (xlow + inject_Z (Z.of_nat i) * ((xhigh - xlow) / inject_Z nx) <= x)%Q /\
    (x < xlow + (inject_Z (Z.of_nat i) + 1) * ((xhigh - xlow) / inject_Z nx))%Q /\
    (ylow + inject_Z (Z.of_nat j) * ((yhigh - ylow) / inject_Z ny) <= y)%Q /\
    (y < ylow + (inject_Z (Z.of_nat j) + 1) * ((yhigh - ylow) / inject_Z ny))%Q.
Proof.
  intros W wadd wzero x y w h nx xlow xhigh ny ylow yhigh EX EY NX NY LX LY X1 X2 X3 Y1 Y2 Y3.
  destruct (fixed_index x xlow xhigh nx X1 X2 X3 NX) as (i & Bi & Ri & Gi).
  destruct (fixed_index y ylow yhigh ny Y1 Y2 Y3 NY) as (j & Bj & Rj & Gj).
  destruct (nth_error (g_values h) (Z.to_nat i)) as [row|] eqn:Er; [|apply nth_error_None in Er; lia].
  pose proof (LY row (nth_error_In _ _ Er)) as Lr.
  destruct (add_at_ok wadd wzero row j w) as (row' & AR); [lia|].
  assert (Q1 : forall a b, (b < a)%Q -> Qle_bool a b = false).
  { intros a b H. destruct (Qle_bool a b) eqn:Q; auto. apply Qle_bool_iff in Q. exfalso. apply (Qlt_irrefl b). eapply Qlt_le_trans; eauto. }
  assert (Q2 : forall a b, (a <= b)%Q -> Qle_bool a b = true) by (intros; apply Qle_bool_iff; auto).
  assert (WF : which_flow rat_ops (is_some (g_flow h Inf2)) (Axis nx xlow xhigh) (Axis ny ylow yhigh) x y = None).
  { unfold which_flow. cbn. rewrite (Q1 xhigh x), (Q1 yhigh y), (Q2 xlow x), (Q2 ylow y) by auto. cbn. rewrite andb_false_r. reflexivity. }
  assert (CA : change_at (g_values h) i (fun row => add_at wadd wzero row j w)
               = Ok (firstn (Z.to_nat i) (g_values h) ++ [row'] ++ skipn (S (Z.to_nat i)) (g_values h))).
  { unfold change_at. destruct (Z.ltb_spec i 0) as [Ci|Ci]; [lia|]. destruct (Z.ltb_spec i 0); [lia|].
    rewrite Er, AR. reflexivity. }
  eexists. exists (Z.to_nat i), (Z.to_nat j). split.
  { unfold fillHistogram2d. rewrite EX, EY. cbn [ax_n ax_low ax_high].
    destruct (Z.ltb_spec nx 1); [lia|]. destruct (Z.ltb_spec ny 1); [lia|]. cbn [orb].
    replace (negb (Z.of_nat (length (g_values h)) =? nx)) with false by (symmetry; apply negb_false_iff, Z.eqb_eq; auto). cbn [orb].
    assert (EB : existsb (fun r => negb (Z.of_nat (length r) =? ny)) (g_values h) = false).
    { destruct (existsb _ _) eqn:Q; auto. apply existsb_exists in Q as (r & Hr & Q). apply negb_true_iff, Z.eqb_neq in Q. destruct Q. auto. }
    rewrite EB. cbn [op_le rat_ops]. rewrite (Q1 xhigh xlow), (Q1 yhigh ylow) by auto. cbn [orb bad_axis bad op_isnan op_isinf].
    rewrite WF, Bi. cbn [rbind]. rewrite Bj. cbn [rbind]. rewrite CA. cbn [rbind]. reflexivity. }
  assert (Li : Z.of_nat (Z.to_nat i) = i) by lia. assert (Lj : Z.of_nat (Z.to_nat j) = j) by lia. rewrite Li, Lj.
  split; [|tauto]. unfold took2, content2, cell. cbn [g_values].
  apply nth_error_split in Er as (l1 & l2 & EV & EL). rewrite EV, <- EL. rewrite split_mid, !nth_error_mid.
  apply add_at_spec in AR as (j' & _ & J & _ & G & _). rewrite J in G by lia. exact G.
Qed.

(** A record whose numbers are not those of a table of bins is refused, with the code for what is wrong first. *)
Theorem C53_2d_refused : forall W T (wadd : W -> W -> W) wzero (o : real_ops T) x y w (h : hist2),
  let no_bins := ax_n (g_x h) < 1 \/ ax_n (g_y h) < 1 in
  let wrong_size := Z.of_nat (length (g_values h)) <> ax_n (g_x h) \/ exists r, In r (g_values h) /\ Z.of_nat (length r) <> ax_n (g_y h) in
  let no_range a := op_le o (ax_high a) (ax_low a) = true \/ op_isnan o (ax_low a) = true \/ op_isinf o (ax_low a) = true \/
                    op_isnan o (ax_high a) = true \/ op_isinf o (ax_high a) = true in
  (no_bins -> fillHistogram2d wadd wzero o x y w h = Raise (PFAErr 14092)) /\
  (~ no_bins -> wrong_size -> fillHistogram2d wadd wzero o x y w h = Raise (PFAErr 14090)) /\
  (~ no_bins -> ~ wrong_size -> no_range (g_x h) \/ no_range (g_y h) -> fillHistogram2d wadd wzero o x y w h = Raise (PFAErr 14091)) /\
  (forall h', fillHistogram2d wadd wzero o x y w h = Ok h' -> ~ no_bins /\ ~ wrong_size /\ ~ no_range (g_x h) /\ ~ no_range (g_y h)).
Proof.
  intros. unfold fillHistogram2d.
  assert (B1 : ((ax_n (g_x h) <? 1) || (ax_n (g_y h) <? 1))%bool = true <-> no_bins).
  { unfold no_bins. rewrite orb_true_iff, !Z.ltb_lt. tauto. }
  assert (B2 : (negb (Z.of_nat (length (g_values h)) =? ax_n (g_x h)) || existsb (fun r => negb (Z.of_nat (length r) =? ax_n (g_y h))) (g_values h))%bool = true <-> wrong_size).
  { unfold wrong_size. rewrite orb_true_iff, negb_true_iff, Z.eqb_neq, existsb_exists.
    split; intros [Hs|(r & Hr & N)]; auto; right; exists r; split; auto; [apply negb_true_iff, Z.eqb_neq in N|apply negb_true_iff, Z.eqb_neq]; auto. }
  assert (B3 : (op_le o (ax_high (g_x h)) (ax_low (g_x h)) || op_le o (ax_high (g_y h)) (ax_low (g_y h)) || bad_axis o (g_x h) || bad_axis o (g_y h))%bool = true
               <-> no_range (g_x h) \/ no_range (g_y h)).
  { unfold no_range, bad_axis, bad. rewrite !orb_true_iff. tauto. }
  destruct (_ || _)%bool in B1 |- *; [|destruct (_ || _)%bool in B2 |- *; [|destruct (_ || _)%bool in B3 |- *]].
  - split; auto. split; [tauto|]. split; [tauto|]. discriminate.
  - split; [intro Hn; apply B1 in Hn; discriminate|]. split; auto. split; [tauto|]. discriminate.
  - split; [intro Hn; apply B1 in Hn; discriminate|]. split; [intros _ Hn; apply B2 in Hn; discriminate|]. split; auto. discriminate.
  - split; [intro Hn; apply B1 in Hn; discriminate|]. split; [intros _ Hn; apply B2 in Hn; discriminate|].
    split; [intros _ _ Hn; apply B3 in Hn; discriminate|]. intros h' _.
    split; [intro Hn; apply B1 in Hn; discriminate|]. split; [intro Hn; apply B2 in Hn; discriminate|].
    split; intro Hn; [assert (X := proj2 B3 (or_introl Hn))|assert (X := proj2 B3 (or_intror Hn))]; discriminate.
Qed.

Definition no_flows (_ : flow2) : option Z := None.
Definition zero_flows {W} (z : W) (_ : flow2) : option W := Some z.
Definition table : hist2 := Hist2 (Axis 2 0 10)%Q (Axis 3 0 6)%Q [[0; 0; 0]; [0; 5; 0]] (zero_flows 0).
Example C53_2d_example :
  orderly rat_ops /\ orderly float_ops /\ exact_weights Z.add 0 /\ (forall f, f <> Inf2 -> g_flow table f <> None) /\
  (exists h', fillHistogram2d Z.add 0 rat_ops 7%Q 3%Q 4 table = Ok h' /\ g_values h' = [[0; 0; 0]; [0; 9; 0]]) /\
  (exists h', fillHistogram2d Z.add 0 rat_ops 7%Q 6%Q 4 table = Ok h' /\ g_flow h' MidOver = Some 4 /\ g_flow h' MidUnder = Some 0).
Proof.
  split; [exact rat_orderly|]. split; [exact float_orderly|]. split; [split; intros; lia|]. split; [discriminate|].
  split; eexists; split; try reflexivity. split; reflexivity.
Qed.

(** Findings, as in one dimension: a datum outside the bins disappears when the record lacks the field, and rounding can
    end in an IndexError or a ValueError for a datum strictly inside. *)
Theorem C53_2d_lost_refuted : exists x y h h', (exists zx zy f, lies rat_ops (g_x h) x zx /\ lies rat_ops (g_y h) y zy /\ flow_of zx zy = Some f) /\
  fillHistogram2d Z.add 0 rat_ops x y 1 h = Ok h' /\ forall s, content2 h' s = content2 h s.
Proof.
  exists 12%Q, 3%Q, (Hist2 (Axis 2 0 10)%Q (Axis 1 0 6)%Q [[0]; [0]] no_flows). eexists.
  split; [exists Above, Within, OverMid; repeat split|]. split; [reflexivity|]. intros [i j|f]; reflexivity.
Qed.
Theorem C53_2d_float_crash_refuted :
  (exists x y ax ay, lies float_ops ax x Within /\ lies float_ops ay y Within /\
     fillHistogram2d fadd f0 float_ops x y (f_of_Z 1) (Hist2 ax ay [[f0]] (zero_flows f0)) = Raise (PyErr "IndexError")) /\
  (exists x y ax ay, lies float_ops ax x Within /\ lies float_ops ay y Within /\
     fillHistogram2d fadd f0 float_ops x y (f_of_Z 1) (Hist2 ax ay [[f0]] (zero_flows f0)) = Raise (PyErr "ValueError")).
Proof.
  split.
  - exists (fdiv (f_of_Z 1) (f_of_Z 2)), f0, (Axis 1 (f_of_Z (- 2 ^ 53)) (f_of_Z 1)), (Axis 1 f0 (f_of_Z 1)).
    split; [split; vm_compute; auto|]. split; [split; vm_compute; auto|]. vm_compute. auto.
  - exists (f_of_Z (2 ^ 1023)), f0, (Axis 1 (f_of_Z (- 2 ^ 1023)) (f_of_Z (2 ^ 1023 + 2 ^ 1022))), (Axis 1 f0 (f_of_Z 1)).
    split; [split; vm_compute; auto|]. split; [split; vm_compute; auto|]. vm_compute. auto.
Qed.
Print Assumptions C53_2d_one_slot.
Print Assumptions C53_2d_conserved.
Print Assumptions C53_2d_right_bin.
Print Assumptions C53_2d_refused.
Print Assumptions C53_2d_lost_refuted.
Print Assumptions C53_2d_float_crash_refuted.
