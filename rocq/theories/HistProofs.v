(** Proofs about histograms and counters. *)
From Coq Require Import QArith Qround Qfield.
From Verif Require Import Base PyNum Effects ArrayModel StatModel StatProofs HistSpec.
Open Scope string_scope.
Open Scope list_scope.
Open Scope Z_scope.

Section Gen.
  Context {W T : Type} (wadd : W -> W -> W) (wzero : W) (o : real_ops T).
  Local Notation hist := (hist (W := W) (T := T)).
  Local Notation fill := (fillHistogram wadd wzero o).
  Local Notation took := (took wadd).
  Local Notation kept_slot := (kept_slot wadd wzero).

  Lemma add_at_spec l i w l' : add_at wadd wzero l i w = Ok l' ->
    exists j, (j < length l)%nat /\ (0 <= i -> j = Z.to_nat i) /\ length l' = length l /\
      nth_error l' j = option_map (fun v => wadd v w) (nth_error l j) /\
      forall k, k <> j -> nth_error l' k = nth_error l k.
  Proof.
    unfold add_at. set (j := if i <? 0 then i + Z.of_nat (length l) else i).
    destruct (Z.ltb_spec j 0); [discriminate|]. destruct (Z.leb_spec (Z.of_nat (length l)) j); [discriminate|].
    cbn [orb]. intros H1. match type of H1 with Ok ?a = Ok ?b => assert (b = a) as -> by congruence end. clear H1. exists (Z.to_nat j).
    assert (Z.to_nat j < length l)%nat as Hj by lia.
    split; [auto|]. split. { intros. unfold j. destruct (Z.ltb_spec i 0); [lia|auto]. }
    assert (length (firstn (Z.to_nat j) l) = Z.to_nat j) as LF by (rewrite firstn_length; lia).
    split. { rewrite app_length, app_length, LF, skipn_length. cbn [length]. lia. }
    split.
    - rewrite nth_error_app2, LF, Nat.sub_diag by lia. cbn.
      destruct (nth_error l (Z.to_nat j)) eqn:E.
      + cbn. rewrite (nth_error_nth _ _ wzero E). auto.
      + apply nth_error_None in E. lia.
    - intros k Hk. destruct (Nat.ltb_spec k (Z.to_nat j)).
      + rewrite nth_error_app1 by lia. rewrite <- (firstn_skipn (Z.to_nat j) l) at 2. rewrite nth_error_app1 by lia. auto.
      + rewrite nth_error_app2 by lia. rewrite LF. destruct (k - Z.to_nat j)%nat as [|m] eqn:E; [lia|]. cbn [nth_error app].
        rewrite <- (firstn_skipn (S (Z.to_nat j)) l) at 2.
        rewrite nth_error_app2 by (rewrite firstn_length; lia). f_equal. rewrite firstn_length. lia.
  Qed.

  Lemma goes_fixed hasInf x low high :
    let f := flows_fixed o hasInf x low high in
    goes_to o hasInf low (Some high) x
      (if fl_inf f then InfFlow else if fl_nan f then NanFlow else if fl_over f then Over
       else if fl_under f then Under else Bin 0) /\
    (f = noflow \/ f = Flows true false false false \/ f = Flows false true false false \/
     f = Flows false false true false \/ f = Flows false false false true).
  Proof.
    unfold flows_fixed. destruct (hasInf && op_isinf o x) eqn:EI.
    { apply andb_true_iff in EI. cbn. split; auto. }
    assert (~ (hasInf = true /\ op_isinf o x = true)) as NI.
    { intros [-> E]. cbn in EI. congruence. }
    destruct (op_isnan o x) eqn:EN. { cbn. split; auto. }
    destruct (op_le o high x) eqn:EH. { cbn. split; auto. }
    destruct (op_lt o x low) eqn:EL; cbn; (split; [|auto]); split; auto; split; auto; split; congruence.
  Qed.
  Lemma goes_open hasInf x low :
    let f := flows_open o hasInf x low in
    goes_to o hasInf low None x
      (if fl_inf f then InfFlow else if fl_nan f then NanFlow else if fl_over f then Over
       else if fl_under f then Under else Bin 0) /\
    (f = noflow \/ f = Flows true false false false \/ f = Flows false true false false \/
     f = Flows false false true false \/ f = Flows false false false true).
  Proof.
    unfold flows_open. destruct (hasInf && op_isinf o x) eqn:EI.
    { apply andb_true_iff in EI. cbn. split; auto. }
    assert (~ (hasInf = true /\ op_isinf o x = true)) as NI.
    { intros [-> E]. cbn in EI. congruence. }
    destruct (op_isnan o x) eqn:EN. { cbn. split; auto. }
    destruct (op_isinf o x && op_lt o (op_of_Z o 0) x) eqn:EH.
    { apply andb_true_iff in EH. cbn. split; auto. }
    assert (~ (op_isinf o x = true /\ op_lt o (op_of_Z o 0) x = true)) as NH.
    { intros [E1 E2]. rewrite E1, E2 in EH. discriminate. }
    destruct (op_lt o x low) eqn:EL; cbn; (split; [|auto]); split; auto.
  Qed.
  Lemma goes_bin hasInf low high x i j : goes_to o hasInf low high x (Bin i) -> goes_to o hasInf low high x (Bin j).
  Proof. auto. Qed.

  (** flows other than noflow touch exactly one counter and no bin *)
  Lemma flow_slot f w (h : hist) : is_noflow f = false ->
    (f = noflow \/ f = Flows true false false false \/ f = Flows false true false false \/
     f = Flows false false true false \/ f = Flows false false false true) ->
    let s := if fl_inf f then InfFlow else if fl_nan f then NanFlow else if fl_over f then Over
             else if fl_under f then Under else Bin 0 in
    let h' := updateHistogram wadd wzero w h (h_values h) f in
    took w h h' s /\ forall s', s' <> s -> kept_slot h h' s'.
  Proof.
    intros NF [-> | [-> | [-> | [-> | ->]]]]; try discriminate; cbn;
      (split; [unfold addflow; destruct (h_under h), (h_over h), (h_nan h), (h_inf h); reflexivity|]);
      intros [i| | | |] NE; try congruence; cbn; auto;
      unfold addflow; destruct (h_under h), (h_over h), (h_nan h), (h_inf h); reflexivity.
  Qed.
  Lemma noflow_kept w (h : hist) vs s : (forall i, s <> Bin i) -> kept_slot h (updateHistogram wadd wzero w h vs noflow) s.
  Proof.
    destruct s as [i| | | |]; intros N; [destruct (N i eq_refl)|..]; cbn; unfold addflow;
      destruct (h_under h), (h_over h), (h_nan h), (h_inf h); reflexivity.
  Qed.
  Lemma is_noflow_eq f : is_noflow f = true -> f = noflow.
  Proof. destruct f as [[] [] [] []]; cbn; intros; try reflexivity; discriminate. Qed.

  Definition one_slot (w : W) (h h' : hist) (s : slot) : Prop :=
    h_bin h' = h_bin h /\ took w h h' s /\ forall s', s' <> s -> kept_slot h h' s'.

  Lemma bin_slot w (h : hist) i vs : add_at wadd wzero (h_values h) i w = Ok vs ->
    exists j, (j < length (h_values h))%nat /\ (0 <= i -> j = Z.to_nat i) /\
      one_slot w h (updateHistogram wadd wzero w h vs noflow) (Bin j).
  Proof.
    intros E. destruct (add_at_spec _ _ _ _ E) as (j & Hj & HI & HL & G & K). exists j. split; auto. split; auto.
    split; [reflexivity|]. split.
    - cbn. rewrite G. destruct (nth_error (h_values h) j) eqn:EN; auto. apply nth_error_None in EN. lia.
    - intros [k| | | |] NE; try (apply noflow_kept; congruence). cbn. left. apply K. congruence.
  Qed.

  Lemma fixed_slot x w (h h' : hist) n low high : h_bin h = Fixed n low high -> fill x w h = Ok h' ->
    exists s, goes_to o (is_some (h_inf h)) low (Some high) x s /\ one_slot w h h' s /\
      (forall i, s = Bin i -> (i < length (h_values h))%nat).
  Proof.
    intros EB. unfold fillHistogram. rewrite EB.
    destruct (n <? 1); [discriminate|]. destruct (negb _); [discriminate|]. destruct (_ || bad o high)%bool; [discriminate|].
    destruct (goes_fixed (is_some (h_inf h)) x low high) as [G F].
    destruct (is_noflow (flows_fixed o (is_some (h_inf h)) x low high)) eqn:NF.
    - apply is_noflow_eq in NF. rewrite NF in *. cbn in G.
      destruct (bin_index o x low high n) as [i|]; [|discriminate]. cbn [rbind].
      destruct (add_at wadd wzero (h_values h) i w) as [vs|] eqn:E; [|discriminate]. cbn [rbind].
      intros H. injection H as <-. destruct (bin_slot w h i vs E) as (j & Hj & _ & O).
      exists (Bin j). split; [exact G|]. split; auto. intros i0 E0. injection E0 as <-. auto.
    - intros H. injection H as <-. eexists. split; [exact G|].
      destruct (flow_slot _ w h NF F) as [TK K]. split. { split; [reflexivity|]. split; auto. }
      destruct F as [F | [F | [F | [F | F]]]]; rewrite F in *; cbn; try discriminate; congruence.
  Qed.
  Lemma nth_error_repeat {A} (x : A) n i : (i < n)%nat -> nth_error (repeat x n) i = Some x.
  Proof. revert i. induction n; intros; [lia|]. destruct i; cbn; auto. apply IHn. lia. Qed.
  Lemma open_slot x w (h h' : hist) low bs : h_bin h = Open low bs -> fill x w h = Ok h' ->
    exists s, goes_to o (is_some (h_inf h)) low None x s /\ one_slot w h h' s.
  Proof.
    intros EB. unfold fillHistogram. rewrite EB.
    destruct (_ || bad o bs)%bool; [discriminate|].
    destruct (goes_open (is_some (h_inf h)) x low) as [G F].
    destruct (is_noflow (flows_open o (is_some (h_inf h)) x low)) eqn:NF.
    - apply is_noflow_eq in NF. rewrite NF in *. cbn in G.
      destruct (bin_index o x low _ _) as [i|]; [|discriminate]. cbn [rbind].
      destruct (Z.ltb_spec i (Z.of_nat (length (h_values h)))).
      + destruct (add_at wadd wzero (h_values h) i w) as [vs|] eqn:E; [|discriminate]. cbn [rbind].
        intros H0. injection H0 as <-. destruct (bin_slot w h i vs E) as (j & Hj & _ & O).
        exists (Bin j). auto.
      + cbn [rbind]. intros H0. injection H0 as <-. exists (Bin (Z.to_nat i)). split; auto.
        split; [reflexivity|]. set (k := Z.to_nat (i - Z.of_nat (length (h_values h)))).
        assert (Z.to_nat i = length (h_values h) + k)%nat as EI by lia.
        split.
        * cbn. rewrite EI. rewrite (proj2 (nth_error_None (h_values h) _)) by lia.
          rewrite nth_error_app2 by lia. unfold zerosZ. fold k.
          rewrite nth_error_app2 by (rewrite repeat_length; lia). rewrite repeat_length.
          replace (length (h_values h) + k - length (h_values h) - k)%nat with O by lia. auto.
        * intros [m| | | |] NE; try (apply noflow_kept; congruence). cbn.
          assert (m <> Z.to_nat i) as NM by congruence.
          destruct (Nat.ltb_spec m (length (h_values h))); [left; rewrite nth_error_app1; auto|].
          rewrite nth_error_app2 by lia. unfold zerosZ. fold k.
          destruct (Nat.ltb_spec (m - length (h_values h)) k).
          -- right. split; [apply nth_error_None; lia|]. rewrite nth_error_app1 by (rewrite repeat_length; auto).
             apply nth_error_repeat; auto.
          -- left. rewrite (proj2 (nth_error_None (h_values h) m)) by lia.
             apply nth_error_None. rewrite app_length, repeat_length. cbn. lia.
    - intros H. injection H as <-. eexists. split; [exact G|].
      destruct (flow_slot _ w h NF F) as [TK K]. split; [reflexivity|]. split; auto.
  Qed.

  (** ranges *)
  Lemma fill_ranges_nth x w ranges : forall values vs hit, length values = length ranges ->
    fill_ranges wadd o x w ranges values = (vs, hit) ->
    length vs = length values /\
    (forall i r, nth_error ranges i = Some r ->
       nth_error vs i = option_map (fun v => if in_range o x r then wadd v w else v) (nth_error values i)) /\
    (hit = true <-> exists i r, nth_error ranges i = Some r /\ in_range o x r = true).
  Proof.
    induction ranges as [|r ranges IH]; intros [|v values] vs hit L E; cbn in L; try lia; cbn in E.
    - injection E as <- <-. split; auto. split. { intros [|i] r H; discriminate. }
      split; [discriminate|]. intros ([|i] & r & H & _); discriminate.
    - destruct (fill_ranges wadd o x w ranges values) as [vs1 hit1] eqn:E1.
      destruct (IH values vs1 hit1 ltac:(lia) E1) as (L1 & N1 & H1).
      destruct (in_range o x r) eqn:ER; injection E as <- <-; (split; [cbn; lia|]); split.
      + intros [|i] r0 H; cbn in H. { injection H as <-. cbn. rewrite ER. auto. } cbn. auto.
      + split; auto. intros _. exists O, r. auto.
      + intros [|i] r0 H; cbn in H. { injection H as <-. cbn. rewrite ER. auto. } cbn. auto.
      + rewrite H1. split; intros (i & r0 & H & H2).
        * exists (S i), r0. auto.
        * destruct i; cbn in H. { injection H as ->. congruence. } exists i, r0. auto.
  Qed.
End Gen.

Section Total.
  Context {W T : Type} (wadd : W -> W -> W) (wzero : W) (o : real_ops T) (EW : exact_weights wadd wzero).
  Local Notation hist := (hist (W := W) (T := T)).
  Local Notation fill := (fillHistogram wadd wzero o).
  Local Notation total := (contents_total wadd wzero).
  Local Notation sum := (fold_right wadd wzero).

  Lemma sum_app a b : sum (a ++ b) = wadd (sum a) (sum b).
  Proof.
    induction a; cbn. { rewrite (ew_comm _ _ EW), (ew_zero _ _ EW). auto. }
    rewrite IHa. apply (ew_assoc _ _ EW).
  Qed.
  Lemma wz_l a : wadd wzero a = a.
  Proof. rewrite (ew_comm _ _ EW). apply (ew_zero _ _ EW). Qed.
  Lemma swap a b c : wadd (wadd a b) c = wadd (wadd a c) b.
  Proof. rewrite <- !(ew_assoc _ _ EW), (ew_comm _ _ EW b c). auto. Qed.
  Lemma sum_zeros n : sum (repeat wzero n) = wzero.
  Proof. induction n; cbn; auto. rewrite wz_l. auto. Qed.
  Lemma add_at_sum l i w l' : add_at wadd wzero l i w = Ok l' -> sum l' = wadd (sum l) w.
  Proof.
    unfold add_at. set (j := if i <? 0 then i + Z.of_nat (length l) else i).
    destruct (Z.ltb_spec j 0); [discriminate|]. destruct (Z.leb_spec (Z.of_nat (length l)) j); [discriminate|].
    cbn [orb]. intros H1. match type of H1 with Ok ?a = Ok ?b => assert (b = a) as -> by congruence end. clear H1.
    assert (exists v, nth_error l (Z.to_nat j) = Some v) as [v Ev].
    { destruct (nth_error l (Z.to_nat j)) eqn:E; eauto. apply nth_error_None in E. lia. }
    rewrite (nth_error_nth _ _ wzero Ev). apply nth_error_split in Ev as (l1 & l2 & -> & EL).
    rewrite <- EL. rewrite firstn_app, firstn_all, Nat.sub_diag. cbn [firstn]. rewrite app_nil_r.
    rewrite skipn_app. rewrite (skipn_all2 (n := S (length l1)) l1) by lia.
    replace (S (length l1) - length l1)%nat with 1%nat by lia. cbn [skipn app].
    rewrite !sum_app. cbn. rewrite <- !(ew_assoc _ _ EW). f_equal. f_equal. apply (ew_comm _ _ EW).
  Qed.
  Lemma total_upd w (h : hist) vs f v0 :
    sum vs = wadd (sum (h_values h)) v0 ->
    (f = noflow /\ v0 = w \/ v0 = wzero /\
       (f = Flows true false false false /\ h_under h <> None \/ f = Flows false true false false /\ h_over h <> None \/
        f = Flows false false true false /\ h_nan h <> None \/ f = Flows false false false true /\ h_inf h <> None)) ->
    total (updateHistogram wadd wzero w h vs f) = wadd (total h) w.
  Proof.
    intros E C. unfold contents_total, updateHistogram. cbn [h_values h_under h_over h_nan h_inf]. rewrite E.
    destruct h as [hb hv hu ho hn hi]; cbn [h_values h_under h_over h_nan h_inf] in *.
    assert (Zr := ew_zero _ _ EW).
    assert (forall a b c, wadd a (wadd b c) = wadd b (wadd a c)) as LC.
    { intros. rewrite !(ew_assoc _ _ EW). rewrite (ew_comm _ _ EW a b). auto. }
    assert (forall a b, wadd a b = wadd b a) as CM by apply (ew_comm _ _ EW).
    assert (forall a b c, wadd (wadd a b) c = wadd a (wadd b c)) as AS by (intros; symmetry; apply (ew_assoc _ _ EW)).
    destruct C as [[-> ->] | [-> [[-> N] | [[-> N] | [[-> N] | [-> N]]]]]]; cbn [fl_under fl_over fl_nan fl_inf noflow];
    destruct hu, ho, hn, hi; try congruence; cbn [addflow flow_sum]; rewrite ?Zr, ?wz_l, ?AS;
      repeat (f_equal; []); rewrite ?Zr, ?wz_l; try reflexivity;
      repeat match goal with
      | |- wadd w ?a = _ => rewrite (CM w a)
      | |- _ = wadd w ?a => fail 1
      | |- wadd ?a ?b = wadd ?a ?c => f_equal
      end; rewrite ?AS, ?Zr, ?wz_l; try reflexivity.
  Qed.
End Total.

Section Total2.
  Context {W T : Type} (wadd : W -> W -> W) (wzero : W) (o : real_ops T) (EW : exact_weights wadd wzero).
  Local Notation hist := (hist (W := W) (T := T)).
  Local Notation fill := (fillHistogram wadd wzero o).
  Local Notation total := (contents_total wadd wzero).
  Local Notation sum := (fold_right wadd wzero).

  Lemma flows_present (f : flows) (h : hist) w : all_flows h -> is_noflow f = false ->
    (f = noflow \/ f = Flows true false false false \/ f = Flows false true false false \/
     f = Flows false false true false \/ f = Flows false false false true) ->
    (fl_inf f = true -> h_inf h <> None) ->
    total (updateHistogram wadd wzero w h (h_values h) f) = wadd (total h) w.
  Proof.
    intros (A1 & A2 & A3) NF F HI. apply total_upd with (v0 := wzero); auto. { symmetry. apply (ew_zero _ _ EW). }
    right. split; auto.
    destruct F as [-> | [-> | [-> | [-> | ->]]]]; [discriminate|auto 6|auto 6|auto 6|].
    right. right. right. split; auto.
  Qed.
  Lemma inf_present hasInf x low high (h : hist) : hasInf = is_some (h_inf h) ->
    fl_inf (flows_fixed o hasInf x low high) = true -> h_inf h <> None.
  Proof.
    intros -> E. unfold flows_fixed in E. destruct (h_inf h); [congruence|]. cbn in E.
    destruct (op_isnan o x); [discriminate|]. destruct (op_le o high x); [discriminate|].
    destruct (op_lt o x low); discriminate.
  Qed.
  Lemma inf_present_open hasInf x low (h : hist) : hasInf = is_some (h_inf h) ->
    fl_inf (flows_open o hasInf x low) = true -> h_inf h <> None.
  Proof.
    intros -> E. unfold flows_open in E. destruct (h_inf h); [congruence|]. cbn in E.
    destruct (op_isnan o x); [discriminate|]. destruct (op_isinf o x && _)%bool; [discriminate|].
    destruct (op_lt o x low); discriminate.
  Qed.
  Lemma fixed_total x w (h h' : hist) n low high : h_bin h = Fixed n low high -> all_flows h ->
    fill x w h = Ok h' -> total h' = wadd (total h) w.
  Proof.
    intros EB A. unfold fillHistogram. rewrite EB.
    destruct (n <? 1); [discriminate|]. destruct (negb _); [discriminate|]. destruct (_ || bad o high)%bool; [discriminate|].
    destruct (goes_fixed o (is_some (h_inf h)) x low high) as [G F].
    destruct (is_noflow (flows_fixed o (is_some (h_inf h)) x low high)) eqn:NF.
    - apply is_noflow_eq in NF. rewrite NF in *.
      destruct (bin_index o x low high n) as [i|]; [|discriminate]. cbn [rbind].
      destruct (add_at wadd wzero (h_values h) i w) as [vs|] eqn:E; [|discriminate]. cbn [rbind].
      intros H. injection H as <-. apply total_upd with (v0 := w); auto. eapply add_at_sum; eauto.
    - intros H. injection H as <-. apply flows_present; auto. eapply inf_present; eauto.
  Qed.
  Lemma open_total x w (h h' : hist) low bs : h_bin h = Open low bs -> all_flows h ->
    fill x w h = Ok h' -> total h' = wadd (total h) w.
  Proof.
    intros EB A. unfold fillHistogram. rewrite EB. destruct (_ || bad o bs)%bool; [discriminate|].
    destruct (goes_open o (is_some (h_inf h)) x low) as [G F].
    destruct (is_noflow (flows_open o (is_some (h_inf h)) x low)) eqn:NF.
    - apply is_noflow_eq in NF. rewrite NF in *.
      destruct (bin_index o x low _ _) as [i|]; [|discriminate]. cbn [rbind].
      destruct (Z.ltb_spec i (Z.of_nat (length (h_values h)))).
      + destruct (add_at wadd wzero (h_values h) i w) as [vs|] eqn:E; [|discriminate]. cbn [rbind].
        intros H0. injection H0 as <-. apply total_upd with (v0 := w); auto. eapply add_at_sum; eauto.
      + cbn [rbind]. intros H0. injection H0 as <-. apply total_upd with (v0 := w); auto.
        rewrite !(sum_app _ _ EW). unfold zerosZ. rewrite (sum_zeros _ _ EW), (wz_l _ _ EW). cbn. rewrite (ew_zero _ _ EW). auto.
    - intros H. injection H as <-. apply flows_present; auto. eapply inf_present_open; eauto.
  Qed.
  Lemma in_range_iff x r : bad_range o r = false -> (in_range o x r = true <-> falls_in o x r).
  Proof.
    unfold bad_range, in_range, falls_in. destruct r as [|a [|b [|? ?]]]; try discriminate.
    intros B. apply orb_false_iff in B as [B _]. apply orb_false_iff in B as [B _]. rewrite B, andb_false_r. cbn [orb andb].
    rewrite andb_true_iff. split.
    - intros [? ?]. exists a, b. auto.
    - intros (a' & b' & E & H1 & H2). injection E as <- <-. auto.
  Qed.
  Lemma fill_ranges_sum x w ranges : forall values vs hit, length values = length ranges ->
    fill_ranges wadd o x w ranges values = (vs, hit) ->
    (forall i j r r', nth_error ranges i = Some r -> nth_error ranges j = Some r' ->
        in_range o x r = true -> in_range o x r' = true -> i = j) ->
    sum vs = wadd (sum values) (if hit then w else wzero).
  Proof.
    induction ranges as [|r ranges IH]; intros [|v values] vs hit L E U; cbn in L; try lia; cbn in E.
    - injection E as <- <-. cbn. symmetry. apply (ew_zero _ _ EW).
    - destruct (fill_ranges wadd o x w ranges values) as [vs1 hit1] eqn:E1.
      assert (sum vs1 = wadd (sum values) (if hit1 then w else wzero)) as S1.
      { eapply IH; eauto. intros. enough (S i = S j) by lia. eapply U; cbn; eauto. }
      destruct (in_range o x r) eqn:ER; injection E as <- <-; cbn.
      + assert (hit1 = false) as ->.
        { destruct hit1; auto. exfalso.
          destruct (fill_ranges_nth wadd o x w ranges values vs1 true ltac:(lia) E1) as (_ & _ & H).
          destruct (proj1 H eq_refl) as (i & r' & N & IR).
          assert (O = S i) by (eapply U; cbn; eauto). lia. }
        rewrite S1, (ew_zero _ _ EW). apply (swap _ _ EW).
      + rewrite S1. apply (ew_assoc _ _ EW).
  Qed.
  Lemma ranges_total x w (h h' : hist) ranges : h_bin h = Ranges ranges -> all_flows h -> disjoint_at o x ranges ->
    fill x w h = Ok h' -> total h' = wadd (total h) w.
  Proof.
    intros EB (A1 & A2 & A3) D. unfold fillHistogram. rewrite EB.
    destruct (Nat.eqb_spec (length (h_values h)) (length ranges)); [|discriminate]. cbn [negb].
    destruct (existsb (bad_range o) ranges) eqn:B; [discriminate|].
    assert (forall i r, nth_error ranges i = Some r -> bad_range o r = false) as BR.
    { intros i r N. destruct (bad_range o r) eqn:E; auto. apply nth_error_In in N.
      assert (existsb (bad_range o) ranges = true) by (apply existsb_exists; eauto). congruence. }
    set (fr := if negb (op_isinf o x) && negb (op_isnan o x) then fill_ranges wadd o x w ranges (h_values h) else (h_values h, false)).
    destruct fr as [vs hit] eqn:EF. intros H. injection H as <-. subst fr.
    assert (sum vs = wadd (sum (h_values h)) (if hit then w else wzero) /\ (hit = true -> op_isinf o x = false /\ op_isnan o x = false)) as [S NI].
    { destruct (op_isinf o x) eqn:EI; destruct (op_isnan o x) eqn:EN; cbn in EF;
        try (injection EF as <- <-; split; [symmetry; apply (ew_zero _ _ EW)|discriminate]).
      split; [|auto]. eapply fill_ranges_sum; eauto. intros. eapply D; eauto; apply in_range_iff; eauto. }
    apply total_upd with (v0 := if hit then w else wzero); auto.
    destruct hit.
    - destruct (NI eq_refl) as [-> ->]. rewrite andb_false_r. cbn. auto.
    - right. split; auto. destruct (is_some (h_inf h) && op_isinf o x) eqn:EI.
      + right. right. right. split; auto. apply andb_true_iff in EI as [EI _]. destruct (h_inf h); cbn in EI; congruence.
      + destruct (op_isnan o x); cbn; auto 6.
  Qed.
  (** what happens to the bins of a histogram with ranges *)
  Lemma ranges_bins x w (h h' : hist) ranges : h_bin h = Ranges ranges -> fill x w h = Ok h' ->
    op_isinf o x = false -> op_isnan o x = false ->
    h_bin h' = h_bin h /\ length (h_values h') = length (h_values h) /\
    (forall i r v, nth_error ranges i = Some r -> nth_error (h_values h) i = Some v ->
      (falls_in o x r -> nth_error (h_values h') i = Some (wadd v w)) /\
      (~ falls_in o x r -> nth_error (h_values h') i = Some v)) /\
    h_under h' = option_map (fun v => wadd v (if existsb (in_range o x) ranges then wzero else w)) (h_under h) /\
    h_over h' = option_map (fun v => wadd v wzero) (h_over h) /\ h_nan h' = option_map (fun v => wadd v wzero) (h_nan h) /\
    h_inf h' = option_map (fun v => wadd v wzero) (h_inf h).
  Proof.
    intros EB E NI NN. unfold fillHistogram in E. rewrite EB, NI, NN in E.
    destruct (Nat.eqb_spec (length (h_values h)) (length ranges)) as [L|]; [|discriminate]. cbn [negb andb] in E.
    destruct (existsb (bad_range o) ranges) eqn:B; [discriminate|].
    assert (forall i r, nth_error ranges i = Some r -> bad_range o r = false) as BR.
    { intros i r N. destruct (bad_range o r) eqn:E0; auto. apply nth_error_In in N.
      assert (existsb (bad_range o) ranges = true) by (apply existsb_exists; eauto). congruence. }
    destruct (fill_ranges wadd o x w ranges (h_values h)) as [vs hit] eqn:EF.
    destruct (fill_ranges_nth wadd o x w ranges _ vs hit L EF) as (LV & N & HH).
    assert (existsb (in_range o x) ranges = hit) as EH.
    { apply eq_iff_eq_true. rewrite HH, existsb_exists. split.
      - intros (r & Hr & IR). apply In_nth_error in Hr as (i & Hi). eauto.
      - intros (i & r & Hi & IR). exists r. split; auto. eapply nth_error_In; eauto. }
    rewrite andb_false_r in E. injection E as <-. rewrite EH. cbn [h_bin h_values updateHistogram h_under h_over h_nan h_inf].
    split; [reflexivity|]. split; [auto|]. split.
    - intros i r v Hr Hv. rewrite (N i r Hr), Hv. cbn. split; intros F.
      + apply (in_range_iff x r (BR i r Hr)) in F. rewrite F. auto.
      + destruct (in_range o x r) eqn:EI; auto. apply (in_range_iff x r (BR i r Hr)) in EI. contradiction.
    - unfold addflow. destruct hit; cbn [negb noflow fl_under fl_over fl_nan fl_inf];
        destruct (h_under h), (h_over h), (h_nan h), (h_inf h); auto.
  Qed.
End Total2.

(** ** exact positions: the right bin *)
Section Rat.
  Context {W : Type} (wadd : W -> W -> W) (wzero : W).
  Local Notation fill := (fillHistogram wadd wzero rat_ops).
  Local Open Scope Q_scope.

  Lemma Qle_bool_false a b : Qle_bool a b = false <-> b < a.
  Proof.
    split; intros H.
    - apply Qnot_le_lt. intros L. apply Qle_bool_iff in L. congruence.
    - destruct (Qle_bool a b) eqn:E; auto. apply Qle_bool_iff in E. exfalso. apply (Qlt_not_le _ _ H E).
  Qed.
  Lemma qfloor_bin x low wd q : 0 < wd -> q == (x - low) / wd ->
    low + inject_Z (Qfloor q) * wd <= x /\ x < low + (inject_Z (Qfloor q) + 1) * wd.
  Proof.
    intros P E. assert (x == low + q * wd) as X.
    { rewrite E. field. intros Z. rewrite Z in P. discriminate. }
    split.
    - rewrite X. apply Qplus_le_r. apply Qmult_le_compat_r; [|apply Qlt_le_weak; auto]. apply Qfloor_le.
    - rewrite X at 1. apply Qplus_lt_r. apply Qmult_lt_compat_r; auto.
      pose proof (Qlt_floor q) as F. rewrite inject_Z_plus in F. auto.
  Qed.
  Lemma qfloor_range q n : 0 <= q -> q < inject_Z n -> (0 <= Qfloor q < n)%Z.
  Proof.
    intros H0 H1. split.
    - change 0%Z with (Qfloor 0). apply Qfloor_resp_le. auto.
    - rewrite Zlt_Qlt. eapply Qle_lt_trans; [apply Qfloor_le|auto].
  Qed.
  Lemma add_at_ok l i w : (0 <= i < Z.of_nat (length l))%Z -> exists l', add_at wadd wzero l i w = Ok l'.
  Proof.
    intros H. unfold add_at. destruct (Z.ltb_spec i 0); [lia|]. destruct (Z.ltb_spec i 0); [lia|].
    destruct (Z.leb_spec (Z.of_nat (length l)) i); [lia|]. cbn. eauto.
  Qed.
  Lemma fixed_index x low high n : low < high -> low <= x -> x < high -> (1 <= n)%Z ->
    exists i, bin_index rat_ops x low high n = Ok i /\ (0 <= i < n)%Z /\
      low + inject_Z i * ((high - low) / inject_Z n) <= x /\
      x < low + (inject_Z i + 1) * ((high - low) / inject_Z n).
  Proof.
    intros LH L H Hn.
    assert (0 < high - low) as PD. { apply (Qplus_lt_l _ _ low). ring_simplify. auto. }
    assert (0 < inject_Z n) as PN. { change 0 with (inject_Z 0). rewrite <- Zlt_Qlt. lia. }
    assert (~ high - low == 0) as N1. { intros Z. rewrite Z in PD. discriminate. }
    assert (~ inject_Z n == 0) as N2. { intros Z. rewrite Z in PN. discriminate. }
    unfold bin_index. cbn [op_div op_sub rat_ops op_floor op_mul op_of_Z].
    destruct (Qeq_bool (high - low) 0) eqn:E; [apply Qeq_bool_iff in E; contradiction|].
    set (q := (x - low) / (high - low) * inject_Z n).
    exists (Qfloor q). split; auto.
    assert (0 < (high - low) / inject_Z n) as PW. { apply Qlt_shift_div_l; auto; rewrite Qmult_0_l; auto. }
    assert (q == (x - low) / ((high - low) / inject_Z n)) as EQ. { unfold q. field. auto. }
    split; [|apply (qfloor_bin x low _ q PW EQ)].
    apply qfloor_range.
    - unfold q. apply Qmult_le_0_compat; [|apply Qlt_le_weak; auto].
      apply Qle_shift_div_l; auto. rewrite Qmult_0_l. apply (Qplus_le_l _ _ low). ring_simplify. auto.
    - unfold q. rewrite <- (Qmult_1_l (inject_Z n)) at 2. apply Qmult_lt_compat_r; auto.
      apply Qlt_shift_div_r; auto. rewrite Qmult_1_l. apply (Qplus_lt_l _ _ low). ring_simplify. auto.
  Qed.
  Lemma fixed_right x w (h : hist) n low high : h_bin h = Fixed n low high ->
    (1 <= n)%Z -> Z.of_nat (length (h_values h)) = n -> low < high -> low <= x -> x < high ->
    exists h' i, fill x w h = Ok h' /\ one_slot wadd wzero w h h' (Bin i) /\
      low + inject_Z (Z.of_nat i) * ((high - low) / inject_Z n) <= x /\
      x < low + (inject_Z (Z.of_nat i) + 1) * ((high - low) / inject_Z n).
  Proof.
    intros EB Hn HL LH L H. unfold fillHistogram. rewrite EB.
    destruct (Z.ltb_spec n 1); [lia|]. rewrite HL, Z.eqb_refl. cbn [negb].
    unfold bad. cbn [op_le op_lt op_isnan op_isinf rat_ops orb].
    rewrite (proj2 (Qle_bool_false high low) LH). cbn [orb].
    unfold flows_fixed. cbn [op_le op_lt op_isnan op_isinf rat_ops]. rewrite andb_false_r.
    rewrite (proj2 (Qle_bool_false high x) H). rewrite (proj2 (Qle_bool_iff low x) L). cbn [negb is_noflow noflow fl_under fl_over fl_nan fl_inf andb].
    destruct (fixed_index x low high n LH L H Hn) as (i & -> & Hi & B). cbn [rbind].
    destruct (add_at_ok (h_values h) i w ltac:(lia)) as (vs & E). rewrite E. cbn [rbind].
    destruct (bin_slot wadd wzero w h i vs E) as (j & Hj & HI & O). eexists. exists j. split; [reflexivity|]. split; auto.
    rewrite HI by lia. rewrite Z2Nat.id by lia. auto.
  Qed.
  Lemma open_right x w (h : hist) low bs : h_bin h = Open low bs -> h_values h <> [] -> 0 < bs -> low <= x ->
    exists h' i, fill x w h = Ok h' /\ one_slot wadd wzero w h h' (Bin i) /\
      low + inject_Z (Z.of_nat i) * bs <= x /\ x < low + (inject_Z (Z.of_nat i) + 1) * bs.
  Proof.
    intros EB NE PB L.
    assert (exists h', fill x w h = Ok h') as [h' E].
    { unfold fillHistogram. rewrite EB. unfold bad. cbn [op_le op_lt op_isnan op_isinf op_of_Z rat_ops orb].
      change (inject_Z 0) with 0. rewrite (proj2 (Qle_bool_false bs 0) PB). cbn [orb].
      destruct (is_noflow _); [|eauto].
      unfold bin_index. cbn [op_div rat_ops]. destruct (Qeq_bool _ 0); cbn [rbind op_floor rat_ops].
      - destruct (0 <? _)%Z eqn:E0; [|cbn; eauto].
        destruct (add_at_ok (h_values h) 0 w) as (vs & ->). { apply Z.ltb_lt in E0. lia. } cbn; eauto.
      - destruct (_ <? _)%Z eqn:E0; [|cbn; eauto]. apply Z.ltb_lt in E0.
        edestruct (add_at_ok (h_values h)) as (vs & ->); [|cbn; eauto]. split; [|exact E0].
        change 0%Z with (Qfloor 0). apply Qfloor_resp_le. cbn [op_mul op_sub op_add rat_ops op_of_Z].
        assert (0 < inject_Z (Z.of_nat (length (h_values h)))) as PN.
        { change 0 with (inject_Z 0). rewrite <- Zlt_Qlt. destruct (h_values h); [congruence|cbn; lia]. }
        apply Qmult_le_0_compat; [|apply Qlt_le_weak; auto]. apply Qle_shift_div_l.
        + ring_simplify. apply Qmult_lt_0_compat; auto.
        + rewrite Qmult_0_l. apply (Qplus_le_l _ _ low). ring_simplify. auto. }
    exists h'. revert E. unfold fillHistogram. rewrite EB. unfold bad. cbn [op_le op_lt op_isnan op_isinf op_of_Z rat_ops orb].
    change (inject_Z 0) with 0. rewrite (proj2 (Qle_bool_false bs 0) PB). cbn [orb].
    unfold flows_open. cbn [op_le op_lt op_isnan op_isinf rat_ops andb]. rewrite andb_false_r.
    rewrite (proj2 (Qle_bool_iff low x) L). cbn [negb is_noflow noflow fl_under fl_over fl_nan fl_inf andb].
    set (n := Z.of_nat (length (h_values h))).
    assert (0 < inject_Z n) as PN.
    { change 0 with (inject_Z 0). rewrite <- Zlt_Qlt. unfold n. destruct (h_values h); [congruence|cbn; lia]. }
    assert (~ inject_Z n == 0) as N2. { intros Z. rewrite Z in PN. discriminate. }
    assert (~ bs == 0) as N3. { intros Z. rewrite Z in PB. discriminate. }
    unfold bin_index. cbn [op_div op_sub op_add rat_ops op_floor op_mul op_of_Z].
    destruct (Qeq_bool _ 0) eqn:EZ.
    { apply Qeq_bool_iff in EZ. exfalso. ring_simplify in EZ. apply Qmult_integral in EZ as [?|?]; auto. }
    set (q := (x - low) / (low + bs * inject_Z n - low) * inject_Z n).
    assert (q == (x - low) / bs) as EQ.
    { unfold q. field. repeat split; auto. setoid_replace (low + bs * inject_Z n - low) with (bs * inject_Z n) by ring.
      intros Z. apply Qmult_integral in Z as [?|?]; auto. }
    pose proof (qfloor_bin x low bs q PB EQ) as QB.
    assert (0 <= Qfloor q)%Z as QN.
    { change 0%Z with (Qfloor 0). apply Qfloor_resp_le. rewrite EQ. apply Qle_shift_div_l; auto.
      rewrite Qmult_0_l. apply (Qplus_le_l _ _ low). ring_simplify. auto. }
    set (fq := Qfloor q) in *. clearbody fq. clear EQ. clear q.
    cbn [rbind]. destruct (Z.ltb_spec fq n) as [LT|GE].
    - destruct (add_at wadd wzero (h_values h) fq w) as [vs|] eqn:EA; [|discriminate]. cbn [rbind].
      intros E. injection E as <-. destruct (bin_slot wadd wzero w h _ vs EA) as (j & Hj & HI & O).
      exists j. split; [reflexivity|]. split; auto. rewrite HI by auto. rewrite Z2Nat.id by auto. auto.
    - cbn [rbind]. intros E. exists (Z.to_nat fq). split; auto. injection E as <-.
      rewrite Z2Nat.id by auto. split; [|auto].
      split; [reflexivity|]. set (k := Z.to_nat (fq - n)).
      assert (Z.to_nat fq = length (h_values h) + k)%nat as EI by (unfold k, n in *; lia).
      split.
      + cbn. rewrite EI. rewrite (proj2 (nth_error_None (h_values h) _)) by lia.
        rewrite nth_error_app2 by lia. unfold zerosZ. fold k.
        rewrite nth_error_app2 by (rewrite repeat_length; lia). rewrite repeat_length.
        replace (length (h_values h) + k - length (h_values h) - k)%nat with O by lia. auto.
      + intros [m| | | |] NE'; try (apply noflow_kept; congruence). cbn.
        assert (m <> Z.to_nat fq) as NM by congruence.
        destruct (Nat.ltb_spec m (length (h_values h))); [left; rewrite nth_error_app1; auto|].
        rewrite nth_error_app2 by lia. unfold zerosZ. fold k.
        destruct (Nat.ltb_spec (m - length (h_values h)) k).
        -- right. split; [apply nth_error_None; lia|]. rewrite nth_error_app1 by (rewrite repeat_length; auto).
           apply nth_error_repeat; auto.
        -- left. rewrite (proj2 (nth_error_None (h_values h) m)) by lia.
           apply nth_error_None. rewrite app_length, repeat_length. cbn. lia.
  Qed.
End Rat.

(** ** counters *)
Section Counter.
  Context {W : Type} (wadd : W -> W -> W) (wzero : W).
  Lemma assoc_set_same k (v : W) d : assoc k (dict_set k v d) = Some v.
  Proof.
    induction d as [|[k' v'] d IH]; cbn. { rewrite String.eqb_refl. auto. }
    destruct (String.eqb k k') eqn:E; cbn; rewrite E; auto.
  Qed.
  Lemma assoc_set_other k k' (v : W) d : k' <> k -> assoc k' (dict_set k v d) = assoc k' d.
  Proof.
    intros N. induction d as [|[k1 v1] d IH]; cbn.
    - destruct (String.eqb_spec k' k); congruence.
    - destruct (String.eqb_spec k k1) as [<-|]; cbn.
      + destruct (String.eqb_spec k' k); congruence.
      + destruct (String.eqb k' k1); auto.
  Qed.
  Lemma run_counter_key ds : forall c k,
    match assoc k (run_counter wadd wzero ds c) with Some v => v | None => wzero end
    = fold_left wadd (map snd (filter (fun p => String.eqb (fst p) k) ds)) (match assoc k c with Some v => v | None => wzero end).
  Proof.
    induction ds as [|[x w] ds IH]; intros c k; cbn [run_counter fold_left fst snd map filter]. { reflexivity. }
    unfold run_counter in IH. rewrite IH. clear IH. unfold fillCounter. destruct (String.eqb_spec x k) as [->|N].
    - cbn [map fold_left snd]. rewrite assoc_set_same. auto.
    - rewrite assoc_set_other by congruence. auto.
  Qed.
  Lemma run_counter_dom ds : forall c k, assoc k (run_counter wadd wzero ds c) <> None <-> assoc k c <> None \/ In k (map fst ds).
  Proof.
    induction ds as [|[x w] ds IH]; intros c k; cbn [run_counter fold_left fst snd map In]. { intuition. }
    unfold run_counter in IH. rewrite IH. unfold fillCounter. destruct (String.eqb_spec x k) as [->|N].
    - rewrite assoc_set_same. intuition congruence.
    - rewrite assoc_set_other by congruence. intuition.
  Qed.
End Counter.
