(** Complete trees, the depth of a tree, scores and the codes of strings. *)
From Coq Require Import Permutation Reals Lra Sorted.
From Verif Require Import Base ScopeModel CartModel CartSpec CartProofs CartProofs2 CartProofs3 CartProofs4 CartProofs5 CartProofs6 CartProofs7.
Open Scope string_scope.
Open Scope list_scope.

(** *** codes of strings *)
Lemma insert_in s x l : In x (insert s l) <-> x = s \/ In x l.
Proof.
  induction l as [|y l IH]; cbn; [intuition|]. destruct (String.compare s y) eqn:E; cbn.
  - apply String.compare_eq_iff in E. subst. intuition. 
  - intuition.
  - rewrite IH. intuition.
Qed.
Lemma uniques_in x l : In x (uniques l) <-> In x l.
Proof. induction l as [|y l IH]; cbn; [tauto|]. rewrite insert_in, IH. intuition. Qed.
Definition slt (a b : string) : Prop := String.compare a b = Lt.
Lemma slt_trans a b c : slt a b -> slt b c -> slt a c.
Proof.
  unfold slt. revert b c. induction a as [|x a IH]; intros [|y b] [|z c]; cbn; try discriminate; auto.
  unfold Ascii.compare. 
  destruct (N.compare_spec (Ascii.N_of_ascii x) (Ascii.N_of_ascii y)) as [E1|E1|E1]; try discriminate;
  destruct (N.compare_spec (Ascii.N_of_ascii y) (Ascii.N_of_ascii z)) as [E2|E2|E2]; try discriminate; intros H1 H2;
  destruct (N.compare_spec (Ascii.N_of_ascii x) (Ascii.N_of_ascii z)) as [E3|E3|E3]; try reflexivity; try lia; eauto.
Qed.
Lemma insert_sorted s l : StronglySorted slt l -> StronglySorted slt (insert s l).
Proof.
  induction 1 as [|x l Hs IH Hf]; cbn; [repeat constructor|]. destruct (String.compare s x) eqn:E.
  - now constructor.
  - constructor; [now constructor|]. constructor; [exact E|]. rewrite Forall_forall in *. intros y Hy. eapply slt_trans; [exact E|auto].
  - constructor; auto. rewrite Forall_forall in *. intros y Hy. apply insert_in in Hy. destruct Hy as [->|Hy]; auto. unfold slt. rewrite String.compare_antisym, E. reflexivity.
Qed.
Lemma uniques_nodup l : NoDup (uniques l).
Proof.
  assert (H : StronglySorted slt (uniques l)) by (induction l; cbn; [constructor|now apply insert_sorted]).
  induction H as [|x r Hs IH Hf]; constructor; auto. intros Hx. rewrite Forall_forall in Hf. specialize (Hf x Hx). unfold slt in Hf.
  pose proof (String.compare_antisym x x) as E. rewrite Hf in E. discriminate E.
Qed.
Lemma position_nth s l : In s l -> (position s l < length l)%nat /\ nth (position s l) l "" = s.
Proof.
  induction l as [|x l IH]; cbn; [tauto|]. intros H. destruct (String.eqb_spec s x) as [->|E]; [split; [lia|reflexivity]|].
  destruct H as [->|H]; [easy|]. destruct (IH H). split; [lia|auto].
Qed.

(** *** depth *)
Section Depth.
  Variable N : arith.
  Lemma max_depth limit m fuel : forall depth d t, split_until (N := N) fuel limit (fun _ k => Nat.ltb k m) depth d = Ok t ->
    (tree_depth N t <= Nat.max 1 (m + 1 - depth))%nat.
  Proof.
    induction fuel as [|fuel IH]; intros depth d t H; cbn [split_until] in H; [discriminate|].
    destruct (can_split d); [|injection H as <-; cbn [tree_depth]; lia]. destruct (split_once limit d) as [[[[[[g i] s] p] f]|]|]; cbn [rbind] in H; [|injection H as <-; cbn [tree_depth]; lia|discriminate].
    destruct (Nat.ltb_spec depth m) as [L|L]; [|injection H as <-; cbn [tree_depth]; lia].
    destruct (split_until fuel limit (fun _ k => Nat.ltb k m) (S depth) p) as [tp|] eqn:Ep; [|discriminate]. cbn [rbind] in H.
    destruct (split_until fuel limit (fun _ k => Nat.ltb k m) (S depth) f) as [tf|] eqn:Ef; [|discriminate]. cbn [rbind] in H. injection H as <-.
    apply IH in Ep. apply IH in Ef. cbn [tree_depth]. lia.
  Qed.
End Depth.

Open Scope R_scope.
Section Complete.
  Variable srt : list R -> list nat.
  Hypothesis Hsort : sorts srt.
  Notation N := (RA srt).
  Lemma pick_nodup {B} m : forall l : list B, NoDup l -> NoDup (pick m l).
  Proof.
    induction m as [|b m IH]; intros [|x l] H; cbn; try constructor. inversion H; subst. destruct b; [constructor|]; auto. intros C. apply pick_In in C. contradiction.
  Qed.
  Definition all_numbers (d : data N) : Prop :=
    data_ok d /\ fields d <> [] /\ (exists l, pred d = @CReal N l) /\ forall c, In c (fields d) -> exists l : list R, c = @CReal N l /\ NoDup l.
  Lemma numbers_select m d : all_numbers d -> all_numbers (select_data m d).
  Proof.
    intros (H1 & H2 & (l & H3) & H4). split; [now apply select_data_ok|]. split; [|split].
    - cbn. destruct (fields d); [easy|discriminate].
    - exists (pick m l). cbn. now rewrite H3.
    - cbn. intros c Hc. apply in_map_iff in Hc. destruct Hc as (c0 & <- & Hc). destruct (H4 c0 Hc) as (l0 & -> & Hd). exists (pick m l0). split; [reflexivity|now apply pick_nodup].
  Qed.
  Lemma distinct_one (l : list R) : (length (distinct N l) <= 1)%nat -> forall x y, In x l -> In y l -> x = y.
  Proof.
    assert (In1 : forall (r : list R) x, In x r -> exists y, In y (distinct N r) /\ y = x).
    { induction r as [|z r IH]; intros x Hx; [easy|]. cbn [distinct]. destruct (existsb (eq N z) r) eqn:E.
      - destruct Hx as [<-|Hx]; auto. apply existsb_exists in E. destruct E as (w & Hw & E). cbn in E. destruct (Req_EM_T z w) as [->|]; [|discriminate]. auto.
      - destruct Hx as [<-|Hx]; [exists z; split; auto; now left|]. destruct (IH x Hx) as (y & Hy & ->). exists x. split; auto. now right. }
    intros H x y Hx Hy. destruct (In1 l x Hx) as (x' & Hx' & ->). destruct (In1 l y Hy) as (y' & Hy' & ->).
    destruct (distinct N l) as [|a [|b r]]; cbn in H; try lia.
    - easy.
    - destruct Hx' as [<-|[]], Hy' as [<-|[]]. reflexivity.
  Qed.
  Lemma numbers_split limit d : all_numbers d -> can_split d = true -> split_once limit d <> Ok None.
  Proof.
    intros (H1 & H2 & (l & H3) & H4) Hc H. unfold split_once in H. destruct (best_field N limit (pred d) 0 (fields d) None) as [[[[g i] s]|]|] eqn:E; cbn [rbind] in H; try discriminate H.
    destruct (Nat.ltb 0 _ && Nat.ltb 0 _)%bool eqn:Hl in H; [discriminate H|]. apply best_field_max with (pre := []) in E; auto; [|discriminate]. cbn [app] in E.
    destruct E as ([E1|[E1 (g0 & E2 & E3)]] & _ & E4); [discriminate E1|]. assert (Hin : In (nth i (fields d) (CReal [])) (fields d)) by (apply nth_In; lia).
    destruct (H4 _ Hin) as (v & Hv & Hd). rewrite Hv, H3 in *. destruct H1 as [_ H1]. pose proof H1 as Hok. specialize (H1 _ Hin). destruct H1 as [H1 _]. unfold size in H1. rewrite H3 in H1. cbn in H1.
    pose proof E2 as F. apply (field_term_fits N limit _ _ _ _ (length v)) in F; [|split; cbn; auto]. destruct s as [x|s]; [|contradiction].
    cbn [field_term] in E2. destruct (numeric_best srt Hsort v l H1 Hd g0 x E2) as (_ & Y1 & Y2 & _).
    cbn [passes] in Hl. change (fun y : num N => le N y x) with (below x) in Hl. rewrite map_map in Hl.
    assert (Hz : size d = length l) by (unfold size; now rewrite H3).
    assert (First : forall m : list bool, col_len (nth 0 (fields (select_data m d)) (CReal [])) = length (pick m l)).
    { intros m. cbn [select_data fields]. destruct (fields d) as [|c cs] eqn:Ed; [easy|]. cbn [map nth].
      rewrite (select_len N m c (length l)) by (rewrite <- Hz; apply Hok; now left). apply pick_length_any. now rewrite seq_length. }
    rewrite !First in Hl. apply andb_false_iff in Hl. destruct Hl as [Hl|Hl]; apply Nat.ltb_ge, Nat.le_0_r in Hl; apply (proj1 (length_zero_iff_nil _)) in Hl; [now apply Y1|now apply Y2].
  Qed.
  Lemma complete_leaves limit fuel : forall depth d t, all_numbers d -> split_until fuel limit (fun _ _ => true) depth d = Ok t ->
    forall x, In x (leaves t) -> exists l, pred x = @CReal N l /\ forall a b, In a l -> In b l -> a = b.
  Proof.
    induction fuel as [|fuel IH]; intros depth d t Hd H x Hx; cbn [split_until] in H; [discriminate|]. destruct (can_split d) eqn:Hc.
    - destruct (split_once limit d) as [[[[[[g i] s] p] f]|]|] eqn:E; cbn [rbind] in H; [|now apply numbers_split in E|discriminate].
      destruct (split_until fuel limit (fun _ _ => true) (S depth) p) as [tp|] eqn:Ep; [|discriminate]. cbn [rbind] in H.
      destruct (split_until fuel limit (fun _ _ => true) (S depth) f) as [tf|] eqn:Ef; [|discriminate]. cbn [rbind] in H. injection H as <-.
      apply split_once_some in E; [|apply Hd]. destruct E as [_ _ S1 S2 _]. cbn [leaves] in Hx. apply in_app_iff in Hx. destruct Hx as [Hx|Hx].
      + eapply IH; [|exact Ep|exact Hx]. subst p. now apply numbers_select.
      + eapply IH; [|exact Ef|exact Hx]. subst f. now apply numbers_select.
    - injection H as <-. destruct Hx as [<-|[]]. destruct Hd as (_ & _ & (l & Hl) & _). exists l. split; auto. unfold can_split in Hc. rewrite Hl in Hc.
      apply Nat.ltb_ge in Hc. now apply distinct_one.
  Qed.
  (** *** the score of a class *)
  Lemma class_score (d : data N) names (l : list nat) s : pred d = CCat names l -> l <> [] -> score d = Ok (SCat s) ->
    exists c, (c < length names)%nat /\ s = nth c names "" /\ forall c', (c' < length names)%nat -> (count c' l <= count c l)%nat.
  Proof.
    intros Hp Hl H. unfold score in H. rewrite Hp in H. destruct (argmax N (distribution N names l)) as [c|] eqn:E; [|discriminate H]. cbn [rbind] in H. injection H as <-.
    apply (argmax_max srt) in E. destruct E as [E1 E2]. unfold distribution in E1, E2. assert (L0 : Nat.eqb (length l) 0 = false) by (destruct l; [easy|reflexivity]).
    rewrite L0 in E1, E2. rewrite map_length, seq_length in E1. exists c. split; auto. split; auto. intros c' Hc'.
    set (h := fun c : nat => INR (count c l) / INR (length l)) in *.
    assert (L : h c' <= h c).
    { specialize (E2 (h c')). match type of E2 with _ -> _ <= ?b => assert (Eb : b = h c) by (apply (nth_map_seq h); exact E1); rewrite Eb in E2 end. apply E2. apply in_map_iff. exists c'. split; [reflexivity|]. apply in_seq. lia. }
    unfold h in L. apply INR_le. apply Rmult_le_reg_r with (/ INR (length l)); [|exact L]. apply Rinv_0_lt_compat, lt_0_INR. destruct l; [easy|cbn; lia].
  Qed.
End Complete.
