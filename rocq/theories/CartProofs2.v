(** Proofs about whole trees. *)
From Coq Require Import Permutation.
From Verif Require Import Base ScopeModel CartModel CartSpec CartProofs.
Open Scope string_scope.
Open Scope list_scope.

Section Trees.
  Variable N : arith.
  Notation data := (data N).
  Notation tree := (tree N).

  Inductive grown : tree -> Prop :=
  | gr_leaf d : grown (Leaf d)
  | gr_node d g i s p f : is_split N d (tree_data p) (tree_data f) i s -> grown p -> grown f -> grown (Node d g i s p f).

  Lemma split_until_grown limit condition fuel : forall depth d t, data_ok d -> split_until fuel limit condition depth d = Ok t ->
    grown t /\ tree_data t = d.
  Proof.
    induction fuel as [|fuel IH]; intros depth d t Hd H; cbn [split_until] in H; [discriminate|].
    destruct (can_split d); [|injection H as <-; split; constructor].
    destruct (split_once limit d) as [[[[[[g i] s] p] f]|]|] eqn:E; cbn [rbind] in H; try discriminate.
    2:{ injection H as <-. split; constructor. }
    pose proof (split_once_some _ _ _ _ _ _ _ _ Hd E) as Hs. destruct (split_rows _ _ _ _ _ _ Hd Hs) as (Hp & Hf & _).
    destruct (condition _ depth).
    - destruct (split_until fuel limit condition (S depth) p) as [tp|] eqn:E1; cbn [rbind] in H; [|discriminate].
      destruct (split_until fuel limit condition (S depth) f) as [tf|] eqn:E2; cbn [rbind] in H; [|discriminate]. injection H as <-.
      destruct (IH _ _ _ Hp E1) as [G1 D1]. destruct (IH _ _ _ Hf E2) as [G2 D2]. split; auto. constructor; auto. now rewrite D1, D2.
    - injection H as <-. split; auto. constructor; auto; constructor.
  Qed.

  Lemma filter_split {B} (q : B -> bool) l : Permutation (filter q l ++ filter (fun x => negb (q x)) l) l.
  Proof.
    induction l as [|x l IH]; cbn; auto. destruct (q x); cbn; [now constructor|]. rewrite <- Permutation_middle. now constructor.
  Qed.
  Lemma grown_rows t : grown t -> data_ok (tree_data t) ->
    (forall d, In d (leaves t) -> data_ok d) /\ Permutation (flat_map rows (leaves t)) (rows (tree_data t)).
  Proof.
    induction 1 as [d|d g i s p f Hs Hp IHp Hf IHf]; cbn; intros Hd.
    - split; [intros x [<-|[]]; auto|]. now rewrite app_nil_r.
    - destruct (split_rows _ _ _ _ _ _ Hd Hs) as (Op & Of & R1 & R2 & _). destruct (IHp Op) as [A1 A2]. destruct (IHf Of) as [B1 B2]. split.
      + intros x Hx. apply in_app_or in Hx. destruct Hx; auto.
      + rewrite flat_map_app, A2, B2, R1, R2. apply filter_split.
  Qed.
  Lemma grown_nonempty t : grown t -> (0 < size (tree_data t))%nat -> forall d, In d (leaves t) -> (0 < size d)%nat.
  Proof.
    induction 1 as [d|d g i s p f Hs Hp IHp Hf IHf]; cbn; intros Hd x Hx.
    - destruct Hx as [<-|[]]; auto.
    - destruct (sp_some _ _ _ _ _ _ Hs) as [S1 S2]. apply in_app_or in Hx. destruct Hx; auto.
  Qed.
  Lemma leaf_row t d r : grown t -> data_ok (tree_data t) -> In d (leaves t) -> In r (rows d) -> In r (rows (tree_data t)).
  Proof.
    intros Hg Hd H Hr. destruct (grown_rows t Hg Hd) as [_ P]. eapply Permutation_in; [exact P|]. apply in_flat_map. eauto.
  Qed.
  Lemma grown_route t : grown t -> data_ok (tree_data t) -> forall d r, In d (leaves t) -> In r (rows d) -> route t (fst r) = d.
  Proof.
    induction 1 as [d|d g i s p f Hs Hp IHp Hf IHf]; cbn; intros Hd x r Hx Hr.
    - now destruct Hx as [<-|[]].
    - destruct (split_rows _ _ _ _ _ _ Hd Hs) as (Op & Of & R1 & R2 & _). apply in_app_or in Hx. destruct Hx as [Hx|Hx].
      + pose proof (leaf_row _ _ _ Hp Op Hx Hr) as Hi. rewrite R1 in Hi. apply filter_In in Hi. destruct Hi as [_ ->]. eauto.
      + pose proof (leaf_row _ _ _ Hf Of Hx Hr) as Hi. rewrite R2 in Hi. apply filter_In in Hi. destruct Hi as [_ Hi]. apply negb_true_iff in Hi. rewrite Hi. eauto.
  Qed.

  (** *** Growth ends *)
  Lemma fuel_enough limit condition n : forall f1 f2 depth (d : data), data_ok d -> (size d <= n)%nat -> (n < f1)%nat -> (n < f2)%nat ->
    split_until f1 limit condition depth d = split_until f2 limit condition depth d.
  Proof.
    induction n as [n IH] using lt_wf_ind. intros f1 f2 depth d Hd Hn H1 H2. destruct f1 as [|f1], f2 as [|f2]; try lia. cbn [split_until].
    destruct (can_split d); auto. destruct (split_once limit d) as [[[[[[g i] s] p] f]|]|] eqn:E; cbn [rbind]; auto.
    pose proof (split_once_some _ _ _ _ _ _ _ _ Hd E) as Hs. destruct (split_rows _ _ _ _ _ _ Hd Hs) as (Op & Of & _ & _ & S1 & S2).
    destruct (condition _ depth); auto.
    rewrite (IH (n - 1)%nat ltac:(lia) f1 f2) by (auto; lia). now rewrite (IH (n - 1)%nat ltac:(lia) f1 f2 _ f) by (auto; lia).
  Qed.
  Hypothesis sorts : forall l, length (argsort N l) = length l.
  Lemma last_argmax_ok (l : list (num N)) : l <> [] -> exists i, last_argmax N l = Ok i.
  Proof.
    intros H. unfold last_argmax, argmax. destruct (rev l) as [|x r] eqn:E; [|cbn; eauto]. exfalso. apply H.
    rewrite <- (rev_involutive l), E. reflexivity.
  Qed.
  Lemma removelast_len {B} (l : list B) : length (removelast l) = (length l - 1)%nat.
  Proof. induction l as [|x [|y l] IH]; cbn in *; auto. lia. Qed.
  Lemma distinct_len (l : list (num N)) : (length (distinct N l) <= length l)%nat.
  Proof. induction l as [|x l IH]; cbn; auto. destruct existsb; cbn; lia. Qed.
  Lemma field_term_ok limit (d : data) c : data_ok d -> limit <> Some O -> can_split d = true -> In c (fields d) -> exists gs, field_term N limit (pred d) c = Ok gs.
  Proof.
    intros [Hp Hf] Hl Hc Hi. specialize (Hf c Hi). unfold can_split in Hc. unfold size in *.
    assert (Hn : (0 < col_len (pred d))%nat /\ (match pred d with CReal l => (1 < length l)%nat | CCat _ _ => True end)).
    { destruct (pred d) as [l|names l]; cbn [col_len]; apply Nat.ltb_lt in Hc.
      - pose proof (distinct_len l). lia.
      - split; auto. destruct l as [|x l]; cbn; [|lia]. exfalso. clear -Hc. revert Hc. induction (seq 0 (length names)); cbn; [lia|auto]. }
    destruct Hn as [N1 N2]. destruct (pred d) as [preds|pn cats]; cbn [col_len] in *; destruct c as [values|names codes]; cbn [field_term].
    - unfold numeric_nvar. destruct (last_argmax_ok (nvar_gains N (sorted_by (argsort N values) (zero N) preds))) as [i ->]; [|cbn; eauto].
      intros H. apply (f_equal (@length _)) in H. cbn zeta in H. unfold nvar_gains in H. rewrite removelast_len, map_length, seq_length in H.
      unfold sorted_by in H. rewrite map_length, sorts in H. destruct Hf as [Hf _]. cbn in Hf, H. lia.
    - unfold categorical_nvar. cbn zeta. unfold as_split. destruct best_of as [[g s]|] eqn:E; [eauto|]. exfalso. revert E. apply best_of_some. left.
      apply candidates_some; auto. intros H. apply (f_equal (@length _)) in H. rewrite seq_length in H. apply length_zero_iff_nil in H. revert H.
      destruct Hf as [Hf Hf']. cbn in Hf. apply (present_some N names codes (length preds)); [lia|split; auto].
    - unfold numeric_entropy. destruct (last_argmax_ok (entropy_gains N (length pn) (sorted_by (argsort N values) O cats))) as [i ->]; [|cbn; eauto].
      intros H. apply (f_equal (@length _)) in H. unfold entropy_gains in H. rewrite map_length, seq_length in H.
      unfold sorted_by in H. rewrite map_length, sorts in H. destruct Hf as [Hf _]. cbn in Hf, H. lia.
    - unfold categorical_entropy. cbn zeta. unfold as_split. destruct best_of as [[g s]|] eqn:E; [eauto|]. exfalso. revert E. apply best_of_some. left.
      apply candidates_some; auto. destruct Hf as [Hf Hf']. cbn in Hf. apply (present_some N names codes (length cats)); [lia|split; auto].
  Qed.
  Lemma best_field_ok limit p fs : forall i best, (forall c, In c fs -> exists gs, field_term N limit p c = Ok gs) -> fs <> [] \/ best <> None ->
    exists b, best_field N limit p i fs best = Ok (Some b).
  Proof.
    induction fs as [|c fs IH]; intros i best H Hn; cbn.
    - destruct best as [b|]; [eauto|]. destruct Hn; easy.
    - destruct (H c (or_introl eq_refl)) as [gs ->]. cbn [rbind]. apply IH; [intros; apply H; now right|]. right. unfold better.
      destruct best as [[[m j] t]|]; [destruct gt|]; discriminate.
  Qed.
  Lemma split_once_ok limit (d : data) : data_ok d -> limit <> Some O -> can_split d = true -> fields d <> [] -> exists o, split_once limit d = Ok o.
  Proof.
    intros Hd Hl Hc Hf. unfold split_once. destruct (best_field_ok limit (pred d) (fields d) O None) as [[[g i] s] ->]; auto.
    - intros c Hi. now apply field_term_ok.
    - cbn [rbind]. cbn zeta. destruct (_ && _)%bool; eauto.
  Qed.
  Lemma grows limit condition fuel : forall depth (d : data), data_ok d -> limit <> Some O -> fields d <> [] -> (size d < fuel)%nat ->
    exists t, split_until fuel limit condition depth d = Ok t.
  Proof.
    induction fuel as [|fuel IH]; intros depth d Hd Hl Hf Hs; [lia|]. cbn [split_until]. destruct (can_split d) eqn:Hc; [|eauto].
    destruct (split_once_ok limit d Hd Hl Hc Hf) as [o E]. rewrite E. cbn [rbind]. destruct o as [[[[[g i] s] p] f]|]; [|eauto].
    pose proof (split_once_some _ _ _ _ _ _ _ _ Hd E) as Hi. destruct (split_rows _ _ _ _ _ _ Hd Hi) as (Op & Of & _ & _ & S1 & S2).
    destruct (condition _ depth); [|eauto].
    assert (F : forall m, fields (select_data m d) <> []) by (intros m H; apply Hf; cbn in H; now apply map_eq_nil in H).
    destruct (IH (S depth) p) as [tp ->]; auto; [rewrite (sp_pass _ _ _ _ _ _ Hi); apply F|lia|].
    destruct (IH (S depth) f) as [tf ->]; auto; [rewrite (sp_fail _ _ _ _ _ _ Hi); apply F|lia|]. cbn. eauto.
  Qed.
End Trees.
