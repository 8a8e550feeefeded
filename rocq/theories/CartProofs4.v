(** The best cut of a column of different numbers, and the best set of categories. *)
From Coq Require Import Permutation Reals Lra Sorted.
From Verif Require Import Base ScopeModel CartModel CartSpec CartProofs CartProofs3.
Open Scope list_scope.
Open Scope R_scope.

(** what numpy.argsort does *)
Definition sorts (srt : list R -> list nat) : Prop := forall l, Permutation (srt l) (seq 0 (length l)) /\
  StronglySorted Rle (map (fun i => nth i l 0) (srt l)).
(** the predictands at the places where q holds of the predictor *)
Definition those {A} (q : A -> bool) (l : list A) (preds : list R) : list R := pick (map q l) preds.
Definition left_over {A} (q : A -> bool) (l : list A) (preds : list R) : R :=
  deviation (those q l preds) + deviation (those (fun x => negb (q x)) l preds).

Lemma perm_filter {A} (q : A -> bool) l r : Permutation l r -> Permutation (filter q l) (filter q r).
Proof.
  induction 1; cbn; auto.
  - destruct (q x); auto.
  - destruct (q x), (q y); auto. constructor.
  - now transitivity (filter q l').
Qed.
Lemma strong_map {A B} (g : A -> B) (P : B -> B -> Prop) l : StronglySorted P (map g l) <-> StronglySorted (fun a b => P (g a) (g b)) l.
Proof.
  induction l as [|x l IH]; cbn; split; intros H; try constructor; inversion H; subst.
  - now apply IH.
  - now rewrite Forall_map in *.
  - now apply IH.
  - now rewrite Forall_map.
Qed.
Lemma strict_sorted l : StronglySorted Rle l -> NoDup l -> StronglySorted Rlt l.
Proof.
  induction 1 as [|x l Hs IH Hf]; intros Hd; constructor; inversion Hd as [|? ? Hx Hd']; subst; auto.
  rewrite Forall_forall in *. intros y Hy. specialize (Hf y Hy). destruct Hf as [Hf| ->]; auto. contradiction.
Qed.

Section Numeric.
  Variable srt : list R -> list nat.
  Hypothesis Hsort : sorts srt.
  Notation N := (RA srt).
  Variables values preds : list R.
  Hypothesis Hlen : length values = length preds.
  Hypothesis Hdist : NoDup values.
  Let pair (i : nat) : R * R := (nth i values 0, nth i preds 0).
  Let P := map pair (srt values).
  Let P0 := map pair (seq 0 (length values)).
  Let vs := map (fun i => nth i values 0) (srt values).
  Let ps := map (fun i => nth i preds 0) (srt values).

  Lemma P_perm : Permutation P P0.
  Proof. apply Permutation_map. apply Hsort. Qed.
  Lemma P_len : length P = length values.
  Proof. rewrite (Permutation_length P_perm). unfold P0. now rewrite map_length, seq_length. Qed.
  Lemma P0_fst : map fst P0 = values.
  Proof. unfold P0. rewrite map_map. cbn. apply map_nth_seq. Qed.
  Lemma P0_snd : map snd P0 = preds.
  Proof. unfold P0. rewrite map_map. cbn. rewrite Hlen. apply map_nth_seq. Qed.
  Lemma vs_P : vs = map fst P.
  Proof. unfold vs, P. now rewrite map_map. Qed.
  Lemma ps_P : ps = map snd P.
  Proof. unfold ps, P. now rewrite map_map. Qed.
  Lemma P_sorted : StronglySorted (fun a b => fst a < fst b) P.
  Proof.
    apply (strong_map fst Rlt). rewrite <- vs_P. apply strict_sorted; [apply Hsort|]. rewrite vs_P.
    eapply Permutation_NoDup; [apply Permutation_map, Permutation_sym, P_perm|]. now rewrite P0_fst.
  Qed.
  Lemma those_P q : Permutation (those q values preds) (map snd (filter (fun p => q (fst p)) P)).
  Proof.
    unfold those. rewrite <- P0_snd at 1. rewrite <- P0_fst at 1. rewrite map_map, pick_map, pick_filter.
    apply Permutation_map, perm_filter, Permutation_sym, P_perm.
  Qed.
  Lemma gain_index y k : length (filter (fun p => below y (fst p)) P) = S k -> (S k < length values)%nat ->
    nth k (nvar_gains N ps) 0 = - left_over (below y) values preds.
  Proof.
    intros Hk Hn. rewrite nvar_gains_nth by (rewrite ps_P, map_length, P_len; lia). destruct (sorted_filter fst P y P_sorted) as [E1 E2].
    unfold left_over. rewrite (deviation_perm _ _ (those_P (below y))), (deviation_perm _ _ (those_P (fun x => negb (below y x)))).
    rewrite E1, E2, Hk, ps_P, firstn_map, skipn_map. lra.
  Qed.
  Lemma vs_nth i : (i < length values)%nat -> nth i vs 0 = fst (nth i P (0, 0)).
  Proof. intros H. rewrite vs_P. change 0 with (fst (0, 0)) at 1. now rewrite map_nth. Qed.
  Lemma sorted_nth {B} (val : B -> R) (l : list B) d : StronglySorted (fun a b => val a < val b) l ->
    forall i j, (i < j < length l)%nat -> val (nth i l d) < val (nth j l d).
  Proof.
    induction 1 as [|x l Hs IH Hf]; intros i j Hij; cbn in Hij; [lia|]. rewrite Forall_forall in Hf. destruct j as [|j]; [lia|].
    destruct i as [|i]; cbn [nth]; [apply Hf, nth_In; lia|]. apply IH. lia.
  Qed.
  Lemma vs_lt i j : (i < j < length values)%nat -> nth i vs 0 < nth j vs 0.
  Proof. intros H. rewrite !vs_nth by lia. apply sorted_nth; [apply P_sorted|]. rewrite P_len. lia. Qed.
  Lemma vs_len : length vs = length values.
  Proof. rewrite vs_P, map_length. apply P_len. Qed.
  Lemma cut_between i : (S i < length values)%nat -> cut_value N vs i = (nth i vs 0 + nth (S i) vs 0) / 2.
  Proof.
    intros Hi. transitivity ((nth i vs 0 + nth (next_higher N (length vs) vs i i) vs 0) / 2); [reflexivity|].
    assert (G : next_higher N (length vs) vs i i = S i); [|now rewrite G].
    assert (Hn : exists n, length values = S (S n)) by (exists (length values - 2)%nat; lia). destruct Hn as [n E].
    rewrite vs_len, E. cbn [next_higher].
    repeat change (@nth (num N)) with (@nth R). repeat change (@length (num N)) with (@length R). rewrite vs_len, E.
    cbn [eq RA zero]. destruct (Req_EM_T (nth i vs 0) (nth i vs 0)) as [_|C]; [|now destruct C].
    replace (Nat.ltb i (S (S n) - 1)) with true by (symmetry; apply Nat.ltb_lt; lia). cbn [andb].
    destruct (Nat.ltb_spec (S i) (S (S n) - 1)) as [L|L]; cbn [andb]; auto.
    destruct (Req_EM_T (nth (S i) vs 0) (nth i vs 0)) as [C|_]; auto. pose proof (vs_lt i (S i) ltac:(lia)). lra.
  Qed.
  (** the split that numericalNVarianceGainTerm finds *)
  Lemma numeric_best g x : numeric_nvar N values preds = Ok (g, Cut x) -> 
    g = - left_over (below x) values preds /\ those (below x) values preds <> [] /\ those (fun v => negb (below x v)) values preds <> [] /\
    forall y, those (below y) values preds <> [] -> those (fun v => negb (below y v)) values preds <> [] -> - left_over (below y) values preds <= g.
  Proof.
    intros H. change (rbind (last_argmax N (nvar_gains N ps)) (fun i => Ok (nth i (nvar_gains N ps) 0, @Cut N (cut_value N vs i))) = Ok (g, Cut x)) in H.
    destruct (last_argmax N (nvar_gains N ps)) as [i|] eqn:E; [|discriminate H]. injection H as <- Hx. apply last_argmax_max in E.
    destruct E as [E1 E2]. assert (Hg : length (nvar_gains N ps) = (length values - 1)%nat).
    { unfold nvar_gains. rewrite removelast_firstn_len, firstn_length, map_length, seq_length. rewrite ps_P at 1. 
      repeat change (@length (num N)) with (@length R). rewrite ps_P, map_length, P_len. lia. }
    repeat change (num N) with R in E1, Hg. rewrite Hg in E1. assert (Hi : (S i < length values)%nat) by lia. pose proof (cut_between i Hi) as Hc.
    assert (Hx' : x = (nth i vs 0 + nth (S i) vs 0) / 2) by (rewrite <- Hx; exact Hc).
    pose proof (vs_lt i (S i) ltac:(lia)) as Hlt.
    assert (Hk : length (filter (fun p => below x (fst p)) P) = S i).
    { apply (sorted_cut fst P (0, 0)); [apply P_sorted|rewrite P_len; lia|]. rewrite <- !vs_nth by lia. lra. }
    assert (L1 : forall y, length (those (below y) values preds) = length (filter (fun p => below y (fst p)) P)).
    { intros y. rewrite (Permutation_length (those_P (below y))). now rewrite map_length. }
    assert (L2 : forall y, (length (those (below y) values preds) + length (those (fun v => negb (below y v)) values preds))%nat = length values).
    { intros y. unfold those. rewrite <- (map_map (below y) negb). rewrite pick_length; auto. now rewrite map_length. }
    split; [now apply gain_index|]. split; [|split].
    - intros C. specialize (L1 x). rewrite C, Hk in L1. cbn in L1. lia.
    - intros C. specialize (L2 x). rewrite L1, Hk, C in L2. cbn in L2. lia.
    - intros y Y1 Y2. destruct (length (filter (fun p => below y (fst p)) P)) as [|k] eqn:Ek.
      + exfalso. apply Y1. apply length_zero_iff_nil. now rewrite L1.
      + assert (Hy : (S k < length values)%nat).
        { specialize (L2 y). rewrite L1, Ek in L2. destruct (those (fun v => negb (below y v)) values preds); [easy|]. cbn in L2. lia. }
        rewrite <- (gain_index y k Ek Hy). apply E2. apply (@nth_In R). apply (Nat.lt_le_trans _ (length values - 1)); [lia|]. rewrite <- Hg. apply le_n.
  Qed.
End Numeric.
