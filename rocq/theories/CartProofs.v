(** Proofs about the shape of decision trees. *)
From Coq Require Import Permutation.
From Verif Require Import Base ScopeModel CartModel CartSpec.
Open Scope string_scope.
Open Scope list_scope.

Section Picks.
  Context {B : Type}.
  Lemma filter_len (q : B -> bool) l : (length (filter q l) <= length l)%nat.
  Proof. induction l as [|x l IH]; cbn; auto. destruct (q x); cbn; lia. Qed.
  Lemma pick_length (m : list bool) : forall l : list B, length m = length l ->
    (length (pick m l) + length (pick (map negb m) l))%nat = length l.
  Proof. induction m as [|b m IH]; intros [|x l] H; cbn in *; try discriminate; auto. injection H as H. specialize (IH l H). destruct b; cbn; lia. Qed.
  Lemma pick_map {C} (g : B -> C) m : forall l, pick m (map g l) = map g (pick m l).
  Proof. induction m as [|b m IH]; intros [|x l]; cbn; auto. destruct b; cbn; now rewrite IH. Qed.
  Lemma pick_perm m : forall l : list B, length m = length l -> Permutation (pick m l ++ pick (map negb m) l) l.
  Proof.
    induction m as [|b m IH]; intros [|x l] H; cbn in *; try discriminate; auto. injection H as H. destruct b; cbn.
    - constructor. auto.
    - rewrite <- Permutation_middle. constructor. auto.
  Qed.
  Lemma pick_filter (q : B -> bool) l : pick (map q l) l = filter q l.
  Proof. induction l as [|x l IH]; cbn; auto. rewrite IH. now destruct (q x). Qed.
  Lemma pick_length_any {C} m : forall (l : list B) (l' : list C), length l = length l' -> length (pick m l) = length (pick m l').
  Proof. induction m as [|b m IH]; intros [|x l] [|y l'] H; cbn in *; try discriminate; auto. injection H as H. destruct b; cbn; auto. Qed.
  Lemma pick_In m : forall (l : list B) x, In x (pick m l) -> In x l.
  Proof. induction m as [|b m IH]; intros [|y l] x H; cbn in *; try easy. destruct b; [destruct H as [->|H]|]; auto. Qed.
  Lemma map_nth_seq (l : list B) d : map (fun i => nth i l d) (seq 0 (length l)) = l.
  Proof. induction l as [|x l IH]; cbn; auto. f_equal. rewrite <- seq_shift, map_map. exact IH. Qed.
End Picks.
Section Picks2.
  Context {B : Type}.
  Lemma pick_index m (l : list B) d : pick m l = map (fun i => nth i l d) (pick m (seq 0 (length l))).
  Proof. rewrite <- pick_map. now rewrite map_nth_seq. Qed.
  Lemma map_seq_nth (l : list B) d {C} (g : B -> C) : map (fun j => g (nth j l d)) (seq 0 (length l)) = map g l.
  Proof. rewrite <- (map_map (fun j => nth j l d) g), map_nth_seq. reflexivity. Qed.
End Picks2.

Section Proofs.
  Variable N : arith.
  Notation data := (data N).
  Notation column := (column N).

  Lemma select_len m (c : column) n : col_len c = n -> col_len (select m c) = length (pick m (seq 0 n)).
  Proof. intros <-. destruct c as [l|names l]; cbn; apply pick_length_any; now rewrite seq_length. Qed.
  Lemma select_cell m (c : column) n j : col_len c = n -> (j < length (pick m (seq 0 n)))%nat ->
    cell_at j (select m c) = cell_at (nth j (pick m (seq 0 n)) O) c.
  Proof.
    intros <- Hj. destruct c as [l|names l]; cbn in *.
    - rewrite (pick_index m l (zero N)). f_equal. rewrite (nth_indep _ _ ((fun i => nth i l (zero N)) O)); [|now rewrite map_length].
      now rewrite (map_nth (fun i => nth i l (zero N))).
    - rewrite (pick_index m l O). f_equal. rewrite (nth_indep _ _ ((fun i => nth i l O) O)) by now rewrite map_length.
      now rewrite (map_nth (fun i => nth i l O)).
  Qed.
  Lemma select_ok m (c : column) n : col_ok n c -> col_ok (length (pick m (seq 0 n))) (select m c).
  Proof.
    intros [H1 H2]. split; [now apply select_len|]. destruct c as [l|names l]; cbn; auto. destruct H2 as [H2 H3]. split; auto.
    intros x Hx. apply pick_In in Hx. auto.
  Qed.
  Lemma select_size m (d : data) : data_ok d -> size (select_data m d) = length (pick m (seq 0 (size d))).
  Proof. intros [[H _] _]. unfold size, select_data. cbn. now apply select_len. Qed.
  Lemma select_data_ok m (d : data) : data_ok d -> data_ok (select_data m d).
  Proof.
    intros H. pose proof (select_size m d H) as Hs. destruct H as [H1 H2]. unfold data_ok. rewrite Hs. split; cbn.
    - now apply select_ok.
    - intros c Hc. apply in_map_iff in Hc. destruct Hc as (c' & <- & Hc). apply select_ok. auto.
  Qed.
  Lemma select_rows m (d : data) : data_ok d -> rows (select_data m d) = pick m (rows d).
  Proof.
    intros H. unfold rows. rewrite (select_size m d H). rewrite pick_map.
    rewrite <- (map_seq_nth (pick m (seq 0 (size d))) O (row_at d)). apply map_ext_in. intros j Hj. apply in_seq in Hj.
    destruct H as [[H1 _] H2]. unfold row_at, select_data. cbn [fields pred]. f_equal.
    - rewrite map_map. apply map_ext_in. intros c Hc. apply select_cell; [apply (H2 c Hc)|lia].
    - apply select_cell; auto. lia.
  Qed.
  Lemma rows_length (d : data) : length (rows d) = size d.
  Proof. unfold rows. now rewrite map_length, seq_length. Qed.

  (** the selection of a split is the test of its rows *)
  Lemma passes_len (c : column) s : length (passes c s) = col_len c.
  Proof. destruct c, s; cbn; rewrite ?map_length, ?seq_length; auto. Qed.
  Lemma code_test (names : list string) codes c : NoDup names -> (c < length names)%nat -> (forall k, In k codes -> (k < length names)%nat) ->
    in_set codes c = existsb (fun k => String.eqb (nth k names "") (nth c names "")) codes.
  Proof.
    intros Hd Hc Hk. unfold in_set. induction codes as [|k codes IH]; cbn; auto. rewrite IH by (intros; apply Hk; now right). f_equal.
    destruct (Nat.eqb_spec c k) as [->|Hn]; [now rewrite String.eqb_refl|]. symmetry. apply String.eqb_neq. intros He. apply Hn.
    symmetry. eapply NoDup_nth; eauto. apply Hk. now left.
  Qed.
  Definition split_fits (c : column) (s : split N) : Prop :=
    match c, s with
    | CReal _, Cut _ => True
    | CCat names _, Among codes => forall k, In k codes -> (k < length names)%nat
    | _, _ => False
    end.
  Lemma passes_test (c : column) s n : col_ok n c -> split_fits c s ->
    passes c s = map (fun i => test_of c s (cell_at i c)) (seq 0 n).
  Proof.
    intros [<- H] F. destruct c as [l|names l], s as [y|codes]; cbn in *; try easy.
    - now rewrite (map_seq_nth l (zero N) (fun x => le N x y)).
    - destruct H as [Hd Hl]. rewrite (map_seq_nth l O (fun x => existsb (fun k => String.eqb (nth k names "") (nth x names "")) codes)).
      apply map_ext_in. intros x Hx. apply code_test; auto.
  Qed.

  (** *** splitting once *)
  Lemma argmax_from_lt l : forall i best (m : num N), (best < i)%nat -> (argmax_from N i best m l < i + length l)%nat.
  Proof. induction l as [|x l IH]; intros i best m H; cbn; [lia|]. destruct gt; [specialize (IH (S i) i x)|specialize (IH (S i) best m)]; lia. Qed.
  Lemma best_of_in term sets : forall best g s, best_of N term best sets = Some (g, s) -> best = Some (g, s) \/ In s sets.
  Proof.
    induction sets as [|x sets IH]; intros best g s H; cbn in H; auto. apply IH in H. destruct H as [H|H]; [|right; now right].
    destruct best as [[m y]|]; [destruct gt|]; auto; injection H as <- <-; right; now left.
  Qed.
  Lemma best_of_some term sets : forall b, sets <> [] \/ b <> None -> best_of N term b sets <> None.
  Proof.
    induction sets as [|x sets IH]; intros b H; cbn; [destruct H; easy|]. apply IH. right. destruct b as [[m y]|]; [destruct gt|]; discriminate.
  Qed.
  Lemma combinations_in {B} (l : list B) : forall k s x, In s (combinations k l) -> In x s -> In x l.
  Proof.
    induction l as [|y l IH]; intros [|k] s x Hs Hx; cbn in Hs.
    - destruct Hs as [<-|[]]. destruct Hx.
    - destruct Hs.
    - destruct Hs as [<-|[]]. destruct Hx.
    - apply in_app_or in Hs. destruct Hs as [Hs|Hs].
      + apply in_map_iff in Hs. destruct Hs as (s' & <- & Hs). destruct Hx as [<-|Hx]; [now left|right; eauto].
      + right. eauto.
  Qed.
  Lemma combinations_length {B} (l : list B) : forall k s, In s (combinations k l) -> length s = k.
  Proof.
    induction l as [|y l IH]; intros [|k] s Hs; cbn in Hs.
    - now destruct Hs as [<-|[]].
    - destruct Hs.
    - now destruct Hs as [<-|[]].
    - apply in_app_or in Hs. destruct Hs as [Hs|Hs]; [|eauto]. apply in_map_iff in Hs. destruct Hs as (s' & <- & Hs). cbn. f_equal. eauto.
  Qed.
  Lemma candidates_in limit l s x : In s (candidates limit l) -> In x s -> In x l.
  Proof. intros H Hx. apply in_flat_map in H. destruct H as (k & _ & H). eapply combinations_in; eauto. Qed.
  Lemma candidates_some limit l : limit <> Some O -> l <> [] -> candidates limit l <> [].
  Proof.
    intros Hl Hn. unfold candidates. destruct l as [|x l]; [easy|]. assert (Hp : (0 < subset_limit limit (length (x :: l)))%nat).
    { unfold subset_limit. assert (1 <= (length (x :: l) + 1) / 2)%nat by (apply Nat.div_le_lower_bound; cbn; lia).
      destruct limit as [[|m]|]; [easy| |]; lia. }
    destruct (subset_limit _ _) as [|k]; [lia|]. cbn. destruct l; cbn; intros H; discriminate H.
  Qed.
  Definition present (names : list string) (codes : list nat) : list nat :=
    filter (fun c => negb (Nat.eqb (count c codes) 0)) (seq 0 (length names)).
  Lemma present_in names codes c : In c (present names codes) <-> (c < length names)%nat /\ In c codes.
  Proof.
    unfold present. rewrite filter_In, in_seq. cbn. split; intros [H1 H2]; split; try lia.
    - unfold count in H2. destruct (filter (Nat.eqb c) codes) as [|y l] eqn:E; [cbn in H2; discriminate H2|].
      assert (H : In y (filter (Nat.eqb c) codes)) by (rewrite E; now left). apply filter_In in H. destruct H as [H H3]. apply Nat.eqb_eq in H3. now subst.
    - unfold count. assert (H : In c (filter (Nat.eqb c) codes)) by (apply filter_In; split; auto; apply Nat.eqb_refl).
      destruct (filter (Nat.eqb c) codes); [destruct H|reflexivity].
  Qed.
  Lemma present_some names codes n : (0 < length codes)%nat -> col_ok n (@CCat N names codes) -> present names codes <> [].
  Proof.
    intros Hl [_ [_ H]]. destruct codes as [|c codes]; [cbn in Hl; lia|]. intros Hp.
    assert (Hc : In c (present names (c :: codes))) by (apply present_in; split; [apply H|]; now left). rewrite Hp in Hc. destruct Hc.
  Qed.
  Lemma field_term_fits limit p c g s n : col_ok n c -> field_term N limit p c = Ok (g, s) -> split_fits c s.
  Proof.
    intros [Hn Hc] H. destruct p as [preds|pn cats], c as [values|names codes]; cbn in H.
    - unfold numeric_nvar in H. destruct last_argmax; [|discriminate]. cbn in H. injection H as _ <-. exact I.
    - unfold categorical_nvar in H. unfold as_split in H. destruct best_of as [[g' s']|] eqn:E; [|discriminate]. injection H as _ <-.
      apply best_of_in in E. destruct E as [E|E]; [discriminate|]. intros k Hk. apply candidates_in with (x := k) in E; auto.
      apply in_seq in E. assert (length (filter (fun c => negb (Nat.eqb (count c codes) 0)) (seq 0 (length names))) <= length names)%nat; [|cbn in *; lia].
      rewrite <- (seq_length (length names) 0) at 2. apply filter_len.
    - unfold numeric_entropy in H. destruct last_argmax; [|discriminate]. cbn in H. injection H as _ <-. exact I.
    - unfold categorical_entropy in H. unfold as_split in H. destruct best_of as [[g' s']|] eqn:E; [|discriminate]. injection H as _ <-.
      apply best_of_in in E. destruct E as [E|E]; [discriminate|]. intros k Hk. apply candidates_in with (x := k) in E; auto.
      apply present_in in E. tauto.
  Qed.
  Lemma best_field_fits limit p n fs : forall i0 best b pre, length pre = i0 -> (forall c, In c (pre ++ fs) -> col_ok n c) ->
    (forall g i s, best = Some (g, i, s) -> (i < i0)%nat /\ split_fits (nth i (pre ++ fs) (CReal [])) s) ->
    best_field N limit p i0 fs best = Ok b ->
    forall g i s, b = Some (g, i, s) -> (i < length (pre ++ fs))%nat /\ split_fits (nth i (pre ++ fs) (CReal [])) s.
  Proof.
    induction fs as [|c fs IH]; intros i0 best b pre Hp Hc Hb H g i s E; cbn in H.
    - injection H as <-. destruct (Hb _ _ _ E) as [H1 H2]. split; auto. rewrite app_length. cbn. lia.
    - destruct (field_term N limit p c) as [[g1 s1]|] eqn:Ef; [|discriminate]. cbn in H.
      assert (Happ : pre ++ c :: fs = (pre ++ [c]) ++ fs) by now rewrite <- app_assoc. rewrite Happ in *.
      eapply (IH (S i0) _ b (pre ++ [c])); [| | |exact H|exact E].
      + rewrite app_length. cbn. lia.
      + exact Hc.
      + intros g' i' s' Hbt.
        assert (X : (g', i', s') = (add N g1 (impurity N p), i0, s1) \/ best = Some (g', i', s')).
        { unfold better in Hbt. destruct best as [[[m j] t]|]; [destruct gt|]; auto; injection Hbt as <- <- <-; auto. }
        destruct X as [X|X].
        * injection X as -> -> ->. split; [lia|]. rewrite app_nth1 by (rewrite app_length; cbn; lia).
          rewrite app_nth2, Hp, Nat.sub_diag by lia. cbn. eapply field_term_fits; [|exact Ef]. apply Hc. apply in_or_app. left. apply in_or_app. right. now left.
        * destruct (Hb _ _ _ X) as [X1 X2]. split; [lia|exact X2].
  Qed.
  Record is_split (d p f : data) (i : nat) (s : split N) : Prop := {
    sp_field : (i < length (fields d))%nat;
    sp_fits : split_fits (nth i (fields d) (CReal [])) s;
    sp_pass : p = select_data (passes (nth i (fields d) (CReal [])) s) d;
    sp_fail : f = select_data (map negb (passes (nth i (fields d) (CReal [])) s)) d;
    sp_some : (0 < size p)%nat /\ (0 < size f)%nat }.
  Lemma split_once_some limit (d : data) g i s p f : data_ok d -> split_once limit d = Ok (Some (g, i, s, p, f)) -> is_split d p f i s.
  Proof.
    intros Hd H. unfold split_once in H. destruct best_field as [b|] eqn:E; [|discriminate]. cbn [rbind] in H. destruct b as [[[g' i'] s']|]; [|discriminate].
    destruct (Nat.ltb 0 _ && Nat.ltb 0 _)%bool eqn:Hl in H; [|discriminate]. injection H as <- <- <- <- <-.
    destruct (best_field_fits limit (pred d) (size d) (fields d) O None (Some (g', i', s')) [] eq_refl) with (g := g') (i := i') (s := s') as [H1 H2]; auto; try easy.
    { intros c Hc. now apply Hd. }
    cbn in H1, H2. apply andb_prop in Hl. destruct Hl as [L1 L2]. apply Nat.ltb_lt in L1, L2.
    assert (Hz : forall m, (0 < col_len (nth 0 (fields (select_data m d)) (CReal [])))%nat -> (0 < size (select_data m d))%nat).
    { intros m Hm. rewrite select_size by auto. unfold select_data in Hm. cbn [fields] in Hm. destruct (fields d) as [|c fs] eqn:Ef; [cbn in H1; lia|].
      cbn in Hm. rewrite (select_len m c (size d)) in Hm; auto. apply Hd. rewrite Ef. now left. }
    constructor; auto.
  Qed.
  (** the two halves: the rows that pass and those that do not *)
  Lemma split_rows d p f i s : data_ok d -> is_split d p f i s ->
    let q r := test_of (nth i (fields d) (CReal [])) s (nth i (fst r) (XCat "")) in
    data_ok p /\ data_ok f /\ rows p = filter q (rows d) /\ rows f = filter (fun r => negb (q r)) (rows d) /\
    (size p < size d)%nat /\ (size f < size d)%nat.
  Proof.
    intros Hd [H1 H2 -> -> [S1 S2]]. cbn zeta. set (c := nth i (fields d) (CReal [])) in *.
    assert (Hc : col_ok (size d) c) by (apply Hd; now apply nth_In).
    assert (Hm : passes c s = map (fun r => test_of c s (nth i (fst r) (XCat ""))) (rows d)).
    { rewrite (passes_test c s (size d)) by auto. unfold rows. rewrite map_map. apply map_ext. intros j. f_equal. unfold row_at. cbn [fst].
      rewrite (nth_indep _ _ (cell_at j (CReal []))) by now rewrite map_length. now rewrite map_nth. }
    split; [now apply select_data_ok|]. split; [now apply select_data_ok|]. rewrite !select_rows by auto. split; [|split].
    - rewrite Hm. apply pick_filter.
    - rewrite Hm, map_map. apply pick_filter.
    - rewrite !select_size in * by auto. pose proof (pick_length (passes c s) (seq 0 (size d))) as L. rewrite seq_length, passes_len in L.
      rewrite (proj1 Hc) in L. specialize (L eq_refl). lia.
  Qed.
End Proofs.
