(** The split of a node is the best one. *)
From Coq Require Import Permutation Reals Lra Sorted.
From Verif Require Import Base ScopeModel CartModel CartSpec CartProofs CartProofs2 CartProofs3 CartProofs4 CartProofs5.
Open Scope list_scope.
Open Scope R_scope.

(** the entropy of a list of categories, in bits *)
Definition plogp (x : R) : R := if Req_EM_T x 0 then 0 else x * (ln x / ln 2).
Definition entropy (k : nat) (l : list nat) : R := - rsum (map (fun c => plogp (INR (count c l) / INR (length l))) (seq 0 k)).

(** different numbers; every category occurs *)
Definition clear_column {N} (c : column N) : Prop :=
  match c with CReal l => NoDup l | CCat names codes => forall k, (k < length names)%nat -> In k codes end.

Lemma filter_both2 (q : nat -> bool) l : (length (filter q l) + length (filter (fun c => negb (q c)) l))%nat = length l.
Proof. induction l as [|x l IH]; cbn; auto. destruct (q x); cbn; lia. Qed.

Section Best.
  Variable srt : list R -> list nat.
  Hypothesis Hsort : sorts srt.
  Notation N := (RA srt).

  Definition rest_after (c : column N) (s : split N) (preds : list R) : R :=
    deviation (pick (passes c s) preds) + deviation (pick (map negb (passes c s)) preds).
  Definition separates {B} (c : column N) (s : split N) (l : list B) : Prop := pick (passes c s) l <> [] /\ pick (map negb (passes c s)) l <> [].

  Lemma term_best n (c : column N) (preds : list R) g s : col_ok n c -> length preds = n -> clear_column c ->
    field_term N None (@CReal N preds) c = Ok (g, s) ->
    g = - rest_after c s preds /\ forall s', split_fits N c s' -> separates c s' preds -> - rest_after c s' preds <= g.
  Proof.
    intros Hc Hn Hd H. pose proof (field_term_fits N None _ c g s n Hc H) as F. destruct Hc as [Hl Hc]. unfold rest_after, separates.
    destruct c as [values|names codes], s as [x|s]; cbn in F; try contradiction; cbn [field_term] in H.
    - cbn in Hl, Hd. destruct (numeric_best srt Hsort values preds ltac:(congruence) Hd g x H) as (H1 & _ & _ & H4). cbn [passes].
      change (fun y : num N => le N y x) with (below x). rewrite map_map. split; [exact H1|].
      intros [y|s'] Fs [Y1 Y2]; [|contradiction]. cbn [passes] in *. change (fun z : num N => le N z y) with (below y) in *. rewrite map_map in *.
      now apply (H4 y).
    - destruct Hc as [Hc1 Hc2]. cbn in Hl, Hd. assert (HL : length codes = length preds) by congruence.
      pose proof H as H'. apply set_best in H'; auto. destruct H' as [H1 _]. cbn [passes]. rewrite map_map. split; [exact H1|].
      intros [y|s'] Fs [Y1 Y2]; [contradiction|]. cbn [passes] in *. rewrite map_map in *.
      now apply (set_best_all srt names codes preds HL Hc2 Hd g s (in_set s')).
  Qed.

  Lemma best_field_max limit p fs : forall i0 best g i s pre, length pre = i0 ->
    (forall m j s', best = Some (m, j, s') -> (j < i0)%nat) ->
    best_field N limit p i0 fs best = Ok (Some (g, i, s)) ->
    (best = Some (g, i, s) \/ (i0 <= i < i0 + length fs)%nat /\ exists g0, field_term N limit p (nth i (pre ++ fs) (CReal [])) = Ok (g0, s) /\ g = g0 + impurity N p) /\
    (match best with Some (m, _, _) => m <= g | None => True end) /\
    (forall c, In c fs -> exists g0 s0, field_term N limit p c = Ok (g0, s0) /\ g0 + impurity N p <= g).
  Proof.
    induction fs as [|c fs IH]; intros i0 best g i s pre Hp Hb H; cbn [best_field] in H.
    - injection H as ->. split; [now left|]. split; [lra|intros ? []].
    - destruct (field_term N limit p c) as [[g0 s0]|] eqn:E; [|discriminate H]. cbn [rbind fst snd] in H.
      specialize (IH (S i0) (better N i0 (add N g0 (impurity N p)) s0 best) g i s (pre ++ [c])).
      rewrite app_length in IH. cbn [length] in IH. specialize (IH ltac:(lia)). rewrite <- app_assoc in IH. cbn [app] in IH.
      destruct IH as (I1 & I2 & I3); auto.
      { intros m j s' Hm. unfold better in Hm. destruct best as [[[m0 j0] s1]|]; [destruct gt|]; injection Hm as <- <- <-; try lia.
        specialize (Hb m0 j0 s1 eq_refl). lia. }
      assert (Hnth : nth i0 (pre ++ c :: fs) (CReal []) = c) by (rewrite app_nth2 by lia; rewrite Hp, Nat.sub_diag; reflexivity).
      assert (Hnew : better N i0 (add N g0 (impurity N p)) s0 best = best /\ (match best with Some (m, _, _) => g0 + impurity N p <= m | None => False end) \/
                     better N i0 (add N g0 (impurity N p)) s0 best = Some (g0 + impurity N p, i0, s0) /\ (match best with Some (m, _, _) => m <= g0 + impurity N p | None => True end)).
      { unfold better. destruct best as [[[m0 j0] s1]|]; [|now right]. cbn [gt RA]. change (add N g0 (impurity N p)) with (g0 + impurity N p) in *.
        destruct (Rlt_dec m0 (g0 + impurity N p)); [right|left]; split; auto; lra. }
      split; [|split].
      + destruct I1 as [I1|[I1 (g1 & I4 & I5)]].
        * destruct Hnew as [[E' _]|[E' _]]; rewrite E' in I1; [now left|]. injection I1 as <- <- <-. right. split; [cbn; lia|].
          exists g0. rewrite Hnth. split; auto.
        * right. split; [cbn; lia|]. exists g1. auto.
      + destruct Hnew as [[E' L]|[E' L]]; rewrite E' in I2; [exact I2|]. destruct best as [[[m0 j0] s1]|]; auto.
        eapply Rle_trans; [exact L|exact I2].
      + intros c' [<-|Hc']; [|auto]. exists g0, s0. split; auto. destruct Hnew as [[E' L]|[E' L]]; rewrite E' in I2; [|exact I2].
        destruct best as [[[m0 j0] s1]|]; [|contradiction]. eapply Rle_trans; [exact L|exact I2].
  Qed.

  Lemma impurity_deviation (l : list R) : l <> [] -> impurity N (@CReal N l) = deviation l.
  Proof.
    intros H. set (m := rsum l / INR (length l)). change (mul N) with Rmult.
    transitivity (INR (length l) * (sum N (map (fun x => sq N (x - sum N l / INR (length l))) l) / INR (length l))); [reflexivity|].
    assert (E : sum N (map (fun x => sq N (x - sum N l / INR (length l))) l) = deviation l).
    { rewrite sum_rsum, sum_rsum. unfold deviation. apply rsum_map_fun. intros x _. unfold sq, mean. cbn [mul RA]. fold m. ring. }
    rewrite E. generalize (deviation l) as v. intros v. change (@Logic.eq R (INR (length l) * (v / INR (length l))) v). field. apply not_0_INR. destruct l; [easy|discriminate].
  Qed.

  (** the gain of a regression node is the decrease of the squared deviations, and the greatest possible one *)
  Lemma regression_best (d : data N) (l : list R) g i s p f : data_ok d -> pred d = @CReal N l -> (forall c, In c (fields d) -> clear_column c) ->
    split_once None d = Ok (Some (g, i, s, p, f)) ->
    (exists a b, pred p = @CReal N a /\ pred f = @CReal N b /\ g = deviation l - (deviation a + deviation b)) /\
    forall c s', In c (fields d) -> split_fits N c s' -> separates c s' l -> deviation l - rest_after c s' l <= g.
  Proof.
    intros Hd Hp Hc H. pose proof (split_once_some N None d g i s p f Hd H) as Hs. destruct Hd as [Hd1 Hd2].
    assert (Hz : length l = size d) by (unfold size; now rewrite Hp).
    unfold split_once in H. destruct (best_field N None (pred d) 0 (fields d) None) as [[[[g' i'] s']|]|] eqn:E; cbn [rbind] in H; try discriminate H.
    destruct (Nat.ltb 0 _ && Nat.ltb 0 _)%bool eqn:Hl in H; [|discriminate]. injection H as <- <- <- _ _.
    apply best_field_max with (pre := []) in E; auto; [|discriminate]. cbn [app] in E. destruct E as ([E1|[E1 (g0 & E2 & E3)]] & _ & E4); [discriminate E1|].
    assert (Hl0 : l <> []) by (destruct Hs as [_ _ S1 S2 [S3 _]]; intros E0; rewrite S1 in S3; unfold size, select_data in S3; cbn [pred] in S3; rewrite Hp, E0 in S3; cbn [select col_len] in S3; destruct (passes _ _); cbn in S3; lia).
    assert (Hin : In (nth i' (fields d) (CReal [])) (fields d)) by (apply nth_In; lia).
    rewrite Hp in *. rewrite (impurity_deviation l Hl0) in *. split.
    - destruct (term_best (size d) _ l _ _ (Hd2 _ Hin) Hz (Hc _ Hin) E2) as [T1 _]. destruct Hs as [_ _ S1 S2 _].
      exists (pick (passes (nth i' (fields d) (CReal [])) s') l), (pick (map negb (passes (nth i' (fields d) (CReal [])) s')) l).
      subst p f. cbn [select_data pred]. rewrite Hp. cbn [select]. split; auto. split; auto. rewrite E3, T1. unfold rest_after. match goal with |- @Logic.eq _ ?a ?b => change (@Logic.eq R a b) end. ring.
    - intros c s1 Hcin F Sp. destruct (E4 c Hcin) as (g1 & s2 & F1 & F2). 
      destruct (term_best (size d) c l _ _ (Hd2 _ Hcin) Hz (Hc _ Hcin) F1) as [_ T2]. specialize (T2 s1 F Sp).
      change (deviation l - rest_after c s1 l <= g'). change (g1 + deviation l <= g') in F2. change (- rest_after c s1 l <= g1) in T2. lra.
  Qed.

  (** *** classification by categories *)
  Lemma fold_minus (h : nat -> R) l : forall a, fold_left (fun acc c => acc - h c) l a = a - rsum (map h l).
  Proof. induction l as [|x l IH]; intros a; cbn; [ring|]. rewrite IH. ring. Qed.
  Lemma entropy_of_entropy k cats : entropy_of N k cats = entropy k cats.
  Proof.
    unfold entropy_of, entropy. transitivity (fold_left (fun acc c => acc - plogp (INR (count c cats) / INR (length cats))) (seq 0 k) 0).
    - generalize (seq 0 k) as l. intros l. change (zero N) with 0. generalize 0 as a. induction l as [|c l IH]; intros a; cbn [fold_left]; auto. rewrite IH.
      f_equal. destruct (Nat.eqb_spec (count c cats) 0) as [E|E]; [|reflexivity]. rewrite E. unfold plogp. cbn [INR].
      replace (0 / INR (length cats)) with 0 by (unfold Rdiv; ring). destruct (Req_EM_T 0 0); [|easy]. change (a = a - 0). ring.
    - rewrite fold_minus. match goal with |- @Logic.eq _ ?a ?b => change (@Logic.eq R a b) end. ring.
  Qed.
  Definition information (k : nat) (c : column N) (s : split N) (cats : list nat) : R :=
    let a := pick (passes c s) cats in let b := pick (map negb (passes c s)) cats in
    INR (length a) / INR (length cats) * entropy k a + INR (length b) / INR (length cats) * entropy k b.
  Definition weighted (k : nat) (q : nat -> bool) (codes cats : list nat) : R :=
    INR (length (pick (map q codes) cats)) / INR (length cats) * entropy k (pick (map q codes) cats) +
    INR (length (pick (map (fun c => negb (q c)) codes) cats)) / INR (length cats) * entropy k (pick (map (fun c => negb (q c)) codes) cats).
  Lemma weighted_ext k (q r : nat -> bool) codes cats : (forall c, In c codes -> q c = r c) -> weighted k q codes cats = weighted k r codes cats.
  Proof.
    intros H. unfold weighted. rewrite (map_ext_in q r) by auto. rewrite (map_ext_in (fun c => negb (q c)) (fun c => negb (r c))); auto. intros c Hc. now rewrite H.
  Qed.
  Lemma weighted_neg k (q : nat -> bool) codes cats : weighted k (fun c => negb (q c)) codes cats = weighted k q codes cats.
  Proof. unfold weighted. rewrite Rplus_comm. rewrite (map_ext (fun c => negb (negb (q c))) q); auto. intros; apply negb_involutive. Qed.
  Lemma in_filter_of (q : nat -> bool) l c : In c l -> in_set (filter q l) c = q c.
  Proof.
    intros Hc. destruct (q c) eqn:E.
    - apply in_set_iff, filter_In. auto.
    - destruct (in_set (filter q l) c) eqn:E'; auto. apply in_set_iff, filter_In in E'. destruct E' as [_ E']. congruence.
  Qed.
  Lemma categories_best names codes k cats g s : (forall c, In c codes -> (c < length names)%nat) -> categorical_entropy N None names codes k cats = Ok (g, Among s) ->
    g = - weighted k (in_set s) codes cats /\
    forall q, pick (map q codes) cats <> [] -> pick (map (fun c => negb (q c)) codes) cats <> [] -> - weighted k q codes cats <= g.
  Proof.
    intros Hok H. unfold categorical_entropy in H. cbv zeta in H. fold (present names codes) in H.
    match type of H with as_split _ (best_of _ ?T _ _) = _ => set (term := T) in H end.
    assert (HT : forall s, term s = - weighted k (in_set s) codes cats).
    { intros s0. unfold term, weighted, split_cats. rewrite !entropy_of_entropy.
      rewrite (map_ext (fun c => Bool.eqb (in_set s0 c) true) (in_set s0)) by (intros; now destruct (in_set s0 a)).
      rewrite (map_ext (fun c => Bool.eqb (in_set s0 c) false) (fun c => negb (in_set s0 c))) by (intros; now destruct (in_set s0 a)).
      cbn [sub opp mul div ofn RA]. match goal with |- @Logic.eq _ ?a ?b => change (@Logic.eq R a b) end. ring. }
    unfold as_split in H. destruct (best_of N term None (candidates None (present names codes))) as [[g' s']|] eqn:E; [|discriminate H].
    injection H as -> ->. apply best_of_max in E. destruct E as (E1 & _ & E3). destruct E1 as [E1|[E1 E2]]; [discriminate|].
    split; [now rewrite E2|]. intros q Y1 Y2.
    assert (C : forall r, (1 <= length (filter r (present names codes)) <= (length (present names codes) + 1) / 2)%nat -> - weighted k r codes cats <= g).
    { intros r Hr. rewrite (weighted_ext k r (in_set (filter r (present names codes)))).
      - rewrite <- HT. apply E3. apply candidates_filter. exact Hr.
      - intros c Hc. symmetry. apply in_filter_of. apply present_in. auto. }
    assert (G : forall r, pick (map r codes) cats <> [] -> (1 <= length (filter r (present names codes)))%nat).
    { intros r Hr. destruct (filter r (present names codes)) as [|x l] eqn:E; [|cbn; lia]. exfalso. apply Hr.
      rewrite (map_ext_in r (fun _ => false)).
      - clear. revert cats. induction codes as [|c l IH]; intros [|x p]; cbn; auto.
      - intros c Hc. rewrite <- (in_filter_of r (present names codes) c); [now rewrite E|]. apply present_in. auto. }
    pose proof (G _ Y1) as G1. pose proof (G _ Y2) as G2. pose proof (filter_both2 q (present names codes)) as L.
    destruct (le_lt_dec (length (filter q (present names codes))) ((length (present names codes) + 1) / 2)) as [D|D].
    - apply C. lia.
    - rewrite <- weighted_neg. apply C.
      pose proof (Nat.div_mod (length (present names codes) + 1) 2 ltac:(lia)). pose proof (Nat.mod_upper_bound (length (present names codes) + 1) 2 ltac:(lia)). lia.
  Qed.
  (** the gain of a classification node is the decrease of the entropy, and the greatest possible one, if the predictors are categories *)
  Lemma classification_best (d : data N) names (l : list nat) g i s p f : data_ok d -> pred d = CCat names l ->
    (forall c, In c (fields d) -> exists ns cs, c = CCat ns cs) ->
    split_once None d = Ok (Some (g, i, s, p, f)) ->
    (exists a b, pred p = CCat names a /\ pred f = CCat names b /\
       g = entropy (length names) l - (INR (length a) / INR (length l) * entropy (length names) a + INR (length b) / INR (length l) * entropy (length names) b)) /\
    forall c s', In c (fields d) -> split_fits N c s' -> separates c s' l -> entropy (length names) l - information (length names) c s' l <= g.
  Proof.
    intros Hd Hp Hc H. pose proof (split_once_some N None d g i s p f Hd H) as Hs. destruct Hd as [Hd1 Hd2].
    unfold split_once in H. destruct (best_field N None (pred d) 0 (fields d) None) as [[[[g' i'] s']|]|] eqn:E; cbn [rbind] in H; try discriminate H.
    destruct (Nat.ltb 0 _ && Nat.ltb 0 _)%bool eqn:Hl in H; [|discriminate]. injection H as <- <- <- _ _.
    apply best_field_max with (pre := []) in E; auto; [|discriminate]. cbn [app] in E. destruct E as ([E1|[E1 (g0 & E2 & E3)]] & _ & E4); [discriminate E1|].
    assert (Hin : In (nth i' (fields d) (CReal [])) (fields d)) by (apply nth_In; lia).
    assert (T : forall c g0 s0, In c (fields d) -> field_term N None (@CCat N names l) c = Ok (g0, s0) -> g0 = - information (length names) c s0 l /\
              forall s', split_fits N c s' -> separates c s' l -> - information (length names) c s' l <= g0).
    { intros c g1 s1 Hcin F. destruct (Hc c Hcin) as (ns & cs & ->). pose proof (field_term_fits N None _ _ _ _ _ (Hd2 _ Hcin) F) as Fs.
      destruct s1 as [y|s1]; [contradiction|]. cbn [field_term] in F. apply categories_best in F; [|apply (Hd2 _ Hcin)]. unfold information, separates. cbn [passes].
      rewrite map_map. destruct F as [F1 F2]. split; [exact F1|]. intros [y|s2] Fs2 [Y1 Y2]; [contradiction|]. cbn [passes] in *. rewrite map_map in *. now apply F2. }
    rewrite Hp in *. assert (I0 : impurity N (@CCat N names l) = entropy (length names) l) by apply entropy_of_entropy. rewrite I0 in *. split.
    - destruct (T _ _ _ Hin E2) as [T1 _]. destruct Hs as [_ _ S1 S2 _].
      exists (pick (passes (nth i' (fields d) (CReal [])) s') l), (pick (map negb (passes (nth i' (fields d) (CReal [])) s')) l).
      subst p f. cbn [select_data pred]. rewrite Hp. cbn [select]. split; auto. split; auto. rewrite E3, T1. unfold information. cbv zeta.
      match goal with |- @Logic.eq _ ?a ?b => change (@Logic.eq R a b) end. ring.
    - intros c s1 Hcin F Sp. destruct (E4 c Hcin) as (g1 & s2 & F1 & F2).
      destruct (T _ _ _ Hcin F1) as [_ T2]. specialize (T2 s1 F Sp).
      change (entropy (length names) l - information (length names) c s1 l <= g'). change (g1 + entropy (length names) l <= g') in F2. change (- information (length names) c s1 l <= g1) in T2. lra.
  Qed.
End Best.
