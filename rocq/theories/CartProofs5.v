(** The best set of categories, and the best split of a node. *)
From Coq Require Import Permutation Reals Lra Sorted.
From Verif Require Import Base ScopeModel CartModel CartSpec CartProofs CartProofs3 CartProofs4.
Open Scope list_scope.
Open Scope R_scope.

(** *** combinations *)
Lemma combinations_sub {B} k : forall (l s : list B), In s (combinations k l) -> length s = k /\ incl s l /\ (NoDup l -> NoDup s).
Proof.
  intros l. revert k. induction l as [|x l IH]; intros [|k] s H; cbn in H.
  - destruct H as [<-|[]]. repeat split; try easy; constructor.
  - easy.
  - destruct H as [<-|[]]. repeat split; try easy; constructor.
  - apply in_app_iff in H. destruct H as [H|H].
    + apply in_map_iff in H. destruct H as [s' [<- H]]. destruct (IH _ _ H) as (H1 & H2 & H3). cbn. split; [lia|]. split.
      * intros y [<-|Hy]; [now left|right; auto].
      * intros Hd. inversion Hd as [|? ? Hx Hd']; subst. constructor; auto.
    + destruct (IH _ _ H) as (H1 & H2 & H3). split; auto. split.
      * intros y Hy. right. auto.
      * intros Hd. inversion Hd; auto.
Qed.
Lemma combinations_filter {B} (q : B -> bool) l : In (filter q l) (combinations (length (filter q l)) l).
Proof.
  induction l as [|x l IH]; cbn; [now left|]. destruct (q x).
  - cbn. apply in_or_app. left. now apply in_map.
  - destruct (length (filter q l)) as [|k] eqn:E; [|apply in_or_app; right; exact IH].
    left. symmetry. now apply length_zero_iff_nil.
Qed.
Lemma candidates_sub limit l s : In s (candidates limit l) -> incl s l /\ (NoDup l -> NoDup s) /\ s <> [].
Proof.
  unfold candidates. intros H. apply in_flat_map in H. destruct H as [k [Hk H]]. apply in_seq in Hk. destruct (combinations_sub _ _ _ H) as (H1 & H2 & H3).
  repeat split; auto. intros ->. cbn in H1. lia.
Qed.
Lemma candidates_filter limit (q : nat -> bool) l : (1 <= length (filter q l) <= subset_limit limit (length l))%nat -> In (filter q l) (candidates limit l).
Proof. intros H. unfold candidates. apply in_flat_map. exists (length (filter q l)). split; [apply in_seq; lia|apply combinations_filter]. Qed.

(** *** sums over a set of categories *)
Lemma rsum_map_fun {B} (f g : B -> R) l : (forall x, In x l -> f x = g x) -> rsum (map f l) = rsum (map g l).
Proof. intros H. f_equal. apply map_ext_in. exact H. Qed.
Lemma in_set_cons x s c : in_set (x :: s) c = (Nat.eqb c x || in_set s c)%bool.
Proof. reflexivity. Qed.
Lemma in_set_iff s c : in_set s c = true <-> In c s.
Proof. unfold in_set. rewrite existsb_exists. split; [intros [x [H E]]; apply Nat.eqb_eq in E; now subst|intros H; exists c; split; auto; apply Nat.eqb_refl]. Qed.
Section Sums.
  Variable g : R -> R.
  Definition gsum (l : list R) : R := rsum (map g l).
  Lemma pick_sum (q1 q2 : nat -> bool) codes : forall preds, (forall c, q1 c = true -> q2 c = false) ->
    gsum (pick (map (fun c => (q1 c || q2 c)%bool) codes) preds) = gsum (pick (map q1 codes) preds) + gsum (pick (map q2 codes) preds).
  Proof.
    induction codes as [|c codes IH]; intros preds H; cbn; [unfold gsum; cbn; ring|]. destruct preds as [|x preds]; [unfold gsum; cbn; ring|].
    specialize (IH preds H). destruct (q1 c) eqn:E1; cbn [orb].
    - rewrite (H c E1). unfold gsum in *. cbn [map rsum]. rewrite IH. ring.
    - destruct (q2 c); unfold gsum in *; cbn [map rsum]; rewrite IH; ring.
  Qed.
  Lemma set_sum codes preds s : NoDup s ->
    rsum (map (fun i => gsum (pick (map (Nat.eqb i) codes) preds)) s) = gsum (pick (map (in_set s) codes) preds).
  Proof.
    induction 1 as [|x s Hx Hd IH]; cbn [map rsum].
    - assert (E : pick (map (in_set []) codes) preds = []).
      { clear. revert preds. induction codes as [|c codes IH]; intros [|x preds]; cbn; auto. }
      rewrite E. reflexivity.
    - rewrite IH. rewrite <- pick_sum.
      + f_equal. f_equal. apply map_ext. intros c. rewrite in_set_cons. now rewrite Nat.eqb_sym.
      + intros c E. apply Nat.eqb_eq in E. subst c. destruct (in_set s x) eqn:E'; auto. apply in_set_iff in E'. contradiction.
  Qed.
  Lemma set_rest codes preds (q : nat -> bool) : 
    gsum (pick (map (fun c => negb (q c)) codes) preds) = gsum (pick (map (fun _ => true) codes) preds) - gsum (pick (map q codes) preds).
  Proof.
    assert (E : gsum (pick (map (fun _ => true) codes) preds) = gsum (pick (map (fun c => (q c || negb (q c))%bool) codes) preds)).
    { f_equal. f_equal. apply map_ext. intros c. now destruct (q c). }
    rewrite E, pick_sum; [ring|]. intros c ->. reflexivity.
  Qed.
End Sums.
Lemma gsum_one l : gsum (fun _ => 1) l = INR (length l).
Proof. induction l as [|x l IH]; [reflexivity|]. unfold gsum in *. cbn [map rsum length]. rewrite IH, S_INR. ring. Qed.
Lemma gsum_id l : gsum (fun x => x) l = rsum l.
Proof. unfold gsum. now rewrite map_id. Qed.

Section Sets.
  Variable srt : list R -> list nat.
  Notation N := (RA srt).
  Lemma best_of_max (term : list nat -> R) sets : forall best g s, best_of N term best sets = Some (g, s) ->
    (best = Some (g, s) \/ (In s sets /\ g = term s)) /\
    (match best with Some (m, _) => m <= g | None => True end) /\ forall s', In s' sets -> term s' <= g.
  Proof.
    induction sets as [|t sets IH]; intros best g s H; cbn [best_of] in H.
    - subst best. split; [now left|]. split; [lra|intros ? []].
    - apply IH in H. destruct H as (H1 & H2 & H3). destruct best as [[m s0]|].
      + cbn [gt RA] in *. destruct (Rlt_dec m (term t)) as [L|L].
        * split; [|split].
          -- destruct H1 as [H1|[H1 E]]; [injection H1 as <- <-; right; split; auto; now left|right; split; auto; now right].
          -- lra.
          -- intros s' [<-|Hs]; auto.
        * split; [|split]; auto.
          -- destruct H1 as [H1|[H1 E]]; [now left|right; split; auto; now right].
          -- intros s' [<-|Hs]; auto. lra.
      + split; [|split]; auto.
        * destruct H1 as [H1|[H1 E]]; [injection H1 as <- <-; right; split; auto; now left|right; split; auto; now right].
        * intros s' [<-|Hs]; auto.
  Qed.
  Lemma nvar_safe_deviation (sx sxx : R) (l : list R) n : n = length l -> sx = rsum l -> sxx = rsum (map (fun x => x * x) l) ->
    nvar_safe N sx sxx n = deviation l.
  Proof.
    intros -> -> ->. unfold nvar_safe. destruct l as [|x l]; [reflexivity|]. cbn [length Nat.eqb]. symmetry. apply deviation_sums. discriminate.
  Qed.
  Lemma length_sum (f : nat -> list R) s : forall a, fold_left (fun a i => (a + length (f i))%nat) s a = (a + fold_left (fun a i => (a + length (f i))%nat) s O)%nat.
  Proof. induction s as [|x s IH]; intros a; cbn; [lia|]. rewrite IH, (IH (length (f x))). lia. Qed.
  Lemma length_rsum (f : nat -> list R) s : INR (fold_left (fun a i => (a + length (f i))%nat) s O) = rsum (map (fun i => gsum (fun _ => 1) (f i)) s).
  Proof. induction s as [|x s IH]; [reflexivity|]. cbn [fold_left map rsum]. rewrite length_sum, plus_INR, IH, gsum_one. reflexivity. Qed.

  Variables (names : list string) (codes : list nat) (preds : list R).
  Hypothesis Hlen : length codes = length preds.
  Hypothesis Hok : forall c, In c codes -> (c < length names)%nat.
  Hypothesis Hall : forall c, (c < length names)%nat -> In c codes.

  Lemma uniq_all : filter (fun c => negb (Nat.eqb (count c codes) 0)) (seq 0 (length names)) = seq 0 (length names).
  Proof.
    assert (G : forall l, (forall c, In c l -> In c codes) -> filter (fun c => negb (Nat.eqb (count c codes) 0)) l = l).
    { induction l as [|c l IH]; intros H; cbn; auto. destruct (Nat.eqb_spec (count c codes) 0) as [E|E]; cbn [negb].
      - exfalso. unfold count in E. apply length_zero_iff_nil in E. specialize (H c (or_introl eq_refl)).
        assert (In c (filter (Nat.eqb c) codes)) by (apply filter_In; split; auto; apply Nat.eqb_refl). rewrite E in H0. easy.
      - f_equal. apply IH. intros; apply H; now right. }
    apply G. intros c Hc. apply in_seq in Hc. apply Hall. lia.
  Qed.
  Lemma all_true : pick (map (fun _ : nat => true) codes) preds = preds.
  Proof. clear Hok Hall. revert preds Hlen. induction codes as [|c l IH]; intros [|x p] H; cbn in *; try lia; auto. f_equal. auto. Qed.
  Let part (i : nat) : list R := pick (map (Nat.eqb (nth i (seq 0 (length names)) O)) codes) preds.
  Lemma part_at i : (i < length names)%nat -> part i = pick (map (Nat.eqb i) codes) preds.
  Proof. intros H. unfold part. now rewrite seq_nth. Qed.
  Lemma parts g s : NoDup s -> incl s (seq 0 (length names)) -> rsum (map (fun i => gsum g (part i)) s) = gsum g (those (in_set s) codes preds).
  Proof.
    intros Hd Hs. unfold those. rewrite <- set_sum by auto. apply rsum_map_fun. intros i Hi. rewrite part_at; auto. apply Hs, in_seq in Hi. lia.
  Qed.
  Lemma parts_all g : rsum (map (fun i => gsum g (part i)) (seq 0 (length names))) = gsum g preds.
  Proof.
    rewrite parts by (try apply seq_NoDup; apply incl_refl). f_equal. unfold those. rewrite <- all_true at 2. f_equal. apply map_ext_in.
    intros c Hc. apply in_set_iff, in_seq. apply Hok in Hc. lia.
  Qed.
  Lemma rest g s : gsum g (those (fun c => negb (in_set s c)) codes preds) = gsum g preds - gsum g (those (in_set s) codes preds).
  Proof. unfold those. rewrite set_rest. now rewrite all_true. Qed.
  Definition n_sum s := fold_left (fun a i => (a + length (part i))%nat) s O.
  Definition the_term (s : list nat) : R :=
    - nvar_safe N (rsum (map (fun i => rsum (part i)) s)) (rsum (map (fun i => rsum (map (fun x => x * x) (part i))) s)) (n_sum s) -
    nvar_safe N (rsum (map (fun i => rsum (part i)) (seq 0 (length names))) - rsum (map (fun i => rsum (part i)) s))
                (rsum (map (fun i => rsum (map (fun x => x * x) (part i))) (seq 0 (length names))) - rsum (map (fun i => rsum (map (fun x => x * x) (part i))) s))
                (n_sum (seq 0 (length names)) - n_sum s).
  Lemma term_left_over s : NoDup s -> incl s (seq 0 (length names)) -> the_term s = - left_over (in_set s) codes preds.
  Proof.
    intros Hd Hs. unfold the_term, left_over.
    assert (S1 : forall t, rsum (map (fun i => rsum (part i)) t) = rsum (map (fun i => gsum (fun x => x) (part i)) t)) by (intros; apply rsum_map_fun; intros; now rewrite gsum_id).
    assert (S2 : forall t, rsum (map (fun i => rsum (map (fun x => x * x) (part i))) t) = rsum (map (fun i => gsum (fun x => x * x) (part i)) t)) by reflexivity.
    assert (E1 : n_sum s = length (those (in_set s) codes preds)).
    { apply INR_eq. unfold n_sum. rewrite length_rsum, parts by auto. apply gsum_one. }
    assert (E2 : n_sum (seq 0 (length names)) = length preds).
    { apply INR_eq. unfold n_sum. rewrite length_rsum, parts_all by auto. apply gsum_one. }
    rewrite (nvar_safe_deviation _ _ (those (in_set s) codes preds)); auto.
    - rewrite (nvar_safe_deviation _ _ (those (fun c => negb (in_set s c)) codes preds)).
      + ring.
      + apply INR_eq. rewrite <- !gsum_one, rest, !gsum_one. rewrite E1, E2. rewrite minus_INR; auto.
        assert (P : forall (m : list bool) (l : list R), (length (pick m l) <= length l)%nat) by (induction m as [|[] m IH]; intros [|y l]; cbn; try lia; specialize (IH l); lia).
        apply P.
      + rewrite (S1 s), (S1 (seq 0 (length names))), parts_all, parts by auto. rewrite <- rest. apply gsum_id.
      + rewrite (S2 s), (S2 (seq 0 (length names))), parts_all, parts by auto. rewrite <- rest. reflexivity.
    - rewrite S1, parts by auto. apply gsum_id.
    - rewrite S2, parts by auto. reflexivity.
  Qed.
  Lemma best_of_ext (f h : list nat -> R) sets : (forall s, f s = h s) -> forall b, best_of N f b sets = best_of N h b sets.
  Proof. intros E. induction sets as [|s sets IH]; intros b; cbn; auto. rewrite E. now rewrite IH. Qed.
  Lemma categorical_term limit : categorical_nvar N limit names codes preds = as_split N (best_of N the_term None (candidates limit (seq 0 (length names)))).
  Proof.
    unfold categorical_nvar. rewrite uniq_all. cbv zeta. rewrite seq_length. f_equal. apply best_of_ext. intros s. unfold the_term, n_sum, part.
    repeat change (num N) with R. change (sub N) with Rminus. change (opp N) with Ropp. change (sq N) with (fun x : R => x * x). 
    assert (E : forall (f : nat -> list R) t, sum N (map (fun i => sum N (f i)) t) = rsum (map (fun i => rsum (f i)) t)).
    { intros f t. rewrite sum_rsum. apply rsum_map_fun. intros. apply sum_rsum. }
    repeat change (@zero N) with 0. f_equal; [f_equal|]; f_equal; rewrite ?E; try reflexivity.
  Qed.
  Lemma left_over_ext {A} (q r : A -> bool) l p : (forall c, In c l -> q c = r c) -> left_over q l p = left_over r l p.
  Proof.
    intros H. unfold left_over, those. rewrite (map_ext_in q r) by auto. rewrite (map_ext_in (fun c => negb (q c)) (fun c => negb (r c))); auto.
    intros c Hc. now rewrite H.
  Qed.
  Lemma left_over_neg {A} (q : A -> bool) l p : left_over (fun c => negb (q c)) l p = left_over q l p.
  Proof. unfold left_over. rewrite Rplus_comm. f_equal. f_equal. unfold those. f_equal. apply map_ext. intros. apply negb_involutive. Qed.
  Lemma in_filter q c : In c codes -> in_set (filter q (seq 0 (length names))) c = q c.
  Proof.
    intros Hc. destruct (q c) eqn:E.
    - apply in_set_iff, filter_In. split; auto. apply in_seq. apply Hok in Hc. lia.
    - destruct (in_set (filter q (seq 0 (length names))) c) eqn:E'; auto. apply in_set_iff, filter_In in E'. destruct E' as [_ E']. congruence.
  Qed.
  (** the split that categoricalNVarianceGainTerm finds when all the categories occur *)
  Lemma set_best limit g s : categorical_nvar N limit names codes preds = Ok (g, Among s) ->
    g = - left_over (in_set s) codes preds /\
    forall q, (1 <= length (filter q (seq 0 (length names))) <= subset_limit limit (length names))%nat -> - left_over q codes preds <= g.
  Proof.
    intros H. rewrite categorical_term in H. unfold as_split in H. destruct (best_of N the_term None (candidates limit (seq 0 (length names)))) as [[g' s']|] eqn:E; [|discriminate H].
    injection H as -> ->. apply best_of_max in E. destruct E as (E1 & _ & E3). destruct E1 as [E1|[E1 E2]]; [discriminate|].
    apply candidates_sub in E1. destruct E1 as (E1 & E4 & _). specialize (E4 (seq_NoDup _ _)). split; [rewrite E2; now apply term_left_over|].
    intros q Hq. assert (Hc : In (filter q (seq 0 (length names))) (candidates limit (seq 0 (length names)))).
    { apply candidates_filter. now rewrite seq_length. }
    pose proof (E3 _ Hc) as L. apply candidates_sub in Hc. destruct Hc as (C1 & C2 & _). rewrite term_left_over in L by (auto; apply C2, seq_NoDup).
    rewrite (left_over_ext q (in_set (filter q (seq 0 (length names))))); auto. intros c Hc. symmetry. now apply in_filter.
  Qed.
  Lemma filter_both (q : nat -> bool) l : (length (filter q l) + length (filter (fun c => negb (q c)) l))%nat = length l.
  Proof. induction l as [|x l IH]; cbn; auto. destruct (q x); cbn; lia. Qed.
  (** without a limit, no set of categories is better *)
  Lemma set_best_all g s q : categorical_nvar N None names codes preds = Ok (g, Among s) ->
    those q codes preds <> [] -> those (fun c => negb (q c)) codes preds <> [] -> - left_over q codes preds <= g.
  Proof.
    intros H Y1 Y2. apply set_best in H. destruct H as [_ H]. pose proof (filter_both q (seq 0 (length names))) as L. rewrite seq_length in L.
    assert (G : forall r, those r codes preds <> [] -> (1 <= length (filter r (seq 0 (length names))))%nat).
    { intros r Hr. destruct (filter r (seq 0 (length names))) as [|x l] eqn:E; [|cbn; lia]. exfalso. apply Hr. unfold those.
      rewrite (map_ext_in r (fun _ => false)).
      - clear. revert preds. induction codes as [|c l IH]; intros [|x p]; cbn; auto.
      - intros c Hc. rewrite <- (in_filter r c Hc). rewrite E. reflexivity. }
    pose proof (G _ Y1) as G1. pose proof (G _ Y2) as G2.
    assert (D : (length (filter q (seq 0 (length names))) <= (length names + 1) / 2 \/ length (filter (fun c => negb (q c)) (seq 0 (length names))) <= (length names + 1) / 2)%nat).
    { destruct (le_lt_dec (length (filter q (seq 0 (length names)))) ((length names + 1) / 2)); auto. right.
      pose proof (Nat.div_mod (length names + 1) 2 ltac:(lia)). pose proof (Nat.mod_upper_bound (length names + 1) 2 ltac:(lia)). lia. }
    destruct D as [D|D].
    - apply H. cbn [subset_limit]. lia.
    - rewrite <- left_over_neg. apply H. cbn [subset_limit]. lia.
  Qed.
End Sets.
