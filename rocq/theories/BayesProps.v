(** C82: naive Bayes models, over the real numbers. *)
From Coq Require Import Reals Lra Permutation.
From Verif Require Import Base LaModel LaProofs LaProofs2 LinregProofs LinkModel LinkSpec LinkProofs BayesProofs.
Open Scope string_scope.
Open Scope list_scope.
Open Scope R_scope.

(** ** model.naive.gaussian *)
(** the result is the logarithm of the product of the normal densities; the call fails when the lengths differ
    (10000) and when a variance is not positive (10001) *)
Theorem C82_gaussian : forall datum cm,
  (length datum <> length cm -> gaussian_array datum cm = Raise (PFAErr 10000)) /\
  (length datum = length cm -> (forall mv, In mv cm -> 0 < snd mv) ->
     let densities := map (fun xm => normal_density (fst xm) (fst (snd xm)) (snd (snd xm))) (combine datum cm) in
     0 < product densities /\ gaussian_array datum cm = Ok (ln (product densities))) /\
  (length datum = length cm -> (exists mv, In mv cm /\ snd mv <= 0) -> gaussian_array datum cm = Raise (PFAErr 10001)).
Proof.
  intros datum cm. split; [|split].
  - intros H. unfold gaussian_array. rewrite count_eqb, (proj2 (Nat.eqb_neq _ _) H). auto.
  - intros L P densities.
    assert (PD : forall xm, In xm (combine datum cm) -> 0 < normal_density (fst xm) (fst (snd xm)) (snd (snd xm))).
    { intros [x [mu v]] H. apply in_combine_r in H. apply density_pos. apply (P _ H). }
    destruct (ln_product _ _ PD) as [G E]. split; [exact G|]. rewrite gaussian_array_pairs by auto. unfold densities. rewrite <- E.
    rewrite (rfoldM_sum _ (fun xm => ln (normal_density (fst xm) (fst (snd xm)) (snd (snd xm))))); [f_equal; lra|].
    intros ll [x [mu v]] H. apply in_combine_r in H. apply gaussian_feature_ok. apply (P _ H).
  - intros L (mv & H & N). rewrite gaussian_array_pairs by auto.
    apply (rfoldM_raise _ (fun xm => ln (normal_density (fst xm) (fst (snd xm)) (snd (snd xm))))).
    + intros ll [x [mu v]] _. cbn [fst snd]. destruct (Rle_dec v 0); [right; intros; apply gaussian_feature_bad; auto|left; apply gaussian_feature_ok; lra].
    + apply In_nth_error in H. destruct H as [i Hi]. assert (exists x, nth_error datum i = Some x) as [x Hx].
      { destruct (nth_error datum i) eqn:E; eauto. apply nth_error_None in E. assert (i < length cm)%nat by (apply nth_error_Some; congruence). lia. }
      exists (x, mv). split; [|intros ll; apply gaussian_feature_bad; auto]. apply (nth_error_In _ i). rewrite combine_nth_error, Hx, Hi. auto.
Qed.
Example C82_gaussian_example : exists l, gaussian_array [3; 1] [(2, 4); (0, 1)] = Ok l /\ l = ln (normal_density 3 2 4 * (normal_density 1 0 1 * 1)).
Proof.
  eexists. split; [|reflexivity]. apply (C82_gaussian [3; 1] [(2, 4); (0, 1)]); auto. intros mv [<-|[<-|[]]]; cbn; lra.
Qed.
(** maps: the order of the entries does not matter, and the result is the one of the arrays of the same entries *)
Theorem C82_gaussian_map : forall datum cm, NoDup (map fst datum) -> NoDup (map fst cm) ->
  (~ (forall k, In k (map fst datum) <-> In k (map fst cm)) -> gaussian_map datum cm = Raise (PFAErr 10000)) /\
  (forall datum', Permutation datum datum' -> gaussian_map datum' cm = gaussian_map datum cm) /\
  (forall ks xs ms, length xs = length ks -> length ms = length ks -> datum = combine ks xs -> Permutation cm (combine ks ms) ->
     gaussian_map datum cm = gaussian_array xs ms).
Proof.
  intros datum cm N1 N2.
  assert (ERR : ~ (forall k, In k (map fst datum) <-> In k (map fst cm)) -> gaussian_map datum cm = Raise (PFAErr 10000)).
  { intros H. unfold gaussian_map. destruct (same_keys _ _) eqn:E; auto. exfalso. apply H, same_keys_spec. auto. }
  split; [exact ERR|]. split.
  - intros datum' HP. assert (K : forall k, In k (map fst datum) <-> In k (map fst datum')).
    { intros k. split; apply Permutation_in; [|apply Permutation_sym]; apply Permutation_map; auto. }
    assert (N1' : NoDup (map fst datum')) by (eapply Permutation_NoDup; [apply Permutation_map; eauto|auto]).
    destruct (same_keys (map fst datum) (map fst cm)) eqn:E.
    + rewrite same_keys_spec in E. rewrite !gaussian_map_pairs; auto; [|intros k; rewrite <- K; auto].
      assert (SUB : forall kx, In kx datum -> exists mv, subscript cm (fst kx) = Ok mv).
      { intros [k x] H. apply (in_map fst) in H. apply E in H. apply in_map_iff in H. destruct H as ([k' mv] & <- & H). exists mv. unfold subscript. cbn [fst]. rewrite (In_assoc _ _ _ N2 H). auto. }
      set (f := fun (ll : R) (kx : string * R) => _).
      set (g := fun kx : string * R => match subscript cm (fst kx) with Ok mv => ln (normal_density (snd kx) (fst mv) (snd mv)) | Raise _ => 0 end).
      assert (CASES : forall kx, In kx datum -> (forall ll, f ll kx = Ok (ll + g kx)) \/ (forall ll, f ll kx = Raise (PFAErr 10001))).
      { intros kx H. destruct (SUB kx H) as [[mu v] M]. unfold f, g. rewrite M. cbn [rbind fst snd]. destruct (Rle_dec v 0).
        - right. intros. apply gaussian_feature_bad. auto.
        - left. intros. apply gaussian_feature_ok. lra. }
      destruct (all_or_some (fun kx => forall ll, f ll kx = Ok (ll + g kx)) (fun kx => forall ll, f ll kx = Raise (PFAErr 10001)) datum CASES) as [A|(kx & H & B)].
      * rewrite (rfoldM_sum f g datum) by auto. rewrite (rfoldM_sum f g datum') by (intros ll kx H; apply A; eapply Permutation_in; [apply Permutation_sym|]; eauto).
        f_equal. f_equal. apply rtotal_perm. apply Permutation_map. apply Permutation_sym. auto.
      * rewrite (rfoldM_raise f g (PFAErr 10001) datum); eauto. 2:{ intros ll a Ha. destruct (CASES a Ha); auto. }
        rewrite (rfoldM_raise f g (PFAErr 10001) datum'); eauto.
        -- intros ll a Ha. assert (In a datum) as Ha' by (eapply Permutation_in; [apply Permutation_sym|]; eauto). destruct (CASES a Ha'); auto.
        -- exists kx. split; auto. eapply Permutation_in; eauto.
    + rewrite ERR by (rewrite <- same_keys_spec, E; discriminate). unfold gaussian_map. destruct (same_keys (map fst datum') _) eqn:E'; auto.
      exfalso. rewrite same_keys_spec in E'. assert (same_keys (map fst datum) (map fst cm) = true); [|congruence]. apply same_keys_spec. intros k. rewrite K. auto.
  - intros ks xs ms L1 L2 -> HP.
    assert (K : forall k, In k (map fst (combine ks xs)) <-> In k (map fst cm)).
    { intros k. rewrite combine_keys by auto. rewrite <- (combine_keys ks ms L2) at 1. split; apply Permutation_in; [apply Permutation_sym|]; apply Permutation_map; auto. }
    rewrite gaussian_map_pairs by auto. rewrite gaussian_array_pairs by congruence. rewrite combine_keys in N1 by auto.
    assert (LOOK : forall k mv, In (k, mv) (combine ks ms) -> subscript cm k = Ok mv).
    { intros k mv H. unfold subscript. rewrite (In_assoc cm k mv N2); auto. eapply Permutation_in; [apply Permutation_sym|]; eauto. }
    clear HP K N2 ERR. generalize 0 as ll. revert xs ms L1 L2 LOOK. induction ks as [|k ks IH]; intros [|x xs] [|m ms] L1 L2 LOOK ll; try discriminate; auto.
    cbn [combine rfoldM fst snd]. rewrite (LOOK k m) by (left; auto). cbn [rbind]. destruct (gaussian_feature ll x (fst m) (snd m)); auto. cbn [rbind].
    inversion N1; subst. apply IH; auto. intros k' mv H. apply LOOK. right. auto.
Qed.
Example C82_gaussian_map_example :
  gaussian_map [("a", 3); ("b", 1)] [("b", (0, 1)); ("a", (2, 4))] = gaussian_array [3; 1] [(2, 4); (0, 1)].
Proof.
  apply (C82_gaussian_map [("a", 3); ("b", 1)] [("b", (0, 1)); ("a", (2, 4))]) with (ks := ["a"; "b"]); auto;
    try (repeat constructor; cbn; intuition discriminate).
Qed.

(** ** model.naive.multinomial *)
(** with arrays: the sum of datum times the logarithm of the normalised model (plus the smallest normal double) *)
Theorem C82_multinomial : forall datum cm,
  (cm = [] \/ (exists p, In p cm /\ p <= 0) -> multinomial_array datum cm = Raise (PFAErr 10011)) /\
  (cm <> [] -> (forall p, In p cm -> 0 < p) -> length datum <> length cm -> multinomial_array datum cm = Raise (PFAErr 10010)) /\
  (cm <> [] -> (forall p, In p cm -> 0 < p) -> length datum = length cm ->
     multinomial_array datum cm = Ok (rtotal (map (fun dp => fst dp * ln (snd dp / rtotal cm + tiny)) (combine datum cm)))).
Proof.
  intros datum cm. unfold multinomial_array.
  assert (C0 : forall l : list R, Z.eqb (count l) 0 = true <-> l = []) by (intros [|a l]; cbn; split; congruence || discriminate || auto).
  split; [|split].
  - intros H. destruct (orb _ _) eqn:E; auto. exfalso. apply orb_false_iff in E. destruct E as [E1 E2]. rewrite some_not_positive_spec in E2.
    destruct H as [->|(p & H1 & H2)]; [discriminate|]. specialize (E2 p H1). lra.
  - intros N P L. rewrite (proj2 (some_not_positive_spec cm) P). destruct (Z.eqb (count cm) 0) eqn:E; [apply C0 in E; contradiction|]. cbn [orb].
    rewrite count_eqb, (proj2 (Nat.eqb_neq _ _) L). auto.
  - intros N P L. rewrite (proj2 (some_not_positive_spec cm) P). destruct (Z.eqb (count cm) 0) eqn:E; [apply C0 in E; contradiction|]. cbn [orb].
    rewrite count_eqb, L, Nat.eqb_refl. cbn [negb]. rewrite r_sum_total. pose proof (rtotal_pos cm N P) as T.
    rewrite (rfoldM_sum _ (fun dp => fst dp * ln (snd dp / rtotal cm + tiny))); [f_equal; lra|].
    intros ll [d p] H. cbn [fst snd]. apply in_combine_r in H. specialize (P p H). rewrite py_rdiv_ok by lra. cbn [rbind]. pose proof tiny_pos.
    assert (0 < p / rtotal cm) by (apply Rdiv_lt_0_compat; auto). rewrite py_log_pos by lra. auto.
Qed.
(** so the model need not be normalised *)
Theorem C82_multinomial_scale : forall datum cm c, 0 < c -> multinomial_array datum (map (Rmult c) cm) = multinomial_array datum cm.
Proof.
  intros datum cm c Hc. destruct (C82_multinomial datum cm) as (A1 & A2 & A3). destruct (C82_multinomial datum (map (Rmult c) cm)) as (B1 & B2 & B3).
  assert (N : cm = [] \/ cm <> []) by (destruct cm; [auto|right; discriminate]). destruct N as [->|N]; [rewrite A1, B1; cbn; auto|].
  assert (N' : map (Rmult c) cm <> []) by (destruct cm; [congruence|discriminate]).
  assert (MP : forall p, In p (map (Rmult c) cm) <-> exists q, In q cm /\ p = c * q).
  { intros p. rewrite in_map_iff. split; intros (q & H1 & H2); eauto. }
  destruct (some_not_positive cm) eqn:E.
  - assert (exists p, In p cm /\ p <= 0) as (p & H1 & H2).
    { apply existsb_exists in E. destruct E as (p & H & E). exists p. split; auto. destruct (Rlt_dec 0 p); [discriminate|lra]. }
    rewrite A1, B1; eauto. right. exists (c * p). split; [apply MP; eauto|]. assert (0 <= c * - p) by (apply Rmult_le_pos; lra). lra.
  - rewrite some_not_positive_spec in E.
    assert (E' : forall p, In p (map (Rmult c) cm) -> 0 < p) by (intros p Hp; apply MP in Hp; destruct Hp as (q & Hq & ->); apply Rmult_lt_0_compat; auto).
    destruct (Nat.eq_dec (length datum) (length cm)) as [L|L].
    + rewrite A3, B3; auto; [|rewrite map_length; auto]. f_equal.
      assert (CM : combine datum (map (Rmult c) cm) = map (fun dp => (fst dp, c * snd dp)) (combine datum cm)).
      { clear. revert cm. induction datum as [|d datum IH]; intros [|p cm]; auto. cbn. rewrite IH. auto. }
      assert (RT : rtotal (map (Rmult c) cm) = c * rtotal cm) by (pose proof (rtotal_mul (fun x => x) c cm) as Q; rewrite map_id in Q; exact Q).
      rewrite CM, RT, map_map. f_equal. apply map_ext. intros [d p]. cbn [fst snd]. do 3 f_equal. assert (0 < rtotal cm) by (apply rtotal_pos; auto). field. lra.
    + rewrite A2, B2; auto. rewrite map_length. auto.
Qed.
Example C82_multinomial_example : exists l, multinomial_array [2; 0; 1] [1; 1; 2] = Ok l /\ multinomial_array [2; 0; 1] [10 * 1; 10 * 1; 10 * 2] = Ok l.
Proof.
  eexists. split; [apply C82_multinomial; [discriminate| |auto]|].
  - intros p [<-|[<-|[<-|[]]]]; lra.
  - change [10 * 1; 10 * 1; 10 * 2] with (map (Rmult 10) [1; 1; 2]). rewrite C82_multinomial_scale by lra. apply C82_multinomial; [discriminate| |auto].
    intros p [<-|[<-|[<-|[]]]]; lra.
Qed.
(** Refuted with maps: the normalised value is computed and then not used. The same model and datum give another
    result than with arrays, and the result depends on the scale of the model. *)
Theorem C82_multinomial_map_refuted : exists ks xs ps a b, length xs = length ks /\ length ps = length ks /\ NoDup ks /\
  multinomial_array xs ps = Ok a /\ multinomial_map (combine ks xs) (combine ks ps) = Ok b /\ a < b.
Proof.
  exists ["k"], [1], [2]. eexists. eexists. split; [auto|]. split; [auto|]. split; [repeat constructor; auto|]. split; [|split].
  - apply C82_multinomial; [discriminate| |auto]. intros p [<-|[]]; lra.
  - unfold multinomial_map. cbn [combine map snd fst count length Z.of_nat Z.eqb orb some_not_positive existsb]. unfold some_not_positive. cbn [existsb].
    destruct (Rlt_dec 0 2); [|lra]. cbn. unfold r_sum. cbn. rewrite py_rdiv_ok by lra. cbn. rewrite py_log_pos by lra. cbn. reflexivity.
  - cbn. replace (1 * ln (2 / (2 + 0) + tiny) + 0) with (ln (1 + tiny)) by (rewrite Rmult_1_l, Rplus_0_r; f_equal; field).
    replace (0 + 1 * ln 2) with (ln 2) by ring. pose proof tiny_pos. pose proof tiny_lt_1. apply ln_increasing; lra.
Qed.

(** ** model.naive.bernoulli *)
(** for items that are not repeated: the logarithm of the probability that those features and no others are present;
    items that the model does not know do not count *)
Theorem C82_bernoulli : forall datum cm, NoDup datum -> NoDup (map fst cm) -> (forall k p, In (k, p) cm -> 0 < p < 1) ->
  let l := map (fun kp => presence datum (fst kp) (snd kp)) cm in
  0 < product l /\ bernoulli datum cm = Ok (ln (product l)).
Proof.
  intros datum cm ND NC P l.
  assert (PP : forall kp, In kp cm -> 0 < presence datum (fst kp) (snd kp)).
  { intros [k p] H. specialize (P k p H). unfold presence. cbn. destruct (in_dec string_dec k datum); lra. }
  destruct (ln_product _ _ PP) as [G E]. split; [exact G|]. unfold l. rewrite <- E. unfold bernoulli.
  rewrite (rfoldM_sum _ (fun kp => ln (1 - snd kp))).
  2:{ intros ll [k p] H. specialize (P k p H). cbn [snd]. destruct (Rle_dec p 0); [lra|]. destruct (Rle_dec 1 p); [lra|]. rewrite py_log_pos by lra. auto. }
  cbn [rbind].
  rewrite (rfoldM_sum _ (fun item => match assoc item cm with Some p => ln p - ln (1 - p) | None => 0 end)).
  2:{ intros ll item H. destruct (assoc item cm) as [p|] eqn:A; [|f_equal; lra]. apply assoc_In in A. specialize (P _ _ A). rewrite !py_log_pos by lra. auto. }
  f_equal. rewrite Rplus_0_l.
  set (odds := fun kp : string * R => ln (snd kp) - ln (1 - snd kp)).
  assert (SWAP : rtotal (map (fun item => match assoc item cm with Some p => ln p - ln (1 - p) | None => 0 end) datum)
                 = rtotal (map (fun kp => if in_dec string_dec (fst kp) datum then odds kp else 0) cm)).
  { clear E G PP P l. induction datum as [|d datum IH].
    - cbn. induction cm; cbn; auto. inversion NC; subst. unfold rtotal in *. cbn in *. rewrite <- IHcm by auto. ring.
    - inversion ND; subst. cbn [map]. change (rtotal (?a :: ?b)) with (a + rtotal b). rewrite IH by auto. clear IH.
      induction cm as [|[k p] cm IHc].
      + cbn. ring.
      + inversion NC; subst. cbn [map assoc fst snd]. change (rtotal (?a :: ?b)) with (a + rtotal b).
        destruct (String.eqb_spec d k) as [->|Ne].
        * destruct (in_dec string_dec k datum) as [|_]; [contradiction|]. destruct (in_dec string_dec k (k :: datum)) as [_|Q]; [|exfalso; apply Q; left; auto].
          assert (G : map (fun kp : string * R => if in_dec string_dec (fst kp) (k :: datum) then odds kp else 0) cm = map (fun kp => if in_dec string_dec (fst kp) datum then odds kp else 0) cm).
          { apply map_ext_in. intros [k' p'] H'. cbn [fst]. assert (k' <> k) by (intros ->; apply H3; apply (in_map fst) in H'; auto).
            destruct (in_dec string_dec k' (k :: datum)) as [[X|X]|X], (in_dec string_dec k' datum) as [Y|Y]; auto; try congruence; try contradiction. exfalso. apply X. right. auto. }
          rewrite G. unfold odds at 2. cbn [snd]. ring.
        * rewrite <- Rplus_assoc, (Rplus_comm (match assoc d cm with Some p0 => _ | None => _ end)), Rplus_assoc. rewrite IHc by auto. f_equal.
          destruct (in_dec string_dec k (d :: datum)) as [[X|X]|X], (in_dec string_dec k datum) as [Y|Y]; auto; try congruence; try contradiction. exfalso. apply X. right. auto. }
  rewrite SWAP. clear. induction cm as [|[k p] cm IH]; cbn [map]; [cbn; ring|]. change (rtotal (?a :: ?b)) with (a + rtotal b). cbn [fst snd]. unfold presence at 1. unfold odds at 1. cbn [snd].
  destruct (in_dec string_dec k datum); rewrite <- IH; ring.
Qed.
(** a probability in the model that is not between 0 and 1 is refused *)
Theorem C82_bernoulli_errors : forall datum cm, (exists k p, In (k, p) cm /\ (p <= 0 \/ 1 <= p)) -> bernoulli datum cm = Raise (PFAErr 10020).
Proof.
  intros datum cm (k & p & H & B). unfold bernoulli. rewrite (rfoldM_raise _ (fun kp => ln (1 - snd kp)) (PFAErr 10020)); auto.
  - intros ll [k' p'] _. cbn [snd]. destruct (Rle_dec p' 0); [right; auto|]. destruct (Rle_dec 1 p'); [right; auto|]. left. rewrite py_log_pos by lra. auto.
  - exists (k, p). split; auto. intros ll. cbn [snd]. destruct (Rle_dec p 0); auto. destruct (Rle_dec 1 p); auto. lra.
Qed.
Example C82_bernoulli_example : bernoulli ["b"; "z"; "a"] [("a", 1 / 2); ("b", 1 / 4); ("c", 1 / 8)] = Ok (ln (1 / 2 * (1 / 4 * ((1 - 1 / 8) * 1)))).
Proof.
  apply (C82_bernoulli ["b"; "z"; "a"] [("a", 1 / 2); ("b", 1 / 4); ("c", 1 / 8)]).
  - repeat constructor; cbn; intuition discriminate.
  - repeat constructor; cbn; intuition discriminate.
  - intros k p [E|[E|[E|[]]]]; injection E as <- <-; lra.
Qed.
(** Refuted for repeated items: listing a feature twice is not the same as listing it once. *)
Theorem C82_bernoulli_repeated_refuted : exists cm k a b, bernoulli [k] cm = Ok a /\ bernoulli [k; k] cm = Ok b /\ a < b.
Proof.
  exists [("k", 3 / 4)], "k". do 2 eexists. unfold bernoulli. cbn. destruct (Rle_dec (3 / 4) 0); [lra|]. destruct (Rle_dec 1 (3 / 4)); [lra|].
  rewrite !py_log_pos by lra. cbn. split; [reflexivity|]. split; [reflexivity|]. assert (ln (1 - 3 / 4) < ln (3 / 4)) by (apply ln_increasing; lra). lra.
Qed.
Print Assumptions C82_gaussian.
Print Assumptions C82_gaussian_map.
Print Assumptions C82_multinomial.
Print Assumptions C82_multinomial_scale.
Print Assumptions C82_multinomial_map_refuted.
Print Assumptions C82_bernoulli.
Print Assumptions C82_bernoulli_errors.
Print Assumptions C82_bernoulli_repeated_refuted.
