(** C85: residuals, pulls and chi-square states of stat.test, and what the deprecated ones of model.reg do instead. *)
From Coq Require Import SpecFloat Permutation.
From Verif Require Import Base PyNum PyNumProofs ArithModel LinregModel PullModel PullSpec PullProofs.
Open Scope string_scope.
Open Scope list_scope.
Open Scope Z_scope.

(** ** Position by position and key by key *)
Theorem C85_residual_array : forall o p r,
  residual_array o p = Ok r <-> at_each_position (fun a b c => residual1 a b = Ok c) o p r.
Proof.
  intros o p r. unfold residual_array. destruct (lengths_differ o p) eqn:L.
  - apply lengths_differ_true in L. split; [discriminate|]. intros (E & _). contradiction.
  - apply lengths_differ_false in L. apply (zip2_spec residual1 o p r L).
Qed.
Theorem C85_pull_array : forall o p u r,
  pull_array o p u = Ok r <-> at_each_position3 (fun a b w c => pull1 a b w = Ok c) o p u r.
Proof.
  intros o p u r. unfold pull_array.
  destruct (lengths_differ o p) eqn:L.
  { apply lengths_differ_true in L. split; [discriminate|]. intros (E & _). contradiction. }
  destruct (lengths_differ o u) eqn:M.
  { apply lengths_differ_true in M. split; [discriminate|]. intros (_ & E & _). contradiction. }
  apply lengths_differ_false in L, M.
  rewrite (rmapM_ext _ (fun t => let '(a, b, c) := t in pull1 a b c)).
  - apply (zip3_spec pull1 o p u r L M).
  - intros [[a b] w] _. unfold pull1. destruct (py_sub a b); auto. cbn. apply pdiv_as_float.
Qed.
Theorem C85_residual_map : forall o p r, dict_ok o -> residual_map o p = Ok r ->
  same_keys o p /\ map fst r = map fst o /\
  forall k a b c, assoc k o = Some a -> assoc k p = Some b -> assoc k r = Some c -> py_sub a b = Ok c.
Proof.
  intros o p r D. unfold residual_map. destruct (keys_differ o p) eqn:K; [discriminate|].
  apply keys_differ_false in K. intro H. split; auto.
  rewrite (rmapM_ext _ (fun ko => v <- (vp <- item p (fst ko) ;; py_sub (snd ko) vp) ;; Ok (fst ko, v))) in H
    by (intros [k a] _; cbn; destruct (item p k); auto).
  apply (map_entries (fun k a => vp <- item p k ;; py_sub a vp)) in H; auto. destruct H as [E H]. split; auto.
  intros k a b c A B C. specialize (H k a c A C). unfold item in H. rewrite B in H. auto.
Qed.
Theorem C85_pull_map : forall o p u r, dict_ok o -> pull_map o p u = Ok r ->
  same_keys o p /\ same_keys o u /\ map fst r = map fst o /\
  forall k a b w c, assoc k o = Some a -> assoc k p = Some b -> assoc k u = Some w -> assoc k r = Some c -> pull1 a b w = Ok c.
Proof.
  intros o p u r D. unfold pull_map. destruct (keys_differ o p) eqn:K; [discriminate|].
  destruct (keys_differ o u) eqn:K2; [discriminate|].
  apply keys_differ_false in K, K2. intro H. split; auto. split; auto.
  rewrite (rmapM_ext _ (fun ko => v <- (vp <- item p (fst ko) ;; d <- py_sub (snd ko) vp ;; vu <- item u (fst ko) ;; pdiv d vu) ;;
                                  Ok (fst ko, v))) in H
    by (intros [k a] _; cbn; destruct (item p k); cbn; auto; destruct (py_sub a a0); cbn; auto; destruct (item u k); auto).
  apply (map_entries (fun k a => vp <- item p k ;; d <- py_sub a vp ;; vu <- item u k ;; pdiv d vu)) in H; auto.
  destruct H as [E H]. split; auto.
  intros k a b w c A B W C. specialize (H k a c A C). unfold item in H. rewrite B, W in H. cbn in H. unfold pull1.
  destruct (py_sub a b); auto.
Qed.

Example C85_arrays_example :
  residual_array [NF (f_of_Z 5); NI 7] [NI 2; NF (f_of_Z 9)] = Ok [NF (f_of_Z 3); NF (f_of_Z (-2))] /\
  pull_array [NF (f_of_Z 5); NI 7; NI 3] [NI 2; NI 9; NI 3] [NI 3; NI 0; NI 0] = Ok [NF (f_of_Z 1); NF fninf; NF fnan].
Proof. split; reflexivity. Qed.
Example C85_maps_example :
  pull_map [("a", NI 5); ("b", NI 7)] [("b", NI 9); ("a", NI 2)] [("a", NI 3); ("b", NI 0)] =
  Ok [("a", NF (f_of_Z 1)); ("b", NF fninf)].
Proof. reflexivity. Qed.

(** ** Refusals: a misaligned argument is refused with the documented code, and nothing else is refused *)
Lemma residual1_total a b : a_double a -> a_double b -> exists c, residual1 a b = Ok c.
Proof.
  intros A B. destruct (sub_double a b A B) as (d & E & D). destruct (a_double_float d D) as [f F].
  unfold residual1. rewrite E. cbn [rbind]. unfold as_float. rewrite F. cbn. eauto.
Qed.
Lemma pull1_total a b w : a_double a -> a_double b -> a_double w -> exists f, pull1 a b w = Ok (NF f).
Proof.
  intros A B W. destruct (sub_double a b A B) as (d & E & D). unfold pull1. rewrite E. cbn [rbind]. apply pdiv_total; auto.
Qed.

Lemma zip_total {V} (P : V -> Prop) (f : V -> V -> res V) o p : (forall a b, P a -> P b -> exists c, f a b = Ok c) ->
  Forall P o -> Forall P p -> exists r, rmapM (fun op => f (fst op) (snd op)) (combine o p) = Ok r.
Proof.
  intros T Fo. revert p. induction Fo as [|a o A Fo IH]; intros p Fp; cbn; eauto.
  destruct Fp as [|b p B Fp]; cbn; eauto. destruct (T a b A B) as [c C]. rewrite C. cbn. destruct (IH p Fp) as [r R].
  rewrite R. cbn. eauto.
Qed.
Lemma zip3_total {V} (P : V -> Prop) (f : V -> V -> V -> res V) o p u :
  (forall a b c, P a -> P b -> P c -> exists d, f a b c = Ok d) ->
  Forall P o -> Forall P p -> Forall P u -> exists r, rmapM (fun t => let '(a, b, c) := t in f a b c) (combine (combine o p) u) = Ok r.
Proof.
  intros T Fo. revert p u. induction Fo as [|a o A Fo IH]; intros p u Fp Fu; cbn; eauto.
  destruct Fp as [|b p B Fp]; cbn; eauto. destruct Fu as [|w u W Fu]; cbn; eauto.
  destruct (T a b w A B W) as [c C]. rewrite C. cbn. destruct (IH p u Fp Fu) as [r R]. rewrite R. cbn. eauto.
Qed.

Theorem C85_array_refusals : forall o p u, Forall a_double o -> Forall a_double p -> Forall a_double u ->
  (length o <> length p -> residual_array o p = Raise (PFAErr 38010) /\ pull_array o p u = Raise (PFAErr 38020)) /\
  (length o = length p -> (exists r, residual_array o p = Ok r) /\
     (length o <> length u -> pull_array o p u = Raise (PFAErr 38021)) /\
     (length o = length u -> exists r, pull_array o p u = Ok r)).
Proof.
  intros o p u Fo Fp Fu. split.
  - intro L. apply lengths_differ_true in L. unfold residual_array, pull_array. rewrite L. auto.
  - intro L. apply lengths_differ_false in L. unfold residual_array, pull_array. rewrite L. split; [|split].
    + apply (zip_total a_double residual1); auto using residual1_total.
    + intro M. apply lengths_differ_true in M. rewrite M. auto.
    + intro M. apply lengths_differ_false in M. rewrite M.
      rewrite (rmapM_ext _ (fun t => let '(a, b, c) := t in pull1 a b c)).
      * apply (zip3_total a_double pull1); auto. intros a b c A B C. destruct (pull1_total a b c A B C); eauto.
      * intros [[a b] w] _. unfold pull1. destruct (py_sub a b); auto. cbn. apply pdiv_as_float.
Qed.

Definition values_ok (d : list (string * num)) := forall k v, assoc k d = Some v -> a_double v.

Theorem C85_map_refusals : forall o p u, dict_ok o -> values_ok o -> values_ok p -> values_ok u ->
  (~ same_keys o p -> residual_map o p = Raise (PFAErr 38010) /\ pull_map o p u = Raise (PFAErr 38020)) /\
  (same_keys o p -> (exists r, residual_map o p = Ok r) /\
     (~ same_keys o u -> pull_map o p u = Raise (PFAErr 38021)) /\
     (same_keys o u -> exists r, pull_map o p u = Ok r)).
Proof.
  intros o p u D Vo Vp Vu. split.
  - intro K. apply keys_differ_true in K. unfold residual_map, pull_map. rewrite K. auto.
  - intro K. pose proof K as KD. apply keys_differ_false in KD. unfold residual_map, pull_map. rewrite KD. split; [|split].
    + rewrite (rmapM_ext _ (fun ko => v <- (vp <- item p (fst ko) ;; py_sub (snd ko) vp) ;; Ok (fst ko, v)))
        by (intros [k a] _; cbn; destruct (item p k); auto).
      apply (map_entries_total (fun k a => vp <- item p k ;; py_sub a vp)). intros k a I.
      assert (A : assoc k o = Some a) by (apply assoc_In_NoDup; auto).
      destruct (assoc_In_keys k p) as [b B]; [apply K; apply (in_map fst) in I; auto|].
      unfold item. rewrite B. cbn. destruct (sub_double a b) as (d & E & _); eauto.
    + intro M. apply keys_differ_true in M. rewrite M. auto.
    + intro M. pose proof M as MD. apply keys_differ_false in MD. rewrite MD.
      rewrite (rmapM_ext _ (fun ko => v <- (vp <- item p (fst ko) ;; d <- py_sub (snd ko) vp ;; vu <- item u (fst ko) ;; pdiv d vu) ;;
                                      Ok (fst ko, v)))
        by (intros [k a] _; cbn; destruct (item p k); cbn; auto; destruct (py_sub a a0); cbn; auto; destruct (item u k); auto).
      apply (map_entries_total (fun k a => vp <- item p k ;; d <- py_sub a vp ;; vu <- item u k ;; pdiv d vu)). intros k a I.
      assert (A : assoc k o = Some a) by (apply assoc_In_NoDup; auto).
      destruct (assoc_In_keys k p) as [b B]; [apply K; apply (in_map fst) in I; auto|].
      destruct (assoc_In_keys k u) as [w W]; [apply M; apply (in_map fst) in I; auto|].
      unfold item. rewrite B, W. cbn [rbind]. destruct (sub_double a b) as (d & E & Dd); eauto. rewrite E. cbn [rbind].
      destruct (pdiv_total d w Dd); eauto.
Qed.

Example C85_refusals_example :
  Forall a_double [NI 1; NF (f_of_Z 2)] /\ pull_array [NI 1; NI 2] [NI 1; NI 2] [NI 1] = Raise (PFAErr 38021) /\
  residual_map [("a", NI 1)] [("b", NI 1)] = Raise (PFAErr 38010).
Proof. split; [|split; reflexivity]. repeat constructor; cbn; lia. Qed.

(** a zero uncertainty gives an infinity of the sign of the difference, or NaN: never an error *)
Theorem C85_pull_zero_uncertainty : forall a b w s, a_double a -> a_double b -> to_f w = Ok (S754_zero s) ->
  exists d, py_sub a b = Ok d /\ pull1 a b w = Ok (NF (limit_of d)).
Proof.
  intros a b w s A B W. destruct (sub_double a b A B) as (d & E & _). exists d. split; auto.
  unfold pull1, pdiv, lib_divide. rewrite E. cbn [rbind]. rewrite W. cbn [rbind is_fzero]. unfold limit_of, num_gt, num_lt.
  rewrite num_cmp_f0. destruct (num_cmp d (NI 0)) as [[]|]; auto.
Qed.
Example C85_zero_example : pull1 (NI 3) (NF (f_of_Z 5)) (NF (S754_zero true)) = Ok (NF fninf).
Proof. reflexivity. Qed.

(** ** Arrays and maps *)
Theorem C85_pull_agrees : forall ks o p u, NoDup ks -> length ks = length o -> length o = length p -> length o = length u ->
  pull_map (combine ks o) (combine ks p) (combine ks u) = (r <- pull_array o p u ;; Ok (combine ks r)).
Proof.
  intros ks o p u N L M M2. unfold pull_map, pull_array.
  assert (K : forall (x y : list num), length ks = length x -> length ks = length y -> keys_differ (combine ks x) (combine ks y) = false).
  { intros x y X Y. apply keys_differ_false. intro k. rewrite !keys_combine by auto. tauto. }
  rewrite !K by congruence. pose proof M as M'. pose proof M2 as M2'. apply lengths_differ_false in M', M2'. rewrite M', M2'.
  rewrite (rmapM_ext _ (fun ko => vp <- item (combine ks p) (fst ko) ;; vu <- item (combine ks u) (fst ko) ;;
                                  r <- pull1 (snd ko) vp vu ;; Ok (fst ko, r))).
  - rewrite (by_key_by_position3 pull1) by auto. f_equal. apply rmapM_ext.
    intros [[a b] w] _. unfold pull1. destruct (py_sub a b); auto. cbn. symmetry. apply pdiv_as_float.
  - intros [k a] I. cbn [fst snd]. unfold item, pull1.
    assert (I' : In k ks) by apply (in_combine_l _ _ _ _ I).
    destruct (assoc_In_keys k (combine ks p)) as [b B]; [rewrite keys_combine by congruence; auto|].
    destruct (assoc_In_keys k (combine ks u)) as [w W]; [rewrite keys_combine by congruence; auto|].
    rewrite B, W. cbn [rbind]. destruct (py_sub a b); auto.
Qed.
(** a residual of maps is the residual of arrays, before its conversion to float *)
Theorem C85_residual_agrees : forall ks o p r, NoDup ks -> length ks = length o -> length o = length p ->
  residual_map (combine ks o) (combine ks p) = Ok r ->
  map fst r = ks /\ residual_array o p = rmapM as_float (map snd r).
Proof.
  intros ks o p r N L M. unfold residual_map, residual_array.
  assert (K : keys_differ (combine ks o) (combine ks p) = false).
  { apply keys_differ_false. intro k. rewrite !keys_combine by congruence. tauto. }
  rewrite K. pose proof M as M'. apply lengths_differ_false in M'. rewrite M'.
  rewrite (by_key_by_position2 py_sub) by auto.
  destruct (rmapM (fun op => py_sub (fst op) (snd op)) (combine o p)) as [ds|] eqn:E; cbn [rbind]; [|discriminate].
  intro H. inversion H; subst. clear H.
  assert (Ld : length ks = length ds).
  { rewrite (rmapM_ok_length _ _ _ E), combine_length, L, <- M, Nat.min_id. auto. }
  split; [apply keys_combine; auto|].
  assert (S : map snd (combine ks ds) = ds).
  { clear - Ld. revert ds Ld. induction ks as [|k ks IH]; intros [|d ds] Ld; try discriminate; cbn; auto. f_equal. apply IH. cbn in Ld. congruence. }
  rewrite S. clear - E. revert ds E. induction (combine o p) as [|[a b] l IH]; intros ds E; cbn in E |- *.
  - inversion E. auto.
  - destruct (py_sub a b) as [d|]; cbn in E |- *; [|discriminate].
    destruct (rmapM (fun op => py_sub (fst op) (snd op)) l) as [ds'|] eqn:F; cbn in E; [|discriminate]. inversion E; subst.
    cbn. destruct (as_float d); auto. cbn. rewrite (IH ds'); auto.
Qed.
(** the order of the entries of the other maps does not matter *)
Theorem C85_map_order : forall o p p' u u', dict_ok p -> dict_ok u -> Permutation p p' -> Permutation u u' ->
  residual_map o p = residual_map o p' /\ pull_map o p u = pull_map o p' u'.
Proof.
  intros o p p' u u' Dp Du Pp Pu. unfold residual_map, pull_map.
  rewrite (keys_differ_perm o p p' Pp), (keys_differ_perm o u u' Pu). split.
  - destruct (keys_differ o p'); auto. apply rmapM_ext. intros [k a] _. unfold item. cbn [fst].
    rewrite (assoc_perm_dict p p' k Dp Pp). auto.
  - destruct (keys_differ o p'); auto. destruct (keys_differ o u'); auto. apply rmapM_ext. intros [k a] _. unfold item. cbn [fst].
    rewrite (assoc_perm_dict p p' k Dp Pp), (assoc_perm_dict u u' k Du Pu). auto.
Qed.
Example C85_agrees_example :
  pull_map (combine ["a"; "b"] [NI 5; NI 7]) (combine ["a"; "b"] [NI 2; NI 1]) (combine ["a"; "b"] [NI 3; NI 2]) =
  Ok [("a", NF (f_of_Z 1)); ("b", NF (f_of_Z 3))] /\ NoDup ["a"; "b"].
Proof. split; [reflexivity|]. repeat constructor; cbn; intuition discriminate. Qed.

(** a residual of maps of ints is not a map of doubles: the difference stays an int, which the one of arrays does not *)
Theorem C85_residual_map_refuted : exists o p r, residual_map o p = Ok r /\ ~ (forall k c, assoc k r = Some c -> exists f, c = NF f).
Proof.
  exists [("a", NI 3)], [("a", NI 1)], [("a", NI 2)]. split; [reflexivity|]. intro H. destruct (H "a" (NI 2) eq_refl). discriminate.
Qed.

(** ** Chi-square *)
Definition update_all (pulls : list pull_arg) (s : chi2_state) : res chi2_state :=
  fold_left (fun rs p => s <- rs ;; update_chi2 p s) pulls (Ok s).
Lemma update_all_raise pulls e : fold_left (fun rs p => s <- rs ;; update_chi2 p s) pulls (Raise e) = Raise e.
Proof. induction pulls; cbn; auto. Qed.
Lemma update_all_cons p pulls s : update_all (p :: pulls) s = (s' <- update_chi2 p s ;; update_all pulls s').
Proof. unfold update_all. cbn. destruct (update_chi2 p s); cbn; auto. apply update_all_raise. Qed.

Lemma update_dof p s s' n : update_chi2 p s = Ok s' -> dof s = NI n -> dof s' = NI (n + 1).
Proof.
  unfold update_chi2. intros H D. rewrite D in H.
  assert (G : forall x, (c <- py_add (chi2 s) x ;; n0 <- py_add (NI n) (NI 1) ;; Ok {| chi2 := c; dof := n0 |}) = Ok s' -> dof s' = NI (n + 1)).
  { intros x E. destruct (py_add (chi2 s) x); cbn in E; [|discriminate]. inversion E. auto. }
  destruct p as [[z|f]|l|m]; try discriminate; eauto.
  - destruct (sum_squares l); cbn [rbind] in H; [eauto|discriminate].
  - destruct (sum_squares (map snd m)); cbn [rbind] in H; [eauto|discriminate].
Qed.
(** each call adds one degree of freedom, whatever the kind of pull *)
Theorem C85_dof_counts : forall pulls s s' n, update_all pulls s = Ok s' -> dof s = NI n -> dof s' = NI (n + Z.of_nat (length pulls)).
Proof.
  induction pulls as [|p pulls IH]; intros s s' n H D.
  - inversion H; subst. rewrite D. f_equal. cbn. lia.
  - rewrite update_all_cons in H. destruct (update_chi2 p s) as [s1|] eqn:E; cbn [rbind] in H; [|discriminate].
    apply (IH _ _ (n + 1)) in H; [|eapply update_dof; eauto]. rewrite H. f_equal. cbn [length]. lia.
Qed.
(** with ints, the sum of squares is exact *)
Lemma sum_squares_ints l : sum_squares (map NI l) = Ok (NI (sum_sq l)).
Proof.
  unfold sum_squares. assert (E : rmapM py_square_num (map NI l) = Ok (map NI (map (fun z => z * z) l))).
  { induction l as [|z l IH]; auto. cbn [map rmapM]. rewrite IH. auto. }
  rewrite E. cbn [rbind]. clear E.
  assert (G : forall a, py_sum_num (NI a) (map NI (map (fun z => z * z) l)) = Ok (NI (a + sum_sq l))).
  { induction l as [|z l IH]; intro a; cbn [map py_sum_num sum_sq fold_right]; [do 2 f_equal; lia|].
    change (py_add (NI a) (NI (z * z))) with (Ok (NI (a + z * z))). cbn [rbind]. rewrite IH. do 2 f_equal.
    unfold sum_sq. lia. }
  rewrite G. do 2 f_equal.
Qed.
Theorem C85_chi2_ints : forall ls c n,
  update_all (map (fun l => PArr (map NI l)) ls) {| chi2 := NI c; dof := NI n |} =
  Ok {| chi2 := NI (c + sum_sq (concat ls)); dof := NI (n + Z.of_nat (length ls)) |}.
Proof.
  induction ls as [|l ls IH]; intros c n.
  - unfold update_all. cbn. do 2 f_equal; f_equal; lia.
  - cbn [map]. rewrite update_all_cons. cbn [update_chi2]. rewrite sum_squares_ints. cbn [rbind chi2 dof].
    change (py_add (NI c) (NI (sum_sq l))) with (Ok (NI (c + sum_sq l))). cbn [rbind].
    change (py_add (NI n) (NI 1)) with (Ok (NI (n + 1))). cbn [rbind]. rewrite IH. do 2 f_equal; f_equal.
    + cbn [concat]. assert (A : forall x y, sum_sq (x ++ y) = sum_sq x + sum_sq y).
      { induction x; intro y; unfold sum_sq in *; cbn [app fold_right]; [lia|]. rewrite IHx. lia. }
      rewrite A. lia.
    + cbn [length]. lia.
Qed.
(** with floats it is the running sum of the rounded squares *)
Theorem C85_chi2_floats : forall fs c n,
  update_all (map (fun f => PNum (NF f)) fs) {| chi2 := NF c; dof := NI n |} =
  Ok {| chi2 := NF (fold_left (fun c f => fadd c (fmul f f)) fs c); dof := NI (n + Z.of_nat (length fs)) |}.
Proof.
  induction fs as [|f fs IH]; intros c n.
  - unfold update_all. cbn. do 3 f_equal; lia.
  - cbn [map]. rewrite update_all_cons. cbn [update_chi2 chi2 dof].
    change (py_add (NF c) (NF (fmul f f))) with (Ok (NF (fadd c (fmul f f)))). cbn [rbind].
    change (py_add (NI n) (NI 1)) with (Ok (NI (n + 1))). cbn [rbind]. rewrite IH. do 3 f_equal. cbn [length]. lia.
Qed.
Example C85_chi2_example :
  update_all [PArr [NI 1; NI 2]; PArr [NI 3]] {| chi2 := NI 0; dof := NI 0 |} = Ok {| chi2 := NI 14; dof := NI 2 |} /\
  update_all [PNum (NF (f_of_Z 3)); PNum (NF (f_of_Z 4))] {| chi2 := NF f0; dof := NI 0 |} =
    Ok {| chi2 := NF (f_of_Z 25); dof := NI 2 |}.
Proof. split; reflexivity. Qed.

(** a number is the same as an array of one number, as long as its square does not overflow *)
Theorem C85_number_is_array_of_one : forall f s, (isinf (fmul f f) = true -> isinf f = true) ->
  update_chi2 (PNum (NF f)) s = update_chi2 (PArr [NF f]) s.
Proof.
  intros f s H. cbn [update_chi2]. unfold sum_squares. cbn [rmapM]. unfold py_square_num, py_square.
  assert (E : isinf (fmul f f) && negb (isinf f) = false).
  { destruct (isinf (fmul f f)); auto. rewrite H; auto. }
  rewrite E. cbn [rbind py_sum_num]. unfold py_add at 3, num_op. cbn [to_f]. cbn [rbind].
  change (py_float 0) with (Ok f0). cbn [rbind].
  assert (Z : fadd f0 (fmul f f) = fmul f f).
  { destruct (square_sign f) as [-> | [-> | [-> | (m & e & ->)]]]; reflexivity. }
  rewrite Z. auto.
Qed.
Example C85_number_example :
  update_chi2 (PNum (NF (f_of_Z 3))) {| chi2 := NF f0; dof := NI 4 |} = Ok {| chi2 := NF (f_of_Z 9); dof := NI 5 |}.
Proof. reflexivity. Qed.
(** otherwise the number gives infinity and the array an OverflowError; and a number that is an int is taken for a map *)
Theorem C85_update_overflow_refuted : exists f s s', isinf f = false /\
  update_chi2 (PNum (NF f)) s = Ok s' /\ chi2 s' = NF finf /\ update_chi2 (PArr [NF f]) s = Raise (PyErr "OverflowError").
Proof.
  exists (S754_finite false 4503599627370496 600), {| chi2 := NF f0; dof := NI 0 |}, {| chi2 := NF finf; dof := NI 1 |}.
  repeat split; reflexivity.
Qed.
Theorem C85_update_int_refuted : forall z s, update_chi2 (PNum (NI z)) s = Raise (PyErr "AttributeError").
Proof. reflexivity. Qed.

(** reducedChi2 never fails; chi2Prob refuses a negative number of degrees of freedom and nothing else *)
Theorem C85_reduced_total : forall s, a_double (chi2 s) -> a_double (dof s) -> exists f, reduced_chi2 s = Ok (NF f).
Proof.
  intros s A B. unfold reduced_chi2. apply pdiv_total; auto.
  destruct (chi2 s); auto. cbn in A. pose proof pow_63_200'. lia.
Qed.
Theorem C85_prob_guards : forall cdf c n, a_double c ->
  (n < 0 -> chi2_prob cdf {| chi2 := c; dof := NI n |} = Raise (PFAErr 38060)) /\
  (n = 0 -> chi2_prob cdf {| chi2 := c; dof := NI n |} = Ok (if num_gt c (NI 0) then f_of_Z 1 else f0)) /\
  (0 < n -> py_isnan c = Ok true -> chi2_prob cdf {| chi2 := c; dof := NI n |} = Ok fnan) /\
  (0 < n -> py_isnan c = Ok false -> py_isinf c = Ok false ->
     chi2_prob cdf {| chi2 := c; dof := NI n |} = cdf (NI n) c).
Proof.
  intros cdf c n A. unfold chi2_prob, num_lt, num_eq. cbn [chi2 dof num_cmp]. repeat split.
  - intro H. rewrite (proj2 (Z.compare_lt_iff n 0) H). auto.
  - intros ->. auto.
  - intros H N. rewrite (proj2 (Z.compare_gt_iff n 0) H), N. auto.
  - intros H N I. rewrite (proj2 (Z.compare_gt_iff n 0) H), N, I. auto.
Qed.
Example C85_prob_example : forall cdf,
  chi2_prob cdf {| chi2 := NF fnan; dof := NI 3 |} = Ok fnan /\ chi2_prob cdf {| chi2 := NI 2; dof := NI 3 |} = cdf (NI 3) (NI 2).
Proof. split; reflexivity. Qed.
(** with zero degrees of freedom a NaN is taken for a chi-square of zero *)
Theorem C85_prob_nan_refuted : forall cdf, chi2_prob cdf {| chi2 := NF fnan; dof := NI 0 |} = Ok f0.
Proof. reflexivity. Qed.

(** ** The deprecated functions *)
(** arrays of different lengths are cut to the shorter one instead of being refused *)
Theorem C85_reg_residual_refuted : exists o p r, length o <> length p /\ reg_residual_array o p = Ok r.
Proof. exists [NI 1; NI 2], [NI 1], [NF f0]. split; [discriminate|reflexivity]. Qed.
(** a zero uncertainty ends arrays with a ZeroDivisionError; in maps it gives NaN whatever the sign of the difference *)
Theorem C85_reg_pull_refuted : exists o p u,
  reg_pull_array [o] [p] [u] = Raise (PyErr "ZeroDivisionError") /\
  reg_pull_map [("a", o)] [("a", p)] [("a", u)] = Ok [("a", NF fnan)] /\
  pull_array [o] [p] [u] = Ok [NF finf].
Proof. exists (NI 3), (NI 1), (NF f0). repeat split; reflexivity. Qed.
(** the number of degrees of freedom, an int in the type of the record, becomes a float *)
Theorem C85_reg_dof_refuted : forall p s s', reg_update_chi2 p s = Ok s' -> exists f, dof s' = NF f.
Proof.
  intros p s s'. unfold reg_update_chi2.
  assert (G : forall x, (c <- py_add (chi2 s) x ;; c' <- as_float c ;; n <- py_add (dof s) (NI 1) ;; n' <- as_float n ;;
                  Ok {| chi2 := c'; dof := n' |}) = Ok s' -> exists f, dof s' = NF f).
  { intros x E. destruct (py_add (chi2 s) x); cbn [rbind] in E; [|discriminate]. destruct (as_float a); cbn [rbind] in E; [|discriminate].
    destruct (py_add (dof s) (NI 1)); cbn [rbind] in E; [|discriminate].
    unfold as_float in E. destruct (to_f a1); cbn [rbind] in E; [|discriminate]. inversion E. cbn. eauto. }
  destruct p as [[z|f]|l|m]; intro H.
  - discriminate.
  - exact (G _ H).
  - destruct (sum_squares l); cbn [rbind] in H; [exact (G _ H)|discriminate].
  - destruct (sum_squares (map snd m)); cbn [rbind] in H; [exact (G _ H)|discriminate].
Qed.
Theorem C85_reg_reduced_refuted : exists c, reg_reduced_chi2 {| chi2 := c; dof := NI 0 |} = Raise (PyErr "ZeroDivisionError") /\
  reduced_chi2 {| chi2 := c; dof := NI 0 |} = Ok (NF fnan).
Proof. exists (NF f0). split; reflexivity. Qed.

Print Assumptions C85_residual_array.
Print Assumptions C85_pull_array.
Print Assumptions C85_residual_map.
Print Assumptions C85_pull_map.
Print Assumptions C85_array_refusals.
Print Assumptions C85_map_refusals.
Print Assumptions C85_pull_zero_uncertainty.
Print Assumptions C85_pull_agrees.
Print Assumptions C85_residual_agrees.
Print Assumptions C85_map_order.
Print Assumptions C85_residual_map_refuted.
Print Assumptions C85_dof_counts.
Print Assumptions C85_chi2_ints.
Print Assumptions C85_chi2_floats.
Print Assumptions C85_number_is_array_of_one.
Print Assumptions C85_update_overflow_refuted.
Print Assumptions C85_update_int_refuted.
Print Assumptions C85_reduced_total.
Print Assumptions C85_prob_guards.
Print Assumptions C85_prob_nan_refuted.
Print Assumptions C85_reg_residual_refuted.
Print Assumptions C85_reg_pull_refuted.
Print Assumptions C85_reg_dof_refuted.
Print Assumptions C85_reg_reduced_refuted.
