From Coq Require Import List Bool ZArith QArith Qabs Lia Permutation Sorted Lqa.
From Verif Require Import KsModel KsSpec.
Import ListNotations.

Section P.
  Context {T : Type} (leb : T -> T -> bool) (TO : total_order leb).

  Lemma leb_refl a : leb a a = true.
  Proof. destruct (to_total _ TO a a); auto. Qed.
  Lemma leb_tr a b c : leb a b = true -> leb b c = true -> leb a c = true.
  Proof. apply (to_trans _ TO). Qed.
  Lemma leb_false a b : leb a b = false -> leb b a = true.
  Proof. intro H. destruct (to_total _ TO a b); congruence. Qed.

  Lemma not_nan_values (l : list (option T)) : not_nan l = values l.
  Proof. induction l as [|[v|] l IH]; cbn; try rewrite IH; auto. Qed.

  Inductive srt : list T -> Prop :=
  | srt_nil : srt []
  | srt_cons a l : Forall (fun b => leb a b = true) l -> srt l -> srt (a :: l).

  Lemma insort_perm x l : Permutation (x :: l) (insort leb x l).
  Proof.
    induction l as [|y r IH]; cbn; auto. destruct (leb x y); auto.
    rewrite perm_swap. constructor. auto.
  Qed.
  Lemma sorted_perm l : Permutation l (py_sorted leb l).
  Proof.
    induction l as [|x r IH]; cbn; auto. rewrite <- insort_perm. constructor. auto.
  Qed.
  Lemma insort_srt x l : srt l -> srt (insort leb x l).
  Proof.
    induction 1 as [|a l F S IH]; cbn.
    - constructor; constructor.
    - destruct (leb x a) eqn:E.
      + constructor; [|constructor; auto]. constructor; auto.
        eapply Forall_impl; [|exact F]. cbn. intros b H. eapply leb_tr; eauto.
      + constructor; auto. apply leb_false in E.
        eapply Permutation_Forall; [apply insort_perm|]. constructor; auto.
  Qed.
  Lemma sorted_srt l : srt (py_sorted leb l).
  Proof. induction l; cbn; [constructor|]. apply insort_srt; auto. Qed.

  Lemma at_most_perm t x y : Permutation x y -> at_most leb t x = at_most leb t y.
  Proof.
    unfold at_most. induction 1; cbn; auto.
    - destruct (leb x t); cbn; auto.
    - destruct (leb x t), (leb y t); cbn; auto.
    - congruence.
  Qed.
  Lemma ecdf_perm t x y : Permutation x y -> ecdf leb x t = ecdf leb y t.
  Proof. intro P. unfold ecdf. rewrite (at_most_perm _ _ _ P), (Permutation_length P). auto. Qed.

  Lemma at_most_le t x : (at_most leb t x <= length x)%nat.
  Proof. unfold at_most. induction x as [|a x IH]; cbn; auto. destruct (leb a t); cbn; lia. Qed.
  Lemma at_most_app t x y : at_most leb t (x ++ y) = (at_most leb t x + at_most leb t y)%nat.
  Proof. unfold at_most. rewrite filter_app, app_length. auto. Qed.
  Lemma at_most_all t x : Forall (fun v => leb v t = true) x -> at_most leb t x = length x.
  Proof. unfold at_most. induction 1 as [|a x H F IH]; cbn; auto. rewrite H. cbn. lia. Qed.
  Lemma at_most_none t x : Forall (fun v => leb v t = false) x -> at_most leb t x = O.
  Proof. unfold at_most. induction 1 as [|a x H F IH]; cbn; auto. rewrite H. auto. Qed.

  Lemma lists_equal_counts x y : lists_equal leb x y = true -> forall t, at_most leb t x = at_most leb t y.
  Proof.
    unfold at_most. revert y. induction x as [|a x IH]; destruct y as [|b y]; cbn; try discriminate; auto.
    intros H t. apply andb_true_iff in H as [H H3]. apply andb_true_iff in H as [H1 H2].
    assert (E : leb a t = leb b t).
    { destruct (leb a t) eqn:A, (leb b t) eqn:B; auto.
      - rewrite (leb_tr b a t) in B; auto.
      - rewrite (leb_tr a b t) in A; auto. }
    rewrite E. destruct (leb b t); cbn; rewrite (IH y); auto.
  Qed.

  Lemma counts_lists_equal x y : srt x -> srt y ->
    (forall t, at_most leb t x = at_most leb t y) -> lists_equal leb x y = true.
  Proof.
    intro Sx. revert y. induction Sx as [|a x F Sx IH]; intros y Sy C.
    - destruct y as [|b y]; auto. specialize (C b). unfold at_most in C. cbn in C. rewrite leb_refl in C. discriminate.
    - destruct Sy as [|b y G Sy].
      + specialize (C a). unfold at_most in C. cbn in C. rewrite leb_refl in C. discriminate.
      + assert (H : forall u v l m, Forall (fun w => leb v w = true) m ->
                    at_most leb u (u :: l) = at_most leb u (v :: m) -> leb v u = true).
        { intros u v l m FF E. destruct (leb v u) eqn:L; auto.
          rewrite (at_most_none u (v :: m)) in E.
          - unfold at_most in E. cbn in E. rewrite leb_refl in E. discriminate.
          - constructor; auto. eapply Forall_impl; [|exact FF]. cbn. intros w W.
            destruct (leb w u) eqn:L2; auto. rewrite (leb_tr v w u) in L; auto. }
        pose proof (H a b x y G (C a)) as BA.
        pose proof (H b a y x F (eq_sym (C b))) as AB.
        cbn. rewrite AB, BA. cbn. apply IH; auto.
        intro t. specialize (C t). unfold at_most in *. cbn in C.
        assert (E : leb a t = leb b t).
        { destruct (leb a t) eqn:A, (leb b t) eqn:B; auto.
          - rewrite (leb_tr b a t) in B; auto.
          - rewrite (leb_tr a b t) in A; auto. }
        rewrite E in C. destruct (leb b t); cbn in C; auto.
  Qed.

  (** ** The loop *)
  Lemma quotient_0 n : quotient 0 n == 0.
  Proof. unfold quotient. cbn. unfold Qdiv. rewrite Qmult_0_l. reflexivity. Qed.

  Lemma quotient_le i j n : (i <= j)%nat -> quotient i n <= quotient j n.
  Proof.
    intro H. unfold quotient, Qdiv. apply Qmult_le_compat_r.
    - rewrite <- Zle_Qle. lia.
    - apply Qinv_le_0_compat. change 0 with (inject_Z 0). rewrite <- Zle_Qle. lia.
  Qed.
  Lemma quotient_nn n : (n <> 0)%nat -> quotient n n == 1.
  Proof.
    intro H. unfold quotient. field. intro E. unfold Qeq in E. cbn in E. lia.
  Qed.
  Lemma quotient_lt i j n : (n <> 0)%nat -> (i < j)%nat -> quotient i n < quotient j n.
  Proof.
    intros Hn H. unfold quotient, Qdiv. apply Qmult_lt_compat_r.
    - apply Qinv_lt_0_compat. change 0 with (inject_Z 0). rewrite <- Zlt_Qlt. lia.
    - rewrite <- Zlt_Qlt. lia.
  Qed.

  Lemma neg_Qabs u : - u <= Qabs u.
  Proof. rewrite <- Qabs_opp. apply Qle_Qabs. Qed.

  Definition upd (dt d : Q) : Q := if Qle_bool dt d then d else dt.
  Lemma upd_l dt d : dt <= upd dt d.
  Proof. unfold upd. destruct (Qle_bool dt d) eqn:E; [apply Qle_bool_iff; auto | apply Qle_refl]. Qed.
  Lemma upd_r dt d : d <= upd dt d.
  Proof.
    unfold upd. destruct (Qle_bool dt d) eqn:E; [apply Qle_refl|].
    destruct (Qlt_le_dec d dt) as [L|L]; [apply Qlt_le_weak; auto|]. apply Qle_bool_iff in L. congruence.
  Qed.
  Lemma upd_cases dt d : upd dt d = d \/ upd dt d = dt.
  Proof. unfold upd. destruct (Qle_bool dt d); auto. Qed.

  (** One turn of the loop. *)
  Inductive turn (n1 n2 : nat) : nat * list T * Q -> nat * list T * Q -> nat * list T * Q -> nat * list T * Q -> Prop :=
  | turn_x j1 j2 a xs b ys f1 f2 : leb a b = true -> leb b a = false ->
      turn n1 n2 (j1, a :: xs, f1) (j2, b :: ys, f2) (S j1, xs, quotient (S j1) n1) (j2, b :: ys, f2)
  | turn_y j1 j2 a xs b ys f1 f2 : leb a b = false -> leb b a = true ->
      turn n1 n2 (j1, a :: xs, f1) (j2, b :: ys, f2) (j1, a :: xs, f1) (S j2, ys, quotient (S j2) n2)
  | turn_xy j1 j2 a xs b ys f1 f2 : leb a b = true -> leb b a = true ->
      turn n1 n2 (j1, a :: xs, f1) (j2, b :: ys, f2) (S j1, xs, quotient (S j1) n1) (S j2, ys, quotient (S j2) n2).

  Lemma ks_turn fuel n1 n2 j1 j2 a xs b ys f1 f2 d :
    exists j1' xs' f1' j2' ys' f2',
      turn n1 n2 (j1, a :: xs, f1) (j2, b :: ys, f2) (j1', xs', f1') (j2', ys', f2') /\
      ks_loop leb (S fuel) n1 n2 j1 j2 (a :: xs) (b :: ys) f1 f2 d =
      ks_loop leb fuel n1 n2 j1' j2' xs' ys' f1' f2' (upd (Qabs (f2' - f1')) d).
  Proof.
    cbn [ks_loop]. destruct (leb a b) eqn:E1, (leb b a) eqn:E2.
    - do 6 eexists. split; [apply turn_xy; auto | reflexivity].
    - do 6 eexists. split; [apply turn_x; auto | reflexivity].
    - do 6 eexists. split; [apply turn_y; auto | reflexivity].
    - apply leb_false in E1. congruence.
  Qed.

  Lemma turn_length n1 n2 j1 xs f1 j2 ys f2 j1' xs' f1' j2' ys' f2' :
    turn n1 n2 (j1, xs, f1) (j2, ys, f2) (j1', xs', f1') (j2', ys', f2') ->
    (length xs' + length ys' < length xs + length ys)%nat.
  Proof. inversion 1; subst; cbn; lia. Qed.

  Lemma ks_loop_total fuel n1 n2 j1 j2 xs ys f1 f2 d :
    (length xs + length ys <= fuel)%nat -> exists r, ks_loop leb fuel n1 n2 j1 j2 xs ys f1 f2 d = Some r.
  Proof.
    revert j1 j2 xs ys f1 f2 d. induction fuel as [|fuel IH]; intros j1 j2 xs ys f1 f2 d H.
    - destruct xs; cbn in H; [|lia]. cbn. eauto.
    - destruct xs as [|a xs]; [cbn; eauto|]. destruct ys as [|b ys]; [cbn; eauto|].
      destruct (ks_turn fuel n1 n2 j1 j2 a xs b ys f1 f2 d) as (j1' & xs' & f1' & j2' & ys' & f2' & Tn & E).
      rewrite E. apply IH. apply turn_length in Tn. lia.
  Qed.

  Lemma ks_loop_mono fuel n1 n2 j1 j2 xs ys f1 f2 d r :
    ks_loop leb fuel n1 n2 j1 j2 xs ys f1 f2 d = Some r -> d <= r.
  Proof.
    revert j1 j2 xs ys f1 f2 d. induction fuel as [|fuel IH]; intros j1 j2 xs ys f1 f2 d H.
    - destruct xs, ys; cbn in H; inversion H; subst; apply Qle_refl.
    - destruct xs as [|a xs]; [cbn in H; inversion H; apply Qle_refl|].
      destruct ys as [|b ys]; [cbn in H; inversion H; apply Qle_refl|].
      destruct (ks_turn fuel n1 n2 j1 j2 a xs b ys f1 f2 d) as (j1' & xs' & f1' & j2' & ys' & f2' & Tn & E).
      rewrite E in H. apply IH in H. eapply Qle_trans; [apply upd_r | exact H].
  Qed.

  Section Samples.
    Variables X Y : list T.
    Hypotheses (SX : srt X) (SY : srt Y) (NX : X <> []) (NY : Y <> []).
    Let n1 := length X.
    Let n2 := length Y.

    Lemma n1_pos : n1 <> 0%nat.
    Proof. unfold n1. destruct X; cbn; congruence. Qed.
    Lemma n2_pos : n2 <> 0%nat.
    Proof. unfold n2. destruct Y; cbn; congruence. Qed.

    (** where the loop stands: [px] and [py] are the values already passed *)
    Record at_ (px py : list T) (j1 j2 : nat) (xs ys : list T) (f1 f2 : Q) : Prop := {
      at_x : X = px ++ xs; at_y : Y = py ++ ys;
      at_j1 : j1 = length px; at_j2 : j2 = length py;
      at_f1 : f1 == quotient j1 n1; at_f2 : f2 == quotient j2 n2;
      at_le : forall p v, In p (px ++ py) -> In v (xs ++ ys) -> leb p v = true }.

    Lemma srt_app_inv l m : srt (l ++ m) -> srt m.
    Proof. induction l; cbn; auto. inversion 1; auto. Qed.

    Lemma at_start : at_ [] [] 0 0 X Y 0 0.
    Proof. constructor; auto; try (symmetry; apply quotient_0).  Qed.

    Ltac small :=
      repeat match goal with
        | H : _ \/ _ |- _ => destruct H
        | H : False |- _ => destruct H
        end; subst; auto using leb_refl;
      match goal with
      | H : leb ?c ?d = true, F : forall x, In x ?l -> leb ?d x = true, I : In ?v ?l |- leb ?c ?v = true =>
          exact (leb_tr c d v H (F v I))
      end.

    Lemma at_step px py j1 j2 xs ys f1 f2 j1' xs' f1' j2' ys' f2' :
      at_ px py j1 j2 xs ys f1 f2 ->
      turn n1 n2 (j1, xs, f1) (j2, ys, f2) (j1', xs', f1') (j2', ys', f2') ->
      exists cx cy, xs = cx ++ xs' /\ ys = cy ++ ys' /\
        (forall c v, In c (cx ++ cy) -> In v (xs ++ ys) -> leb c v = true) /\
        at_ (px ++ cx) (py ++ cy) j1' j2' xs' ys' f1' f2'.
    Proof.
      intros A Tn. destruct A as [ax ay aj1 aj2 af1 af2 al].
      assert (S1 : srt xs) by (apply (srt_app_inv px); rewrite <- ax; auto).
      assert (S2 : srt ys) by (apply (srt_app_inv py); rewrite <- ay; auto).
      inversion Tn; subst.
      - match goal with H1 : leb a b = true, H2 : leb b a = false |- _ => rename H1 into AB; rename H2 into BA end.
        exists [a], []. split; [reflexivity|]. split; [reflexivity|].
        split; [inversion S1 as [|? ? F1 _]; inversion S2 as [|? ? F2 _]; subst; rewrite Forall_forall in F1, F2;
          intros c v C V; rewrite in_app_iff in V; cbn in C, V; small |].
        constructor; try reflexivity.
        + rewrite ax, <- app_assoc. auto.
        + rewrite app_nil_r. auto.
        + rewrite app_length. cbn. lia.
        + rewrite app_nil_r. auto.
        + auto.
        + inversion S1 as [|? ? F1 _]; inversion S2 as [|? ? F2 _]; subst. rewrite Forall_forall in F1, F2.
          intros p v P V. rewrite app_nil_r, !in_app_iff in P. rewrite in_app_iff in V. cbn in P, V.
          destruct P as [[P | [P | []]] | P].
          * apply al; rewrite in_app_iff; cbn; tauto.
          * subst p. destruct V as [V | [V | V]]; auto; [subst v; auto|]. apply leb_tr with b; auto.
          * apply al; rewrite in_app_iff; cbn; tauto.
      - match goal with H1 : leb a b = false, H2 : leb b a = true |- _ => rename H1 into AB; rename H2 into BA end.
        exists [], [b]. split; [reflexivity|]. split; [reflexivity|].
        split; [inversion S1 as [|? ? F1 _]; inversion S2 as [|? ? F2 _]; subst; rewrite Forall_forall in F1, F2;
          intros c v C V; rewrite in_app_iff in V; cbn in C, V; small |].
        constructor; try reflexivity.
        + rewrite app_nil_r. auto.
        + rewrite ay, <- app_assoc. auto.
        + rewrite app_nil_r. auto.
        + rewrite app_length. cbn. lia.
        + auto.
        + inversion S1 as [|? ? F1 _]; inversion S2 as [|? ? F2 _]; subst. rewrite Forall_forall in F1, F2.
          intros p v P V. rewrite app_nil_r, !in_app_iff in P. rewrite in_app_iff in V. cbn in P, V.
          destruct P as [P | [P | [P | []]]].
          * apply al; rewrite in_app_iff; cbn; tauto.
          * apply al; rewrite in_app_iff; cbn; tauto.
          * subst p. destruct V as [[V | V] | V]; auto; [subst v; auto|]. apply leb_tr with a; auto.
      - match goal with H1 : leb a b = true, H2 : leb b a = true |- _ => rename H1 into AB; rename H2 into BA end.
        exists [a], [b]. split; [reflexivity|]. split; [reflexivity|].
        split; [inversion S1 as [|? ? F1 _]; inversion S2 as [|? ? F2 _]; subst; rewrite Forall_forall in F1, F2;
          intros c v C V; rewrite in_app_iff in V; cbn in C, V; small |].
        constructor; try reflexivity.
        + rewrite ax, <- app_assoc. auto.
        + rewrite ay, <- app_assoc. auto.
        + rewrite app_length. cbn. lia.
        + rewrite app_length. cbn. lia.
        + inversion S1 as [|? ? F1 _]; inversion S2 as [|? ? F2 _]; subst. rewrite Forall_forall in F1, F2.
          intros p v P V. rewrite !in_app_iff in P. rewrite in_app_iff in V. cbn in P, V.
          destruct P as [[P | [P | []]] | [P | [P | []]]].
          * apply al; rewrite in_app_iff; cbn; tauto.
          * subst p. destruct V as [V | V]; auto. apply leb_tr with b; auto.
          * apply al; rewrite in_app_iff; cbn; tauto.
          * subst p. destruct V as [V | V]; auto. apply leb_tr with a; auto.
    Qed.

    Lemma ecdf_quotient l t : ecdf leb l t = quotient (at_most leb t l) (length l).
    Proof. reflexivity. Qed.

    Definition gap (t : T) : Q := distance leb X Y t.

    (** the distance at [t] when exactly the passed values are at most [t] *)
    Lemma gap_here px py j1 j2 xs ys f1 f2 t : at_ px py j1 j2 xs ys f1 f2 ->
      Forall (fun v => leb v t = true) (px ++ py) -> Forall (fun v => leb v t = false) (xs ++ ys) ->
      gap t == Qabs (f2 - f1).
    Proof.
      intros [ax ay aj1 aj2 af1 af2 al] F G. apply Forall_app in F as [F1 F2]. apply Forall_app in G as [G1 G2].
      unfold gap, distance. rewrite !ecdf_quotient.
      assert (E1 : at_most leb t X = j1).
      { rewrite ax, at_most_app, (at_most_all _ _ F1), (at_most_none _ _ G1). lia. }
      assert (E2 : at_most leb t Y = j2).
      { rewrite ay, at_most_app, (at_most_all _ _ F2), (at_most_none _ _ G2). lia. }
      rewrite E1, E2. fold n1 n2. rewrite af1, af2.
      rewrite <- Qabs_opp. apply Qabs_wd. ring.
    Qed.

    Lemma gap_bound fuel px py j1 j2 xs ys f1 f2 d r t :
      at_ px py j1 j2 xs ys f1 f2 -> Qabs (f2 - f1) <= d ->
      Forall (fun v => leb v t = true) (px ++ py) ->
      ks_loop leb fuel n1 n2 j1 j2 xs ys f1 f2 d = Some r -> gap t <= r.
    Proof.
      revert px py j1 j2 xs ys f1 f2 d. induction fuel as [|fuel IH]; intros px py j1 j2 xs ys f1 f2 d A D F R.
      all: assert (Last : (xs = [] \/ ys = []) -> d = r -> gap t <= r).
      1, 3: intros Em <-; eapply Qle_trans; [|exact D]; destruct A as [ax ay aj1 aj2 af1 af2 al];
        apply Forall_app in F as [F1 F2]; unfold gap, distance; rewrite !ecdf_quotient; fold n1 n2;
        rewrite af1, af2;
        assert (C1 : at_most leb t X = (j1 + at_most leb t xs)%nat)
          by (rewrite ax, at_most_app, (at_most_all _ _ F1); lia);
        assert (C2 : at_most leb t Y = (j2 + at_most leb t ys)%nat)
          by (rewrite ay, at_most_app, (at_most_all _ _ F2); lia);
        pose proof (at_most_le t X) as B1; pose proof (at_most_le t Y) as B2; fold n1 in B1; fold n2 in B2;
        pose proof (quotient_le _ _ n1 B1) as Q1; pose proof (quotient_le _ _ n2 B2) as Q2;
        rewrite (quotient_nn _ n1_pos) in Q1; rewrite (quotient_nn _ n2_pos) in Q2;
        assert (Q3 : quotient j1 n1 <= quotient (at_most leb t X) n1) by (apply quotient_le; lia);
        assert (Q4 : quotient j2 n2 <= quotient (at_most leb t Y) n2) by (apply quotient_le; lia);
        destruct Em as [Em|Em]; subst xs || subst ys;
        [ assert (J : j1 = n1) by (unfold n1; rewrite ax, app_nil_r; auto);
          rewrite J in *; rewrite (quotient_nn _ n1_pos) in *
        | assert (J : j2 = n2) by (unfold n2; rewrite ay, app_nil_r; auto);
          rewrite J in *; rewrite (quotient_nn _ n2_pos) in * ];
        match goal with |- _ <= Qabs ?u => pose proof (Qle_Qabs u) as U1; pose proof (neg_Qabs u) as U2 end;
        apply Qabs_Qle_condition; split; lra.
      - destruct xs as [|a xs]; [cbn in R; inversion R; auto|]. destruct ys as [|b ys]; [cbn in R; inversion R; auto|].
        discriminate.
      - destruct xs as [|a xs]; [cbn in R; inversion R; auto|]. destruct ys as [|b ys]; [cbn in R; inversion R; auto|].
        clear Last.
        destruct (ks_turn fuel n1 n2 j1 j2 a xs b ys f1 f2 d) as (j1' & xs' & f1' & j2' & ys' & f2' & Tn & E).
        rewrite E in R.
        destruct (at_step _ _ _ _ _ _ _ _ _ _ _ _ _ _ A Tn) as (cx & cy & Ex & Ey & Least & A').
        destruct (forallb (fun v => leb v t) (cx ++ cy)) eqn:All.
        + refine (IH _ _ _ _ _ _ _ _ _ A' _ _ R).
          * apply upd_l.
          * rewrite forallb_forall in All. apply Forall_forall. intros v V.
            rewrite Forall_forall in F. rewrite !in_app_iff in V.
            destruct V as [[V|V]|[V|V]]; try (apply F; rewrite in_app_iff; tauto); apply All; rewrite in_app_iff; tauto.
        + eapply Qle_trans; [|eapply ks_loop_mono; exact R]. eapply Qle_trans; [|apply upd_r].
          rewrite (gap_here _ _ _ _ _ _ _ _ t A); auto.
          (* some value about to be passed is above t, hence all the values to come are *)
          assert (Ex0 : exists c, In c (cx ++ cy) /\ leb c t = false).
          { clear - All. induction (cx ++ cy) as [|c l IH]; cbn in All; [discriminate|].
            destruct (leb c t) eqn:L; [|exists c; cbn; auto]. destruct (IH All) as (c' & I & L'). exists c'. cbn. auto. }
          destruct Ex0 as (c & Ic & Lc).
          apply Forall_forall. intros v V. destruct (leb v t) eqn:L; auto.
          rewrite (leb_tr c v t) in Lc; auto.
    Qed.

    Lemma no_ties_app_inv l m : no_ties leb (l ++ m) -> no_ties leb m.
    Proof. induction l; cbn; tauto. Qed.

    Lemma above a l : Forall (fun b => leb a b = true) l -> Forall (fun b => leb a b && leb b a = false) l ->
      Forall (fun b => leb b a = false) l.
    Proof.
      rewrite !Forall_forall. intros F G v V. specialize (F v V). specialize (G v V). cbn in *. rewrite F in G. auto.
    Qed.
    Lemma above_more a b l : leb b a = false -> Forall (fun v => leb b v = true) l -> Forall (fun v => leb v a = false) l.
    Proof.
      rewrite !Forall_forall. intros L F v V. specialize (F v V). cbn in *.
      destruct (leb v a) eqn:E; auto. rewrite (leb_tr b v a) in L; auto.
    Qed.

    Lemma turn_strict px py j1 j2 xs ys f1 f2 j1' xs' f1' j2' ys' f2' :
      no_ties leb X -> no_ties leb Y ->
      at_ px py j1 j2 xs ys f1 f2 ->
      turn n1 n2 (j1, xs, f1) (j2, ys, f2) (j1', xs', f1') (j2', ys', f2') ->
      exists t, In t (xs ++ ys) /\ gap t == Qabs (f2' - f1').
    Proof.
      intros N1 N2 A Tn. pose proof A as [ax ay aj1 aj2 af1 af2 al].
      rewrite ax in N1. rewrite ay in N2. apply no_ties_app_inv in N1, N2.
      assert (S1 : srt xs) by (apply (srt_app_inv px); rewrite <- ax; auto).
      assert (S2 : srt ys) by (apply (srt_app_inv py); rewrite <- ay; auto).
      assert (Key : forall c, (forall cx cy, xs = cx ++ xs' -> ys = cy ++ ys' -> In c (cx ++ cy)) ->
                Forall (fun v => leb v c = false) (xs' ++ ys') -> exists t, In t (xs ++ ys) /\ gap t == Qabs (f2' - f1')).
      { intros c Ic Up. destruct (at_step _ _ _ _ _ _ _ _ _ _ _ _ _ _ A Tn) as (cx & cy & Ex & Ey & Least & A').
        specialize (Ic cx cy Ex Ey).
        assert (Iin : In c (xs ++ ys)) by (rewrite Ex, Ey; rewrite !in_app_iff in *; tauto).
        exists c. split; auto. apply (gap_here _ _ _ _ _ _ _ _ c A'); auto.
        apply Forall_forall. intros v V. rewrite !in_app_iff in V.
        destruct V as [[V|V]|[V|V]].
        - apply al; auto. rewrite in_app_iff; auto.
        - apply Least; auto. rewrite in_app_iff; auto.
        - apply al; auto. rewrite in_app_iff; auto.
        - apply Least; auto. rewrite in_app_iff; auto. }
      inversion Tn; subst; cbn in N1, N2; destruct N1 as [M1 N1]; destruct N2 as [M2 N2];
        inversion S1 as [|? ? F1 _]; inversion S2 as [|? ? F2 _]; subst.
      - apply (Key a).
        + intros cx cy E _. change (a :: xs') with ([a] ++ xs') in E. apply app_inv_tail in E. subst. cbn. auto.
        + apply Forall_app. split; [apply above; auto|]. constructor; auto. apply above_more with b; auto.
      - apply (Key b).
        + intros cx cy _ E. change (b :: ys') with ([b] ++ ys') in E. apply app_inv_tail in E. subst.
          rewrite in_app_iff. cbn. auto.
        + apply Forall_app. split; [|apply above; auto]. constructor; auto. apply above_more with a; auto.
      - apply (Key a).
        + intros cx cy E _. change (a :: xs') with ([a] ++ xs') in E. apply app_inv_tail in E. subst. cbn. auto.
        + apply Forall_app. split; [apply above; auto|].
          pose proof (above _ _ F2 M2) as U. rewrite Forall_forall in *. intros v V. specialize (U v V). cbn in U.
          destruct (leb v a) eqn:E; auto. rewrite (leb_tr v a b) in U; auto.
    Qed.

    Lemma gap_attained fuel px py j1 j2 xs ys f1 f2 d r :
      no_ties leb X -> no_ties leb Y ->
      at_ px py j1 j2 xs ys f1 f2 ->
      ks_loop leb fuel n1 n2 j1 j2 xs ys f1 f2 d = Some r ->
      r = d \/ exists t, In t (X ++ Y) /\ gap t == r.
    Proof.
      intros N1 N2. revert px py j1 j2 xs ys f1 f2 d. induction fuel as [|fuel IH]; intros px py j1 j2 xs ys f1 f2 d A R.
      - destruct xs, ys; cbn in R; inversion R; auto.
      - destruct xs as [|a xs]; [cbn in R; inversion R; auto|]. destruct ys as [|b ys]; [cbn in R; inversion R; auto|].
        destruct (ks_turn fuel n1 n2 j1 j2 a xs b ys f1 f2 d) as (j1' & xs' & f1' & j2' & ys' & f2' & Tn & E).
        rewrite E in R.
        destruct (at_step _ _ _ _ _ _ _ _ _ _ _ _ _ _ A Tn) as (cx & cy & Ex & Ey & Least & A').
        destruct (IH _ _ _ _ _ _ _ _ _ A' R) as [Er|]; auto.
        destruct (turn_strict _ _ _ _ _ _ _ _ _ _ _ _ _ _ N1 N2 A Tn) as (t & It & Gt).
        destruct (upd_cases (Qabs (f2' - f1')) d) as [U|U]; rewrite U in Er; auto.
        right. exists t. rewrite Er. split; auto.
        rewrite (at_x _ _ _ _ _ _ _ _ A), (at_y _ _ _ _ _ _ _ _ A). rewrite !in_app_iff in *. tauto.
    Qed.

    Lemma at_range px py j1 j2 xs ys f1 f2 : at_ px py j1 j2 xs ys f1 f2 -> 0 <= f1 <= 1 /\ 0 <= f2 <= 1.
    Proof.
      intros [ax ay aj1 aj2 af1 af2 al].
      assert (B1 : (j1 <= n1)%nat) by (unfold n1; rewrite ax, app_length; lia).
      assert (B2 : (j2 <= n2)%nat) by (unfold n2; rewrite ay, app_length; lia).
      pose proof (quotient_le _ _ n1 B1) as U1. pose proof (quotient_le _ _ n2 B2) as U2.
      pose proof (quotient_le 0 j1 n1 (Nat.le_0_l _)) as L1. pose proof (quotient_le 0 j2 n2 (Nat.le_0_l _)) as L2.
      pose proof (quotient_nn _ n1_pos) as E1. pose proof (quotient_nn _ n2_pos) as E2.
      pose proof (quotient_0 n1) as Z1. pose proof (quotient_0 n2) as Z2. lra.
    Qed.

    Lemma ks_le_1 fuel px py j1 j2 xs ys f1 f2 d r :
      at_ px py j1 j2 xs ys f1 f2 -> d <= 1 ->
      ks_loop leb fuel n1 n2 j1 j2 xs ys f1 f2 d = Some r -> r <= 1.
    Proof.
      revert px py j1 j2 xs ys f1 f2 d. induction fuel as [|fuel IH]; intros px py j1 j2 xs ys f1 f2 d A D R.
      - destruct xs, ys; cbn in R; inversion R; subst; auto.
      - destruct xs as [|a xs]; [cbn in R; inversion R; subst; auto|].
        destruct ys as [|b ys]; [cbn in R; inversion R; subst; auto|].
        destruct (ks_turn fuel n1 n2 j1 j2 a xs b ys f1 f2 d) as (j1' & xs' & f1' & j2' & ys' & f2' & Tn & E).
        rewrite E in R.
        destruct (at_step _ _ _ _ _ _ _ _ _ _ _ _ _ _ A Tn) as (cx & cy & Ex & Ey & Least & A').
        refine (IH _ _ _ _ _ _ _ _ _ A' _ R).
        destruct (upd_cases (Qabs (f2' - f1')) d) as [U|U]; rewrite U; auto.
        destruct (at_range _ _ _ _ _ _ _ _ A') as [R1 R2]. apply Qabs_Qle_condition. lra.
    Qed.
  End Samples.

  Lemma abs_pos u : ~ u == 0 -> 0 < Qabs u.
  Proof.
    intro H. destruct (Qlt_le_dec 0 u) as [L|L].
    - rewrite Qabs_pos; auto. apply Qlt_le_weak; auto.
    - rewrite Qabs_neg; auto. destruct (Qlt_le_dec u 0) as [M|M]; [lra|]. exfalso. apply H. lra.
  Qed.

  Lemma ks_pos_same fuel n j xs ys f1 f2 d r :
    n <> 0%nat -> 0 <= d -> f1 == quotient j n -> f2 == quotient j n -> length xs = length ys ->
    lists_equal leb xs ys = false ->
    ks_loop leb fuel n n j j xs ys f1 f2 d = Some r -> 0 < r.
  Proof.
    intro Hn. revert j xs ys f1 f2 d. induction fuel as [|fuel IH]; intros j xs ys f1 f2 d D E1 E2 L NE R.
    - destruct xs, ys; cbn in *; try discriminate.
    - destruct xs as [|a xs]; destruct ys as [|b ys]; try discriminate.
      destruct (ks_turn fuel n n j j a xs b ys f1 f2 d) as (j1' & xs' & f1' & j2' & ys' & f2' & Tn & E).
      rewrite E in R. pose proof (ks_loop_mono _ _ _ _ _ _ _ _ _ _ _ R) as M.
      pose proof (upd_l (Qabs (f2' - f1')) d) as Ul. pose proof (upd_r (Qabs (f2' - f1')) d) as Ur.
      pose proof (quotient_lt j (S j) n Hn (Nat.lt_succ_diag_r j)) as Lt.
      inversion Tn; subst.
      + match type of M with upd (Qabs ?u) _ <= _ => assert (P : 0 < Qabs u) by (apply abs_pos; intro Z; lra) end. lra.
      + match type of M with upd (Qabs ?u) _ <= _ => assert (P : 0 < Qabs u) by (apply abs_pos; intro Z; lra) end. lra.
      + refine (IH _ _ _ _ _ _ _ (Qeq_refl _) (Qeq_refl _) _ _ R).
        * lra.
        * cbn in L. congruence.
        * cbn in NE. repeat match goal with H : leb _ _ = true |- _ => rewrite H in NE end. auto.
  Qed.

  Lemma ks_pos X Y r : X <> [] -> Y <> [] -> lists_equal leb X Y = false ->
    ks_loop leb (length X + length Y) (length X) (length Y) 0 0 X Y 0 0 0 = Some r -> 0 < r.
  Proof.
    intros NX NY NE R. destruct (Nat.eq_dec (length X) (length Y)) as [L|L].
    - rewrite <- L in R. eapply ks_pos_same; try exact R; auto; try (symmetry; apply quotient_0).
      + destruct X; cbn; congruence.
      + apply Qle_refl.
    - destruct X as [|a xs]; [congruence|]. destruct Y as [|b ys]; [congruence|].
      set (n1 := length (a :: xs)) in *. set (n2 := length (b :: ys)) in *.
      assert (H1 : n1 <> 0%nat) by (subst n1; cbn; congruence).
      assert (H2 : n2 <> 0%nat) by (subst n2; cbn; congruence).
      destruct (n1 + n2)%nat as [|fuel] eqn:Ef; [lia|].
      destruct (ks_turn fuel n1 n2 0 0 a xs b ys 0 0 0) as (j1' & xs' & f1' & j2' & ys' & f2' & Tn & E).
      rewrite E in R. pose proof (ks_loop_mono _ _ _ _ _ _ _ _ _ _ _ R) as M.
      pose proof (upd_l (Qabs (f2' - f1')) 0) as Ul.
      pose proof (quotient_lt 0 1 n1 H1 Nat.lt_0_1) as L1. rewrite quotient_0 in L1.
      pose proof (quotient_lt 0 1 n2 H2 Nat.lt_0_1) as L2. rewrite quotient_0 in L2.
      inversion Tn; subst.
      + match type of M with upd (Qabs ?u) _ <= _ => assert (P : 0 < Qabs u) by (apply abs_pos; intro Z; lra) end. lra.
      + match type of M with upd (Qabs ?u) _ <= _ => assert (P : 0 < Qabs u) by (apply abs_pos; intro Z; lra) end. lra.
      + pose proof (abs_pos (quotient 1 n2 - quotient 1 n1)) as P.
        assert (~ quotient 1 n2 - quotient 1 n1 == 0).
        { intro Z. assert (Z' : quotient 1 n2 == quotient 1 n1) by lra. unfold quotient in Z'.
          clear - Z' L H1 H2. destruct n1 as [|m1]; [congruence|]. destruct n2 as [|m2]; [congruence|].
          unfold Qeq, Qdiv, Qinv in Z'. cbn in Z'. lia. }
        specialize (P H). lra.
  Qed.

  (** ** Samples and their order *)
  Lemma Qabs_minus_swap u v : Qabs (u - v) = Qabs (v - u).
  Proof.
    destruct u as [a b], v as [c d]. unfold Qabs, Qminus, Qplus, Qopp. cbn [Qnum Qden].
    f_equal; [|apply Pos.mul_comm]. rewrite <- Z.abs_opp. f_equal. ring.
  Qed.

  Lemma ks_swap fuel n1 n2 j1 j2 xs ys f1 f2 d :
    ks_loop leb fuel n1 n2 j1 j2 xs ys f1 f2 d = ks_loop leb fuel n2 n1 j2 j1 ys xs f2 f1 d.
  Proof.
    revert j1 j2 xs ys f1 f2 d. induction fuel as [|fuel IH]; intros j1 j2 xs ys f1 f2 d; destruct xs, ys; auto.
    cbn [ks_loop]. destruct (leb t t0), (leb t0 t); rewrite IH, Qabs_minus_swap; auto.
  Qed.

  Lemma lists_equal_swap x y : lists_equal leb x y = lists_equal leb y x.
  Proof.
    revert y. induction x as [|a x IH]; destruct y as [|b y]; cbn; auto. rewrite IH, (andb_comm (leb a b)). auto.
  Qed.

  Definition eqv a b := leb a b = true /\ leb b a = true.

  Lemma lists_equal_Forall2 x y : lists_equal leb x y = true -> Forall2 eqv x y.
  Proof.
    revert y. induction x as [|a x IH]; destruct y as [|b y]; cbn; try discriminate; auto.
    intro H. apply andb_true_iff in H as [H H3]. apply andb_true_iff in H as [H1 H2]. constructor; auto. split; auto.
  Qed.

  Lemma leb_eqv a b c d : eqv a b -> eqv c d -> leb a c = leb b d.
  Proof.
    intros [H1 H2] [H3 H4]. destruct (leb a c) eqn:E, (leb b d) eqn:F; auto.
    - rewrite (leb_tr b c d) in F; auto. apply leb_tr with a; auto.
    - rewrite (leb_tr a d c) in E; auto. apply leb_tr with b; auto.
  Qed.

  Lemma ks_eqv fuel n1 n2 j1 j2 xs ys xs' ys' f1 f2 d : Forall2 eqv xs xs' -> Forall2 eqv ys ys' ->
    ks_loop leb fuel n1 n2 j1 j2 xs ys f1 f2 d = ks_loop leb fuel n1 n2 j1 j2 xs' ys' f1 f2 d.
  Proof.
    revert j1 j2 xs ys xs' ys' f1 f2 d.
    induction fuel as [|fuel IH]; intros j1 j2 xs ys xs' ys' f1 f2 d F G; destruct F as [|a a' xs xs' Ea F]; auto;
      destruct G as [|b b' ys ys' Eb G]; auto.
    cbn [ks_loop]. rewrite (leb_eqv _ _ _ _ Ea Eb), (leb_eqv _ _ _ _ Eb Ea).
    destruct (leb a' b'), (leb b' a'); apply IH; auto; constructor; auto.
  Qed.

  Lemma lists_equal_eqv x y x' y' : Forall2 eqv x x' -> Forall2 eqv y y' -> lists_equal leb x y = lists_equal leb x' y'.
  Proof.
    intro F. revert y y'. induction F as [|a a' x x' Ea F IH]; intros y y' G; destruct G as [|b b' y y' Eb G]; cbn; auto.
    rewrite (IH _ _ G), (leb_eqv _ _ _ _ Ea Eb), (leb_eqv _ _ _ _ Eb Ea). auto.
  Qed.

  Lemma sorted_eqv x y : Permutation x y -> Forall2 eqv (py_sorted leb x) (py_sorted leb y).
  Proof.
    intro P. apply lists_equal_Forall2. apply counts_lists_equal; try apply sorted_srt.
    intro t. apply at_most_perm. rewrite <- (sorted_perm x), <- (sorted_perm y). auto.
  Qed.

  Lemma no_ties_perm x y : Permutation x y -> no_ties leb x -> no_ties leb y.
  Proof.
    induction 1; cbn; auto.
    - intros [F N]. split; auto. eapply Permutation_Forall; eauto.
    - intros [F [G N]]. inversion F; subst. repeat split; auto. constructor; auto. rewrite andb_comm. auto.
  Qed.

  Lemma values_perm (x y : list (option T)) : Permutation x y -> Permutation (values x) (values y).
  Proof. apply Permutation_flat_map. Qed.

  (** ** The function *)
  Lemma sorted_nil l : py_sorted leb l = [] <-> l = [].
  Proof.
    split; [|intros ->; auto]. intro H. pose proof (sorted_perm l) as P. rewrite H in P.
    apply Permutation_nil. symmetry. auto.
  Qed.

  Lemma kolmogorov_statistic x y d : kolmogorov leb x y = Some (KsStatistic d) ->
    let X := py_sorted leb (values x) in let Y := py_sorted leb (values y) in
    X <> [] /\ Y <> [] /\ lists_equal leb X Y = false /\
    ks_loop leb (length X + length Y) (length X) (length Y) 0 0 X Y 0 0 0 = Some d.
  Proof.
    unfold kolmogorov. rewrite !not_nan_values. cbv zeta.
    set (X := py_sorted leb (values x)). set (Y := py_sorted leb (values y)).
    destruct (lists_equal leb X Y); [discriminate|].
    destruct X as [|a X]; [discriminate|]. destruct Y as [|b Y]; [discriminate|].
    destruct (ks_loop _ _ _ _ _ _ _ _ _ _ _) eqn:R; [|discriminate]. cbn [option_map]. intro H. inversion H; subst.
    repeat split; discriminate.
  Qed.
End P.
