From Coq Require Import QArith Qabs Qround Lqa SpecFloat.
From Verif Require Import Base PyNum Effects ArraySpec StatModel ClusterModel ClusterSpec ClusterProofs InterpModel InterpSpec.
Open Scope string_scope.
Open Scope list_scope.
Open Scope Z_scope.

(** ** Bins *)
Lemma bin_fixed_range T (o : real_ops T) weird x n low high i : bin_fixed o weird x n low high = Ok i -> 0 <= i < n.
Proof.
  unfold bin_fixed. destruct (_ || _ || _); [discriminate|]. destruct (Z.ltb_spec n 1); [discriminate|].
  destruct (_ || _ || _); [discriminate|]. destruct (op_floor _ _) as [out|e]; [|discriminate]. cbn [rbind].
  destruct (Z.ltb_spec out 0); [discriminate|]. destruct (Z.leb_spec n out); [discriminate|]. cbn.
  intros H2. inversion H2; subst. lia.
Qed.
Lemma qltb_iff a b : qltb a b = true <-> (a < b)%Q.
Proof.
  unfold qltb. destruct (Qle_bool b a) eqn:E; cbn.
  - apply Qle_bool_iff in E. split; [discriminate|]. intros; lra.
  - split; auto. intros _. apply Qnot_le_lt. intros K. apply Qle_bool_iff in K. congruence.
Qed.
Lemma qltb_false a b : qltb a b = false <-> (b <= a)%Q.
Proof. split; intros H. - apply Qnot_lt_le. rewrite <- qltb_iff. congruence.
 - destruct (qltb a b) eqn:E; auto. apply qltb_iff in E. lra. Qed.
Lemma qle_false a b : Qle_bool a b = false <-> (b < a)%Q.
Proof.
  rewrite <- qltb_iff. unfold qltb. destruct (Qle_bool a b); cbn; split; congruence.
Qed.
Lemma bin_fixed_rat_ok x n low high : (low < high)%Q -> 1 <= n -> (low <= x < high)%Q ->
  exists i, bin_fixed_rat x n low high = Ok i /\
    let w := ((high - low) / inject_Z n)%Q in
    (low + inject_Z i * w <= x < low + (inject_Z i + 1) * w)%Q.
Proof.
  intros H Hn [X1 X2]. unfold bin_fixed_rat, bin_fixed, g_div. cbn [op_le op_isnan op_lt op_floor op_mul op_of_Z op_sub op_div rat_ops rbind orb].
  rewrite (proj2 (qle_false high low)) by auto. cbn [orb]. destruct (Z.ltb_spec n 1); [lia|].
  rewrite (proj2 (Qle_bool_iff low x)) by auto. rewrite (proj2 (qle_false high x)) by auto. cbn [negb orb].
  destruct (Qeq_bool (high - low) 0) eqn:E0. { apply Qeq_bool_iff in E0. lra. }
  assert (Pn : (0 < inject_Z n)%Q). { change 0%Q with (inject_Z 0). rewrite <- Zlt_Qlt. lia. }
  assert (Pd : (0 < high - low)%Q) by lra.
  set (u := (inject_Z n * ((x - low) / (high - low)))%Q).
  assert (Eu : (u * (high - low) == inject_Z n * (x - low))%Q) by (unfold u; field; lra).
  pose proof (Qfloor_le u) as F1. pose proof (Qlt_floor u) as F2. set (i := Qfloor u) in *.
  assert (U0 : (0 <= u)%Q).
  { unfold u. apply Qmult_le_0_compat; [lra|]. apply Qle_shift_div_l; lra. }
  assert (Un : (u < inject_Z n)%Q).
  { apply (Qmult_lt_r _ _ _ Pd). rewrite Eu. apply Qmult_lt_l; lra. }
  rewrite inject_Z_plus in F2. change (inject_Z 1) with 1%Q in F2.
  destruct (Z.ltb_spec i 0) as [L|L].
  { exfalso. assert (i + 1 <= 0) as K by lia. rewrite Zle_Qle, inject_Z_plus in K. change (inject_Z 1) with 1%Q in K. change (inject_Z 0) with 0%Q in K. lra. }
  destruct (Z.leb_spec n i) as [L'|L'].
  { exfalso. rewrite Zle_Qle in L'. lra. }
  cbn [orb]. exists i. split; auto. cbn zeta.
  assert (Ew : ((high - low) / inject_Z n * inject_Z n == high - low)%Q) by (field; lra).
  set (w := ((high - low) / inject_Z n)%Q) in *.
  assert (Pw : (0 < w)%Q). { unfold w. apply Qlt_shift_div_l; lra. }
  assert (Ex : (x == low + u * w)%Q). { unfold u, w. field. split; lra. }
  split.
  - assert ((0 <= (u - inject_Z i) * w)%Q) by (apply Qmult_le_0_compat; lra). lra.
  - assert ((0 < (inject_Z i + 1 - u) * w)%Q) by (apply Qmult_lt_0_compat; lra). lra.
Qed.
Lemma bin_open_rat_ok x origin width : (0 < width)%Q ->
  exists i, bin_open_rat x origin width = Ok i /\
    (origin + inject_Z i * width <= x < origin + (inject_Z i + 1) * width)%Q.
Proof.
  intros H. unfold bin_open_rat, bin_open, g_div. cbn [op_le op_isnan op_isinf op_lt op_floor op_mul op_of_Z op_sub op_div rat_ops rbind orb].
  rewrite (proj2 (qle_false width (inject_Z 0))) by auto. cbn [orb].
  destruct (Qeq_bool width 0) eqn:E0. { apply Qeq_bool_iff in E0. lra. }
  set (u := ((x - origin) / width)%Q).
  assert (Eu : (x == origin + u * width)%Q) by (unfold u; field; lra).
  pose proof (Qfloor_le u) as F1. pose proof (Qlt_floor u) as F2. set (i := Qfloor u) in *.
  rewrite inject_Z_plus in F2. change (inject_Z 1) with 1%Q in F2.
  exists i. split; auto. split.
  - assert ((0 <= (u - inject_Z i) * width)%Q) by (apply Qmult_le_0_compat; lra). lra.
  - assert ((0 < (inject_Z i + 1 - u) * width)%Q) by (apply Qmult_lt_0_compat; lra). lra.
Qed.

(** ** Tables *)
Section Tables.
  Context {Y : Type} (x : Q).
  Implicit Types (table seen : list (Q * Y)) (e : Q * Y).
  Definition below_inv seen (b : option (Q * Y)) : Prop :=
    match b with None => forall e, In e seen -> ~ (fst e <= x)%Q | Some e => last_below seen x e end.
  Definition above_inv seen (b : option (Q * Y)) : Prop :=
    match b with None => forall e, In e seen -> ~ (x < fst e)%Q | Some e => next_above seen x e end.
  Lemma below_step seen b e : below_inv seen b ->
    below_inv (seen ++ [e])
      (if Qle_bool (fst e) x && match b with None => true | Some b' => qltb (x - fst e) (x - fst b') end then Some e else b).
  Proof.
    intros Hb. destruct (Qle_bool (fst e) x) eqn:E; cbn [andb].
    - apply Qle_bool_iff in E. destruct b as [b|]; cbn in Hb.
      + destruct Hb as (p & q & -> & B1 & B2 & B3).
        destruct (qltb (x - fst e) (x - fst b)) eqn:Eq.
        * apply qltb_iff in Eq. exists (p ++ b :: q), []. split; [reflexivity|]. split; auto. split; [|intros ? []].
          intros e' H L. apply in_app_or in H. destruct H as [H | [<- | H]]; [specialize (B2 _ H L)| |specialize (B3 _ H L)]; lra.
        * apply qltb_false in Eq. exists p, (q ++ [e]). rewrite <- app_assoc. split; [reflexivity|]. split; auto. split; auto.
          intros e' H L. apply in_app_or in H. destruct H as [H | [<- | []]]; auto. lra.
      + exists seen, []. split; auto. split; auto. split; [|intros ? []]. intros e' H L. exfalso. eapply Hb; eauto.
    - apply qle_false in E. destruct b as [b|]; cbn in Hb.
      + destruct Hb as (p & q & -> & B1 & B2 & B3). exists p, (q ++ [e]). rewrite <- app_assoc. split; [reflexivity|]. split; auto. split; auto.
        intros e' H L. apply in_app_or in H. destruct H as [H | [<- | []]]; auto. lra.
      + intros e' H. apply in_app_or in H. destruct H as [H | [<- | []]]; auto. lra.
  Qed.
  Lemma above_step seen b e : above_inv seen b ->
    above_inv (seen ++ [e])
      (if qltb x (fst e) && match b with None => true | Some b' => qltb (fst e - x) (fst b' - x) end then Some e else b).
  Proof.
    intros Hb. destruct (qltb x (fst e)) eqn:E; cbn [andb].
    - apply qltb_iff in E. destruct b as [b|]; cbn in Hb.
      + destruct Hb as (p & q & -> & B1 & B2 & B3).
        destruct (qltb (fst e - x) (fst b - x)) eqn:Eq.
        * apply qltb_iff in Eq. exists (p ++ b :: q), []. split; [reflexivity|]. split; auto. split; [|intros ? []].
          intros e' H L. apply in_app_or in H. destruct H as [H | [<- | H]]; [specialize (B2 _ H L)| |specialize (B3 _ H L)]; lra.
        * apply qltb_false in Eq. exists p, (q ++ [e]). rewrite <- app_assoc. split; [reflexivity|]. split; auto. split; auto.
          intros e' H L. apply in_app_or in H. destruct H as [H | [<- | []]]; auto. lra.
      + exists seen, []. split; auto. split; auto. split; [|intros ? []]. intros e' H L. exfalso. eapply Hb; eauto.
    - apply qltb_false in E. destruct b as [b|]; cbn in Hb.
      + destruct Hb as (p & q & -> & B1 & B2 & B3). exists p, (q ++ [e]). rewrite <- app_assoc. split; [reflexivity|]. split; auto. split; auto.
        intros e' H L. apply in_app_or in H. destruct H as [H | [<- | []]]; auto. lra.
      + intros e' H. apply in_app_or in H. destruct H as [H | [<- | []]]; auto. lra.
  Qed.
  Lemma below_above_spec table : forall seen b a, below_inv seen b -> above_inv seen a ->
    let r := below_above x b a table in below_inv (seen ++ table) (fst r) /\ above_inv (seen ++ table) (snd r).
  Proof.
    induction table as [|e table IH]; intros seen b a Hb Ha; cbn [below_above].
    - rewrite app_nil_r. auto.
    - replace (seen ++ e :: table) with ((seen ++ [e]) ++ table) by (rewrite <- app_assoc; auto).
      apply IH; [apply below_step; auto|apply above_step; auto].
  Qed.

  (** the two closest entries, by distance *)
  Definition runner seen (o t : Q * Y) : Prop :=
    exists p q, seen = p ++ t :: q /\ (apart x o < apart x t)%Q /\
      (forall e, In e p -> (apart x e == apart x o \/ apart x t < apart x e)%Q) /\
      (forall e, In e q -> (apart x e == apart x o \/ apart x t <= apart x e)%Q).
  Definition two_inv seen (one two : option (Q * Y)) : Prop :=
    match one with
    | None => seen = [] /\ two = None
    | Some o => nearest_entry seen x o /\
        match two with None => forall e, In e seen -> (apart x e == apart x o)%Q | Some t => runner seen o t end
    end.
  Lemma nearest_le seen o : nearest_entry seen x o -> forall e, In e seen -> (apart x o <= apart x e)%Q.
  Proof.
    intros (p & q & -> & N1 & N2) e H. apply in_app_or in H. destruct H as [H | [<- | H]]; auto; try lra.
    specialize (N1 _ H). lra.
  Qed.
  Lemma nearest_keep seen o e : nearest_entry seen x o -> (apart x o <= apart x e)%Q -> nearest_entry (seen ++ [e]) x o.
  Proof.
    intros (p & q & -> & N1 & N2) L. exists p, (q ++ [e]). rewrite <- app_assoc. split; [reflexivity|]. split; auto.
    intros e' H. apply in_app_or in H. destruct H as [H | [<- | []]]; auto.
  Qed.
  Lemma two_step seen one two e : two_inv seen one two ->
    let d := away x e in
    let r := match one with
        | None => (Some e, one)
        | Some o =>
            if qltb d (away x o) then (Some e, one)
            else if match two with None => true | Some t => qltb d (away x t) end && negb (Qeq_bool d (away x o))
            then (one, Some e) else (one, two) end in
    two_inv (seen ++ [e]) (fst r) (snd r).
  Proof.
    intros H. cbn zeta. unfold away. destruct one as [o|]; cbn in H.
    2:{ destruct H as [-> ->]. cbn. split.
        - exists [], []. split; auto. split; intros ? [].
        - intros e' [<- | []]. reflexivity. }
    destruct H as [N H]. fold (apart x e) (apart x o).
    destruct (qltb (apart x e) (apart x o)) eqn:E1; cbn [fst snd].
    - apply qltb_iff in E1. split.
      + exists seen, []. split; auto. split; [|intros ? []]. intros e' H'. pose proof (nearest_le _ _ N _ H'). lra.
      + destruct N as (p & q & -> & N1 & N2). exists p, (q ++ [e]). rewrite <- app_assoc. split; [reflexivity|]. split; auto.
        split; [right; auto|]. intros e' K. apply in_app_or in K. destruct K as [K | [<- | []]]; auto. left. reflexivity.
    - apply qltb_false in E1.
      destruct two as [t|].
      + fold (apart x t). destruct (qltb (apart x e) (apart x t)) eqn:E2; cbn [andb].
        * apply qltb_iff in E2. destruct (Qeq_bool (apart x e) (apart x o)) eqn:E3; cbn [negb fst snd].
          -- apply Qeq_bool_iff in E3. split; [apply nearest_keep; auto|].
             destruct H as (p & q & -> & R0 & R1 & R2). exists p, (q ++ [e]). rewrite <- app_assoc. split; [reflexivity|]. split; auto.
             split; auto. intros e' K. apply in_app_or in K. destruct K as [K | [<- | []]]; auto.
          -- assert (E3' : ~ (apart x e == apart x o)%Q). { intros K. apply Qeq_bool_iff in K. congruence. }
             split; [apply nearest_keep; auto|]. destruct H as (p & q & -> & R0 & R1 & R2).
             exists (p ++ t :: q), []. split; auto. split. { lra. } split; [|intros ? []].
             intros e' K. apply in_app_or in K. destruct K as [K | [<- | K]].
             ++ destruct (R1 _ K); auto. right. lra.
             ++ right. lra.
             ++ destruct (R2 _ K); auto. right. lra.
        * apply qltb_false in E2. cbn [fst snd]. split; [apply nearest_keep; auto|].
          destruct H as (p & q & -> & R0 & R1 & R2). exists p, (q ++ [e]). rewrite <- app_assoc. split; [reflexivity|]. split; auto.
          split; auto. intros e' K. apply in_app_or in K. destruct K as [K | [<- | []]]; auto.
      + cbv beta iota in H. cbn [andb]. destruct (Qeq_bool (apart x e) (apart x o)) eqn:E3; cbn [negb fst snd].
        * apply Qeq_bool_iff in E3. split; [apply nearest_keep; auto|].
          intros e' K. apply in_app_or in K. destruct K as [K | [<- | []]]; [apply H; auto | exact E3].
        * assert (E3' : ~ (apart x e == apart x o)%Q). { intros K. apply Qeq_bool_iff in K. congruence. }
          split; [apply nearest_keep; auto|]. exists seen, []. split; auto. split; [lra|]. split; [|intros ? []].
          intros e' K. left. apply H. exact K.
  Qed.
  Lemma two_closest_spec table : forall seen one two, two_inv seen one two ->
    let r := two_closest x one two table in two_inv (seen ++ table) (fst r) (snd r).
  Proof.
    induction table as [|e table IH]; intros seen one two H; cbn [two_closest].
    - rewrite app_nil_r. auto.
    - replace (seen ++ e :: table) with ((seen ++ [e]) ++ table) by (rewrite <- app_assoc; auto).
      pose proof (two_step seen one two e H) as K. cbn zeta in K.
      destruct one as [o|]; [|apply IH; auto].
      destruct (qltb (away x e) (away x o)); [apply IH; auto|].
      destruct (_ && _); apply IH; auto.
  Qed.

  (** on one side, distances tell x values apart *)
  Lemma one_side table : ~ inside table x -> forall e e', In e table -> In e' table ->
    (apart x e == apart x e' <-> fst e == fst e')%Q.
  Proof.
    intros H e e' He He'. unfold apart.
    destruct (Qlt_le_dec x (fst e)) as [L|L], (Qlt_le_dec x (fst e')) as [L'|L'].
    - rewrite !Qabs_neg by lra. split; intros; lra.
    - exfalso. apply H. split; [exists e' | exists e]; auto.
    - exfalso. apply H. split; [exists e | exists e']; auto.
    - rewrite !Qabs_pos by lra. split; intros; lra.
  Qed.
  Lemma mid_In {A} (l p q : list A) (e : A) : l = p ++ e :: q -> In e l.
  Proof. intros ->. apply in_or_app. right. left. auto. Qed.

  Lemma closest_inside table code : inside table x ->
    exists b a, closest_entries x table code = Ok (b, a, true) /\ last_below table x b /\ next_above table x a.
  Proof.
    intros [(e & He & Le) (e' & He' & Le')]. unfold closest_entries.
    destruct (below_above_spec table [] None None) as [B A]. { intros ? []. } { intros ? []. }
    cbn [app] in B, A. destruct (below_above x None None table) as [[b|] [a|]]; cbn [fst snd] in *.
    - exists b, a. split; [auto|split; [exact B|exact A]].
    - exfalso. exact (A _ He' Le').
    - exfalso. exact (B _ He Le).
    - exfalso. exact (B _ He Le).
  Qed.
  Lemma closest_outside table code : ~ inside table x -> two_distinct table ->
    exists o t, closest_entries x table code = Ok (o, t, false) /\ nearest_entry table x o /\ second_entry table x o t.
  Proof.
    intros NI (e & e' & He & He' & Ne). unfold closest_entries.
    destruct (below_above_spec table [] None None) as [B A]. { intros ? []. } { intros ? []. }
    cbn [app] in B, A.
    assert (D : exists o t, two_closest x None None table = (Some o, Some t) /\ nearest_entry table x o /\ second_entry table x o t).
    { pose proof (two_closest_spec table [] None None) as T. cbn [app] in T. specialize (T (conj eq_refl eq_refl)). cbn zeta in T.
      destruct (two_closest x None None table) as [[o|] two]; cbn [fst snd] in T.
      2:{ destruct T as [-> _]. destruct He. }
      destruct T as [N T]. destruct two as [t|]; cbn in T.
      - exists o, t. split; auto. split; auto. destruct T as (p & q & Et & R0 & R1 & R2).
        assert (Io : In o table) by (destruct N as (? & ? & K & _); eapply mid_In; eauto).
        assert (It : In t table) by (eapply mid_In; eauto).
        exists p, q. split; auto. split. { rewrite <- (one_side table NI) by auto. lra. }
        split; intros e2 H2.
        + destruct (R1 _ H2); auto. left. apply (one_side table NI); auto. rewrite Et. apply in_or_app; auto.
        + destruct (R2 _ H2); auto. left. apply (one_side table NI); auto. rewrite Et. apply in_or_app; right; right; auto.
      - exfalso. apply Ne. apply (one_side table NI); auto. rewrite (T e He), (T e' He'). reflexivity. }
    destruct D as (o & t & -> & D). exists o, t. split; auto.
    destruct (below_above x None None table) as [[b|] [a|]]; cbn [fst snd] in *; auto.
    exfalso. apply NI. destruct B as (p & q & E1 & B1 & _), A as (p' & q' & E2 & A1 & _).
    split; [exists b | exists a]; split; auto; eapply mid_In; eauto.
  Qed.
  Lemma closest_single table code : ~ two_distinct table -> closest_entries x table code = Raise (PFAErr code).
  Proof.
    intros N. unfold closest_entries.
    destruct (below_above_spec table [] None None) as [B A]. { intros ? []. } { intros ? []. }
    cbn [app] in B, A.
    assert (D : snd (two_closest x None None table) = None).
    { pose proof (two_closest_spec table [] None None) as T. cbn [app] in T. specialize (T (conj eq_refl eq_refl)). cbn zeta in T.
      destruct (two_closest x None None table) as [[o|] two]; cbn [fst snd] in T; [|apply T].
      destruct T as [No T]. destruct two as [t|]; auto. exfalso. apply N.
      destruct No as (? & ? & K & _), T as (? & ? & K' & R0 & _).
      exists o, t. split; [eapply mid_In; eauto|]. split; [eapply mid_In; eauto|].
      intros E. unfold apart in R0. rewrite E in R0. lra. }
    assert (G : (match two_closest x None None table with (Some one, Some two) => Ok (one, two, false) | _ => Raise (PFAErr code) end) = Raise (PFAErr code)).
    { destruct (two_closest x None None table) as [[o|] [t|]]; cbn in D; auto. discriminate. }
    destruct (below_above x None None table) as [[b|] [a|]]; cbn [fst snd] in *; auto.
    exfalso. apply N. destruct B as (p & q & E1 & B1 & _), A as (p' & q' & E2 & A1 & _).
    exists b, a. split; [eapply mid_In; eauto|]. split; [eapply mid_In; eauto|]. lra.
  Qed.
End Tables.

(** ** interp.nearest *)
Lemma nearest_loop_spec {S R T} (to : R -> T) (dist : R -> M S pf) : forall table s s' ds, calls dist s table s' ds ->
  forall seen sds b i, length seen = length sds -> no_nan (sds ++ ds) -> at_ seen i = Some (fst b) -> at_ sds i = Some (snd b) ->
  (forall j d', at_ sds j = Some d' -> nearer d' (snd b) = false /\ (j < i -> nearer (snd b) d' = true)) ->
  exists i' r, nearest_loop to dist (Some b) table s = (Ok (to r), s') /\ at_ (seen ++ table) i' = Some r /\ first_nearest (sds ++ ds) i'.
Proof.
  induction 1 as [s|s c d s1 l s' ds Hd Hc IH]; intros seen sds b i L N Hb Hbd G.
  - exists i, (fst b). destruct b as [r d]. cbn. rewrite !app_nil_r. split; auto. split; auto. exists d. auto.
  - cbn [nearest_loop]. unfold bind. rewrite Hd.
    assert (Lb : 0 <= i < len sds).
    { unfold at_ in Hbd. destruct (Z.ltb_spec i 0); [discriminate|].
      assert (K : nth_error sds (Z.to_nat i) <> None) by congruence. apply nth_error_Some in K. unfold len. lia. }
    assert (Nd : isnan d = false). { unfold no_nan in N. rewrite Forall_forall in N. apply N. apply in_or_app. right. left. auto. }
    assert (Nb : isnan (snd b) = false). { unfold no_nan in N. rewrite Forall_forall in N. apply N. apply in_or_app. left. eapply at_In; eauto. }
    assert (At : forall j d', at_ (sds ++ [d]) j = Some d' -> at_ sds j = Some d' \/ (j = len sds /\ d' = d)).
    { intros j d' E. unfold at_, len in *. destruct (Z.ltb_spec j 0); [discriminate|].
      destruct (Nat.ltb_spec (Z.to_nat j) (length sds)).
      - rewrite nth_error_app1 in E by lia. auto.
      - rewrite nth_error_app2 in E by lia. destruct (Z.to_nat j - length sds)%nat as [|k] eqn:Ek; cbn in E.
        + right. split; [lia|congruence].
        + destruct k; discriminate. }
    assert (Last : forall X (l0 : list X) y, at_ (l0 ++ [y]) (len l0) = Some y).
    { intros X l0 y. unfold at_, len. destruct (Z.ltb_spec (Z.of_nat (length l0)) 0); [lia|].
      rewrite nth_error_app2 by lia. replace (Z.to_nat (Z.of_nat (length l0)) - length l0)%nat with O by lia. auto. }
    assert (Old : forall X (l0 : list X) y z k, at_ l0 k = Some z -> at_ (l0 ++ [y]) k = Some z).
    { intros X l0 y z k E. unfold at_ in *. destruct (k <? 0); [discriminate|]. rewrite nth_error_app1; auto.
      apply nth_error_Some. congruence. }
    replace (sds ++ d :: ds) with ((sds ++ [d]) ++ ds) in * by (rewrite <- app_assoc; auto).
    replace (seen ++ c :: l) with ((seen ++ [c]) ++ l) in * by (rewrite <- app_assoc; auto).
    destruct b as [r rd]. cbn [fst snd] in *.
    destruct (flt d rd) eqn:E.
    + apply (IH _ _ _ (len sds)); auto; cbn [fst snd].
      * rewrite !app_length. cbn. lia.
      * replace (len sds) with (len seen) by (unfold len; lia). auto.
      * intros j d' Hj. destruct (At _ _ Hj) as [Hj' | [-> ->]].
        -- destruct (G _ _ Hj') as [G1 G2].
           assert (Nd' : isnan d' = false). { unfold no_nan in N. rewrite Forall_forall in N. apply N. apply in_or_app. left. apply in_or_app. left. eapply at_In; eauto. }
           assert (D : flt d d' = true).
           { rewrite <- fkey_flt by auto. destruct (wo_neg _ fkey_weak d d' rd) as [K|K]; auto. { rewrite fkey_flt; auto. }
             rewrite fkey_flt in K by auto. unfold nearer in G1. fold (flt d' rd) in G1. congruence. }
           split; [|intros _; auto]. unfold nearer. fold (flt d' d). rewrite <- fkey_flt by auto.
           destruct (fkey d' d) eqn:K; auto. pose proof (wo_trans _ fkey_weak d d' d) as T0.
           rewrite (fkey_flt d d') in T0 by auto. rewrite (wo_irrefl _ fkey_weak) in T0. discriminate (T0 D K).
        -- split; [apply flt_irrefl|lia].
    + apply (IH _ _ _ i); auto; cbn [fst snd]; auto.
      * rewrite !app_length. cbn. lia.
      * intros j d' Hj. destruct (At _ _ Hj) as [Hj' | [-> ->]]; auto. split; [exact E|lia].
Qed.
