(** C14: versions are totally ordered and a lifespan partitions them. *)
From Verif Require Import Base VersionModel.
Open Scope Z_scope.

(** *** Specification *)
(** lexicographic order of the three numbers *)
Inductive older : list Z -> list Z -> Prop :=
| older_hd a b l m : a < b -> older (a :: l) (b :: m)
| older_tl a l m : older l m -> older (a :: l) (a :: m).
Definition numbers (v : version) : list Z := [major v; minor v; release v].
Definition before (x y : version) : Prop := older (numbers x) (numbers y).
Inductive phase := NotYet | Current | Deprecated | Removed.
(** what the documentation says about each phase *)
Definition in_phase (l : lifespan) (now : version) (p : phase) : Prop :=
  match p with
  | NotYet => exists b, birth l = Some b /\ before now b
  | Current => (forall b, birth l = Some b -> ~ before now b) /\ (forall d, deprecation l = Some d -> before now d)
  | Deprecated => exists d e, deprecation l = Some d /\ death l = Some e /\ ~ before now d /\ before now e
  | Removed => exists e, death l = Some e /\ ~ before now e
  end.

Lemma before_cases x y : before x y <->
  major x < major y \/ major x = major y /\ (minor x < minor y \/ minor x = minor y /\ release x < release y).
Proof.
  unfold before, numbers. split.
  - intros H. inversion H; subst; [auto|]. right. split; [congruence|].
    match goal with K : older [minor x; _] _ |- _ => inversion K; subst; [auto|] end. right. split; [congruence|].
    match goal with K : older [release x] _ |- _ => inversion K as [|? ? ? K']; subst; [auto|inversion K'] end.
  - intros [H|[-> [H|[-> H]]]]; [now constructor|apply older_tl; now constructor|apply older_tl, older_tl; now constructor].
Qed.
Lemma ver_lt_before x y : ver_lt x y = true <-> before x y.
Proof.
  rewrite before_cases. unfold ver_lt. destruct (Z.eqb_spec (major x) (major y)), (Z.eqb_spec (minor x) (minor y)); cbn [andb];
    rewrite Z.ltb_lt; lia.
Qed.
Lemma ver_ge_before x y : ver_ge x y = true <-> ~ before x y.
Proof.
  rewrite before_cases. unfold ver_ge. destruct (Z.eqb_spec (major x) (major y)), (Z.eqb_spec (minor x) (minor y)); cbn [andb];
    rewrite Z.leb_le; lia.
Qed.

(** The four comparisons decide the lexicographic order, which is total. *)
Theorem C14_comparisons x y :
  (ver_lt x y = true <-> before x y) /\ (ver_gt x y = true <-> before y x) /\
  (ver_ge x y = true <-> ~ before x y) /\ (ver_le x y = true <-> ~ before y x).
Proof. unfold ver_gt, ver_le. rewrite !ver_lt_before, !ver_ge_before. tauto. Qed.
Theorem C14_total_order x y z :
  ~ (ver_lt x x = true) /\
  (ver_lt x y = true -> ver_lt y z = true -> ver_lt x z = true) /\
  (ver_lt x y = true \/ x = y \/ ver_lt y x = true) /\
  ver_ge x y = negb (ver_lt x y).
Proof.
  rewrite !ver_lt_before, !before_cases. split; [lia|]. split; [lia|]. split.
  - destruct x as [a b c], y as [a' b' c']; cbn.
    destruct (Z.lt_trichotomy a a') as [?|[->|?]]; [lia| |lia]. destruct (Z.lt_trichotomy b b') as [?|[->|?]]; [lia| |lia].
    destruct (Z.lt_trichotomy c c') as [?|[->|?]]; [lia|auto|lia].
  - apply Bool.eq_true_iff_eq. rewrite Bool.negb_true_iff, ver_ge_before. rewrite <- Bool.not_true_iff_false, ver_lt_before. tauto.
Qed.
(** Every lifespan that can be made puts every version in exactly one phase, and the two methods tell two of them. *)
Theorem C14_partition b d e l now : make_lifespan b d e = Ok l ->
  (exists p, in_phase l now p /\ forall q, in_phase l now q -> q = p) /\
  (current l now = true <-> in_phase l now Current) /\ (deprecated l now = true <-> in_phase l now Deprecated).
Proof.
  unfold make_lifespan. intros H.
  destruct (match d, e with None, None => true | Some d', Some e' => ver_lt d' e' | _, _ => false end) eqn:E1; [|discriminate].
  destruct (match b, d with Some b', Some d' => ver_ge b' d' | _, _ => false end) eqn:E2; [discriminate|].
  cbn in H. injection H as <-.
  assert (Hc : current (Life b d e) now = true <-> in_phase (Life b d e) now Current).
  { unfold current, in_phase. cbn. rewrite andb_true_iff. split.
    - intros [H1 H2]. split.
      + intros x ->. now apply ver_ge_before.
      + intros x ->. now apply ver_lt_before.
    - intros [H1 H2]. split.
      + destruct b; [|reflexivity]. apply ver_ge_before. auto.
      + destruct d; [|reflexivity]. apply ver_lt_before. auto. }
  assert (Hd : deprecated (Life b d e) now = true <-> in_phase (Life b d e) now Deprecated).
  { unfold deprecated, in_phase, ver_le. cbn. split.
    - destruct d as [d|], e as [e|]; try discriminate. rewrite andb_true_iff, ver_ge_before, ver_lt_before.
      intros [H1 H2]. exists d, e. auto.
    - intros (d' & e' & -> & -> & H1 & H2). rewrite andb_true_iff, ver_ge_before, ver_lt_before. auto. }
  split; [|auto]. clear Hc Hd.
  assert (E2' : forall b' d', b = Some b' -> d = Some d' -> before b' d').
  { intros b' d' -> ->. destruct (ver_lt b' d') eqn:E; [now apply ver_lt_before|].
    exfalso. assert (ver_ge b' d' = true) by (apply ver_ge_before; rewrite <- ver_lt_before; congruence). congruence. }
  assert (E1' : (d = None /\ e = None) \/ exists d' e', d = Some d' /\ e = Some e' /\ before d' e').
  { destruct d as [d|], e as [e|]; try discriminate; [|auto]. right. exists d, e. split; [auto|]. split; [auto|]. now apply ver_lt_before. }
  clear E1 E2.
  assert (B : (exists b', b = Some b' /\ before now b') \/ (forall b', b = Some b' -> ~ before now b')).
  { destruct b as [b|]; [|right; discriminate]. destruct (ver_lt now b) eqn:E.
    - left. exists b. split; [auto|]. now apply ver_lt_before.
    - right. intros b' H. injection H as <-. rewrite <- ver_lt_before. congruence. }
  assert (X : forall a b, before a b \/ ~ before a b).
  { intros p q. destruct (ver_lt p q) eqn:E; [left; now apply ver_lt_before|right]. rewrite <- ver_lt_before. congruence. }
  assert (T : forall a b c, before a b -> before b c -> before a c).
  { intros p q r. rewrite !before_cases. lia. }
  destruct B as [(b' & -> & Hb)|Hb].
  - exists NotYet. split; [exists b'; auto|]. intros [| | |]; cbn.
    + auto.
    + intros [H _]. destruct (H b' eq_refl Hb).
    + intros (d' & e' & -> & -> & H & _). destruct H. eapply T; eauto.
    + intros (e' & -> & H). destruct E1' as [[-> ?]|(d' & e'' & -> & E & Hde)]; [discriminate|]. injection E as <-. destruct H. eapply T; [exact Hb|]. eapply T; [apply E2'; eauto|exact Hde].
  - destruct E1' as [[-> ->]|(d' & e' & -> & -> & Hde)].
    + exists Current. split; [split; [exact Hb|discriminate]|]. intros [| | |]; cbn; auto.
      * intros (b' & -> & H). destruct (Hb b' eq_refl H).
      * intros (? & ? & ? & _). discriminate.
      * intros (? & ? & _). discriminate.
    + destruct (X now d') as [Hn|Hn]; [|destruct (X now e') as [Hm|Hm]].
      * exists Current. split; [split; [exact Hb|intros ? E; injection E as <-; exact Hn]|]. intros [| | |]; cbn; auto.
        -- intros (b' & -> & H). destruct (Hb b' eq_refl H).
        -- intros (d & e & E & _ & H & _). injection E as <-. tauto.
        -- intros (e & E & H). injection E as <-. destruct H. eapply T; eauto.
      * exists Deprecated. split; [exists d', e'; auto|]. intros [| | |]; cbn; auto.
        -- intros (b' & -> & H). destruct (Hb b' eq_refl H).
        -- intros [_ H]. destruct (Hn (H d' eq_refl)).
        -- intros (e & E & H). injection E as <-. tauto.
      * exists Removed. split; [exists e'; auto|]. intros [| | |]; cbn; auto.
        -- intros (b' & -> & H). destruct (Hb b' eq_refl H).
        -- intros [_ H]. destruct (Hn (H d' eq_refl)).
        -- intros (d & e & _ & E & _ & H). injection E as <-. tauto.
Qed.
(** The constructor rejects exactly the lifespans whose phases are out of order. *)
Theorem C14_rejects b d e x : make_lifespan b d e = Raise x <-> x = PyErr "ValueError" /\
  ~ ((d = None /\ e = None \/ exists d' e', d = Some d' /\ e = Some e' /\ before d' e') /\
     (forall b' d', b = Some b' -> d = Some d' -> before b' d')).
Proof.
  assert (G : forall p q, ver_ge p q = false <-> before p q).
  { intros p q. rewrite <- Bool.not_true_iff_false, ver_ge_before, <- ver_lt_before. destruct (ver_lt p q); intuition congruence. }
  unfold make_lifespan. split.
  - intros H. split; [destruct (negb _); [congruence|]; match type of H with (if ?c then _ else _) = _ => destruct c end; congruence|].
    intros [[[-> ->]|(d' & e' & -> & -> & Hde)] Hb].
    + cbn in H. destruct b; discriminate.
    + apply ver_lt_before in Hde. rewrite Hde in H. cbn in H. destruct b as [b|]; [|discriminate].
      rewrite (proj2 (G b d') (Hb _ _ eq_refl eq_refl)) in H. discriminate.
  - intros [-> H]. destruct d as [d|], e as [e|]; cbn; try reflexivity.
    + destruct (ver_lt d e) eqn:E; [cbn|reflexivity]. apply ver_lt_before in E. destruct b as [b|].
      * destruct (ver_ge b d) eqn:E'; [reflexivity|]. apply G in E'. exfalso. apply H. split; [right; exists d, e; auto|].
        intros ? ? X Y. injection X as <-. injection Y as <-. exact E'.
      * exfalso. apply H. split; [right; exists d, e; auto|discriminate].
    + exfalso. apply H. split; [auto|discriminate].
Qed.
Example C14_example :
  make_lifespan (Some (Ver 0 7 1)) (Some (Ver 0 8 0)) (Some (Ver 0 9 0)) = Ok (Life (Some (Ver 0 7 1)) (Some (Ver 0 8 0)) (Some (Ver 0 9 0))) /\
  (let l := Life (Some (Ver 0 7 1)) (Some (Ver 0 8 0)) (Some (Ver 0 9 0)) in
   current l (Ver 0 7 12) = true /\ deprecated l (Ver 0 8 1) = true /\ current l (Ver 0 7 0) = false /\ deprecated l (Ver 1 0 0) = false).
Proof. repeat split; reflexivity. Qed.

Print Assumptions C14_comparisons.
Print Assumptions C14_total_order.
Print Assumptions C14_partition.
Print Assumptions C14_rejects.
