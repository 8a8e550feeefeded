From Coq Require Import QArith Qabs Lqa.
From Verif Require Import Base Effects ArraySpec StatSpec MetricModel MetricSpec.
Open Scope string_scope.
Open Scope list_scope.
Open Scope Z_scope.

Lemma q_lt_iff a b : q_lt a b = true <-> (a < b)%Q.
Proof.
  unfold q_lt. destruct (Qle_bool b a) eqn:E; cbn.
  - apply Qle_bool_iff in E. split; [discriminate|]. intros; lra.
  - split; auto. intros _. apply Qnot_le_lt. intros K. apply Qle_bool_iff in K. congruence.
Qed.
Lemma q_lt_false a b : q_lt a b = false <-> (b <= a)%Q.
Proof.
  split; intros H.
  - apply Qnot_lt_le. rewrite <- q_lt_iff. congruence.
  - destruct (q_lt a b) eqn:E; auto. apply q_lt_iff in E. lra.
Qed.
Lemma qsum_cons a l : qsum (a :: l) = (a + qsum l)%Q.
Proof. reflexivity. Qed.

(** ** Pair counts *)
Lemma count_loop_spec : forall x y c,
  let r := count_loop c x y in
  a00 r = a00 c + positions_with x y false false /\ a01 r = a01 c + positions_with x y false true /\
  a10 r = a10 c + positions_with x y true false /\ a11 r = a11 c + positions_with x y true true.
Proof.
  unfold positions_with.
  induction x as [|[] x IH]; intros [|[] y] c; cbn [count_loop combine filter length]; try (cbn; lia);
    match goal with |- context [count_loop ?c' x y] => pose proof (IH y c') as K end; cbn zeta in K;
    cbn [andb negb a00 a01 a10 a11 fst snd Bool.eqb length] in *; lia.
Qed.
Lemma counts x y : let c := countPairs x y in
  a00 c = positions_with x y false false /\ a01 c = positions_with x y false true /\
  a10 c = positions_with x y true false /\ a11 c = positions_with x y true true.
Proof. exact (count_loop_spec x y (Pairs 0 0 0 0)). Qed.
Lemma positions_nonneg x y u v : 0 <= positions_with x y u v.
Proof. unfold positions_with. lia. Qed.
Lemma positions_sum : forall x y, length x = length y ->
  positions_with x y false false + positions_with x y false true + positions_with x y true false + positions_with x y true true = Z.of_nat (length x).
Proof.
  unfold positions_with.
  induction x as [|[] x IH]; intros [|[] y] L; try discriminate; cbn [combine filter length fst snd Bool.eqb andb]; auto;
    injection L as L; specialize (IH y L); lia.
Qed.
Lemma positions_swap : forall x y u v, positions_with y x u v = positions_with x y v u.
Proof.
  unfold positions_with.
  induction x as [|a x IH]; intros [|b y] u v; cbn [combine filter length]; auto.
  cbn [fst snd]. rewrite (andb_comm (Bool.eqb b u)). specialize (IH y u v).
  destruct (Bool.eqb a v && Bool.eqb b u); cbn [length]; lia.
Qed.
Lemma counts_swap x y : countPairs y x = let c := countPairs x y in Pairs (a00 c) (a10 c) (a01 c) (a11 c).
Proof.
  destruct (counts x y) as (A & B & C & D). destruct (counts y x) as (A' & B' & C' & D').
  rewrite !(positions_swap x y) in *. cbn zeta. destruct (countPairs y x) as [p q r s]. cbn in *. f_equal; congruence.
Qed.
Lemma positions_same : forall x y, length x = length y ->
  (positions_with x y false true = 0 /\ positions_with x y true false = 0 <-> x = y).
Proof.
  unfold positions_with. 
  induction x as [|[] x IH]; intros [|[] y] L; try discriminate; cbn [combine filter length fst snd Bool.eqb andb];
    injection L as L || clear L; try (split; auto; fail);
    try (specialize (IH y L); split; [intros H; f_equal; apply IH; lia | intros K; injection K as K; apply IH in K; lia]);
    (split; [intros H; exfalso; lia | discriminate]).
Qed.

(** ** Vectors with missing values *)
Section Missing.
  Context {S A B : Type} (similarity : A -> B -> M S Q).
  Definition sim2 (ab : A * B) : S -> res Q * S := similarity (fst ab) (snd ab).
  Lemma tally_spec (g : Q -> Q -> Q) : forall x y w t n d s s' zs,
    length y = length x -> length w = length x ->
    calls sim2 s (both_present x y) s' zs ->
    exists n' d', tally_loop (fun a b => Ok (g a b)) similarity x y w t n d s = (Ok (fold_left g zs t, n', d'), s') /\
      (n' == n + qsum w)%Q /\ (d' == d + qsum (present_weights x y w))%Q.
  Proof.
    induction x as [|xi x IH]; intros [|yi y] [|wi w] t n d s s' zs L1 L2 H; try discriminate.
    - cbn in *. inversion H; subst. exists n, d. split; auto. split; cbn; ring.
    - injection L1 as L1. injection L2 as L2. cbn [tally_loop both_present present_weights] in *.
      destruct xi as [a|], yi as [b|].
      + inversion H as [|? ? z s1 ? ? zs' Hz Hc]; subst. unfold sim2 in Hz. cbn [fst snd] in Hz.
        unfold bind. rewrite Hz. unfold lift.
        destruct (IH y w (g t z) (n + wi)%Q (d + wi)%Q s1 s' zs' L1 L2 Hc) as (n' & d' & E & N & D).
        exists n', d'. split; [exact E|]. rewrite !qsum_cons, N, D. split; ring.
      + destruct (IH y w t (n + wi)%Q d s s' zs L1 L2 H) as (n' & d' & E & N & D).
        exists n', d'. split; [exact E|]. rewrite !qsum_cons, N, D. split; ring.
      + destruct (IH y w t (n + wi)%Q d s s' zs L1 L2 H) as (n' & d' & E & N & D).
        exists n', d'. split; [exact E|]. rewrite !qsum_cons, N, D. split; ring.
      + destruct (IH y w t (n + wi)%Q d s s' zs L1 L2 H) as (n' & d' & E & N & D).
        exists n', d'. split; [exact E|]. rewrite !qsum_cons, N, D. split; ring.
  Qed.
  Lemma tally_spec_on (inc : Q -> Q -> res Q) (g : Q -> Q -> Q) : forall x y w t n d s s' zs,
    length y = length x -> length w = length x ->
    (forall t z, In z zs -> inc t z = Ok (g t z)) ->
    calls sim2 s (both_present x y) s' zs ->
    exists n' d', tally_loop inc similarity x y w t n d s = (Ok (fold_left g zs t, n', d'), s') /\
      (n' == n + qsum w)%Q /\ (d' == d + qsum (present_weights x y w))%Q.
  Proof.
    induction x as [|xi x IH]; intros [|yi y] [|wi w] t n d s s' zs L1 L2 G H; try discriminate.
    - cbn in *. inversion H; subst. exists n, d. split; auto. split; cbn; ring.
    - injection L1 as L1. injection L2 as L2. cbn [tally_loop both_present present_weights] in *.
      destruct xi as [a|], yi as [b|].
      + inversion H as [|? ? z s1 ? ? zs' Hz Hc]; subst. unfold sim2 in Hz. cbn [fst snd] in Hz.
        unfold bind. rewrite Hz. unfold lift. rewrite (G t z) by (left; auto).
        assert (G' : forall t z, In z zs' -> inc t z = Ok (g t z)) by (intros; apply G; right; auto).
        destruct (IH y w (g t z) (n + wi)%Q (d + wi)%Q s1 s' zs' L1 L2 G' Hc) as (n' & d' & E & N & D).
        exists n', d'. split; [exact E|]. rewrite !qsum_cons, N, D. split; ring.
      + destruct (IH y w t (n + wi)%Q d s s' zs L1 L2 G H) as (n' & d' & E & N & D).
        exists n', d'. split; [exact E|]. rewrite !qsum_cons, N, D. split; ring.
      + destruct (IH y w t (n + wi)%Q d s s' zs L1 L2 G H) as (n' & d' & E & N & D).
        exists n', d'. split; [exact E|]. rewrite !qsum_cons, N, D. split; ring.
      + destruct (IH y w t (n + wi)%Q d s s' zs L1 L2 G H) as (n' & d' & E & N & D).
        exists n', d'. split; [exact E|]. rewrite !qsum_cons, N, D. split; ring.
  Qed.
  (** the value before [finalize] *)
  Lemma metric_spec code (g : Q -> Q -> Q) fin x y mw s s' zs :
    length y = length x -> length (weights x mw) = length x ->
    calls sim2 s (both_present x y) s' zs ->
    let pw := qsum (present_weights x y (weights x mw)) in
    ((pw == 0)%Q -> metric_missing code (fun a b => Ok (g a b)) fin similarity x y mw s = (fin NaN, s')) /\
    (~ (pw == 0)%Q -> exists v, metric_missing code (fun a b => Ok (g a b)) fin similarity x y mw s = (fin (Fin v), s') /\
       (v * pw == fold_left g zs 0 * qsum (weights x mw))%Q).
  Proof.
    intros L1 L2 H. cbn zeta. unfold metric_missing. rewrite L1, L2, !Nat.eqb_refl. cbn [negb orb].
    destruct (tally_spec g x y (weights x mw) 0%Q 0%Q 0%Q s s' zs L1 L2 H) as (n' & d' & E & N & D).
    unfold bind. rewrite E. rewrite Qplus_0_l in N, D. split.
    - intros Z0. rewrite <- D in Z0. apply Qeq_bool_iff in Z0. rewrite Z0. reflexivity.
    - intros NZ. rewrite <- D in NZ. destruct (Qeq_bool d' 0) eqn:E0. { apply Qeq_bool_iff in E0. contradiction. }
      eexists. split; [reflexivity|]. rewrite <- D, <- N. field. auto.
  Qed.
  Lemma metric_bad code inc fin x y mw s : length y <> length x \/ length (weights x mw) <> length x ->
    metric_missing code inc fin similarity x y mw s = (Raise (PFAErr code), s).
  Proof.
    intros H. unfold metric_missing. destruct (Nat.eqb_spec (length y) (length x)), (Nat.eqb_spec (length (weights x mw)) (length x)); cbn; auto.
    destruct H; contradiction.
  Qed.
End Missing.
Lemma fold_square : forall zs t, (fold_left (fun a b => a + b * b) zs t == t + qsum (map (fun z => z * z) zs))%Q.
Proof.
  induction zs as [|z zs IH]; intros t; cbn [fold_left map]. { cbn. ring. }
  rewrite IH, qsum_cons. ring.
Qed.
Lemma fold_add (f : Q -> Q) : forall zs t, (fold_left (fun a b => a + f b) zs t == t + qsum (map f zs))%Q.
Proof.
  induction zs as [|z zs IH]; intros t; cbn [fold_left map]. { cbn. ring. }
  rewrite IH, qsum_cons. ring.
Qed.
Lemma fold_sum : forall zs t, (fold_left (fun a b => a + b) zs t == t + qsum zs)%Q.
Proof.
  induction zs as [|z zs IH]; intros t; cbn [fold_left]. { cbn. ring. }
  rewrite IH, qsum_cons. ring.
Qed.
Lemma fold_max : forall zs t, let m := fold_left (fun a b => if q_lt a b then b else a) zs t in
  (t <= m)%Q /\ (forall z, In z zs -> (z <= m)%Q) /\ (m = t \/ In m zs).
Proof.
  induction zs as [|z zs IH]; intros t; cbn [fold_left]; cbn zeta.
  - split; [lra|]. split; [intros ? []|auto].
  - destruct (q_lt t z) eqn:E.
    + apply q_lt_iff in E. destruct (IH z) as (I1 & I2 & I3). split; [lra|]. split.
      * intros z' [<- | H]; auto.
      * right. destruct I3 as [-> | I3]; [left|right]; auto.
    + apply q_lt_false in E. destruct (IH t) as (I1 & I2 & I3). split; [lra|]. split.
      * intros z' [<- | H]; auto. lra.
      * destruct I3 as [-> | I3]; auto. right; right; auto.
Qed.
Lemma largest_fold zs : largest zs (fold_left (fun a b => if q_lt a b then b else a) zs 0%Q).
Proof. destruct (fold_max zs 0%Q) as (A & B & C). split; auto. Qed.
Lemma qsum_nonneg l : Forall (fun z => 0 <= z)%Q l -> (0 <= qsum l)%Q.
Proof. induction 1; [cbn; lra|]. rewrite qsum_cons. lra. Qed.
Lemma qsum_zero l : Forall (fun z => 0 <= z)%Q l -> (qsum l == 0)%Q -> Forall (fun z => z == 0)%Q l.
Proof.
  induction 1 as [|z l Hz F IH]; intros E; constructor; rewrite qsum_cons in E; pose proof (qsum_nonneg _ F); [lra|].
  apply IH. lra.
Qed.
Lemma squares_nonneg (l : list Q) : Forall (fun z => 0 <= z)%Q (map (fun z => z * z)%Q l).
Proof. apply Forall_forall. intros z H. apply in_map_iff in H. destruct H as (u & <- & _). nra. Qed.
Lemma present_nonneg {A B} (P : Q -> Prop) : forall (x : list (option A)) (y : list (option B)) w, Forall P w -> Forall P (present_weights x y w).
Proof.
  induction x as [|[a|] x IH]; intros [|[b|] y] [|c w] F; cbn; try constructor; inversion F; subst; auto.
Qed.
Lemma present_le {A B} : forall (x : list (option A)) (y : list (option B)) w, Forall (fun z => 0 <= z)%Q w ->
  (qsum (present_weights x y w) <= qsum w)%Q.
Proof.
  induction x as [|[a|] x IH]; intros [|[b|] y] [|c w] F; cbn [present_weights]; try (apply qsum_nonneg; auto; fail);
    try (cbn; lra); inversion F; subst; specialize (IH y w ltac:(auto)); rewrite ?qsum_cons; lra.
Qed.
(** no missing values *)
Lemma both_all {A B} (x : list A) (y : list B) : both_present (map Some x) (map Some y) = combine x y.
Proof. revert y. induction x; intros [|b y]; cbn; f_equal; auto. Qed.
Lemma present_all {A B} (x : list A) (y : list B) w : length x = length y -> length w = length x ->
  present_weights (map Some x) (map Some y) w = w.
Proof. revert y w. induction x; intros [|b y] [|c w] L1 L2; try discriminate; cbn; f_equal; auto. Qed.
