From Coq Require Import QArith SpecFloat Permutation Lqa.
From Verif Require Import Base PyNum Effects ArrayModel ArraySpec ArrayProofs SortProofs ArrayProofs2 ArrayProofs3 StatModel StatSpec ClusterModel ClusterSpec ClusterProofs.
Open Scope string_scope.
Open Scope list_scope.
Open Scope Z_scope.

(** ** Averages *)
Lemma vadd_length a b : length a = length b -> length (vadd a b) = length a.
Proof. revert b. induction a; intros [|y b]; cbn; intros L; auto; try discriminate. Qed.
Lemma vadd_nth a b i : length a = length b -> (nth i (vadd a b) 0 == nth i a 0 + nth i b 0)%Q.
Proof.
  revert b i. induction a as [|x a IH]; intros [|y b] [|i] L; try discriminate; cbn; try ring.
  apply IH. auto.
Qed.
Lemma vscale_length w a : length (vscale w a) = length a.
Proof. apply map_length. Qed.
Lemma vscale_nth w a i : (nth i (vscale w a) 0 == w * nth i a 0)%Q.
Proof. revert i. induction a as [|x a IH]; intros [|i]; cbn; try ring. apply IH. Qed.
Lemma zeros_nth (v : list Q) i : nth i (map (fun _ => 0%Q) v) 0%Q = 0%Q.
Proof. revert i. induction v; intros [|i]; cbn; auto. Qed.

Lemma add_vectors_ok dim : forall data summ, length summ = dim -> Forall (fun v => length v = dim) data ->
  exists r, add_vectors dim summ data = Ok r /\ length r = dim /\
    forall i, (nth i r 0 == nth i summ 0 + qsum (coord i data))%Q.
Proof.
  induction data as [|v data IH]; cbn [add_vectors]; intros summ L F.
  - exists summ. split; auto. split; auto. intros. cbn. ring.
  - inversion F as [|? ? Hv F']; subst. rewrite Hv, Nat.eqb_refl. cbn [negb].
    destruct (IH (vadd summ v)) as (r & E & Lr & N); auto. { apply vadd_length. auto. }
    exists r. split; auto. split; auto. intros i. rewrite N, vadd_nth by auto. change (qsum (coord i (v :: data))) with (nth i v 0 + qsum (coord i data))%Q. ring.
Qed.
Lemma add_vectors_bad dim : forall data summ, ~ Forall (fun v => length v = dim) data ->
  add_vectors dim summ data = Raise (PFAErr 29041).
Proof.
  induction data as [|v data IH]; cbn; intros summ F. { exfalso. apply F. constructor. }
  destruct (Nat.eqb_spec (length v) dim) as [E|E]; cbn; auto.
Qed.

Lemma updateMean_ok v0 data vec w dim : length v0 = dim -> Forall (fun v => length v = dim) (v0 :: data) ->
  length vec = dim ->
  exists out, updateMean (v0 :: data) vec w = Ok out /\ length out = dim /\
    let n := inject_Z (len (v0 :: data)) in
    (n + w == 0 -> out = repeat None dim)%Q /\
    (~ n + w == 0 -> forall i, (i < dim)%nat -> exists q, nth_error out i = Some (Some q) /\
       q * (n + w) == qsum (coord i (v0 :: data)) + w * nth i vec 0)%Q.
Proof.
  intros L0 F Lv. unfold updateMean. rewrite L0.
  destruct (add_vectors_ok dim (v0 :: data) (map (fun _ => 0%Q) v0)) as (r & E & Lr & N); auto.
  { rewrite map_length. auto. }
  rewrite E. cbn [rbind]. rewrite Lv, Nat.eqb_refl. cbn [negb].
  eexists. split; [reflexivity|].
  assert (Lz : length (vadd r (vscale w vec)) = dim).
  { rewrite vadd_length; auto. rewrite vscale_length. congruence. }
  split. { rewrite map_length. auto. }
  unfold len. cbn zeta. generalize dependent (inject_Z (Z.of_nat (length (v0 :: data)))). intros n.
  unfold qdiv. split.
  - intros Z0. rewrite (proj2 (Qeq_bool_iff _ _)) by auto. rewrite <- Lz.
    generalize (vadd r (vscale w vec)). induction l; cbn; f_equal; auto.
  - intros NZ i Hi. destruct (Qeq_bool (n + w) 0) eqn:Eb. { apply Qeq_bool_iff in Eb. contradiction. }
    eexists. split.
    + erewrite map_nth_error; [reflexivity|]. apply (nth_error_nth' _ 0%Q). lia.
    + rewrite vadd_nth by (rewrite vscale_length; congruence). rewrite vscale_nth, N, zeros_nth. field. auto.
Qed.
Lemma updateMean_bad v0 data vec w :
  ~ (Forall (fun v => length v = length v0) (v0 :: data) /\ length vec = length v0) ->
  updateMean (v0 :: data) vec w = Raise (PFAErr 29041).
Proof.
  intros H. unfold updateMean.
  destruct (Forall_dec (fun v => length v = length v0) (fun v => Nat.eq_dec _ _) (v0 :: data)) as [F|F].
  - destruct (add_vectors_ok (length v0) (v0 :: data) (map (fun _ => 0%Q) v0)) as (r & -> & _ & _); auto.
    { apply map_length. }
    cbn [rbind]. destruct (Nat.eqb_spec (length vec) (length v0)); cbn; auto. exfalso; auto.
  - rewrite add_vectors_bad; auto.
Qed.
Lemma qsum_bounds lo hi l : Forall (fun x => lo <= x <= hi)%Q l ->
  (inject_Z (len l) * lo <= qsum l <= inject_Z (len l) * hi)%Q.
Proof.
  unfold len. induction 1 as [|x l [H1 H2] F [I1 I2]]. { change (0 * lo <= 0 <= 0 * hi)%Q. split; lra. }
  cbn [length qsum fold_right]. fold (qsum l). rewrite Nat2Z.inj_succ. unfold Z.succ. rewrite inject_Z_plus.
  change (inject_Z 1) with 1%Q. split; nra.
Qed.

Lemma mean_loop_ok {S} dim (weight : list Q -> M S Q) : forall points s s' ws, calls weight s points s' ws ->
  forall numer denom, length numer = dim -> Forall (fun v => length v = dim) points ->
  exists r d, mean_loop dim weight numer denom points s = (Ok (r, d), s') /\ length r = dim /\ (d == denom + qsum ws)%Q /\
    forall i, (nth i r 0 == nth i numer 0 + qsum (map (fun wp => fst wp * nth i (snd wp) 0) (combine ws points)))%Q.
Proof.
  induction 1 as [s|s p w s1 l s' ws Hw Hc IH]; intros numer denom L F.
  - exists numer, denom. cbn. repeat split; auto; intros; ring.
  - inversion F as [|? ? Hv F']; subst. cbn [mean_loop]. rewrite Hv, Nat.eqb_refl. cbn [negb].
    unfold bind. rewrite Hw.
    destruct (IH (vadd numer (vscale w p)) (denom + w)%Q) as (r & d & E & Lr & Ed & N); auto.
    { rewrite vadd_length; auto. rewrite vscale_length. auto. }
    exists r, d. split; auto. split; auto. split. { rewrite Ed. change (qsum (w :: ws)) with (w + qsum ws)%Q. ring. }
    intros i. rewrite N, vadd_nth by (rewrite vscale_length; auto). rewrite vscale_nth. cbn [combine map fst snd]. match goal with |- context [qsum (?a :: ?t)] => change (qsum (a :: t)) with (a + qsum t)%Q end. ring.
Qed.
Lemma divide_all_ok l d : (~ d == 0)%Q -> exists r, divide_all l d = Ok r /\ length r = length l /\
  forall i, (nth i r 0 * d == nth i l 0)%Q.
Proof.
  intros NZ. induction l as [|x l (r & E & L & N)]; cbn.
  - exists []. split; auto. split; auto. intros [|i]; cbn; ring.
  - destruct (Qeq_bool d 0) eqn:Eb. { apply Qeq_bool_iff in Eb. contradiction. }
    rewrite E. cbn. exists ((x / d)%Q :: r). split; auto. split. { cbn. auto. }
    intros [|i]; cbn; auto. field. auto.
Qed.
Lemma n_mean_ok {S} p0 points (weight : list Q -> M S Q) s s' ws dim :
  calls weight s (p0 :: points) s' ws -> length p0 = dim -> Forall (fun v => length v = dim) (p0 :: points) ->
  (~ qsum ws == 0)%Q ->
  exists out, n_mean (p0 :: points) weight s = (Ok out, s') /\ length out = dim /\
    forall i, (nth i out 0 * qsum ws == qsum (map (fun wp => fst wp * nth i (snd wp) 0) (combine ws (p0 :: points))))%Q.
Proof.
  intros Hc L F NZ. unfold n_mean, bind.
  destruct (mean_loop_ok dim weight _ _ _ _ Hc (map (fun _ => 0%Q) p0) 0%Q) as (r & d & E & Lr & Ed & N); auto.
  { rewrite map_length. auto. }
  rewrite L, E. cbn [fst snd]. destruct (divide_all_ok r d) as (out & E' & Lo & No).
  { rewrite Ed, Qplus_0_l. auto. }
  exists out. unfold lift. rewrite E'. split; auto. split; [congruence|]. intros i.
  specialize (No i). rewrite Ed, Qplus_0_l in No. rewrite No, N, zeros_nth. ring.
Qed.

(** ** Random seeds *)
Section Seeds.
  Context {X : Type} (eqb : X -> X -> bool) (E : equivalence eqb).
  Lemma existsb_isin x l : existsb (eqb x) l = true <-> isin eqb x l.
  Proof. rewrite existsb_exists. unfold isin. split; intros (y & ? & ?); eauto. Qed.
  Lemma no_repeats_snoc l x : no_repeats eqb l -> ~ isin eqb x l -> no_repeats eqb (l ++ [x]).
  Proof.
    induction l as [|y l IH]; cbn; intros H N. { split; [intros (? & [] & _)|auto]. }
    destruct H as [H1 H2]. split.
    - intros (z & Hz & Ez). apply in_app_or in Hz. destruct Hz as [Hz|[<-|[]]].
      + apply H1. exists z; auto.
      + apply N. exists y. split; [left; auto|]. apply eqv_sym; auto.
    - apply IH; auto. intros (z & Hz & Ez). apply N. exists z. split; auto. right; auto.
  Qed.
  Lemma uniques_of_spec data : forall u, no_repeats eqb u ->
    no_repeats eqb (uniques_of eqb u data) /\ (forall x, In x (uniques_of eqb u data) -> In x u \/ In x data) /\
    (forall x, In x u \/ In x data -> isin eqb x (uniques_of eqb u data)).
  Proof.
    induction data as [|x data IH]; cbn; intros u N.
    - split; auto. split; auto. intros y [Hy|[]]. exists y. split; auto. apply eqv_refl; auto.
    - destruct (existsb (eqb x) u) eqn:Ex.
      + destruct (IH u N) as (I1 & I2 & I3). split; auto. split.
        { intros y Hy. destruct (I2 y Hy); auto. }
        intros y [Hy|[<-|Hy]]; auto. apply existsb_isin in Ex. destruct Ex as (z & Hz & Ez).
        destruct (I3 z (or_introl Hz)) as (t & Ht & Et). exists t. split; auto. eapply eqv_trans; eauto.
      + assert (Nx : ~ isin eqb x u) by (rewrite <- existsb_isin, Ex; discriminate).
        destruct (IH (u ++ [x]) (no_repeats_snoc _ _ N Nx)) as (I1 & I2 & I3). split; auto. split.
        { intros y Hy. destruct (I2 y Hy) as [K|K]; auto. apply in_app_or in K. destruct K as [K|[<-|[]]]; auto. }
        intros y [Hy|[<-|Hy]]; apply I3; auto; left; apply in_or_app; auto. right; left; auto.
  Qed.
  Lemma no_repeats_perm l l' : Permutation l l' -> no_repeats eqb l -> no_repeats eqb l'.
  Proof.
    induction 1; cbn; auto.
    - intros [H1 H2]. split; auto. intros (y & Hy & Ey). apply H1. exists y. split; auto.
      eapply Permutation_in; [apply Permutation_sym|]; eauto.
    - intros (H1 & H2 & H3). split; [|split; auto].
      + intros (z & [<-|Hz] & Ez).
        * apply H1. exists x. split; [left; auto|]. apply eqv_sym; auto.
        * apply H2. exists z. auto.
      + intros (z & Hz & Ez). apply H1. exists z. split; auto. right; auto.
  Qed.
  Lemma no_repeats_firstn n : forall l, no_repeats eqb l -> no_repeats eqb (firstn n l).
  Proof.
    induction n; intros [|x l]; cbn; auto. intros [H1 H2]. split; auto.
    intros (y & Hy & Ey). apply H1. exists y. split; auto. rewrite <- (firstn_skipn n l). apply in_or_app. auto.
  Qed.
End Seeds.
Lemma same_size_iff {X} (u : list (list X)) : same_size u = true <-> u <> [] /\ exists d, Forall (fun v => length v = d) u.
Proof.
  destruct u as [|x l]; cbn. { split; [discriminate|intros [[] _]; auto]. }
  rewrite forallb_forall. split.
  - intros H. split; [discriminate|]. exists (length x). constructor; auto. apply Forall_forall. intros y Hy.
    apply Nat.eqb_eq. auto.
  - intros [_ (d & F)] y Hy. inversion F as [|? ? Hx F']; subst. rewrite Forall_forall in F'. apply Nat.eqb_eq. auto.
Qed.
