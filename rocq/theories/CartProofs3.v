(** Exact arithmetic: the gain of a regression split is the decrease of the squared deviations, and no cut has a larger one. *)
From Coq Require Import Permutation Reals Lra Sorted.
From Verif Require Import Base ScopeModel CartModel CartSpec CartProofs.
Open Scope list_scope.
Open Scope R_scope.

(** The real numbers; [srt] stands for numpy.argsort. *)
Definition RA (srt : list R -> list nat) : arith := {|
  num := R; zero := 0; ofn := INR; add := Rplus; sub := Rminus; mul := Rmult; div := Rdiv; opp := Ropp;
  gt := fun a b => if Rlt_dec b a then true else false; le := fun a b => if Rle_dec a b then true else false;
  eq := fun a b => if Req_EM_T a b then true else false;
  plog := fun x => if Req_EM_T x 0 then 0 else x * (ln x / ln 2); argsort := srt |}.

Fixpoint rsum (l : list R) : R := match l with [] => 0 | x :: l' => x + rsum l' end.
Definition mean (l : list R) : R := rsum l / INR (length l).
(** the sum of squared deviations from the mean: n times the variance *)
Definition deviation (l : list R) : R := rsum (map (fun x => (x - mean l) ^ 2) l).

Lemma rsum_app l r : rsum (l ++ r) = rsum l + rsum r.
Proof.
  induction l as [|x l IH]; [change (rsum r = 0 + rsum r); ring|]. change (x + rsum (l ++ r) = x + rsum l + rsum r). rewrite IH. ring.
Qed.
Lemma rsum_perm l r : Permutation l r -> rsum l = rsum r.
Proof. induction 1; cbn; auto; try congruence. ring. Qed.
Lemma fold_plus l : forall a, fold_left Rplus l a = a + rsum l.
Proof. induction l as [|x l IH]; intros a; cbn; [ring|]. rewrite IH. ring. Qed.
Lemma deviation_sums l : l <> [] -> deviation l = rsum (map (fun x => x * x) l) - rsum l * rsum l / INR (length l).
Proof.
  intros H. unfold deviation. set (m := mean l).
  assert (Hn : INR (length l) <> 0) by (apply not_0_INR; destruct l; [easy|discriminate]).
  assert (G : forall k, rsum (map (fun x => (x - m) ^ 2) k) = rsum (map (fun x => x * x) k) - 2 * m * rsum k + INR (length k) * (m * m)).
  { induction k as [|x k IH]; [cbn; ring|]. cbn [map length rsum].
    rewrite IH, S_INR. ring. }
  rewrite G. subst m. unfold mean. field. exact Hn.
Qed.
Lemma deviation_perm l r : Permutation l r -> deviation l = deviation r.
Proof.
  intros P. unfold deviation, mean. rewrite (rsum_perm _ _ P), (Permutation_length P). now apply rsum_perm, Permutation_map.
Qed.
(** the mean has the least squared deviations *)
Lemma mean_best l c : l <> [] -> deviation l <= rsum (map (fun x => (x - c) ^ 2) l).
Proof.
  intros H. rewrite deviation_sums by auto.
  assert (Hn : 0 < INR (length l)) by (apply lt_0_INR; destruct l; [easy|cbn; lia]).
  assert (G : forall k, rsum (map (fun x => (x - c) ^ 2) k) = rsum (map (fun x => x * x) k) - 2 * c * rsum k + INR (length k) * (c * c)).
  { induction k as [|x k IH]; [cbn; ring|]. cbn [map length rsum].
    rewrite IH, S_INR. ring. }
  rewrite G. assert (E : rsum l * rsum l / INR (length l) - 2 * c * rsum l + INR (length l) * (c * c) = (rsum l - INR (length l) * c) ^ 2 / INR (length l)) by (field; lra).
  assert (0 <= (rsum l - INR (length l) * c) ^ 2 / INR (length l)); [|lra].
  apply Rmult_le_pos; [apply pow2_ge_0|]. left. now apply Rinv_0_lt_compat.
Qed.

Section Cuts.
  Variable srt : list R -> list nat.
  Notation N := (RA srt).
  Ltac ll := repeat change (num N) with R in *; lia.
  Ltac rr := match goal with |- @Logic.eq _ ?a ?b => change (@Logic.eq R a b) end; try ring.

  Lemma sum_rsum (l : list R) : sum N l = rsum l.
  Proof. unfold sum. cbn. rewrite fold_plus. ring. Qed.
  Lemma cumsum_nth (l : list R) : forall a i, (i < length l)%nat -> nth i (cumsum N a l) 0 = a + rsum (firstn (S i) l).
  Proof.
    induction l as [|x l IH]; intros a i Hi; cbn in Hi; [lia|]. destruct i as [|i]; cbn -[firstn]; [cbn; ring|].
    rewrite IH by lia. cbn [firstn rsum]. cbn. ring.
  Qed.
  Lemma cumsum_length (l : list R) : forall a, length (cumsum N a l) = length l.
  Proof. induction l; intros; cbn; auto. Qed.
  Lemma last_nth (l : list R) : last l 0 = nth (length l - 1) l 0.
  Proof. induction l as [|x [|y l] IH]; cbn in *; auto. rewrite IH. now destruct (length l). Qed.
  Lemma cumsum_last (l : list R) : l <> [] -> last (cumsum N 0 l) 0 = rsum l.
  Proof.
    intros H. rewrite last_nth, cumsum_length. assert (0 < length l)%nat by (destruct l; [easy|cbn; lia]).
    rewrite cumsum_nth by lia. replace (S (length l - 1)) with (length l) by lia. rewrite firstn_all. rr.
  Qed.
  Lemma nth_removelast {B} (l : list B) d : forall i, (i < length l - 1)%nat -> nth i (removelast l) d = nth i l d.
  Proof.
    induction l as [|x [|y l] IH]; intros i H; cbn in H; try lia. destruct i as [|i]; [reflexivity|].
    change (nth (S i) (x :: removelast (y :: l)) d = nth (S i) (x :: y :: l) d). cbn [nth]. apply IH. cbn. lia.
  Qed.
  Lemma nth_map_seq {B} (f : nat -> B) n i d : (i < n)%nat -> nth i (map f (seq 0 n)) d = f i.
  Proof. intros H. rewrite nth_indep with (d' := f O) by (rewrite map_length, seq_length; auto). rewrite map_nth, seq_nth by auto. reflexivity. Qed.
  Lemma nvar_gains_nth (ps : list R) i : (i < length ps - 1)%nat ->
    nth i (nvar_gains N ps) 0 = - deviation (firstn (S i) ps) - deviation (skipn (S i) ps).
  Proof.
    intros Hi. unfold nvar_gains. rewrite nth_removelast by (rewrite map_length, seq_length; auto).
    rewrite nth_map_seq by ll. cbn zeta.
    assert (Hne : ps <> []) by (intros ->; cbn in Hi; ll).
    rewrite !cumsum_nth, !cumsum_last by (try (rewrite map_length); auto; try ll; intros E; apply map_eq_nil in E; auto).
    rewrite !Rplus_0_l. rewrite !deviation_sums.
    2:{ intros E. apply (f_equal (@length _)) in E. rewrite skipn_length in E. cbn [length] in E. ll. }
    2:{ intros E. apply (f_equal (@length _)) in E. rewrite firstn_length in E. cbn [length] in E. ll. }
    rewrite firstn_length, skipn_length. replace (Nat.min (S i) (length ps)) with (S i) by ll.
    assert (E1 : rsum ps = rsum (firstn (S i) ps) + rsum (skipn (S i) ps)) by (rewrite <- rsum_app, firstn_skipn; reflexivity).
    unfold nvar_term. cbn -[INR firstn skipn sq]. rewrite minus_INR by ll.
    repeat change (num N) with R. change (sq N) with (fun x : R => x * x). rewrite firstn_map. cbv beta.
    assert (E2 : rsum (map (fun x : R => x * x) ps) = rsum (map (fun x : R => x * x) (firstn (S i) ps)) + rsum (map (fun x : R => x * x) (skipn (S i) ps))).
    { rewrite <- rsum_app, <- map_app, firstn_skipn. reflexivity. }
    rewrite E1, E2.
    replace (rsum (firstn (S i) ps) + rsum (skipn (S i) ps) - rsum (firstn (S i) ps)) with (rsum (skipn (S i) ps)) by ring.
    match goal with |- context [?a + ?b - ?a] => replace (a + b - a) with b by ring end. reflexivity.
  Qed.

  (** *** the greatest of a list, the last one among equals *)
  Lemma argmax_from_max (l : list R) : forall i best m, 
    let j := argmax_from N i best m l in
    (j = best /\ forall x, In x l -> x <= m) \/
    ((i <= j < i + length l)%nat /\ m < nth (j - i) l 0 /\ (forall x, In x l -> x <= nth (j - i) l 0)).
  Proof.
    induction l as [|x l IH]; intros i best m; cbn zeta.
    - left. split; auto. intros y [].
    - cbn [argmax_from]. cbn [gt RA]. destruct (Rlt_dec m x) as [L|L].
      + destruct (IH (S i) i x) as [[E H]|(H1 & H2 & H3)]; right.
        * rewrite E. split; [cbn; lia|]. rewrite Nat.sub_diag. cbn. split; auto. intros y [<-|Hy]; [lra|auto].
        * set (j := argmax_from N (S i) i x l) in *. replace (j - i)%nat with (S (j - S i)) by lia. cbn [nth length]. split; [lia|]. split; [lra|].
          intros y [<-|Hy]; [lra|auto].
      + destruct (IH (S i) best m) as [[E H]|(H1 & H2 & H3)]; [left|right].
        * split; auto. intros y [<-|Hy]; [lra|auto].
        * set (j := argmax_from N (S i) best m l) in *. replace (j - i)%nat with (S (j - S i)) by lia. cbn [nth length]. split; [lia|]. split; [lra|].
          intros y [<-|Hy]; [lra|auto].
  Qed.
  Lemma argmax_max (l : list R) i : argmax N l = Ok i -> (i < length l)%nat /\ forall x, In x l -> x <= nth i l 0.
  Proof.
    unfold argmax. intros H. destruct l as [|x l]; [discriminate H|]. injection H as <-. destruct (argmax_from_max l 1 0 x) as [[E H]|(H1 & H2 & H3)].
    - rewrite E. cbn. split; [lia|]. intros y [<-|Hy]; [lra|auto].
    - set (j := argmax_from N 1 0 x l) in *. cbn [length]. split; [lia|]. destruct j as [|j]; [lia|]. cbn [nth]. replace (S j - 1)%nat with j in * by lia.
      intros y [<-|Hy]; [lra|auto].
  Qed.
  Lemma last_argmax_max (l : list R) i : last_argmax N l = Ok i -> (i < length l)%nat /\ forall x, In x l -> x <= nth i l 0.
  Proof.
    intros H. change (rbind (argmax N (rev l)) (fun j => Ok (length l - 1 - j)%nat) = Ok i) in H. destruct (argmax N (rev l)) as [j|] eqn:E; [|discriminate H]. injection H as <-. apply argmax_max in E. rewrite rev_length in E.
    destruct E as [E1 E2]. split; [lia|]. intros x Hx. specialize (E2 x). rewrite rev_nth in E2 by lia.
    replace (length l - S j)%nat with (length l - 1 - j)%nat in E2 by lia. apply E2. now apply in_rev in Hx.
  Qed.

  (** *** cuts of a sorted list *)
  Definition below (y : R) (v : R) : bool := if Rle_dec v y then true else false.
  Lemma sorted_filter {B} (val : B -> R) (l : list B) y : StronglySorted (fun a b => val a < val b) l ->
    filter (fun b => below y (val b)) l = firstn (length (filter (fun b => below y (val b)) l)) l /\
    filter (fun b => negb (below y (val b))) l = skipn (length (filter (fun b => below y (val b)) l)) l.
  Proof.
    induction 1 as [|x l Hs [IH1 IH2] Hf]; cbn; auto. destruct (below y (val x)) eqn:L; cbn [negb length firstn skipn].
    - split; auto. congruence.
    - assert (E : filter (fun b => below y (val b)) l = []).
      { unfold below in L. destruct (Rle_dec (val x) y) as [|L']; [discriminate|]. clear -Hf L'. induction Hf as [|z l Hz _ IH]; cbn; auto. unfold below at 1. destruct (Rle_dec (val z) y); [lra|auto]. }
      rewrite E in *. cbn in *. split; auto. f_equal. exact IH2.
  Qed.
  Lemma sorted_cut {B} (val : B -> R) (l : list B) d i y : StronglySorted (fun a b => val a < val b) l -> (S i < length l)%nat ->
    val (nth i l d) <= y < val (nth (S i) l d) -> length (filter (fun b => below y (val b)) l) = S i.
  Proof.
    intros Hs. revert i. induction Hs as [|x l Hs IH Hf]; intros i Hi [H1 H2]; cbn in Hi; [lia|]. cbn [filter]. rewrite Forall_forall in Hf.
    destruct i as [|i].
    - cbn [nth] in H1, H2. unfold below at 1. destruct (Rle_dec (val x) y); [|lra]. cbn. f_equal. destruct l as [|z l]; [reflexivity|]. cbn in H2.
      inversion Hs as [|? ? Hs' Hz]; subst. rewrite Forall_forall in Hz. clear - H2 Hz. cbn. unfold below at 1. destruct (Rle_dec (val z) y); [lra|].
      induction l as [|w l IH]; cbn; auto. unfold below at 1. pose proof (Hz w (or_introl eq_refl)). destruct (Rle_dec (val w) y); [lra|]. apply IH.
      intros; apply Hz; now right.
    - cbn [nth] in H1, H2. unfold below at 1. destruct (Rle_dec (val x) y) as [L|L].
      + cbn. f_equal. apply IH; [lia|]. split; auto.
      + exfalso. apply L. assert (In (nth i l d) l) by (apply nth_In; lia). specialize (Hf _ H). lra.
  Qed.
End Cuts.
