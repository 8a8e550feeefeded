(** The resolution loop: invariant, progress and termination. *)
From Verif Require Import Base PyNum ScopeModel TypeModel TypeSpec TypeProofs DeclModel DeclSpec DeclProofs.
Open Scope string_scope.
Open Scope list_scope.

Lemma declared_reserved d : sane d -> forall n, In n (map fst (declared d)) -> reserved n = false.
Proof.
  induction d as [s|d IH|d IH|ds IH|m fs IH|m s|m k] using desc_rect2; cbn [declared sane]; auto.
  - intros _ n [].
  - intros [H _] n. revert H. induction IH as [|d ds Hd _ IHl]; [intros _ []|]. cbn [fold_right flat_map]. intros [S1 S2]. rewrite map_app, in_app_iff. intros [X|X]; auto.
  - intros (R & H & _) n [<-|X]; [exact R|]. clear R. induction fs as [|[p d] fs IHl]; [destruct X|]. inversion IH; subst. cbn [fold_right flat_map snd] in *. destruct H as [S1 S2]. rewrite map_app, in_app_iff in X. destruct X as [X|X]; auto.
  - intros (R & _) n [<-|[]]. exact R.
  - intros R n [<-|[]]. exact R.
Qed.
Lemma records_declared T d n : In n (map fst (records T d)) -> In n (defined (events d)).
Proof.
  rewrite <- declared_defined. induction d as [s|d IH|d IH|ds IH|m fs IH|m s|m k] using desc_rect2; cbn [declared records]; auto; try (intros []).
  - induction IH as [|d ds Hd _ IHl]; [intros []|]. cbn [flat_map]. rewrite !map_app, !in_app_iff. intros [X|X]; auto.
  - rewrite map_app, in_app_iff. intros [X|[<-|[]]]; [|now left]. right. induction fs as [|[p d] fs IHl]; [destruct X|]. inversion IH; subst. cbn [flat_map snd] in *. rewrite map_app, in_app_iff in X |- *. destruct X as [X|X]; auto.
Qed.
Lemma NoDup_app {A} (l l' : list A) : NoDup (l ++ l') <-> NoDup l /\ NoDup l' /\ forall x, In x l -> ~ In x l'.
Proof.
  induction l as [|a l IH]; cbn [app]; [intuition (try constructor; auto)|]. rewrite !NoDup_cons_iff, IH, in_app_iff. split.
  - intros (N & U & U' & D). repeat split; auto. intros x [<-|X]; auto.
  - intros ((N & U) & U' & D). repeat split; auto. intros [X|X]; [auto|]. apply (D a); [now left|exact X]. intros x X. apply D. now right.
Qed.
(** pieces of a list without duplicates *)
Lemma NoDup_flat_incl {A B} (f g : A -> list B) l : (forall x, In x l -> NoDup (f x) -> NoDup (g x)) -> (forall x y, In x l -> In y (g x) -> In y (f x)) ->
  NoDup (flat_map f l) -> NoDup (flat_map g l).
Proof.
  intros H I. induction l as [|a l IH]; cbn [flat_map]; [auto|]. rewrite !NoDup_app. intros (U & U' & D). split; [apply H; [now left|exact U]|]. split.
  - apply IH; [intros; apply H; auto; now right|intros x y X; apply I; now right|exact U'].
  - intros y X Y. apply in_flat_map in Y as (b & Hb & Y). apply (D y); [apply I; [now left|exact X]|]. apply in_flat_map. exists b. split; [exact Hb|]. apply I; [now right|exact Y].
Qed.
Lemma defined_flat {A} (f : A -> list event) l : defined (flat_map f l) = flat_map (fun x => defined (f x)) l.
Proof. induction l as [|a l IH]; [reflexivity|]. cbn [flat_map]. now rewrite defined_app, IH. Qed.
Lemma map_fst_flat {A B C} (f : A -> list (B * C)) l : map fst (flat_map f l) = flat_map (fun x => map fst (f x)) l.
Proof. induction l as [|a l IH]; [reflexivity|]. cbn [flat_map]. now rewrite map_app, IH. Qed.
Lemma records_NoDup T d : NoDup (defined (events d)) -> NoDup (map fst (records T d)).
Proof.
  induction d as [s|d IH|d IH|ds IH|m fs IH|m s|m k] using desc_rect2; cbn [events records]; auto; try (intros _; constructor).
  - rewrite defined_flat, map_fst_flat. apply NoDup_flat_incl.
    + intros x Hx. rewrite Forall_forall in IH. now apply IH.
    + intros x y _. apply records_declared.
  - cbn [defined flat_map app]. intros U. apply NoDup_cons_iff in U as [Nm U]. fold (defined (flat_map (fun p => events (snd p)) fs)) in Nm, U.
    rewrite defined_flat in U, Nm. rewrite map_app, map_fst_flat. apply NoDup_app. split; [|split].
    + revert U. apply NoDup_flat_incl.
      * intros x Hx. rewrite Forall_forall in IH. apply IH. now apply in_map.
      * intros x y _. apply records_declared.
    + cbn. repeat constructor. intros [].
    + intros x X [<-|[]]. apply Nm. apply in_flat_map in X as (p & Hp & X). apply in_flat_map. exists p. split; [exact Hp|]. now apply records_declared in X.
Qed.
Lemma flat_disjoint {A B} (f : A -> list B) l x y b : NoDup (flat_map f l) -> In x l -> In y l -> x <> y -> In b (f x) -> In b (f y) -> False.
Proof.
  induction l as [|a l IH]; [intros _ []|]. cbn [flat_map]. rewrite NoDup_app. intros (_ & U & D) [->|X] [->|Y] N Bx By.
  - now apply N.
  - apply (D b Bx). apply in_flat_map. eauto.
  - apply (D b By). apply in_flat_map. eauto.
  - eapply IH; eassumption.
Qed.

Section Loop.
  Variable loads : string -> desc.
  Variable N0 : names.
  Hypothesis F0 : fit N0.
  Notation ev := (fun x => events (loads x)).
  Notation K0 := (map fst (nm_types N0)).

  Definition inv (U : list string) (s : table * names) : Prop :=
    let p := map fst (fst s) in
    NoDup p /\ incl p U /\ (forall x, In x p -> sane (loads x)) /\
    nm_types (snd s) = nm_types N0 ++ flat_map (fun x => declared (loads x)) p /\ scoped K0 (flat_map ev p) /\
    forall T, agrees T (nm_types (snd s)) ->
      (forall x t, In (x, t) (fst s) -> t = means T (loads x)) /\ nm_defs (snd s) = nm_defs N0 ++ flat_map (fun x => records T (loads x)) p.
  Lemma inv_wellnamed U s : inv U s -> wellnamed (snd s).
  Proof.
    intros (_ & _ & _ & E & _) n t H. rewrite E in H. apply in_app_iff in H as [H|H].
    - destruct F0 as (_ & _ & _ & _ & Hn). destruct (Hn n t H) as [->|[[z ->]|[z ->]]]; reflexivity.
    - apply in_flat_map in H as (x & _ & H). now apply declared_named in H.
  Qed.
  Lemma inv_keys U s : inv U s -> forall n, In n (map fst (nm_types (snd s))) <-> In n (K0 ++ defined (flat_map ev (map fst (fst s)))).
  Proof. intros (_ & _ & _ & E & _) n. rewrite E, map_app, declared_all. tauto. Qed.
  Lemma inv_reserved U s : inv U s -> forall n, In n (map fst (nm_types (snd s))) -> reserved n = false.
  Proof.
    intros (_ & _ & Sn & E & _) n. rewrite E, map_app, in_app_iff. intros [H|H]; [now apply F0|].
    rewrite map_fst_flat in H. apply in_flat_map in H as (x & Hx & H). apply (declared_reserved (loads x)); auto.
  Qed.

  Lemma attempt_spec U x s : inv U s -> In x U ->
    match attempt loads x s with
    | Ok s' => inv U s' /\ (forall y, In y (map fst (fst s)) -> In y (map fst (fst s'))) /\
        (sane (loads x) -> scoped (K0 ++ defined (flat_map ev (map fst (fst s)))) (ev x) -> In x (map fst (fst s')))
    | Raise e => ~ sane (loads x)
    end.
  Proof using F0.
    intros Iv Ux. pose proof (inv_wellnamed U s Iv) as W. pose proof (inv_keys U s Iv) as IK. pose proof (inv_reserved U s Iv) as IR. destruct s as [found N]. cbn [fst snd] in *. unfold attempt.
    destruct (assoc x found) as [t|] eqn:Ex; [split; [exact Iv|split; [auto|]]; intros _ _; apply in_keys_assoc; eauto|].
    assert (Nx : ~ In x (map fst found)) by now apply assoc_None in Ex.
    assert (Main : match match build (loads x) N with
            | Ok (t, N') => Ok (found ++ [(x, t)], N')
            | Raise (PyErr "SchemaParseException") => Ok (found, N)
            | Raise e => Raise e
            end with
    | Ok s' => inv U s' /\ (forall y, In y (map fst found) -> In y (map fst (fst s'))) /\
        (sane (loads x) -> scoped (K0 ++ defined (flat_map ev (map fst found))) (ev x) -> In x (map fst (fst s')))
    | Raise e => ~ sane (loads x)
    end).
    { pose proof (build_spec (loads x) N W) as B. destruct (build (loads x) N) as [[t N']|e]; cbn [built] in B.
      - destruct B as (Sx & Sc & Ty & _ & M). cbn [fst snd]. split; [|split; [intros y Hy; rewrite map_app; apply in_app_iff; now left|intros _ _; rewrite map_app; apply in_app_iff; right; now left]].
        destruct Iv as (Nd & Ui & Sn & E & Sk & Mn). cbn [fst snd] in *. unfold inv. cbn [fst snd]. rewrite map_app. cbn [map fst]. rewrite !flat_map_app. cbn [flat_map]. rewrite !app_nil_r.
        split; [apply NoDup_app; split; [exact Nd|]; split; [repeat constructor; intros []|]; intros y Hy [<-|[]]; contradiction|].
        split; [intros y Hy; apply in_app_iff in Hy as [Hy|[<-|[]]]; auto|].
        split; [intros y Hy; apply in_app_iff in Hy as [Hy|[<-|[]]]; auto|].
        split; [now rewrite Ty, E, app_assoc|]. split.
        + apply scoped_app. split; [exact Sk|]. eapply scoped_ext; [|exact Sc]. intros n. symmetry. apply IK.
        + intros T A. destruct (M T A) as [Et Ed]. rewrite Ty in A. apply agrees_app in A. destruct (Mn T A) as [Mf Md]. split.
          * intros y u Hy. apply in_app_iff in Hy as [Hy|[[= <- <-]|[]]]; auto.
          * rewrite flat_map_app. cbn [flat_map]. rewrite app_nil_r, Ed, Md, app_assoc. reflexivity.
      - destruct B as [B1 B2]. destruct B2 as [->|[-> B2]]; cbn.
        + split; [exact Iv|]. split; [auto|]. intros Sx Sc. exfalso. apply B1. split; [exact Sx|]. eapply scoped_ext; [|exact Sc]. apply IK.
        + exact B2. }
    destruct (loads x) as [y|y|y|y|y fs|y z|y z] eqn:El; rewrite ?El in Main; try exact Main.
    destruct (assoc y (nm_types N)) as [t|] eqn:Ey; [|exact Main].
    cbn [build] in Main. assert (R : reserved y = false) by (apply IR, in_keys_assoc; eauto). unfold reserved in R. destruct (prim_of y) eqn:P; [discriminate|]. rewrite Ey in Main. exact Main.
  Qed.

  Lemma round_spec U texts s : inv U s -> incl texts U ->
    match round loads texts s with
    | Ok s' => inv U s' /\ (forall y, In y (map fst (fst s)) -> In y (map fst (fst s'))) /\
        (forall x, In x texts -> sane (loads x) ->
          (forall p, incl p U -> incl (map fst (fst s)) p -> ~ In x p -> scoped (K0 ++ defined (flat_map ev p)) (ev x)) -> In x (map fst (fst s')))
    | Raise e => exists x, In x texts /\ ~ sane (loads x)
    end.
  Proof using F0.
    revert s. induction texts as [|a texts IH]; intros s Iv Ui; cbn [round].
    - split; [exact Iv|]. split; [auto|]. intros x [].
    - pose proof (attempt_spec U a s Iv (Ui a (or_introl eq_refl))) as A. destruct (attempt loads a s) as [s1|e]; cbn [rbind]; [|exists a; split; [now left|exact A]].
      destruct A as (I1 & M1 & P1). specialize (IH s1 I1 (fun y Hy => Ui y (or_intror Hy))). destruct (round loads texts s1) as [s2|e].
      + destruct IH as (I2 & M2 & P2). split; [exact I2|]. split; [auto|]. intros x [<-|Hx] Sx C.
        * destruct (in_dec string_dec a (map fst (fst s))) as [X|X]; [auto|]. apply M2, P1; [exact Sx|]. apply C; [apply Iv|intros y Y; exact Y|exact X].
        * apply P2; [exact Hx|exact Sx|]. intros p Hp Hs Hn. apply C; auto. intros y Hy. apply Hs. auto.
      + destruct IH as (x & Hx & Sx). exists x. split; [now right|exact Sx].
  Qed.

  Lemma unresolved_le texts f g : (forall y, In y (map fst f) -> In y (map fst g)) -> (unresolved texts g <= unresolved texts f)%nat.
  Proof.
    intros H. unfold unresolved. induction texts as [|x l IH]; cbn [filter]; [constructor|].
    destruct (assoc x f) as [t|] eqn:Ef, (assoc x g) as [u|] eqn:Eg; cbn [length]; try lia.
    apply assoc_None in Eg. exfalso. apply Eg, H, in_keys_assoc. eauto.
  Qed.
  Lemma unresolved_lt texts f g x : (forall y, In y (map fst f) -> In y (map fst g)) -> In x texts -> ~ In x (map fst f) -> In x (map fst g) -> (unresolved texts g < unresolved texts f)%nat.
  Proof.
    intros H Hx Nf Hg. induction texts as [|a l IH]; [destruct Hx|]. pose proof (unresolved_le l f g H) as L. unfold unresolved in *. cbn [filter].
    destruct Hx as [->|Hx].
    - apply in_keys_assoc in Hg as [u ->]. destruct (assoc x f) as [t|] eqn:Ef; [exfalso; apply Nf, in_keys_assoc; eauto|]. cbn [length]. lia.
    - specialize (IH Hx). destruct (assoc a f) as [t|] eqn:Ef, (assoc a g) as [u|] eqn:Eg; cbn [length]; try lia.
      apply assoc_None in Eg. exfalso. apply Eg, H, in_keys_assoc. eauto.
  Qed.
  Lemma unresolved_0 texts f : unresolved texts f = 0%nat <-> forall x, In x texts -> In x (map fst f).
  Proof.
    unfold unresolved. induction texts as [|a l IH]; cbn [filter]; [split; [intros _ x []|reflexivity]|].
    destruct (assoc a f) as [t|] eqn:E.
    - rewrite IH. split; [intros H x [<-|X]; [apply in_keys_assoc; eauto|auto]|intros H x X; apply H; now right].
    - cbn [length]. split; [discriminate|]. intros H. apply assoc_None in E. exfalso. apply E, H. now left.
  Qed.
  Lemma unresolved_length texts f : (unresolved texts f <= length texts)%nat.
  Proof. unfold unresolved. induction texts as [|a l IH]; cbn [filter length]; [lia|]. destruct (assoc a f); cbn [length]; lia. Qed.

  (** enough rounds *)
  Definition start (texts : list string) (last : option nat) (s : table * names) (fuel : nat) : Prop :=
    match last with None => (length texts < fuel)%nat | Some l => l = unresolved texts (fst s) /\ (1 <= l <= fuel)%nat end.
  Lemma resolve_spec fuel : forall texts last s, inv texts s -> start texts last s fuel ->
    match resolve loads fuel texts last s with
    | None => False
    | Some (Ok s') => inv texts s' /\ (forall x, In x texts -> In x (map fst (fst s')))
    | Some (Raise e) => ~ resolvable loads K0 texts
    end.
  Proof using F0.
    induction fuel as [|k IH]; intros texts last s Iv St; cbn [resolve]; [destruct last; cbn in St; lia|].
    pose proof (round_spec texts texts s Iv (incl_refl _)) as R. destruct (round loads texts s) as [s'|e].
    2:{ destruct R as (x & Hx & Sx). intros [H _]. auto. }
    destruct R as (I' & M' & P'). pose proof (unresolved_le texts _ _ M') as Le.
    destruct (match last with Some l => Nat.eqb (unresolved texts (fst s')) l | None => false end) eqn:Eq.
    - destruct last as [l|]; [|discriminate]. apply Nat.eqb_eq in Eq. cbn [start] in St. destruct St as [-> St].
      intros (Sa & q & Nq & Qi & Sc).
      (* the first of q that is not there yet would have been found *)
      assert (Fst : (forall x, In x q -> In x (map fst (fst s))) \/ exists q1 x q2, q = q1 ++ x :: q2 /\ incl q1 (map fst (fst s)) /\ ~ In x (map fst (fst s))).
      { clear. induction q as [|a q IH]; [left; intros x []|]. destruct (in_dec string_dec a (map fst (fst s))) as [X|X].
        - destruct IH as [H|(q1 & x & q2 & -> & H1 & H2)]; [left; intros y [<-|Y]; auto|]. right. exists (a :: q1), x, q2. split; [reflexivity|]. split; [intros y [<-|Y]; auto|exact H2].
        - right. exists [], a, q. split; [reflexivity|]. split; [intros y []|exact X]. }
      destruct Fst as [All|(q1 & x & q2 & -> & H1 & H2)].
      + assert (Z : unresolved texts (fst s) = 0%nat) by (apply unresolved_0; intros x Hx; apply All, Qi, Hx). lia.
      + assert (Tx : In x texts) by (apply Qi, in_app_iff; right; now left).
        assert (Got : In x (map fst (fst s'))).
        { apply P'; [exact Tx|auto|]. intros p Hp Hs Hn. pose proof (scoped_defined _ _ Sc) as [Ud Dk].
          rewrite flat_map_app in Sc. apply scoped_app in Sc as [_ Sc]. cbn [flat_map] in Sc. apply scoped_app in Sc as [Sc _].
          eapply scoped_weaken; [exact Sc| |].
          - intros n Hn'. apply in_app_iff in Hn' as [Hn'|Hn']; apply in_app_iff; [now left|]. right. rewrite defined_flat in Hn' |- *. apply in_flat_map in Hn' as (y & Hy & Hn'). apply in_flat_map. exists y. auto.
          - intros n Dn Hn'. rewrite defined_flat in Ud. apply in_app_iff in Hn' as [Hn'|Hn'].
            + apply (Dk n); [|exact Hn']. rewrite defined_flat. apply in_flat_map. exists x. split; [apply in_app_iff; right; now left|exact Dn].
            + rewrite defined_flat in Hn'. apply in_flat_map in Hn' as (y & Hy & Hn'). eapply (flat_disjoint _ _ x y n Ud); [apply in_app_iff; right; now left| | |exact Dn|exact Hn'].
              * apply Qi, Hp, Hy.
              * intros ->. contradiction. }
        pose proof (unresolved_lt texts _ _ x M' Tx H2 Got). lia.
    - destruct (Nat.eqb_spec (unresolved texts (fst s')) 0) as [Z|Z].
      + split; [exact I'|]. now apply unresolved_0.
      + apply IH; [exact I'|]. cbn [start]. split; [reflexivity|]. destruct last as [l|]; cbn [start] in St.
        * apply Nat.eqb_neq in Eq. lia.
        * pose proof (unresolved_length texts (fst s')). lia.
  Qed.
End Loop.
