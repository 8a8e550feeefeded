(** Proofs about TypeModel: values of accepted types, and the type of several branches. *)
From Verif Require Import Base PyNum ScopeModel TypeModel TypeSpec TypeProofs.
Open Scope string_scope.
Open Scope list_scope.

(** *** Values *)
Lemma widens_value D tg a b v : widens a b -> has_type tg D b v -> has_type tg D a v.
Proof.
  unfold int_range, long_range. destruct 1; inversion 1; subst; try discriminate;
    constructor; unfold int_range, long_range in *; lia.
Qed.
Lemma fits_value D a b v : wf b -> fits all_names a b -> has_type false D b v -> has_type false D a v.
Proof.
  intros Wb H. revert v Wb. induction H as [t Hp|a b Hw|n s|n ss rs Hi|a b H IH|a b H IH|n Hn|xs x b Hb Hx H IH|a ys H IH]; intros v Wb Hv; auto.
  - eapply widens_value; eauto.
  - inversion Hv; subst. constructor. auto.
  - inversion Hv; subst. constructor. auto.
  - inversion Hv; subst. constructor. eauto.
  - apply ht_member with x; auto.
  - inversion Hv; subst; try discriminate. eapply IH; eauto. eapply wf_union; eauto.
Qed.
Lemma keeps_union_l xs b : keeps_unions (TUnion xs) b <->
  forall x, In x xs -> match b with TUnion ys => forall y, In y ys -> keeps_unions x y | _ => keeps_unions x b end.
Proof.
  destruct b; cbn [keeps_unions]; (induction xs as [|x xs IH]; [cbn; tauto|]; split;
    [intros [H1 H2] y [<-|Hy]; [exact H1|now apply IH]
    |intros H; split; [exact (H x (or_introl eq_refl))|apply IH; intros z Hz; exact (H z (or_intror Hz))]]).
Qed.
Lemma fits_name a b : fits all_names a b -> is_union a = false -> is_union b = false -> tyname a = tyname b \/ widens a b.
Proof. destruct 1; intros Ha Hb; auto; discriminate. Qed.
Lemma fits_tag a b g : fits all_names a b -> is_union a = false -> is_union b = false -> tag_ok g b -> tag_ok g a.
Proof.
  intros H Ha Hb Hg. destruct Hg as [t|b c Hw].
  - destruct (fits_name _ _ H Ha Hb) as [E|E]; [rewrite <- E; apply tag_same|now apply tag_wider].
  - inversion H; subst; try (inversion Hw; fail); try discriminate.
    + now apply tag_wider.
    + apply tag_wider. eapply widens_trans; eauto.
Qed.
Lemma fits_tagged D a : forall b v, wf a -> wf b -> fits all_names a b -> keeps_unions a b -> has_type true D b v -> has_type true D a v.
Proof.
  induction a as [t Hp| | |t IH|t IH|n|xs IH|] using ty_ind'; intros b v Wa Wb H Hk Hv.
  - assert (Ub : is_union b = false) by (destruct t; try discriminate; exact Hk).
    inversion H; subst; try discriminate; auto. eapply widens_value; eauto.
  - cbn in Hk. inversion H; subst; try discriminate; auto. eapply widens_value; eauto.
  - cbn in Hk. inversion H; subst; try discriminate; auto; [eapply widens_value; eauto|]. inversion Hv; subst. constructor. auto.
  - inversion H as [| | | |a1 b1 H1| | | |]; subst; try discriminate; try (eapply widens_value; eauto; fail); try (destruct Hk; fail).
    inversion Hv; subst. constructor. cbn in Hk. intros w Hw. apply (IH b1); auto.
  - inversion H as [| | | | |a1 b1 H1| | |]; subst; try discriminate; try (eapply widens_value; eauto; fail); try (destruct Hk; fail).
    inversion Hv; subst. constructor. cbn in Hk. intros k w Hw. apply (IH b1); eauto.
  - cbn in Hk. inversion H; subst; try discriminate; auto. eapply widens_value; eauto.
  - rewrite Forall_forall in IH. pose proof (proj1 (wf_union _) Wa) as Wx. pose proof (proj1 (keeps_union_l _ _) Hk) as Hk'.
    inversion H as [|a1 b1 Hw| | | | | |xs' x b1 Hb Hx Hf|a1 ys Hf]; subst; try discriminate.
    + eapply widens_value; eauto.
    + apply ht_member with x; auto. apply IH with b; auto; [apply (Wx x Hx)|]. specialize (Hk' x Hx).
      destruct b; auto; discriminate.
    + pose proof (proj1 (wf_union _) Wb) as Wy.
      assert (Sub : forall y, In y ys -> exists x, In x xs /\ fits all_names x y /\ is_union y = false).
      { intros y Hy. destruct (Wy y Hy) as [Wyy Uy]. specialize (Hf y Hy).
        inversion Hf as [|a2 b2 Hw| | | | | |xs2 x b2 Hb Hx Hfx|a2 ys2 Hfx]; subst; try discriminate; [inversion Hw|]. eauto. }
      inversion Hv as [| | | | | | | | | | | | | | |ys' y v' Hy Hyv|ys' y g v' _ Hy Hn Hg Hyv]; subst;
        destruct (Sub y Hy) as (x & Hx & Hxy & Uy); destruct (Wx x Hx) as [Wxx Ux]; destruct (Wy y Hy) as [Wyy _].
      * apply ht_member with x; auto. apply IH with y; auto; apply (Hk' x Hx y Hy).
      * apply ht_tagged with x; auto; [|eapply fits_tag; eauto|]; [intros ->; inversion Hxy as [| ? ? Hw| | | | | | |]; subst; try discriminate; [now apply Hn|inversion Hw]|]. apply IH with y; auto; apply (Hk' x Hx y Hy).
  - destruct Wa.
Qed.

(** *** The type of several branches *)
Section Broad.
  Variable D : defs.
  Hypothesis WD : wf_defs D.
  Notation "a >= b" := (fits all_names a b).
  Definition flat (t : ty) : Prop := wf t /\ is_union t = false.
  Lemma accd_fits a b : wf a -> wf b -> accepts D D a b = true <-> a >= b.
  Proof. apply accepts_fits; auto. Qed.
  Lemma subst_first_flat c out : flat c -> Forall flat out -> Forall flat (subst_first D c out).
  Proof.
    intros Hc H. induction H as [|y out Hy H IH]; cbn [subst_first]; [auto|]. destruct (accepts D D c y); constructor; auto.
  Qed.
  Lemma subst_first_in c out : In c (subst_first D c out).
  Proof. induction out as [|y out IH]; cbn [subst_first]; [now left|]. destruct (accepts D D c y); [now left|now right]. Qed.
  Lemma subst_first_covers c out y : flat c -> Forall flat out -> In y out -> exists z, In z (subst_first D c out) /\ z >= y.
  Proof.
    intros Hc H. induction H as [|x out Hx H IH]; intros Hy; [destruct Hy|]. cbn [subst_first]. destruct (accepts D D c x) eqn:E.
    - destruct Hy as [->|Hy].
      + exists c. split; [now left|]. apply accd_fits in E; auto; [apply Hc|apply Hx].
      + exists y. split; [now right|]. apply fits_refl. rewrite Forall_forall in H. apply H, Hy.
    - destruct Hy as [->|Hy].
      + exists y. split; [now left|]. apply fits_refl, Hx.
      + destruct (IH Hy) as (z & Hz & E'). exists z. split; [now right|exact E'].
  Qed.
  Lemma subst_first_sub c out y : In y (subst_first D c out) -> y = c \/ In y out.
  Proof.
    induction out as [|x out IH]; cbn [subst_first]; [cbn; intuition|]. destruct (accepts D D c x); cbn; intuition.
  Qed.
  (** out covers c: some member, or for a union every member, is accepted *)
  Definition covered (out : list ty) (c : ty) : Prop := exists z, In z out /\ z >= c.
  Lemma add_type_ok c out : flat c -> Forall flat out ->
    Forall flat (add_type D c out) /\ covered (add_type D c out) c /\
    (forall y, wf y -> covered out y -> covered (add_type D c out) y) /\
    (forall y, In y (add_type D c out) -> y = c \/ In y out).
  Proof.
    intros Hc H. unfold add_type. destruct (existsb (fun y => accepts D D y c) out) eqn:E.
    - split; [exact H|]. split.
      + apply existsb_exists in E as (y & Hy & E). exists y. split; [exact Hy|]. rewrite Forall_forall in H.
        apply accd_fits in E; auto; [apply H, Hy|apply Hc].
      + split; auto.
    - split; [now apply subst_first_flat|]. split; [|split].
      + exists c. split; [apply subst_first_in|apply fits_refl, Hc].
      + intros y Wy (z & Hz & Hzy). destruct (subst_first_covers c out z Hc H Hz) as (w & Hw & E').
        exists w. split; [exact Hw|]. rewrite Forall_forall in H.
        assert (Fw : flat w) by (apply subst_first_sub in Hw as [->|Hw]; auto).
        apply fits_trans with z; auto; [apply Fw|apply H, Hz].
      + apply subst_first_sub.
  Qed.
  Definition members (c : ty) : list ty := match c with TUnion ts => ts | _ => [c] end.
  Lemma distinct1_eq out c : wf c -> distinct1 D out c = fold_left (fun o t => add_type D t o) (members c) out.
  Proof.
    intros W. destruct c; try reflexivity. cbn [distinct1 members]. pose proof (proj1 (wf_union _) W) as Wx. clear W. revert out.
    induction types as [|t ts IH]; intros out; [reflexivity|]. cbn [fold_left]. rewrite <- IH by (intros; apply Wx; now right).
    destruct (Wx t (or_introl eq_refl)) as [_ Ut]. destruct t; try discriminate; reflexivity.
  Qed.
  Lemma members_flat c : wf c -> Forall flat (members c).
  Proof.
    intros W. destruct c; cbn [members]; try (repeat constructor; auto; fail). apply Forall_forall. apply wf_union, W.
  Qed.
  Lemma distinct_eq cs : Forall wf cs -> forall out, fold_left (distinct1 D) cs out = fold_left (fun o t => add_type D t o) (flat_map members cs) out.
  Proof.
    induction 1 as [|c cs Hc _ IH]; intros out; cbn; [reflexivity|]. now rewrite IH, fold_left_app, distinct1_eq.
  Qed.
  Lemma add_all_ok ms : Forall flat ms -> forall out, Forall flat out ->
    let out' := fold_left (fun o t => add_type D t o) ms out in
    Forall flat out' /\ Forall (covered out') ms /\ (forall y, wf y -> covered out y -> covered out' y) /\
    (forall y, In y out' -> In y ms \/ In y out).
  Proof.
    induction 1 as [|c ms Hc _ IH]; intros out H; cbn -[add_type]; [auto|].
    destruct (add_type_ok c out Hc H) as (F1 & C1 & K1 & S1). destruct (IH _ F1) as (F2 & C2 & K2 & S2). cbn in *.
    split; [exact F2|]. split; [|split].
    - constructor; [|exact C2]. apply K2; [apply Hc|exact C1].
    - intros y Wy Hy. apply K2; auto.
    - intros y Hy. apply S2 in Hy as [Hy|Hy]; [auto|]. apply S1 in Hy as [->|Hy]; auto.
  Qed.
  Lemma distinct_ok cs : Forall wf cs ->
    let out := distinct_types D cs in
    Forall flat out /\ Forall (fun c => TUnion out >= c) cs /\ (forall y, In y out -> exists c, In c cs /\ In y (members c)).
  Proof.
    intros W. cbv zeta. unfold distinct_types. rewrite distinct_eq by exact W.
    assert (Fm : Forall flat (flat_map members cs)).
    { apply Forall_flat_map. eapply Forall_impl; [|exact W]. apply members_flat. }
    destruct (add_all_ok _ Fm [] (Forall_nil _)) as (F & C & _ & Sb). cbn in F, C, Sb. split; [exact F|]. split.
    - apply Forall_forall. intros c Hc. apply Forall_flat_map in C. rewrite Forall_forall in C, W. specialize (C c Hc).
      specialize (W c Hc). pose proof (members_flat c W) as Mf. rewrite Forall_forall in C, Mf.
      assert (K : forall m, In m (members c) -> TUnion (fold_left (fun o t => add_type D t o) (flat_map members cs) []) >= m).
      { intros m Hm. destruct (C m Hm) as (z & Hz & E). apply fit_into with z; auto. apply Mf, Hm. }
      destruct c; try (apply K; now left). apply fit_all. exact K.
    - intros y Hy. apply Sb in Hy as [Hy|[]]. now apply in_flat_map in Hy.
  Qed.

  Lemma uniq_union ts : uniq (TUnion ts) <-> NoDup (map tyname ts) /\ Forall uniq ts.
  Proof.
    cbn [uniq]. apply and_iff_compat_l. induction ts as [|t ts IH]; [split; auto|]. rewrite Forall_cons_iff. tauto.
  Qed.
  Lemma nodup_str_ok l : nodup_str l = true <-> NoDup l.
  Proof.
    induction l as [|x l IH]; cbn; [split; [constructor|auto]|]. rewrite andb_true_iff, NoDup_cons_iff, IH, <- (mem_In x l).
    destruct (mem x l); cbn; intuition discriminate.
  Qed.
  Lemma all_some_in {A B} (f : A -> option B) l bs : all_some f l = Some bs -> Forall2 (fun a b => f a = Some b) l bs.
  Proof.
    revert bs. induction l as [|a l IH]; cbn; intros bs H; [injection H as <-; constructor|].
    destruct (f a) eqn:E; [|discriminate]. destruct (all_some f l); [|discriminate]. injection H as <-. constructor; auto.
  Qed.
  Lemma isb_In p cs c : isb p cs = true -> In c cs -> p c = true.
  Proof. unfold isb. rewrite forallb_forall. auto. Qed.
  Lemma not_isb p cs : isb p cs = false -> exists c, In c cs /\ p c = false.
  Proof.
    unfold isb. induction cs as [|c cs IH]; cbn; [discriminate|]. destruct (p c) eqn:E; cbn.
    - intros H. destruct (IH H) as (x & Hx & E'). eauto.
    - intros _. eauto.
  Qed.
  Lemma same_name_ok sel cs r : same_name sel cs = Some r ->
    exists c n, hd_error cs = Some c /\ (r = incompatible \/ r = Ok c /\ forall x, In x cs -> sel x = Some n).
  Proof.
    unfold same_name. destruct (all_some sel cs) as [[|n ns]|] eqn:E; try discriminate.
    destruct cs as [|c cs]; [discriminate|]. intros H. injection H as <-. exists c, n. split; [reflexivity|].
    destruct (forallb (String.eqb n) ns) eqn:F; [right|now left]. split; [reflexivity|].
    apply all_some_in in E. inversion E as [|? ? ? ? E1 E2]; subst. intros x [->|Hx]; [exact E1|].
    clear E E1. revert F Hx. induction E2; cbn; [tauto|]. intros F [->|Hx].
    - apply andb_true_iff in F as [F _]. apply String.eqb_eq in F. now subst.
    - apply andb_true_iff in F as [_ F]. auto.
  Qed.
  Lemma parts_self t : In t (parts t).
  Proof. destruct t; now left. Qed.
  Lemma one_doc_sub cs cs' : (forall c, In c cs' -> exists d, In d cs /\ incl (parts c) (parts d)) -> one_document cs -> one_document cs'.
  Proof.
    intros H [H1 H2]. assert (I : incl (flat_map parts cs') (flat_map parts cs)).
    { intros x Hx. apply in_flat_map in Hx as (c & Hc & Hx). destruct (H c Hc) as (d & Hd & Hi). apply in_flat_map. eauto. }
    split; intros n s r Ha Hb; [eapply H1|eapply H2]; eauto.
  Qed.
  (** what a type accepting arrays looks like *)
  Lemma above_array u y : wf u -> u >= TArray y -> exists x, In (TArray x) (members u) /\ x >= y.
  Proof.
    intros W H. inversion H as [? Hp|? ? Hw| | |a b H1| | |xs x b Hb Hx H1|]; subst; try discriminate.
    - inversion Hw.
    - exists a. split; [now left|exact H1].
    - destruct (proj1 (wf_union _) W x Hx) as [Wx Ux].
      inversion H1 as [? Hp|? ? Hw| | |a b' H2| | | |]; subst; try discriminate; [inversion Hw|]. exists a. auto.
  Qed.
  Lemma above_map u y : wf u -> u >= TMap y -> exists x, In (TMap x) (members u) /\ x >= y.
  Proof.
    intros W H. inversion H as [? Hp|? ? Hw| | | |a b H1| |xs x b Hb Hx H1|]; subst; try discriminate.
    - inversion Hw.
    - exists a. split; [now left|exact H1].
    - destruct (proj1 (wf_union _) W x Hx) as [Wx Ux].
      inversion H1 as [? Hp|? ? Hw| | | |a b' H2| | |]; subst; try discriminate; [inversion Hw|]. exists a. auto.
  Qed.
  Lemma member_fits u m c : wf u -> In m (members u) -> is_union c = false -> m >= c -> u >= c.
  Proof. intros W H Uc E. destruct u; cbn in H; try (destruct H as [<-|[]]; exact E). apply fit_into with m; auto. Qed.
  Lemma fits_member u c m : u >= c -> In m (members c) -> u >= m.
  Proof.
    intros H Hm. destruct c; cbn in Hm; try (destruct Hm as [<-|[]]; exact H). eapply fits_not_union_r; eauto.
  Qed.
  Lemma NoDup_map_inj {A B} (f : A -> B) l x y : NoDup (map f l) -> In x l -> In y l -> f x = f y -> x = y.
  Proof.
    induction l as [|a l IH]; cbn; [tauto|]. intros N. inversion N; subst. intros [->|Hx] [->|Hy] E; auto.
    - exfalso. apply H1. rewrite E. now apply in_map.
    - exfalso. apply H1. rewrite <- E. now apply in_map.
  Qed.
  Lemma members_uniq u x y : uniq u -> In x (members u) -> In y (members u) -> tyname x = tyname y -> x = y.
  Proof.
    intros U Hx Hy E. destruct u; cbn in Hx, Hy; try (destruct Hx as [<-|[]], Hy as [<-|[]]; reflexivity).
    apply uniq_union in U as [N _]. eapply NoDup_map_inj; eauto.
  Qed.
  Lemma members_wf_uniq u x : wf u -> uniq u -> In x (members u) -> wf x /\ uniq x.
  Proof.
    intros W U Hx. destruct u; cbn in Hx; try (destruct Hx as [<-|[]]; split; assumption).
    apply uniq_union in U as [_ U]. rewrite Forall_forall in U. split; [apply (proj1 (wf_union _) W x Hx)|auto].
  Qed.

  Definition best (cs : list ty) (t : ty) : Prop :=
    wf t /\ uniq t /\ Forall (fun c => t >= c) cs /\
    (forall u, wf u -> uniq u -> Forall (fun c => u >= c) cs -> u >= t).
  Lemma best_one cs t : wf t -> uniq t -> In t cs -> Forall (fun c => t >= c) cs -> best cs t.
  Proof.
    intros W U Ht F. split; [exact W|]. split; [exact U|]. split; [exact F|]. intros u _ _ Fu. rewrite Forall_forall in Fu. auto.
  Qed.
  Lemma best_all_array cs items t : cs <> [] -> Forall2 (fun c i => c = TArray i) cs items -> best items t -> best cs (TArray t).
  Proof.
    intros Ne H2 (W & U & F & L). split; [exact W|]. split; [exact U|]. split.
    - clear - H2 F. induction H2; [constructor|]. inversion F; subst. constructor; [now apply fit_array|auto].
    - intros u Wu Uu Fu. destruct H2 as [|c i cs items -> H2]; [congruence|]. inversion Fu as [|? ? Hc Fu']; subst.
      destruct (above_array u i Wu Hc) as (x & Hx & Hxi). destruct (members_wf_uniq u _ Wu Uu Hx) as [Wx Ux].
      apply member_fits with (TArray x); auto. apply fit_array. apply L; auto. constructor; [exact Hxi|].
      clear - H2 Fu' Wu Uu Hx. induction H2 as [|c j cs items -> H2 IH]; [constructor|]. inversion Fu' as [|? ? Hc Fu'']; subst.
      constructor; [|auto]. destruct (above_array u j Wu Hc) as (y & Hy & Hyj).
      pose proof (members_uniq u _ _ Uu Hx Hy eq_refl) as E. injection E as <-. exact Hyj.
  Qed.
  Lemma best_all_map cs items t : cs <> [] -> Forall2 (fun c i => c = TMap i) cs items -> best items t -> best cs (TMap t).
  Proof.
    intros Ne H2 (W & U & F & L). split; [exact W|]. split; [exact U|]. split.
    - clear - H2 F. induction H2; [constructor|]. inversion F; subst. constructor; [now apply fit_map|auto].
    - intros u Wu Uu Fu. destruct H2 as [|c i cs items -> H2]; [congruence|]. inversion Fu as [|? ? Hc Fu']; subst.
      destruct (above_map u i Wu Hc) as (x & Hx & Hxi). destruct (members_wf_uniq u _ Wu Uu Hx) as [Wx Ux].
      apply member_fits with (TMap x); auto. apply fit_map. apply L; auto. constructor; [exact Hxi|].
      clear - H2 Fu' Wu Uu Hx. induction H2 as [|c j cs items -> H2 IH]; [constructor|]. inversion Fu' as [|? ? Hc Fu'']; subst.
      constructor; [|auto]. destruct (above_map u j Wu Hc) as (y & Hy & Hyj).
      pose proof (members_uniq u _ _ Uu Hx Hy eq_refl) as E. injection E as <-. exact Hyj.
  Qed.
  Lemma broadest_best n : forall cs t, Forall wf cs -> Forall uniq cs -> one_document cs -> broadest D n cs = Ok t -> best cs t.
  Proof.
    induction n as [|n IH]; intros cs t W U O H; [discriminate|]. cbn [broadest] in H.
    destruct cs as [|c cs']; [discriminate|]. remember (c :: cs') as cs eqn:Ecs.
    assert (Hc : In c cs) by (subst; now left). assert (Ne : cs <> []) by (subst; discriminate).
    assert (Hd : hd_error cs = Some c) by (subst; reflexivity). clear Ecs.
    pose proof W as W0. pose proof U as U0. rewrite Forall_forall in W0, U0.
    Ltac allof E c cs Hc W0 U0 :=
      apply best_one; auto; apply Forall_forall; intros x Hx;
      pose proof (isb_In _ _ _ E Hx) as P; pose proof (isb_In _ _ _ E Hc) as Q; cbn beta in P, Q;
      destruct x; try discriminate P; destruct c; try discriminate Q;
      first [apply fit_prim; reflexivity | apply fit_num; constructor].
    match type of H with (if ?e then _ else _) = _ => destruct e eqn:E1 end; [injection H as <-; allof E1 c cs Hc W0 U0|].
    match type of H with (if ?e then _ else _) = _ => destruct e eqn:E2 end; [injection H as <-; allof E2 c cs Hc W0 U0|].
    match type of H with (if ?e then _ else _) = _ => destruct e eqn:E3 end.
    { injection H as <-. pose proof (isb_In _ _ _ E3 Hc) as Q0. cbn beta in Q0. destruct c; try discriminate Q0.
      apply best_one; auto. apply Forall_forall. intros x Hx. pose proof (isb_In _ _ _ E3 Hx) as P. cbn beta in P.
      destruct x; try discriminate P. now apply fit_prim. }
    Ltac widest E Eprev cs W0 U0 :=
      destruct (not_isb _ _ Eprev) as (d & Hd' & Pd); pose proof (isb_In _ _ _ E Hd') as Qd; cbn beta in Pd, Qd;
      destruct d; try discriminate Pd; try discriminate Qd;
      apply best_one; auto; apply Forall_forall; intros x Hx;
      pose proof (isb_In _ _ _ E Hx) as P; cbn beta in P; destruct x; try discriminate P;
      first [apply fit_prim; reflexivity | apply fit_num; constructor].
    match type of H with (if ?e then _ else _) = _ => destruct e eqn:E4 end; [injection H as <-; widest E4 E3 cs W0 U0|].
    match type of H with (if ?e then _ else _) = _ => destruct e eqn:E5 end; [injection H as <-; widest E5 E4 cs W0 U0|].
    match type of H with (if ?e then _ else _) = _ => destruct e eqn:E6 end; [injection H as <-; widest E6 E5 cs W0 U0|].
    match type of H with (if ?e then _ else _) = _ => destruct e eqn:E7 end; [injection H as <-; allof E7 c cs Hc W0 U0|].
    match type of H with (if ?e then _ else _) = _ => destruct e eqn:E8 end; [injection H as <-; allof E8 c cs Hc W0 U0|].
    clear E1 E2 E3 E4 E5 E6 E7 E8.
    destruct (all_some items_of cs) as [items|] eqn:E9.
    { apply all_some_in in E9. assert (E9' : Forall2 (fun c i => c = TArray i) cs items).
      { clear - E9. induction E9 as [|x i ? ? E]; constructor; auto. destruct x; try discriminate. now injection E as ->. }
      destruct (broadest D n items) as [ti|] eqn:Eb; cbn in H; [|discriminate]. injection H as <-.
      apply best_all_array with items; auto. apply IH; auto.
      - clear - W E9'. induction E9' as [|x i ? ? ->]; [constructor|]. inversion W; subst. constructor; auto.
      - clear - U E9'. induction E9' as [|x i ? ? ->]; [constructor|]. inversion U; subst. constructor; auto.
      - apply one_doc_sub with cs; auto. clear - E9'. induction E9' as [|x i ? ? -> _ IH]; intros d Hd; [destruct Hd|].
        destruct Hd as [<-|Hd]; [exists (TArray i); split; [now left|now right]|]. destruct (IH d Hd) as (y & Hy & Hi).
        exists y. split; [now right|exact Hi]. }
    destruct (all_some values_of cs) as [items|] eqn:E10.
    { apply all_some_in in E10. assert (E10' : Forall2 (fun c i => c = TMap i) cs items).
      { clear - E10. induction E10 as [|x i ? ? E]; constructor; auto. destruct x; try discriminate. now injection E as ->. }
      destruct (broadest D n items) as [ti|] eqn:Eb; cbn in H; [|discriminate]. injection H as <-.
      apply best_all_map with items; auto. apply IH; auto.
      - clear - W E10'. induction E10' as [|x i ? ? ->]; [constructor|]. inversion W; subst. constructor; auto.
      - clear - U E10'. induction E10' as [|x i ? ? ->]; [constructor|]. inversion U; subst. constructor; auto.
      - apply one_doc_sub with cs; auto. clear - E10'. induction E10' as [|x i ? ? -> _ IH]; intros d Hd; [destruct Hd|].
        destruct Hd as [<-|Hd]; [exists (TMap i); split; [now left|now right]|]. destruct (IH d Hd) as (y & Hy & Hi).
        exists y. split; [now right|exact Hi]. }
    destruct O as [Of Oe].
    assert (Pin : forall x, In x cs -> In x (flat_map parts cs)) by (intros x Hx; apply in_flat_map; exists x; split; [exact Hx|apply parts_self]).
    destruct (same_name fixed_name cs) as [r|] eqn:E11.
    { subst r. apply same_name_ok in E11 as (c' & nm & Hc' & [E|[E N]]); [discriminate|]. rewrite Hd in Hc'. injection Hc' as <-. injection E as ->.
      apply best_one; auto. apply Forall_forall. intros x Hx. pose proof (N x Hx) as Nx. pose proof (N c Hc) as Nc.
      destruct x; try discriminate; destruct c; try discriminate. cbn in Nx, Nc. injection Nx as ->. injection Nc as ->.
      rewrite (Of nm size size0) by auto. apply fit_fixed. }
    destruct (same_name enum_name cs) as [r|] eqn:E12.
    { subst r. apply same_name_ok in E12 as (c' & nm & Hc' & [E|[E N]]); [discriminate|]. rewrite Hd in Hc'. injection Hc' as <-. injection E as ->.
      apply best_one; auto. apply Forall_forall. intros x Hx. pose proof (N x Hx) as Nx. pose proof (N c Hc) as Nc.
      destruct x; try discriminate; destruct c; try discriminate. cbn in Nx, Nc. injection Nx as ->. injection Nc as ->.
      rewrite (Oe nm symbols symbols0) by auto. apply fit_enum, incl_refl. }
    destruct (same_name record_name cs) as [r|] eqn:E13.
    { subst r. apply same_name_ok in E13 as (c' & nm & Hc' & [E|[E N]]); [discriminate|]. rewrite Hd in Hc'. injection Hc' as <-. injection E as ->.
      apply best_one; auto. apply Forall_forall. intros x Hx. pose proof (N x Hx) as Nx. pose proof (N c Hc) as Nc.
      destruct x; try discriminate; destruct c; try discriminate. cbn in Nx, Nc. injection Nx as ->. injection Nc as ->. now apply fit_record. }
    destruct (Nat.ltb 1 (length (filter is_fixed (distinct_types D cs)))); [discriminate|].
    destruct (Nat.ltb 1 (length (filter is_enum (distinct_types D cs)))); [discriminate|].
    unfold make_union in H. destruct (nodup_str (map tyname (distinct_types D cs))) eqn:Nd; [cbn [negb] in H|discriminate].
    destruct (mem "union" _); [discriminate|]. injection H as <-. apply nodup_str_ok in Nd.
    destruct (distinct_ok cs W) as (F & A & S). cbv zeta in *. rewrite Forall_forall in F. split; [|split; [|split]].
    - apply wf_union. exact F.
    - apply uniq_union. split; [exact Nd|]. apply Forall_forall. intros y Hy. destruct (S y Hy) as (d & Hd' & Hm).
      apply (members_wf_uniq d y); auto.
    - exact A.
    - intros u Wu Uu Fu. apply fit_all. intros y Hy. destruct (S y Hy) as (d & Hd' & Hm). rewrite Forall_forall in Fu.
      eapply fits_member; eauto.
  Qed.
  (** the bound on the nesting is never reached *)
  Lemma broadest_no_rec n : forall cs, (forall c, In c cs -> depth c < n) -> cs <> [] -> broadest D n cs <> Raise (PyErr "RecursionError").
  Proof.
    induction n as [|n IH]; intros cs H Ne; [destruct cs as [|c cs]; [congruence|]; specialize (H c (or_introl eq_refl)); lia|].
    cbn [broadest]. destruct cs as [|c cs']; [congruence|]. set (cs := c :: cs') in *.
    repeat match goal with |- (if ?e then _ else _) <> _ => destruct e; [discriminate|] end.
    destruct (all_some items_of cs) as [items|] eqn:E9.
    { apply all_some_in in E9. assert (K : broadest D n items <> Raise (PyErr "RecursionError")).
      { apply IH; [|intros ->; inversion E9]. intros i Hi. clear - H E9 Hi. induction E9 as [|x j ? ? E _ IHl]; [destruct Hi|].
        destruct Hi as [<-|Hi]; [|apply IHl; auto; intros; apply H; now right]. specialize (H x (or_introl eq_refl)).
        destruct x; try discriminate. injection E as ->. cbn in H. lia. }
      destruct (broadest D n items); cbn; congruence. }
    destruct (all_some values_of cs) as [items|] eqn:E10.
    { apply all_some_in in E10. assert (K : broadest D n items <> Raise (PyErr "RecursionError")).
      { apply IH; [|intros ->; inversion E10]. intros i Hi. clear - H E10 Hi. induction E10 as [|x j ? ? E _ IHl]; [destruct Hi|].
        destruct Hi as [<-|Hi]; [|apply IHl; auto; intros; apply H; now right]. specialize (H x (or_introl eq_refl)).
        destruct x; try discriminate. injection E as ->. cbn in H. lia. }
      destruct (broadest D n items); cbn; congruence. }
    destruct (same_name fixed_name cs) as [r|] eqn:E; [apply same_name_ok in E as (? & ? & _ & [->|[-> _]]); discriminate|].
    destruct (same_name enum_name cs) as [r|] eqn:E'; [apply same_name_ok in E' as (? & ? & _ & [->|[-> _]]); discriminate|].
    destruct (same_name record_name cs) as [r|] eqn:E''; [apply same_name_ok in E'' as (? & ? & _ & [->|[-> _]]); discriminate|].
    unfold make_union. repeat match goal with |- (if ?e then _ else _) <> _ => destruct e; [discriminate|] end. discriminate.
  Qed.
End Broad.
