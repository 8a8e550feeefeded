(** Proofs about TypeModel. *)
From Verif Require Import Base PyNum ScopeModel TypeModel TypeSpec.
Open Scope string_scope.
Open Scope list_scope.

Section ty_ind.
  Variable P : ty -> Prop.
  Hypothesis Hp : forall t, prim t = true -> P t.
  Hypothesis Hfix : forall n s, P (TFixed n s).
  Hypothesis Henum : forall n s, P (TEnum n s).
  Hypothesis Harr : forall t, P t -> P (TArray t).
  Hypothesis Hmap : forall t, P t -> P (TMap t).
  Hypothesis Hrec : forall n, P (TRecord n).
  Hypothesis Hun : forall ts, Forall P ts -> P (TUnion ts).
  Hypothesis Hexc : P TExc.
  Fixpoint ty_ind' (t : ty) : P t :=
    match t with
    | TNull => Hp TNull eq_refl | TBool => Hp TBool eq_refl | TInt => Hp TInt eq_refl | TLong => Hp TLong eq_refl
    | TFloat => Hp TFloat eq_refl | TDouble => Hp TDouble eq_refl | TBytes => Hp TBytes eq_refl | TString => Hp TString eq_refl
    | TFixed n s => Hfix n s | TEnum n s => Henum n s
    | TArray x => Harr x (ty_ind' x) | TMap x => Hmap x (ty_ind' x)
    | TRecord n => Hrec n
    | TUnion ts => Hun ts ((fix go l : Forall P l := match l with [] => Forall_nil P | x :: l' => Forall_cons x (ty_ind' x) (go l') end) ts)
    | TExc => Hexc
    end.
End ty_ind.

Lemma mem_In x l : mem x l = true <-> In x l.
Proof.
  unfold mem. rewrite existsb_exists. split.
  - intros (y & Hy & E). apply String.eqb_eq in E. now subst.
  - intros H. exists x. split; [exact H|apply String.eqb_refl].
Qed.
Lemma wf_union ts : wf (TUnion ts) <-> forall t, In t ts -> wf t /\ is_union t = false.
Proof.
  cbn [wf]. induction ts as [|t ts IH]; [cbn; tauto|]. split.
  - intros [H1 H2] u [->|Hu]; [destruct u; cbn; tauto|]. now apply IH.
  - intros H. split; [|apply IH; intros; apply H; now right].
    destruct (H t) as [H1 H2]; [now left|]. destruct t; cbn in *; try tauto. discriminate.
Qed.

(** *** acc against fits *)
Lemma acc_union_r rec a ys : is_union a = false -> acc rec a (TUnion ys) = forallb (acc rec a) ys.
Proof. destruct a; cbn; try discriminate; reflexivity. Qed.
Lemma acc_union_l rec xs b : is_union b = false -> acc rec (TUnion xs) b = (match b with TExc => false | _ => existsb (fun x => acc rec x b) xs end).
Proof. destruct b; cbn; try discriminate; reflexivity. Qed.

Section Acc.
  Variable rec : string -> string -> bool.
  Variable S : string -> Prop.
  Lemma acc_fits : (forall n m, rec n m = true -> n = m /\ S n) ->
    forall a b, wf a -> wf b -> acc rec a b = true -> fits S a b.
  Proof.
    intros HR a. induction a as [t Hp| | |t IH|t IH|n|xs IH|] using ty_ind'; intros b; induction b as [u Hq| | |u IHu|u IHu|m|ys IHu|] using ty_ind';
      intros Wa Wb H; try (now destruct Wa); try (now destruct Wb);
      try (destruct t; discriminate); try (destruct u; discriminate); try discriminate;
      try (apply fit_all; rewrite acc_union_r in H by first [reflexivity | destruct t; first [reflexivity | discriminate]];
           rewrite forallb_forall in H; rewrite Forall_forall in IHu; intros y Hy; pose proof (proj1 (wf_union _) Wb y Hy) as [Wy _];
           apply IHu; [exact Hy|exact Wa|exact Wy|apply H, Hy]; fail).
    - destruct t; try discriminate; destruct u; try discriminate; try (now apply fit_prim); now apply fit_num; constructor.
    - cbn in H. apply andb_true_iff in H as [H1 H2]. apply Nat.eqb_eq in H1. apply String.eqb_eq in H2. subst. apply fit_fixed.
    - cbn in H. apply andb_true_iff in H as [H1 H2]. apply String.eqb_eq in H2. subst. apply fit_enum.
      intros r Hr. rewrite forallb_forall in H1. now apply mem_In, H1.
    - apply fit_array. now apply IH.
    - apply fit_map. now apply IH.
    - cbn in H. apply HR in H as [-> H]. now apply fit_record.
    - rewrite Forall_forall in IH. pose proof (proj1 (wf_union _) Wa) as Wx.
      assert (Hu : is_union u = false) by (destruct u; try discriminate; reflexivity).
      rewrite acc_union_l in H by exact Hu.
      assert (H' : existsb (fun x => acc rec x u) xs = true) by (destruct u; try discriminate; exact H).
      apply existsb_exists in H' as (x & Hx & H'). apply fit_into with x; auto. apply IH; auto. apply (Wx x Hx).
    - rewrite Forall_forall in IH. pose proof (proj1 (wf_union _) Wa) as Wx. cbn in H.
      apply existsb_exists in H as (x & Hx & H). apply fit_into with x; auto. apply IH; auto. apply (Wx x Hx).
    - rewrite Forall_forall in IH. pose proof (proj1 (wf_union _) Wa) as Wx. cbn in H.
      apply existsb_exists in H as (x & Hx & H). apply fit_into with x; auto. apply IH; auto. apply (Wx x Hx).
    - rewrite Forall_forall in IH. pose proof (proj1 (wf_union _) Wa) as Wx. cbn in H.
      apply existsb_exists in H as (x & Hx & H). apply fit_into with x; auto. apply IH; auto. apply (Wx x Hx).
    - rewrite Forall_forall in IH. pose proof (proj1 (wf_union _) Wa) as Wx. cbn in H.
      apply existsb_exists in H as (x & Hx & H). apply fit_into with x; auto. apply IH; auto. apply (Wx x Hx).
    - rewrite Forall_forall in IH. pose proof (proj1 (wf_union _) Wa) as Wx. cbn in H.
      apply existsb_exists in H as (x & Hx & H). apply fit_into with x; auto. apply IH; auto. apply (Wx x Hx).
    - rewrite Forall_forall in IH. pose proof (proj1 (wf_union _) Wa) as Wx. cbn [acc] in H.
      apply fit_all. intros y Hy. rewrite forallb_forall in H. apply H in Hy as Hy'.
      apply existsb_exists in Hy' as (x & Hx & Hxy). pose proof (proj1 (wf_union _) Wb y Hy) as [Wy Uy].
      apply fit_into with x; auto. apply IH; auto. apply (Wx x Hx).
  Qed.
  Lemma fits_acc : (forall n, S n -> rec n n = true) ->
    forall a b, wf a -> wf b -> fits S a b -> acc rec a b = true.
  Proof.
    intros HR a b Wa Wb H. induction H as [t Hp|a b Hw|n s|n ss rs Hi|a b H IH|a b H IH|n Hn|xs x b Hb Hx H IH|a ys H IH].
    - destruct t; try discriminate; reflexivity.
    - destruct Hw; reflexivity.
    - cbn. now rewrite Nat.eqb_refl, String.eqb_refl.
    - cbn. rewrite String.eqb_refl, andb_true_r. apply forallb_forall. intros r Hr. now apply mem_In, Hi.
    - cbn in *. auto.
    - cbn in *. auto.
    - cbn. auto.
    - rewrite acc_union_l by exact Hb. pose proof (proj1 (wf_union _) Wa x Hx) as [Wx _].
      assert (E : existsb (fun x => acc rec x b) xs = true) by (apply existsb_exists; eauto).
      destruct b; try exact E. destruct Wb.
    - pose proof (proj1 (wf_union _) Wb) as Wy. destruct (is_union a) eqn:Ua.
      + destruct a; try discriminate. cbn [acc]. apply forallb_forall. intros y Hy.
        destruct (Wy y Hy) as [Wy1 Uy]. specialize (IH y Hy Wa Wy1). rewrite acc_union_l in IH by exact Uy.
        destruct y; try exact IH; discriminate.
      + rewrite acc_union_r by exact Ua. apply forallb_forall. intros y Hy. destruct (Wy y Hy). auto.
  Qed.
  Lemma fields_ok_fit : (forall n m, rec n m = true -> n = m /\ S n) ->
    forall xs ys, (forall f, In f xs -> wf (f_type f)) -> (forall f, In f ys -> wf (f_type f)) ->
    fields_ok rec xs ys = true -> fields_fit S xs ys.
  Proof.
    intros HR xs ys Wx Wy H xf Hx. unfold fields_ok in H. rewrite forallb_forall in H. specialize (H xf Hx).
    destruct (default_of xf).
    - intros yf Hy E. rewrite forallb_forall in H. specialize (H yf Hy). rewrite E, String.eqb_refl in H. cbn in H.
      apply acc_fits; auto.
    - apply existsb_exists in H as (yf & Hy & H). apply andb_true_iff in H as [E H]. apply String.eqb_eq in E.
      exists yf. split; [exact Hy|]. split; [auto|]. apply acc_fits; auto.
  Qed.
  Lemma fields_fit_ok : (forall n, S n -> rec n n = true) ->
    forall xs ys, (forall f, In f xs -> wf (f_type f)) -> (forall f, In f ys -> wf (f_type f)) ->
    fields_fit S xs ys -> fields_ok rec xs ys = true.
  Proof.
    intros HR xs ys Wx Wy H. apply forallb_forall. intros xf Hx. specialize (H xf Hx). destruct (default_of xf).
    - apply forallb_forall. intros yf Hy. destruct (String.eqb_spec (f_name xf) (f_name yf)) as [E|]; [|reflexivity]. cbn.
      apply fits_acc; auto.
    - destruct H as (yf & Hy & E & H). apply existsb_exists. exists yf. split; [exact Hy|].
      rewrite E, String.eqb_refl. cbn. apply fits_acc; auto.
  Qed.
End Acc.
Lemma fits_mono (S S' : string -> Prop) a b : (forall n, S n -> S' n) -> fits S a b -> fits S' a b.
Proof. intros HS. induction 1; try (econstructor; eauto; fail). Qed.
Lemma fields_fit_mono (S S' : string -> Prop) xs ys : (forall n, S n -> S' n) -> fields_fit S xs ys -> fields_fit S' xs ys.
Proof.
  intros HS H xf Hx. specialize (H xf Hx). destruct (default_of xf).
  - intros yf Hy E. eapply fits_mono; eauto.
  - destruct H as (yf & Hy & E & H). exists yf. split; [|split]; auto. eapply fits_mono; eauto.
Qed.

(** *** rec_ok finds the records that can be in a consistent set *)
Section Rec.
  Variables D1 D2 : defs.
  Hypothesis W1 : wf_defs D1.
  Hypothesis W2 : wf_defs D2.
  (** in a set that is consistent when the records of memo are assumed *)
  Definition good (memo : list string) (n : string) : Prop :=
    exists S, S n /\ forall m, S m -> fields_fit (fun x => S x \/ In x memo) (fields_of D1 m) (fields_of D2 m).
  Lemma rec_ok_good k : forall memo n m, rec_ok D1 D2 k memo true n m = true -> n = m /\ (In n memo \/ good memo n).
  Proof.
    induction k as [|k IH]; intros memo n m H; cbn [rec_ok andb] in H;
      (destruct (String.eqb_spec n m) as [Enm|]; [subst m|discriminate]); cbn [negb] in H;
      (destruct (mem n memo) eqn:Em; [apply mem_In in Em; auto|]); cbn [negb] in H; [discriminate|].
    split; [reflexivity|]. right. apply andb_true_iff in H as [_ H].
    apply (fields_ok_fit _ (fun x => In x (n :: memo) \/ good (n :: memo) x)) in H;
      [|exact (IH (n :: memo))|apply W1|apply W2].
    exists (fun x => x = n \/ good (n :: memo) x). split; [now left|].
    intros x [->|(S & Sx & HS)].
    - eapply fields_fit_mono; [|exact H]. intros y [[->|Hy]|Hy]; auto.
    - eapply fields_fit_mono; [|exact (HS x Sx)]. intros y [Sy|[->|Hy]]; auto.
      left; right. now exists S.
  Qed.
  Lemma good_consistent : consistent D1 D2 (good []).
  Proof.
    intros n (S & Sn & HS). eapply fields_fit_mono; [|exact (HS n Sn)]. intros x [Sx|[]]. now exists S.
  Qed.
  (** enough fuel: one more than the number of definitions not in memo *)
  Definition unseen (memo : list string) : nat :=
    length (filter (fun x => negb (mem x memo)) (nodup string_dec (map fst D1))).
  Lemma filter_length_le' {A} (p q : A -> bool) l :
    (forall x, In x l -> q x = true -> p x = true) -> length (filter q l) <= length (filter p l).
  Proof.
    induction l as [|x l IH]; intros H; cbn; [lia|].
    assert (IH' : length (filter q l) <= length (filter p l)) by (apply IH; intros; apply H; [now right|auto]).
    pose proof (H x (or_introl eq_refl)). destruct (q x); [rewrite H0 by reflexivity; cbn; lia|].
    destruct (p x); cbn; lia.
  Qed.
  Lemma filter_length_lt {A} (p q : A -> bool) l x :
    (forall y, In y l -> q y = true -> p y = true) -> In x l -> p x = true -> q x = false -> length (filter q l) < length (filter p l).
  Proof.
    induction l as [|y l IH]; intros H Hx Hp Hq; [destruct Hx|]. cbn. destruct Hx as [->|Hx].
    - rewrite Hp, Hq. cbn. pose proof (filter_length_le' p q l). assert (length (filter q l) <= length (filter p l)) by (apply H0; intros; apply H; [now right|auto]). lia.
    - assert (IH' : length (filter q l) < length (filter p l)) by (apply IH; auto; intros; apply H; [now right|auto]).
      pose proof (H y (or_introl eq_refl)). destruct (q y); [rewrite H0 by reflexivity; cbn; lia|]. destruct (p y); cbn; lia.
  Qed.
  Lemma assoc_In_fst {A} n (l : list (string * A)) x : assoc n l = Some x -> In n (map fst l).
  Proof.
    induction l as [|[k y] l IH]; cbn; [discriminate|]. destruct (String.eqb_spec n k); [subst; now left|]. right. auto.
  Qed.
  Lemma unseen_less n memo : fields_of D1 n <> [] -> ~ In n memo -> unseen (n :: memo) < unseen memo.
  Proof.
    intros Hn Hm. unfold unseen. apply filter_length_lt with n.
    - intros y _. cbn. destruct (String.eqb y n); cbn; [discriminate|auto].
    - apply nodup_In. unfold fields_of in Hn. destruct (assoc n D1) eqn:E; [|congruence]. eapply assoc_In_fst; eauto.
    - destruct (mem n memo) eqn:E; [apply mem_In in E; tauto|reflexivity].
    - cbn. now rewrite String.eqb_refl.
  Qed.
  Lemma rec_ok_enough S : consistent D1 D2 S ->
    forall k memo cr n, S n -> unseen memo < k -> rec_ok D1 D2 k memo cr n n = true.
  Proof.
    intros HS k. induction k as [|k IH]; intros memo cr n Sn Hk; [lia|].
    cbn [rec_ok]. rewrite String.eqb_refl. cbn [negb].
    destruct (cr && negb (mem n memo))%bool eqn:E; [|reflexivity].
    apply andb_true_iff in E as [_ E]. assert (Hm : ~ In n memo).
    { intros H. apply mem_In in H. rewrite H in E. discriminate. }
    destruct (fields_of D1 n) as [|f fs] eqn:Ef; [reflexivity|].
    assert (Hlt : unseen (n :: memo) < unseen memo) by (apply unseen_less; [congruence|exact Hm]).
    pose proof (HS n Sn) as Hf. rewrite Ef in Hf.
    apply andb_true_iff. split; apply (fields_fit_ok _ S); auto; try (rewrite <- Ef; apply W1); try apply W2.
    - intros x Sx. destruct k; cbn; now rewrite String.eqb_refl.
    - intros x Sx. apply IH; [exact Sx|lia].
  Qed.
  Lemma unseen_le : unseen [] <= length D1.
  Proof.
    unfold unseen. etransitivity; [apply filter_length_le' with (p := fun _ => true); auto|].
    replace (filter (fun _ : string => true) (nodup string_dec (map fst D1))) with (nodup string_dec (map fst D1))
      by (induction (nodup string_dec (map fst D1)); cbn; congruence).
    rewrite <- (map_length fst D1).
    apply NoDup_incl_length; [apply NoDup_nodup|]. intros x Hx. eapply nodup_In; eauto.
  Qed.
  Lemma accepts_Accepts a b : wf a -> wf b -> (accepts D1 D2 a b = true <-> Accepts D1 D2 a b).
  Proof.
    intros Wa Wb. split.
    - intros H. exists (good []). split; [apply good_consistent|].
      apply (acc_fits (rec_ok D1 D2 (S (length D1)) [] true)); auto.
      intros n m E. apply rec_ok_good in E as [-> [[]|E]]. auto.
    - intros (S & HS & H). apply (fits_acc _ S); auto. intros n Sn.
      apply rec_ok_enough with S; auto. pose proof unseen_le. lia.
  Qed.
End Rec.

(** *** One table of definitions *)
Definition all_names (_ : string) : Prop := True.
Lemma fits_refl a : wf a -> fits all_names a a.
Proof.
  induction a as [t Hp| | |t IH|t IH|n|xs IH|] using ty_ind'; intros W; try (destruct W; fail).
  - now apply fit_prim.
  - apply fit_fixed.
  - apply fit_enum, incl_refl.
  - apply fit_array, IH, W.
  - apply fit_map, IH, W.
  - now apply fit_record.
  - apply fit_all. intros y Hy. rewrite Forall_forall in IH. destruct (proj1 (wf_union _) W y Hy) as [Wy Uy].
    apply fit_into with y; auto.
Qed.
Lemma all_consistent D : wf_defs D -> consistent D D all_names.
Proof.
  intros W n _ xf Hx. destruct (W n) as [Hnd Hw]. destruct (default_of xf).
  - intros yf Hy E. enough (xf = yf) by (subst; apply fits_refl; auto).
    clear - Hnd Hx Hy E. induction (fields_of D n) as [|f fs IH]; [destruct Hx|]. cbn in Hnd. inversion Hnd; subst.
    destruct Hx as [->|Hx], Hy as [->|Hy]; auto.
    + exfalso. apply H1. rewrite <- E. now apply in_map.
    + exfalso. apply H1. rewrite E. now apply in_map.
  - exists xf. split; [exact Hx|]. split; [reflexivity|]. apply fits_refl. auto.
Qed.
Lemma accepts_fits D a b : wf_defs D -> wf a -> wf b -> (accepts D D a b = true <-> fits all_names a b).
Proof.
  intros W Wa Wb. rewrite accepts_Accepts by auto. split.
  - intros (S & _ & H). eapply fits_mono; [|exact H]. intros; exact I.
  - intros H. exists all_names. split; [now apply all_consistent|exact H].
Qed.
Lemma widens_trans a b c : widens a b -> widens b c -> widens a c.
Proof. destruct 1; intros H; inversion H; subst; constructor. Qed.
Lemma fits_not_union_r S a ys y : fits S a (TUnion ys) -> In y ys -> fits S a y.
Proof.
  intros H Hy. inversion H; subst; auto; try discriminate.
  match goal with Hw : widens _ (TUnion _) |- _ => inversion Hw end.
Qed.
Lemma fits_trans a b c : wf a -> wf b -> wf c -> fits all_names a b -> fits all_names b c -> fits all_names a c.
Proof.
  intros Wa Wb Wc Hab Hbc. revert a Wa Hab.
  induction Hbc as [t Hp|b c Hw|n s|n ss rs Hi|b c H IH|b c H IH|n Hn|xs x c Hc Hx H IH|b ys H IH]; intros a Wa Hab.
  - exact Hab.
  - remember b as b' eqn:E in Hab. induction Hab as [t Hp|a b1 Hw1|n s|n ss rs Hi|a b1 H1 IH1|a b1 H1 IH1|n Hn|xs x b1 Hb Hx H1 IH1|a ys H1 IH1]; subst;
      try (inversion Hw; fail).
    + now apply fit_num.
    + apply fit_num. eapply widens_trans; eauto.
    + apply fit_into with x; auto; [destruct Hw; reflexivity|].
      apply IH1; auto. apply (proj1 (wf_union _) Wa x Hx).
  - exact Hab.
  - remember (TEnum n ss) as b' eqn:E in Hab. induction Hab as [t Hp|a b1 Hw1|n1 s|n1 ss1 rs1 Hi1|a b1 H1 IH1|a b1 H1 IH1|n1 Hn|xs x b1 Hb Hx H1 IH1|a ys H1 IH1];
      try discriminate E.
    + subst; discriminate.
    + subst; inversion Hw1.
    + injection E as -> ->. apply fit_enum. eapply incl_tran; eauto.
    + subst. apply fit_into with x; auto. apply IH1; auto. apply (proj1 (wf_union _) Wa x Hx).
  - remember (TArray b) as b' eqn:E in Hab. induction Hab as [t Hp|a b1 Hw1|n1 s|n1 ss1 rs1 Hi1|a b1 H1 IH1|a b1 H1 IH1|n1 Hn|xs x b1 Hb Hx H1 IH1|a ys H1 IH1];
      try discriminate E.
    + subst; discriminate.
    + subst; inversion Hw1.
    + injection E as ->. apply fit_array. apply IH; auto.
    + subst. apply fit_into with x; auto. apply IH1; auto. apply (proj1 (wf_union _) Wa x Hx).
  - remember (TMap b) as b' eqn:E in Hab. induction Hab as [t Hp|a b1 Hw1|n1 s|n1 ss1 rs1 Hi1|a b1 H1 IH1|a b1 H1 IH1|n1 Hn|xs x b1 Hb Hx H1 IH1|a ys H1 IH1];
      try discriminate E.
    + subst; discriminate.
    + subst; inversion Hw1.
    + injection E as ->. apply fit_map. apply IH; auto.
    + subst. apply fit_into with x; auto. apply IH1; auto. apply (proj1 (wf_union _) Wa x Hx).
  - exact Hab.
  - apply IH; [apply (proj1 (wf_union _) Wb x Hx)|exact Wc|exact Wa|]. eapply fits_not_union_r; eauto.
  - apply fit_all. intros y Hy. apply IH; auto. apply (proj1 (wf_union _) Wc y Hy).
Qed.
