From Verif Require Import Base PyNum ScopeModel TypeModel TypeSpec TypeProofs TypeProofs2 TypeProps VersionModel Effects SigModel SigSpec.
From Coq Require Import Permutation.
Open Scope string_scope.
Open Scope list_scope.
Open Scope nat_scope.

(** *** induction over patterns *)
Section PatInd.
  Variable P : pat -> Prop.
  Hypothesis Hnull : P QNull. Hypothesis Hbool : P QBoolean. Hypothesis Hint : P QInt. Hypothesis Hlong : P QLong.
  Hypothesis Hfloat : P QFloat. Hypothesis Hdouble : P QDouble. Hypothesis Hbytes : P QBytes. Hypothesis Hstring : P QString.
  Hypothesis Harray : forall q, P q -> P (QArray q).
  Hypothesis Hmap : forall q, P q -> P (QMap q).
  Hypothesis Hunion : forall qs, Forall P qs -> P (QUnion qs).
  Hypothesis Hfixed : forall s o, P (QFixed s o).
  Hypothesis Henum : forall s o, P (QEnum s o).
  Hypothesis Hrecord : forall fs o, Forall (fun kq => P (snd kq)) fs -> P (QRecord fs o).
  Hypothesis Hfcn : forall qs q, Forall P qs -> P q -> P (QFcn qs q).
  Hypothesis Hwild : forall l o, P (QWild l o).
  Hypothesis Hwrecord : forall l fs, Forall (fun kq => P (snd kq)) fs -> P (QWildRecord l fs).
  Hypothesis Hwenum : forall l, P (QWildEnum l).
  Hypothesis Hwfixed : forall l, P (QWildFixed l).
  Hypothesis Hefields : forall l w, P (QEnumFields l w).
  Fixpoint pat_induct (p : pat) : P p :=
    match p with
    | QNull => Hnull | QBoolean => Hbool | QInt => Hint | QLong => Hlong | QFloat => Hfloat | QDouble => Hdouble | QBytes => Hbytes | QString => Hstring
    | QArray q => Harray q (pat_induct q)
    | QMap q => Hmap q (pat_induct q)
    | QUnion qs => Hunion qs ((fix go l : Forall P l := match l with [] => Forall_nil _ | q :: l' => Forall_cons q (pat_induct q) (go l') end) qs)
    | QFixed s o => Hfixed s o
    | QEnum s o => Henum s o
    | QRecord fs o => Hrecord fs o ((fix go l : Forall (fun kq => P (snd kq)) l :=
        match l with [] => Forall_nil _ | (k, q) :: l' => Forall_cons (k, q) (pat_induct q) (go l') end) fs)
    | QFcn qs q => Hfcn qs q ((fix go l : Forall P l := match l with [] => Forall_nil _ | q :: l' => Forall_cons q (pat_induct q) (go l') end) qs) (pat_induct q)
    | QWild l o => Hwild l o
    | QWildRecord l fs => Hwrecord l fs ((fix go l : Forall (fun kq => P (snd kq)) l :=
        match l with [] => Forall_nil _ | (k, q) :: l' => Forall_cons (k, q) (pat_induct q) (go l') end) fs)
    | QWildEnum l => Hwenum l
    | QWildFixed l => Hwfixed l
    | QEnumFields l w => Hefields l w
    end.
End PatInd.

Ltac no_plain := try match goal with P : plain _ _ |- _ => solve [inversion P] end.
Ltac inv_match H := inversion H; subst; no_plain.

Lemma Forall2_in_impl {A B} (R R' : A -> B -> Prop) l m : (forall x y, In x l -> R x y -> R' x y) -> Forall2 R l m -> Forall2 R' l m.
Proof. intros H F. induction F as [|x y l m Hxy F IH]; constructor; [apply H; [now left|exact Hxy]|]. apply IH. intros. apply H; [now right|assumption]. Qed.
(** *** weakening *)
Lemma matches_impl D i i' (W W' : bool -> string -> ptype -> Prop) (E E' : string -> condition -> Prop) : (i' = true -> i = true) ->
  (forall r l a, W r l a -> W' r l a) -> (forall l ss, E l ss -> E' l ss) ->
  forall p s r a, matches D i W E s r p a -> matches D i' W' E' s r p a.
Proof.
  intros HI HW HE. induction p using pat_induct; intros s' r a H0;
    try (inversion H0; subst; [now apply m_plain|eapply m_promoted; eassumption|eapply m_receives; eassumption]).
  - inv_match H0. apply m_array. auto.
  - inv_match H0. apply m_map. auto.
  - rewrite Forall_forall in H. inv_match H0.
    + eapply m_union; [eassumption|]. match goal with Q : Permutation qs _ |- _ => rename Q into Pm end.
      assert (In' : forall q, In q used -> In q qs) by (intros q Hq; eapply Permutation_in; [apply Permutation_sym, Pm|apply in_or_app; now left]).
      eapply Forall2_in_impl; [|eassumption]. intros q t Hq R. cbv beta. apply H; [now apply In'|exact R].
    + eapply m_member; eauto.
  - inv_match H0; first [apply m_fixed|apply m_fixed_name|apply m_enum|apply m_enum_name].
  - inv_match H0; first [apply m_fixed|apply m_fixed_name|apply m_enum|apply m_enum_name].
  - rewrite Forall_forall in H. inv_match H0; [apply m_record_name|]. apply m_record; [assumption|].
    match goal with F : Forall _ fs |- _ => rewrite Forall_forall in F |- *; intros kq Hk; destruct (F kq Hk) as (t & T1 & T2) end.
    exists t. split; [exact T1|]. now apply H.
  - rewrite Forall_forall in H. inv_match H0. apply m_fcn; [auto| |auto].
    match goal with F : Forall _ (combine qs ts) |- _ => rewrite Forall_forall in F |- *; intros [q t] Hk; specialize (F _ Hk) end.
    apply H; [apply in_combine_l in Hk; exact Hk|assumption].
  - inv_match H0; [apply m_wild|apply m_wild_one]; auto.
  - rewrite Forall_forall in H. inv_match H0. apply m_wild_record; [auto|].
    match goal with F : Forall _ fs |- _ => rewrite Forall_forall in F |- *; intros kq Hk; destruct (F kq Hk) as (t & T1 & T2) end.
    exists t. split; [exact T1|]. now apply H.
  - inv_match H0. apply m_wild_enum; auto.
  - inv_match H0. apply m_wild_fixed; auto.
  - inv_match H0. apply m_enum_fields; auto.
Qed.

(** *** label data *)
Definition Wld (ld : labels) : bool -> string -> ptype -> Prop := fun _ l a => exists d, assoc l ld = Some d /\ In a (members d).
Definition noE : string -> condition -> Prop := fun _ _ => False.
Definition ext (ld ld' : labels) : Prop :=
  forall l d, assoc l ld = Some d -> exists d', assoc l ld' = Some d' /\ incl (members d) (members d').
Lemma ext_refl ld : ext ld ld.
Proof. intros l d H. exists d. split; [exact H|apply incl_refl]. Qed.
Lemma ext_trans a b c : ext a b -> ext b c -> ext a c.
Proof.
  intros H1 H2 l d H. destruct (H1 l d H) as (d' & A & B). destruct (H2 l d' A) as (d'' & A' & B'). exists d''. split; [exact A'|].
  eapply incl_tran; eassumption.
Qed.
Lemma Wld_ext ld ld' r l a : ext ld ld' -> Wld ld r l a -> Wld ld' r l a.
Proof. intros X (d & A & B). destruct (X l d A) as (d' & A' & B'). exists d'. split; [exact A'|now apply B']. Qed.
Lemma assoc_filter_key {V} (f : string -> bool) l (ld : list (string * V)) :
  assoc l (filter (fun kv => f (fst kv)) ld) = if f l then assoc l ld else None.
Proof.
  induction ld as [|[k v] ld IH]; cbn [filter assoc fst]; [now destruct (f l)|].
  destruct (f k) eqn:F; cbn [assoc].
  - destruct (String.eqb_spec l k) as [->|N]; [now rewrite F|exact IH].
  - rewrite IH. destruct (String.eqb_spec l k) as [->|N]; [now rewrite F|reflexivity].
Qed.
Lemma has_key_assoc {V} l (ld : list (string * V)) : has_key l ld = true <-> exists v, assoc l ld = Some v.
Proof. unfold has_key. destruct (assoc l ld) as [v|]; split; try discriminate; try tauto; [eauto|]. intros [v H]. discriminate. Qed.
Lemma ext_restrict orig ld : ext orig ld -> ext orig (restrict orig ld).
Proof.
  intros X l d H. destruct (X l d H) as (d' & A & B). exists d'. split; [|exact B]. unfold restrict. rewrite (assoc_filter_key (fun k => has_key k orig)).
  rewrite (proj2 (has_key_assoc l orig)); eauto.
Qed.
Lemma add_member_spec l a ld : exists ld', add_member l a ld = (Ok tt, ld') /\ ext ld ld' /\ Wld ld' false l a /\
  (forall k d, assoc k ld' = Some d -> forall x, In x (members d) -> (k = l /\ x = a) \/ exists d0, assoc k ld = Some d0 /\ In x (members d0)) /\
  (forall k d, assoc k ld' = Some d -> k <> l -> assoc k ld = Some d).
Proof.
  unfold add_member. eexists. split; [reflexivity|]. split; [|split; [|split]].
  - intros k d H. destruct (string_dec k l) as [->|N].
    + rewrite assoc_set_eq. eexists. split; [reflexivity|]. cbn [members]. rewrite H. apply incl_appl, incl_refl.
    + rewrite assoc_set_neq by exact N. exists d. split; [exact H|apply incl_refl].
  - eexists. split; [apply assoc_set_eq|]. cbn [members]. apply in_or_app. right. now left.
  - intros k d H x Hx. destruct (string_dec k l) as [->|N].
    + rewrite assoc_set_eq in H. injection H as <-. cbn [members] in Hx. apply in_app_or in Hx as [Hx|[<-|[]]]; [|now left].
      right. destruct (assoc l ld) as [d0|]; [eauto|destruct Hx].
    + rewrite assoc_set_neq in H by exact N. right. eauto.
  - intros k d H N. now rewrite assoc_set_neq in H by exact N.
Qed.

Section Sound.
  Variable D : defs.
  Variable sizes : string -> nat.
  Variable symbols : string -> list string.
  Hypothesis DOC : document D sizes symbols.
  Notation docp := (doc_ptype sizes symbols).
  Definition Inv (ld : labels) : Prop := forall l d a, assoc l ld = Some d -> In a (members d) -> docp a /\ a <> PVal TExc.
  Notation Mt ld := (matches D false (Wld ld) noE).
  Lemma Mt_ext ld ld' s r p a : ext ld ld' -> Mt ld s r p a -> Mt ld' s r p a.
  Proof using. intros X. apply matches_impl; [tauto| |tauto]. intros r0 l a0. now apply Wld_ext. Qed.

  (** what a computation that answers yes or no guarantees *)
  Definition gives (m : L bool) (P : labels -> Prop) : Prop :=
    forall ld b ld', Inv ld -> m ld = (Ok b, ld') -> ext ld ld' /\ Inv ld' /\ (b = true -> P ld').
  Definition upward (P : labels -> Prop) : Prop := forall ld ld', ext ld ld' -> P ld -> P ld'.
  Definition sound_chk (c : checker) (q : pat) : Prop := forall a s r, docp a -> gives (c a s r) (fun ld => Mt ld s r q a).

  Lemma gives_ret b (P : labels -> Prop) : (b = true -> forall ld, P ld) -> gives (ret b) P.
  Proof using. intros H ld b' ld' I0 E. injection E as <- <-. split; [apply ext_refl|]. split; [exact I0|]. intros T. now apply H. Qed.
  Lemma gives_impl m (P Q : labels -> Prop) : (forall ld, P ld -> Q ld) -> gives m P -> gives m Q.
  Proof using. intros H G ld b ld' I0 E. destruct (G ld b ld' I0 E) as (X & I1 & T). split; [exact X|]. split; [exact I1|]. auto. Qed.
  Lemma gives_and m k (P Q : labels -> Prop) : upward P -> gives m P -> gives k Q ->
    gives (b <~ m ;; if b then k else ret false) (fun ld => P ld /\ Q ld).
  Proof using.
    intros U G1 G2 ld b ld' I0 E. unfold bind in E. destruct (m ld) as [[b1|e] ld1] eqn:E1; [|discriminate].
    destruct (G1 _ _ _ I0 E1) as (X1 & I1 & T1). destruct b1.
    - destruct (G2 _ _ _ I1 E) as (X2 & I2 & T2). split; [eapply ext_trans; eassumption|]. split; [exact I2|].
      intros Hb. split; [|auto]. eapply U; [exact X2|auto].
    - injection E as <- <-. split; [exact X1|]. split; [exact I1|]. discriminate.
  Qed.
  Lemma gives_all {A} (f : A -> L bool) (P : A -> labels -> Prop) l :
    (forall x, In x l -> gives (f x) (P x)) -> (forall x, In x l -> upward (P x)) -> gives (allM (map f l)) (fun ld => Forall (fun x => P x ld) l).
  Proof using.
    induction l as [|x l IH]; intros G U; cbn [map allM]; [apply gives_ret; intros; constructor|].
    eapply gives_impl; [|apply gives_and; [apply (U x); now left|apply (G x); now left|apply IH]].
    - intros ld [H1 H2]. now constructor.
    - intros y Hy. apply G. now right.
    - intros y Hy. apply U. now right.
  Qed.
  Lemma gives_any {A} (f : A -> L bool) (P : A -> labels -> Prop) l :
    (forall x, In x l -> gives (f x) (P x)) -> gives (anyM (map f l)) (fun ld => exists x, In x l /\ P x ld).
  Proof using.
    induction l as [|x l IH]; intros G; cbn [map anyM]; [apply gives_ret; discriminate|].
    intros ld b ld' I0 E. unfold bind in E. destruct (f x ld) as [[b1|e] ld1] eqn:E1; [|discriminate].
    destruct (G x (or_introl eq_refl) _ _ _ I0 E1) as (X1 & I1 & T1). destruct b1.
    - injection E as <- <-. split; [exact X1|]. split; [exact I1|]. intros _. exists x. split; [now left|auto].
    - destruct (IH (fun y Hy => G y (or_intror Hy)) _ _ _ I1 E) as (X2 & I2 & T2). split; [eapply ext_trans; eassumption|]. split; [exact I2|].
      intros Hb. destruct (T2 Hb) as (y & Hy & Py). exists y. split; [now right|exact Py].
  Qed.
  Lemma gives_member l a r0 (k : L bool) (Q : labels -> Prop) : docp a -> a <> PVal TExc -> gives k Q ->
    gives (_ <~ add_member l a ;; k) (fun ld => Wld ld r0 l a /\ Q ld).
  Proof using.
    intros Ha Na G ld b ld' I0 E. unfold bind in E. destruct (add_member_spec l a ld) as (ld1 & E1 & X1 & W1 & M1 & _). rewrite E1 in E.
    assert (I1 : Inv ld1).
    { intros k0 d x Hk Hx. destruct (M1 k0 d Hk x Hx) as [[-> ->] | (d0 & K & Hx')]; [now split|eapply I0; eassumption]. }
    destruct (G _ _ _ I1 E) as (X2 & I2 & T2). split; [eapply ext_trans; eassumption|]. split; [exact I2|]. intros Hb. split; [|auto].
    apply (Wld_ext ld1 ld' r0 l a X2). exact W1.
  Qed.
  Lemma Mt_up s r q a : upward (fun ld => Mt ld s r q a).
  Proof using. intros ld ld' X. now apply Mt_ext. Qed.

  (** *** unions *)
  Definition paired (oc : option checker) (oq : option pat) : Prop :=
    match oc, oq with Some c, Some q => sound_chk c q | None, None => True | _, _ => False end.
  Fixpoint somes {A} (l : list (option A)) : list A := match l with [] => [] | Some x :: l' => x :: somes l' | None :: l' => somes l' end.
  Lemma take_spec a r : docp (PVal a) -> forall av aq, Forall2 paired av aq -> forall ld o ld', Inv ld -> take av a r ld = (Ok o, ld') ->
    ext ld ld' /\ Inv ld' /\
    match o with
    | None => True
    | Some av' => exists aq' q, Forall2 paired av' aq' /\ Permutation (somes aq) (q :: somes aq') /\ Mt ld' true r q (PVal a)
    end.
  Proof using.
    intros Ha av aq F. induction F as [|oc oq av aq Hp F IH]; intros ld o ld' I0 E; cbn [take] in E.
    - injection E as <- <-. split; [apply ext_refl|]. now split.
    - destruct oc as [c|].
      + destruct oq as [q|]; [|contradiction]. cbn [paired] in Hp. unfold bind in E.
        destruct (c (PVal a) true r ld) as [[b|e] ld1] eqn:E1; [|discriminate]. destruct (Hp _ _ _ Ha _ _ _ I0 E1) as (X1 & I1 & T1). destruct b.
        * injection E as <- <-. split; [exact X1|]. split; [exact I1|]. exists (None :: aq), q. split; [constructor; [exact I|exact F]|]. split; [reflexivity|auto].
        * destruct (take av a r ld1) as [[o1|e] ld2] eqn:E2; [|discriminate]. destruct (IH _ _ _ I1 E2) as (X2 & I2 & T2).
          injection E as <- <-. split; [eapply ext_trans; eassumption|]. split; [exact I2|]. destruct o1 as [av'|]; [|exact I]. cbn [option_map].
          destruct T2 as (aq' & q' & F' & Pm & Mq). exists (Some q :: aq'), q'. split; [constructor; [exact Hp|exact F']|]. split; [|exact Mq].
          cbn [somes]. rewrite Pm. apply perm_swap.
      + destruct oq as [q|]; [contradiction|]. unfold bind in E.
        destruct (take av a r ld) as [[o1|e] ld2] eqn:E2; [|discriminate]. destruct (IH _ _ _ I0 E2) as (X2 & I2 & T2).
        injection E as <- <-. split; [exact X2|]. split; [exact I2|]. destruct o1 as [av'|]; [|exact I]. cbn [option_map].
        destruct T2 as (aq' & q' & F' & Pm & Mq). exists (None :: aq'), q'. split; [constructor; [exact I|exact F']|]. now split.
  Qed.
  Lemma one_perm_spec r ts : Forall (fun t => docp (PVal t)) ts -> forall av aq, Forall2 paired av aq ->
    gives (one_perm av ts r) (fun ld => exists used left, Permutation (somes aq) (used ++ left) /\ Forall2 (fun q t => Mt ld true r q (PVal t)) used ts).
  Proof using.
    induction ts as [|t ts IH]; intros Hd av aq F ld b ld' I0 E; cbn [one_perm] in E.
    - injection E as <- <-. split; [apply ext_refl|]. split; [exact I0|]. intros _. exists [], (somes aq). split; [reflexivity|constructor].
    - inversion Hd as [|? ? Ht Hts]; subst. unfold bind in E. destruct (take av t r ld) as [[o|e] ld1] eqn:E1; [|discriminate].
      destruct (take_spec t r Ht av aq F _ _ _ I0 E1) as (X1 & I1 & T1). destruct o as [av'|].
      + destruct T1 as (aq' & q & F' & Pm & Mq). destruct (IH Hts av' aq' F' _ _ _ I1 E) as (X2 & I2 & T2).
        split; [eapply ext_trans; eassumption|]. split; [exact I2|]. intros Hb. destruct (T2 Hb) as (us & lf & Pm' & Fm).
        exists (q :: us), lf. split; [rewrite Pm; cbn; now apply perm_skip|]. constructor; [|exact Fm]. eapply Mt_ext; eassumption.
      + injection E as <- <-. split; [exact X1|]. split; [exact I1|]. discriminate.
  Qed.
  Lemma restrict_inv orig ld : Inv ld -> Inv (restrict orig ld).
  Proof using.
    intros I0 l d a H Ha. unfold restrict in H. rewrite (assoc_filter_key (fun k => has_key k orig)) in H.
    destruct (has_key l orig); [|discriminate]. eapply I0; eassumption.
  Qed.
  Lemma try_perms_spec r cs qs orig ps : Forall2 sound_chk cs qs -> Forall (Forall (fun t => docp (PVal t))) ps ->
    forall ld b ld', Inv ld -> ext orig ld -> try_perms cs orig ps r ld = (Ok b, ld') ->
    ext orig ld' /\ Inv ld' /\
    (b = true -> exists p used left, In p ps /\ Permutation qs (used ++ left) /\ Forall2 (fun q t => Mt ld' true r q (PVal t)) used p).
  Proof using.
    intros F Hd. induction ps as [|p ps IH]; intros ld b ld' I0 X0 E; cbn [try_perms] in E.
    - injection E as <- <-. split; [exact X0|]. split; [exact I0|]. discriminate.
    - inversion Hd as [|? ? Hp Hps]; subst. destruct (one_perm (map Some cs) p r ld) as [[b1|e] ld1] eqn:E1; [|discriminate].
      assert (F' : Forall2 paired (map Some cs) (map Some qs)) by (clear -F; induction F; cbn; constructor; assumption).
      destruct (one_perm_spec r p Hp _ _ F' _ _ _ I0 E1) as (X1 & I1 & T1).
      assert (Sm : somes (map Some qs) = qs) by (clear; induction qs; cbn; congruence). rewrite Sm in T1.
      destruct b1.
      + injection E as <- <-. split; [eapply ext_trans; eassumption|]. split; [exact I1|]. intros _. destruct (T1 eq_refl) as (us & lf & Pm & Fm).
        exists p, us, lf. split; [now left|]. now split.
      + destruct (IH Hps _ _ _ (restrict_inv orig ld1 I1) (ext_restrict orig ld1 (ext_trans _ _ _ X0 X1)) E) as (X2 & I2 & T2).
        split; [exact X2|]. split; [exact I2|]. intros Hb. destruct (T2 Hb) as (p' & us & lf & Hin & R). exists p', us, lf. split; [now right|exact R].
  Qed.
  Lemma selections_perm {A} (l : list A) x rest : In (x, rest) (selections l) -> Permutation l (x :: rest).
  Proof using.
    revert x rest. induction l as [|y l IH]; intros x rest H; [destruct H|]. cbn [selections] in H. destruct H as [H|H].
    - injection H as <- <-. reflexivity.
    - apply in_map_iff in H as ([z r'] & Heq & Hin). cbn [fst snd] in Heq. injection Heq as <- <-. rewrite (IH _ _ Hin). apply perm_swap.
  Qed.
  Lemma perms_perm {A} n : forall (l p : list A), length l = n -> In p (perms n l) -> Permutation l p.
  Proof using.
    induction n as [|n IH]; intros l p Hl H; cbn [perms] in H.
    - destruct l; [|discriminate]. destruct H as [<-|[]]. constructor.
    - apply in_flat_map in H as ([x rest] & Hs & H). cbn [fst snd] in H. apply in_map_iff in H as (p' & <- & Hp).
      pose proof (selections_perm _ _ _ Hs) as Pm. rewrite Pm. apply perm_skip. apply IH; [|exact Hp].
      apply Permutation_length in Pm. cbn in Pm. lia.
  Qed.
  Lemma perm_Forall2 {A B} (R : A -> B -> Prop) (l2 l2' : list B) : Permutation l2 l2' -> forall l1, Forall2 R l1 l2 ->
    exists l1', Permutation l1 l1' /\ Forall2 R l1' l2'.
  Proof using.
    induction 1 as [|y l2 l2' P IH|y z l2|l2 l2' l2'' P1 IH1 P2 IH2]; intros l1 F.
    - exists l1. split; [reflexivity|exact F].
    - inversion F as [|x ? l1' ? Rx F']; subst. destruct (IH _ F') as (l & Pl & Fl). exists (x :: l). split; [now apply perm_skip|now constructor].
    - inversion F as [|x ? l1' ? Rx F']; subst. inversion F' as [|x' ? l1'' ? Rx' F'']; subst. exists (x' :: x :: l1''). split; [apply perm_swap|]. now repeat constructor.
    - destruct (IH1 _ F) as (l & Pl & Fl). destruct (IH2 _ Fl) as (l' & Pl' & Fl'). exists l'. split; [now transitivity l|exact Fl'].
  Qed.
  Lemma check_union_spec r cs qs ts s : Forall2 sound_chk cs qs -> Forall (fun t => docp (PVal t)) ts ->
    gives (check_union cs ts r) (fun ld => Mt ld s r (QUnion qs) (PVal (TUnion ts))).
  Proof using.
    intros F Hd ld b ld' I0 E. unfold check_union in E.
    assert (Hps : Forall (Forall (fun t => docp (PVal t))) (perms (length ts) ts)).
    { apply Forall_forall. intros p Hp. apply perms_perm in Hp; [|reflexivity]. apply Forall_forall. intros t Ht. rewrite Forall_forall in Hd. apply Hd.
      eapply Permutation_in; [apply Permutation_sym, Hp|exact Ht]. }
    destruct (try_perms_spec r cs qs ld _ F Hps _ _ _ I0 (ext_refl ld) E) as (X & I1 & T). split; [exact X|]. split; [exact I1|]. intros Hb.
    destruct (T Hb) as (p & us & lf & Hp & Pm & Fm). apply perms_perm in Hp; [|reflexivity].
    destruct (perm_Forall2 _ _ _ (Permutation_sym Hp) _ Fm) as (us' & Pu & Fu).
    eapply m_union; [|exact Fu]. rewrite Pm. now apply Permutation_app_tail.
  Qed.

  (** *** closure of the types of the document *)
  Lemma doc_array t : doc_type sizes symbols (TArray t) -> doc_type sizes symbols t.
  Proof using. intros (A & B & C & E). split; [exact A|]. split; [exact B|]. split; intros; [apply C|apply E]; cbn [parts]; now right. Qed.
  Lemma doc_map t : doc_type sizes symbols (TMap t) -> doc_type sizes symbols t.
  Proof using. intros (A & B & C & E). split; [exact A|]. split; [exact B|]. split; intros; [apply C|apply E]; cbn [parts]; now right. Qed.
  Lemma uniq_union ts : uniq (TUnion ts) -> forall t, In t ts -> uniq t.
  Proof using.
    intros [_ H]. induction ts as [|x ts IH]; intros t Ht; [destruct Ht|]. destruct H as [H1 H2]. destruct Ht as [<-|Ht]; [exact H1|now apply IH].
  Qed.
  Lemma doc_union ts t : doc_type sizes symbols (TUnion ts) -> In t ts -> doc_type sizes symbols t.
  Proof using.
    intros (A & B & C & E) Ht. split; [now apply (proj1 (wf_union ts) A)|]. split; [now apply (uniq_union ts)|].
    split; intros; [apply C|apply E]; cbn [parts]; right; apply in_flat_map; exists t; now split.
  Qed.
  Lemma docp_doc t : doc_type sizes symbols t -> docp (PVal t).
  Proof using. intros H. destruct t; try exact H. exact I. Qed.
  Lemma docp_inv t : docp (PVal t) -> t <> TExc -> doc_type sizes symbols t.
  Proof using. destruct t; cbn; try tauto; congruence. Qed.
  Lemma docp_opt t : t = TExc \/ doc_type sizes symbols t -> docp (PVal t).
  Proof using. intros [->|H]; [exact I|now apply docp_doc]. Qed.
  Lemma field_type_spec n k u : field_type D n k = Some u -> has_field D n k u.
  Proof using.
    unfold field_type. destruct (find _ _) as [f|] eqn:F; [|discriminate]. intros H. injection H as <-. apply find_some in F as [F1 F2].
    apply String.eqb_eq in F2. exists f. auto.
  Qed.
  Lemma field_docp n k u : field_type D n k = Some u -> docp (PVal u).
  Proof using DOC. intros H. apply field_type_spec in H as (f & Hf & _ & <-). apply docp_doc. destruct DOC as [_ H]. eapply H; eassumption. Qed.
  Lemma gives_raise e P : gives (raise e) P.
  Proof using. intros ld b ld' _ E. discriminate. Qed.
  Lemma gives_fields n r fs : Forall (fun kq => sound_chk (check D (snd kq)) (snd kq)) fs ->
    gives (allM (map (fun kq : string * pat => let (k, q) := kq in
       match field_type D n k with Some u => check D q (PVal u) true r | None => raise (PyErr "KeyError") end) fs))
      (fun ld => Forall (fun kq => exists t, has_field D n (fst kq) t /\ Mt ld true r (snd kq) (PVal t)) fs).
  Proof using DOC.
    intros F. rewrite Forall_forall in F.
    apply (gives_all _ (fun kq ld => exists t, has_field D n (fst kq) t /\ Mt ld true r (snd kq) (PVal t))).
    - intros [k q] Hk. cbn [fst snd]. destruct (field_type D n k) as [u|] eqn:Eu; [|apply gives_raise].
      eapply gives_impl; [|apply (F _ Hk); eapply field_docp; exact Eu]. intros ld Hm. exists u. split; [now apply field_type_spec|exact Hm].
    - intros [k q] _ ld ld' X (t & H1 & H2). exists t. split; [exact H1|]. eapply Mt_ext; eassumption.
  Qed.
  Lemma gives_false P : gives (ret false) P.
  Proof using. apply gives_ret. discriminate. Qed.
  Lemma num_plain q t x y s r : qrank q = Some x -> trank t = Some y -> num_ok x y s r = true ->
    forall ld, Mt ld s r q (PVal t).
  Proof using.
    intros Hq Ht H ld. unfold num_ok in H.
    destruct q; try discriminate; injection Hq as <-; destruct t; try discriminate; injection Ht as <-;
      destruct s, r; cbn in H; try discriminate;
      first [ apply m_plain; constructor | eapply m_promoted; [constructor|constructor] | eapply m_receives; [constructor|constructor] ].
  Qed.
  Lemma sound_num q : qrank q <> None -> (forall a s r, check D q a s r = match a with
      | PVal TExc | PFcn _ _ => ret false
      | PVal t => ret (match qrank q, trank t with Some x, Some y => num_ok x y s r | _, _ => false end) end) -> sound_chk (check D q) q.
  Proof using.
    intros Hq E a s r Ha. rewrite E. destruct a as [t|ps u]; [|apply gives_false].
    assert (G : gives (ret (match qrank q, trank t with Some x, Some y => num_ok x y s r | _, _ => false end)) (fun ld => Mt ld s r q (PVal t))).
    { apply gives_ret. intros H ld. destruct (qrank q) as [x|] eqn:Ex; [|discriminate]. destruct (trank t) as [y|] eqn:Ey; [|discriminate].
      now apply (num_plain q t x y). }
    destruct t; try exact G. apply gives_false.
  Qed.
  Lemma sound_plain q t0 : plain q t0 -> (forall a s r, check D q a s r = match a with
      | PVal TExc | PFcn _ _ => ret false
      | PVal t => ret (ty_eqb t t0) end) -> sound_chk (check D q) q.
  Proof using.
    intros Hq E a s r Ha. rewrite E. destruct a as [t|ps u]; [|apply gives_false].
    assert (G : gives (ret (ty_eqb t t0)) (fun ld => Mt ld s r q (PVal t))).
    { apply gives_ret. intros H ld. apply m_plain. inversion Hq; subst; destruct t; try discriminate; constructor. }
    destruct t; try exact G. apply gives_false.
  Qed.
  Lemma mem_pair_fields fs n : forallb (fun k => mem k (map fst fs)) (field_names D n) = true ->
    forall f, In f (fields_of D n) -> In (f_name f) (map (@fst string pat) fs).
  Proof using. intros H f Hf. rewrite forallb_forall in H. apply mem_In, H, in_map, Hf. Qed.
  Lemma docp_ne a : a <> PVal TExc \/ a = PVal TExc.
  Proof using. destruct a as [t|]; [destruct t; (now right) || left; discriminate|left; discriminate]. Qed.
  Lemma ty_eqb_eq : forall a b, ty_eqb a b = true -> a = b.
  Proof using.
    fix IH 1. intros a b H. destruct a, b; cbn [ty_eqb] in H; try discriminate; try reflexivity.
    - apply andb_prop in H as [H1 H2]. apply String.eqb_eq in H1. apply Nat.eqb_eq in H2. congruence.
    - apply andb_prop in H as [H1 H2]. apply String.eqb_eq in H1. destruct (list_eq_dec string_dec symbols0 symbols1); [congruence|discriminate].
    - f_equal. now apply IH.
    - f_equal. now apply IH.
    - apply String.eqb_eq in H. congruence.
    - f_equal. revert types0 H. induction types as [|x xs IHx]; intros [|y ys] H; try discriminate; [reflexivity|].
      apply andb_prop in H as [H1 H2]. f_equal; [now apply IH|now apply IHx].
  Qed.

  Lemma check_sound : forall p, sound_chk (check D p) p.
  Proof using DOC.
    induction p using pat_induct.
    - apply (sound_plain _ TNull); [constructor|]. intros [t|] s r; [now destruct t|reflexivity].
    - apply (sound_plain _ TBool); [constructor|]. intros [t|] s r; [now destruct t|reflexivity].
    - apply sound_num; [discriminate|]. intros [t|] s r; [now destruct t|reflexivity].
    - apply sound_num; [discriminate|]. intros [t|] s r; [now destruct t|reflexivity].
    - apply sound_num; [discriminate|]. intros [t|] s r; [now destruct t|reflexivity].
    - apply sound_num; [discriminate|]. intros [t|] s r; [now destruct t|reflexivity].
    - apply (sound_plain _ TBytes); [constructor|]. intros [t|] s r; [now destruct t|reflexivity].
    - apply (sound_plain _ TString); [constructor|]. intros [t|] s r; [now destruct t|reflexivity].
    - intros [t|] s r Ha; [|apply gives_false]. destruct t; try apply gives_false. cbn [check].
      eapply gives_impl; [|apply IHp; apply docp_doc, doc_array, docp_inv; [exact Ha|discriminate]]. intros ld. apply m_array.
    - intros [t|] s r Ha; [|apply gives_false]. destruct t; try apply gives_false. cbn [check].
      eapply gives_impl; [|apply IHp; apply docp_doc, doc_map, docp_inv; [exact Ha|discriminate]]. intros ld. apply m_map.
    - intros [t|] s r Ha; [|apply gives_false]. rewrite Forall_forall in H.
      assert (G : is_union t = false -> t <> TExc -> gives (anyM (map (fun q => check D q (PVal t) s r) qs)) (fun ld => Mt ld s r (QUnion qs) (PVal t))).
      { intros N1 N2. eapply gives_impl; [|apply (gives_any _ (fun q ld => Mt ld s r q (PVal t)))].
        - intros ld (q & Hq & Hm). eapply m_member; eassumption.
        - intros q Hq. now apply H. }
      destruct t; try (apply G; [reflexivity|discriminate]); [|apply gives_false]. cbn [check]. apply check_union_spec.
      + clear -H. induction qs as [|q qs IH]; cbn [map]; constructor; [apply H; now left|]. apply IH. intros. apply H. now right.
      + apply Forall_forall. intros t Ht. apply docp_doc. eapply doc_union; [apply docp_inv; [exact Ha|discriminate]|exact Ht].
    - intros [t|] s' r Ha; [|apply gives_false]. destruct t; try apply gives_false. cbn [check]. destruct o as [m|]; cbn [opt_name].
      + apply gives_ret. intros E ld. apply String.eqb_eq in E as ->. apply m_fixed_name.
      + apply gives_ret. intros E ld. apply Nat.eqb_eq in E as ->. apply m_fixed.
    - intros [t|] s' r Ha; [|apply gives_false]. destruct t; try apply gives_false. cbn [check]. destruct o as [m|]; cbn [opt_name].
      + apply gives_ret. intros E ld. apply String.eqb_eq in E as ->. apply m_enum_name.
      + apply gives_ret. intros E ld. destruct (list_eq_dec string_dec s symbols0) as [->|]; [|discriminate]. apply m_enum.
    - intros [t|] s' r Ha; [|apply gives_false]. destruct t; try apply gives_false. cbn [check]. destruct o as [m|]; cbn [opt_name].
      + apply gives_ret. intros E ld. apply String.eqb_eq in E as ->. apply m_record_name.
      + destruct (forallb (fun k => mem k (field_names D name)) (map fst fs) && forallb (fun k => mem k (map fst fs)) (field_names D name))%bool eqn:E; [|apply gives_false].
        apply andb_prop in E as [_ E]. eapply gives_impl; [|apply gives_fields; exact H]. intros ld F. apply m_record; [now apply mem_pair_fields|exact F].
    - intros [t|ps u] s r Ha; [destruct t; apply gives_false|]. cbn [check]. rewrite Forall_forall in H. destruct Ha as [Hps Hu]. rewrite Forall_forall in Hps.
      eapply gives_impl; [|apply gives_and; [| |apply IHp; now apply docp_opt]].
      + intros ld [H1 H2]. apply m_fcn; [discriminate|exact H1|exact H2].
      + intros ld ld' X. rewrite !Forall_forall. intros F qt Hqt. eapply Mt_ext; [exact X|now apply F].
      + replace (combine (map (fun q => check D q) qs) ps) with (map (fun qt => (check D (fst qt), snd qt)) (combine qs ps)).
        * rewrite map_map. apply (gives_all _ (fun qt ld => Mt ld s true (fst qt) (PVal (snd qt)))).
          -- intros [q t] Hqt. cbn [fst snd]. apply H; [now apply in_combine_l in Hqt|]. apply docp_opt, Hps. now apply in_combine_r in Hqt.
          -- intros qt _. apply Mt_up.
        * clear. revert ps. induction qs as [|q qs IH]; intros [|t ps]; cbn; try reflexivity. now rewrite IH.
    - intros a s r Ha. destruct (docp_ne a) as [Na | ->]; [|apply gives_false]. destruct o as [ts|].
      + destruct a as [t|]; [|apply gives_false]. assert (G : gives (if existsb (ty_eqb t) ts then _ <~ add_member l (PVal t) ;; ret true else ret false)
          (fun ld => Mt ld s r (QWild l (Some ts)) (PVal t))).
        { destruct (existsb (ty_eqb t) ts) eqn:E; [|apply gives_false]. apply existsb_exists in E as (t' & Ht' & E). apply ty_eqb_eq in E as <-.
          eapply gives_impl; [|apply (gives_member l (PVal t) r); [exact Ha|exact Na|apply (gives_ret true (fun _ => True)); auto]].
          intros ld [Hw _]. apply m_wild_one; [congruence|exact Ht'|exact Hw|discriminate]. }
        destruct t; try exact G. congruence.
      + assert (G : gives (_ <~ add_member l a ;; ret true) (fun ld => Mt ld s r (QWild l None) a)).
        { eapply gives_impl; [|apply (gives_member l a r); [exact Ha|exact Na|apply (gives_ret true (fun _ => True)); auto]].
          intros ld [Hw _]. now apply m_wild. }
        destruct a as [t|]; [destruct t; try exact G; congruence|exact G].
    - intros [t|] s r Ha; [|apply gives_false]. destruct t; try apply gives_false. cbn [check].
      eapply gives_impl; [|apply (gives_member l (PVal (TRecord name)) r _ (fun ld => Forall (fun kq => exists t, has_field D name (fst kq) t /\ Mt ld true r (snd kq) (PVal t)) fs)); [exact Ha|discriminate|]].
      + intros ld [H1 H2]. now apply m_wild_record.
      + destruct (forallb _ _); [now apply gives_fields|apply gives_false].
    - intros a s r Ha. destruct (docp_ne a) as [Na | ->]; [|apply gives_false].
      assert (G : gives (_ <~ add_member l a ;; ret true) (fun ld => Mt ld s r (QWildEnum l) a)).
      { eapply gives_impl; [|apply (gives_member l a r); [exact Ha|exact Na|apply (gives_ret true (fun _ => True)); auto]].
        intros ld [Hw _]. now apply m_wild_enum. }
      destruct a as [t|]; [destruct t; try exact G; congruence|exact G].
    - intros a s r Ha. destruct (docp_ne a) as [Na | ->]; [|apply gives_false].
      assert (G : gives (_ <~ add_member l a ;; ret true) (fun ld => Mt ld s r (QWildFixed l) a)).
      { eapply gives_impl; [|apply (gives_member l a r); [exact Ha|exact Na|apply (gives_ret true (fun _ => True)); auto]].
        intros ld [Hw _]. now apply m_wild_fixed. }
      destruct a as [t|]; [destruct t; try exact G; congruence|exact G].
    - intros [t|] s r Ha; [|apply gives_false]. destruct t; try apply gives_false. cbn [check].
      eapply gives_impl; [|apply (gives_member l (PVal (TEnum name symbols0)) r _ (fun _ => True)); [exact Ha|discriminate|]].
      + intros ld [Hw _]. apply m_enum_fields; [exact Hw|discriminate].
      + intros ld b ld' I0 E. unfold bind, set_expected in E. destruct (assoc w ld) as [d|] eqn:Ew; [|discriminate]. injection E as <- <-.
        split; [|split; [|auto]].
        * intros k d0 Hk. destruct (string_dec k w) as [->|N].
          -- rewrite assoc_set_eq. eexists. split; [reflexivity|]. cbn [members]. replace d0 with d by congruence. apply incl_refl.
          -- rewrite assoc_set_neq by exact N. exists d0. split; [exact Hk|apply incl_refl].
        * intros k d0 x Hk Hx. destruct (string_dec k w) as [->|N].
          -- rewrite assoc_set_eq in Hk. injection Hk as <-. cbn [members] in Hx. eapply I0; eassumption.
          -- rewrite assoc_set_neq in Hk by exact N. eapply I0; eassumption.
  Qed.
End Sound.
