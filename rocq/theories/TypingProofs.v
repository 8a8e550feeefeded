(** Lemmas towards type soundness: contexts, scopes, paths, and the rules for running code. *)
From Verif Require Import Base PyNum ScopeModel ScopeSpec ScopeProofs CoreModel TypeModel TypeSpec TypeProofs TypeProofs2 TypeProps TypingModel TypingSpec.
Open Scope string_scope.
Open Scope list_scope.

Section Proofs.
  Variable T : tenv.
  Notation D := (te_defs T).
  Notation ok t v := (has_type true D t v).

  Lemma sub_ok a b v : wf_defs D -> sub T a b -> ok b v -> ok a v.
  Proof. intros HD (Wa & Wb & Ha & Hk) Hv. eapply C11_tagged_partial; eauto. Qed.
  Lemma exc_empty v : ~ ok TExc v.
  Proof. intros H. inversion H. Qed.
  Lemma joins_ok t us u v : wf_defs D -> joins T t us -> In u us -> ok u v -> ok t v.
  Proof. intros HD J Hu Hv. destruct (J u Hu) as [->|S1]; [now apply exc_empty in Hv|]. eapply sub_ok; eauto. Qed.
  Lemma value_type_ok t v : ok t v -> ok (value_type t) v.
  Proof. destruct t; auto. intros H. now apply exc_empty in H. Qed.
  Lemma try_type_ok t v : ok t v -> ok (try_type t) v.
  Proof.
    intros H. destruct t; try (apply ht_member with (2 := H); now left); cbn; [|now apply exc_empty in H].
    destruct existsb; [exact H|]. inversion H; subst.
    - apply ht_member with t; [apply in_or_app; now left|auto].
    - apply ht_tagged with t; auto. apply in_or_app; now left.
  Qed.
  Lemma try_type_null t : ok (try_type t) VNull.
  Proof.
    destruct t; try (apply ht_member with TNull; [right; now left|constructor]); cbn; [|constructor].
    destruct existsb eqn:He.
    - apply existsb_exists in He. destruct He as (u & Hu & Hn). destruct u; try discriminate. apply ht_member with TNull; [auto|constructor].
    - apply ht_member with TNull; [apply in_or_app; right; now left|constructor].
  Qed.

  (** *** Contexts and scopes *)
  Lemma has_key_assoc {A} x (d : list (string * A)) : has_key x d = true <-> assoc x d <> None.
  Proof. unfold has_key. destruct assoc; split; congruence. Qed.
  Lemma agree_length G : forall F, agree T G F -> length F = length G.
  Proof. induction G as [|g G IH]; intros [|f F]; cbn; intros H; try easy. f_equal. apply IH, H. Qed.
  Lemma agree_get G x t : forall F R, look G x = Some t -> agree T G F -> exists v, scope_get x (F ++ R) = Ok v /\ ok t v.
  Proof.
    induction G as [|g G IH]; intros [|f F] R Hl HA; try easy. destruct HA as [[Hb Hk] HA]. cbn in *.
    destruct (assoc x g) as [u|] eqn:Ha.
    - injection Hl as ->. destruct (Hb x t Ha) as (v & Hv & Ht). rewrite Hv. eauto.
    - destruct (assoc x f) as [v|] eqn:Hf.
      + destruct (Hk x) as [C|C]; [unfold has_key; now rewrite Hf|unfold has_key in C; now rewrite Ha in C|congruence].
      + apply IH; auto.
  Qed.
  (** g' declares what g declares, and what else it declares is not visible outside *)
  Definition extends (g g' : ctx) (G : list ctx) : Prop :=
    (forall x t, assoc x g = Some t -> assoc x g' = Some t) /\ (forall x, has_key x g' = true -> has_key x g = true \/ look G x = None).
  Lemma extends_refl g G : extends g g G.
  Proof. split; auto. Qed.
  Lemma extends_trans g g1 g2 G : extends g g1 G -> extends g1 g2 G -> extends g g2 G.
  Proof. intros [A B] [A' B']. split; auto. intros x Hx. destruct (B' x Hx) as [H|H]; auto. Qed.
  Lemma frame_weaken g g' G f : extends g g' G -> frame_ok T g' G f -> frame_ok T g G f.
  Proof. intros [A B] [Hb Hk]. split; [auto|]. intros x Hx. destruct (Hk x Hx) as [H|H]; auto. Qed.
  Lemma agree_weaken g g' G F : extends g g' G -> agree T (g' :: G) F -> agree T (g :: G) F.
  Proof. destruct F as [|f F]; [easy|]. intros He [H HA]. split; auto. eapply frame_weaken; eauto. Qed.
  Lemma frame_nil G : frame_ok T [] G [].
  Proof. split; intros x; cbn; discriminate. Qed.

  Lemma combine_assoc {A B} (xs : list string) (us : list A) (vs : list B) (R : A -> B -> Prop) : forall x u,
    Forall2 R us vs -> assoc x (combine xs us) = Some u -> exists v, assoc x (combine xs vs) = Some v /\ R u v.
  Proof.
    intros x u H. revert xs. induction H as [|u0 v0 us vs H0 H IH]; intros [|y xs]; cbn; try discriminate.
    destruct (String.eqb_spec x y); [intros [= <-]; eauto|auto].
  Qed.
  Lemma combine_keys {A} (xs : list string) (us : list A) : length xs = length us -> keys (combine xs us) = xs.
  Proof. revert us. induction xs as [|x xs IH]; intros [|u us]; cbn; try discriminate; auto. intros H. f_equal. apply IH. congruence. Qed.
  Lemma assoc_app {A} x (a b : list (string * A)) : assoc x (a ++ b) = match assoc x a with Some v => Some v | None => assoc x b end.
  Proof. induction a as [|[y v] a IH]; cbn; auto. destruct String.eqb; auto. Qed.
  Lemma Forall2_len {A B} (R : A -> B -> Prop) l m : Forall2 R l m -> length l = length m.
  Proof. induction 1; cbn; congruence. Qed.
  Lemma zip_combine {A} xs (vs : list A) : zip_dict xs vs = combine xs vs.
  Proof. revert vs. induction xs as [|x xs IH]; intros [|v vs]; cbn; auto. now rewrite IH. Qed.

  (** new variables in a frame *)
  Lemma frame_let_ok xs us vs g G f : NoDup xs -> length xs = length us -> Forall2 (fun t v => ok t v) us vs ->
    frame_ok T g G f -> frame_ok T (combine xs us ++ g) G (frame_let (combine xs vs) f).
  Proof.
    intros Hn Hl Hv [Hb Hk].
    assert (Hl' : length xs = length vs) by (rewrite Hl; eapply Forall2_len; eauto).
    assert (Kv : keys (combine xs vs) = xs) by now apply combine_keys.
    assert (Ku : keys (combine xs us) = xs) by now apply combine_keys.
    split.
    - intros x t. rewrite assoc_app. destruct (assoc x (combine xs us)) as [u|] eqn:Ha.
      + intros [= <-]. destruct (combine_assoc xs us vs _ x u Hv Ha) as (v & Hx & Ht). exists v. split; auto.
        apply frame_let_in; [now rewrite Kv|]. now apply assoc_In.
      + intros Hg. destruct (Hb x t Hg) as (v & Hf & Ht). exists v. split; auto. rewrite frame_let_other; auto.
        rewrite Kv, <- Ku. now apply assoc_None.
    - intros x Hx. destruct (in_dec string_dec x xs) as [i|i].
      + left. apply has_key_assoc. rewrite assoc_app. destruct (assoc x (combine xs us)) eqn:Ha; [discriminate|].
        apply assoc_None in Ha. now rewrite Ku in Ha.
      + apply has_key_assoc in Hx. rewrite frame_let_other in Hx by now rewrite Kv. apply has_key_assoc in Hx.
        destruct (Hk x Hx) as [H|H]; auto. left. apply has_key_assoc. apply has_key_assoc in H. rewrite assoc_app.
        now destruct (assoc x (combine xs us)).
  Qed.
  Lemma frame_new xs us vs G : NoDup xs -> length xs = length us -> Forall2 (fun t v => ok t v) us vs ->
    frame_ok T (combine xs us) G (frame_let (combine xs vs) []).
  Proof. intros. rewrite <- (app_nil_r (combine xs us)). apply frame_let_ok; auto. apply frame_nil. Qed.
  (** the same variables again *)
  Lemma frame_again xs us vs G f : NoDup xs -> length xs = length us -> Forall2 (fun t v => ok t v) us vs ->
    (forall x, has_key x f = true -> has_key x (combine xs us) = true \/ look G x = None) ->
    frame_ok T (combine xs us) G (frame_let (combine xs vs) f).
  Proof.
    intros Hn Hl Hv Hk.
    assert (F0 : frame_ok T [] G (filter (fun b => negb (has_key (fst b) (combine xs us))) f)).
    { split; [discriminate|]. intros x Hx. right. apply has_key_assoc in Hx.
      destruct (assoc x (filter _ f)) as [v|] eqn:Ha; [|easy]. apply assoc_In in Ha. apply filter_In in Ha. destruct Ha as [Hi Hb].
      cbn in Hb. destruct (Hk x) as [C|C]; auto; [|rewrite C in Hb; discriminate].
      apply has_key_assoc. intros C. apply assoc_None in C. apply C. now apply (in_map fst) in Hi. }
    assert (Hl' : length xs = length vs) by (rewrite Hl; eapply Forall2_len; eauto).
    assert (Kv : keys (combine xs vs) = xs) by now apply combine_keys.
    assert (Ku : keys (combine xs us) = xs) by now apply combine_keys.
    split.
    - intros x t Hx. destruct (combine_assoc xs us vs _ x t Hv Hx) as (v & Ha & Ht). exists v. split; auto.
      apply frame_let_in; [now rewrite Kv|]. now apply assoc_In.
    - intros x Hx. destruct (in_dec string_dec x xs) as [i|i].
      + left. apply has_key_assoc. intros C. apply assoc_None in C. now rewrite Ku in C.
      + apply has_key_assoc in Hx. rewrite frame_let_other in Hx by now rewrite Kv. apply has_key_assoc in Hx. auto.
  Qed.

  (** *** Assignments *)
  Lemma frame_set g G f x t v : assoc x g = Some t -> ok t v -> frame_ok T g G f -> frame_ok T g G (dict_set x v f).
  Proof.
    intros Hx Hv [Hb Hk]. split.
    - intros y u Hy. destruct (string_dec y x) as [->|n].
      + rewrite assoc_set_eq. exists v. split; auto. congruence.
      + rewrite assoc_set_neq by auto. auto.
    - intros y Hy. destruct (string_dec y x) as [->|n].
      + left. apply has_key_assoc. congruence.
      + apply Hk. apply has_key_assoc. apply has_key_assoc in Hy. now rewrite assoc_set_neq in Hy.
  Qed.
  Lemma set_agree bs : forall G F R d, (length F <= d)%nat -> agree T G F -> same_frame (keys bs) G = true ->
    (forall x v, In (x, v) bs -> exists t, look G x = Some t /\ ok t v) ->
    exists F', scope_set d bs (F ++ R) = (Ok tt, F' ++ R) /\ agree T G F'.
  Proof.
    induction G as [|g G IH]; intros [|f F] R d Hd HA Hs Hb; try easy. destruct HA as [Hf HA].
    destruct d as [|d]; [cbn in Hd; lia|]. rewrite <- app_comm_cons, scope_set_S. cbn in Hs.
    apply Bool.orb_true_iff in Hs. destruct Hs as [Hs|Hs].
    - (* all of them live here *)
      rewrite forallb_forall in Hs.
      assert (Hx : forall x v, In (x, v) bs -> exists t, assoc x g = Some t /\ ok t v).
      { intros x v Hi. destruct (Hb x v Hi) as (t & Hl & Ht). specialize (Hs x (in_map fst _ _ Hi)). apply has_key_assoc in Hs.
        cbn in Hl. destruct (assoc x g) as [u|]; [|easy]. injection Hl as ->. eauto. }
      assert (Go : forall todo f, (forall x v, In (x, v) todo -> exists t, assoc x g = Some t /\ ok t v) -> frame_ok T g G f ->
                 exists f', set_go (scope_set d bs) todo f (F ++ R) = (Ok tt, f' :: F ++ R) /\ frame_ok T g G f').
      { induction todo as [|[x v] todo IHt]; intros f0 Ht H0; [exists f0; auto|]. cbn.
        destruct (Ht x v) as (t & Hl & Hv); [now left|]. assert (Hkey : has_key x f0 = true).
        { apply has_key_assoc. destruct H0 as [H0 _]. destruct (H0 x t Hl) as (w & -> & _). discriminate. }
        rewrite Hkey. apply IHt; [intros; apply Ht; now right|]. eapply frame_set; eauto. }
      destruct (Go bs f Hx Hf) as (f' & E1 & Hf'). exists (f' :: F). split; [exact E1|]. split; auto.
    - (* none of them lives here *)
      apply andb_prop in Hs. destruct Hs as [Hno Hs]. rewrite forallb_forall in Hno.
      assert (Hout : forall x v, In (x, v) bs -> has_key x g = false /\ exists t, look G x = Some t /\ ok t v).
      { intros x v Hi. destruct (Hb x v Hi) as (t & Hl & Ht). specialize (Hno x (in_map fst _ _ Hi)). apply Bool.negb_true_iff in Hno.
        split; auto. cbn in Hl. unfold has_key in Hno. destruct (assoc x g); [discriminate|]. eauto. }
      assert (Hnk : forall x v, In (x, v) bs -> has_key x f = false).
      { intros x v Hi. destruct (Hout x v Hi) as (H1 & t & H2 & _). destruct (has_key x f) eqn:Hk; auto.
        destruct Hf as [_ Hf]. destruct (Hf x Hk); congruence. }
      assert (Go : forall todo F, (length F <= d)%nat -> incl todo bs -> agree T G F ->
                 exists F', set_go (scope_set d bs) todo f (F ++ R) = (Ok tt, f :: F' ++ R) /\ agree T G F').
      { induction todo as [|[x v] todo IHt]; intros F0 Hd0 Hi H0; [exists F0; auto|]. cbn.
        rewrite (Hnk x v) by (apply Hi; now left).
        destruct (IH F0 R d Hd0 H0 Hs) as (F1 & E1 & HF1); [intros y w Hy; apply (Hout y w Hy)|]. rewrite E1.
        apply IHt; auto; [|intros z Hz; apply Hi; now right].
        apply agree_length in HF1, H0. lia. }
      destruct (Go bs F) as (F' & E1 & HF'); auto; [cbn in Hd; lia|apply incl_refl|].
      exists (f :: F'). split; [exact E1|]. split; auto.
  Qed.

  (** *** Data at the end of a path *)
  Definition key_val (k : pkey) (v : val) : Prop :=
    match k with KIndex => exists z, v = VInt z | KKey => exists s, v = VStr s | KField s => v = VStr s end.
  Lemma get_one_ok t k ks u : steps T t (k :: ks) u -> forall v w o a m, ok t v -> key_val k w -> get_one v w a m = Ok o ->
    exists t', steps T t' ks u /\ ok t' o.
  Proof.
    intros H v w o a m Hv Hw Hg. inversion H; subst; inversion Hv; subst; cbn in Hw.
    - destruct Hw as [z ->]. cbn in Hg. destruct (_ && _)%bool eqn:Hb; [|discriminate]. injection Hg as <-.
      apply andb_prop in Hb. destruct Hb as [B1 B2]. apply Z.leb_le in B1. apply Z.ltb_lt in B2.
      eexists. split; [eassumption|]. match goal with Hl : forall v, In v _ -> _ |- _ => apply Hl end. apply nth_In. lia.
    - destruct Hw as [z ->]. cbn in Hg. destruct assoc eqn:Ha; [|discriminate]. injection Hg as <-. eexists. split; [eassumption|].
      apply assoc_In in Ha. eauto.
    - subst w. cbn in Hg. destruct assoc eqn:Ha; [|discriminate]. injection Hg as <-. eexists. split; [eassumption|].
      apply assoc_In in Ha. eauto.
    - subst w. cbn in Hg. destruct assoc eqn:Ha; [|discriminate]. injection Hg as <-. eexists. split; [eassumption|].
      match goal with Hl : forall f, In f _ -> has_type _ _ _ (lookup _ _), Hi : In ?f _ |- _ => specialize (Hl f Hi) end.
      unfold lookup in *. now rewrite Ha in *.
  Qed.
  Lemma get_path_ok ks : forall t u ws v o a m, steps T t ks u -> Forall2 key_val ks ws -> ok t v -> get_path v ws a m = Ok o -> ok u o.
  Proof.
    induction ks as [|k ks IH]; intros t u ws v o a m Hs Hw Hv Hg; inversion Hw; subst.
    - cbn in Hg. injection Hg as <-. now inversion Hs; subst.
    - rename y into w, l' into ws'. cbn in Hg. destruct (get_one v w a m) as [w1|] eqn:Hg1; [|discriminate]. cbn in Hg.
      match goal with Hk : key_val k w |- _ => destruct (get_one_ok _ _ _ _ Hs _ _ _ _ _ Hv Hk Hg1) as (t' & Hs' & Hv') end. eapply IH; eauto.
  Qed.
  Lemma set_in' {A} k (x : A) d j y : In (j, y) (dict_set k x d) -> (j = k /\ y = x) \/ In (j, y) d.
  Proof.
    induction d as [|[i z] d IH]; cbn; [intros [[= <- <-]|[]]; auto|].
    destruct (String.eqb_spec k i) as [->|n]; cbn; intros [[= <- <-]|H]; auto. destruct (IH H); auto.
  Qed.
  Lemma map_set_ok t d k v : ok (TMap t) (VDict d) -> ok t v -> ok (TMap t) (VDict (dict_set k v d)).
  Proof. intros H Hv. inversion H; subst. constructor. intros j y Hj. apply set_in' in Hj. destruct Hj as [[-> ->]|Hj]; eauto. Qed.
  Lemma record_set_ok n d f v : wf_defs D -> In f (fields_of D n) -> ok (TRecord n) (VDict d) -> ok (f_type f) v ->
    ok (TRecord n) (VDict (dict_set (f_name f) v d)).
  Proof.
    intros HD Hf H Hv. inversion H as [| | | | | | | | | | | | | |n' d' H1 H2 H3| |]; subst. constructor.
    - intros f0 H0. apply has_key_assoc. specialize (H1 f0 H0). apply has_key_assoc in H1.
      destruct (string_dec (f_name f0) (f_name f)) as [->|ne]; [rewrite assoc_set_eq|rewrite assoc_set_neq]; auto; discriminate.
    - intros k w Hk. apply set_in' in Hk. destruct Hk as [[-> _]|Hk]; [now apply in_map|eauto].
    - intros f0 H0. unfold lookup. destruct (string_dec (f_name f0) (f_name f)) as [E1|ne].
      + rewrite E1, assoc_set_eq. replace f0 with f; auto. destruct (HD n) as [Hn _].
        clear - Hn E1 Hf H0. induction (fields_of D n) as [|z l IH]; [easy|]. inversion Hn; subst.
        destruct Hf as [->|Hf], H0 as [->|H0]; auto; exfalso; match goal with Hx : ~ In _ _ |- _ => apply Hx end;
          [rewrite <- E1; now apply in_map|rewrite E1; now apply in_map].
      + rewrite assoc_set_neq by auto. apply H3; auto.
  Qed.
  Lemma array_set_ok t l i v : ok (TArray t) (VArr l) -> ok t v -> ok (TArray t) (VArr (replace_nth i v l)).
  Proof.
    intros H Hv. inversion H; subst. constructor. intros w Hw.
    assert (Hd : forall l i, In w (replace_nth i v l) -> w = v \/ In w l).
    { clear. induction l as [|x l IH]; intros [|i]; cbn; auto; intros [->|H]; auto. destruct (IH i H); auto. }
    destruct (Hd l i Hw) as [->|Hi]; auto.
  Qed.

  (** *** Running code *)
  Variable saved : bool.
  Definition hoare {A} (P : list frame -> Prop) (m : EM A) (Q : A -> list frame -> Prop) (X : list frame -> Prop) : Prop :=
    forall s r s' F R, s_scopes s = F ++ R -> P F -> st_ok T saved s -> m s = Done r s' ->
      exists F', s_scopes s' = F' ++ R /\ st_ok T saved s' /\ match r with Ok a => Q a F' | Raise _ => X F' end.
  Lemma h_ret {A} (a : A) (P : list frame -> Prop) (Q : A -> list frame -> Prop) (X : list frame -> Prop) : (forall F, P F -> Q a F) -> hoare P (ret a) Q X.
  Proof. intros H s r s' F R Hs Hp Ho [= <- <-]. exists F. auto. Qed.
  Lemma h_raise {A} e (P : list frame -> Prop) (Q : A -> list frame -> Prop) (X : list frame -> Prop) : (forall F, P F -> X F) -> hoare P (raise e) Q X.
  Proof. intros H s r s' F R Hs Hp Ho [= <- <-]. exists F. auto. Qed.
  Lemma h_lift {A} (x : res A) (P : list frame -> Prop) (Q : A -> list frame -> Prop) (X : list frame -> Prop) :
    (forall F, P F -> match x with Ok a => Q a F | Raise _ => X F end) -> hoare P (lift x) Q X.
  Proof. intros H s r s' F R Hs Hp Ho [= <- <-]. exists F. split; auto. split; auto. now apply H. Qed.
  Lemma h_bind {A B} (m : EM A) (k : A -> EM B) P Q Q' X :
    hoare P m Q X -> (forall a, hoare (Q a) (k a) Q' X) -> hoare P (bind m k) Q' X.
  Proof.
    intros Hm Hk s r s' F R Hs Hp Ho Hd. unfold bind in Hd. destruct (m s) as [[a|e] s1| |] eqn:E1; try discriminate.
    - destruct (Hm _ _ _ _ _ Hs Hp Ho E1) as (F1 & H1 & H2 & H3). eapply Hk; eauto.
    - injection Hd as <- <-. destruct (Hm _ _ _ _ _ Hs Hp Ho E1) as (F1 & H1 & H2 & H3). exists F1. auto.
  Qed.
  Lemma h_conseq {A} (m : EM A) (P P' : list frame -> Prop) (Q Q' : A -> list frame -> Prop) (X X' : list frame -> Prop) :
    hoare P m Q X -> (forall F, P' F -> P F) -> (forall a F, Q a F -> Q' a F) -> (forall F, X F -> X' F) -> hoare P' m Q' X'.
  Proof.
    intros Hm H1 H2 H3 s r s' F R Hs Hp Ho Hd. destruct (Hm _ _ _ _ _ Hs (H1 _ Hp) Ho Hd) as (F' & A1 & A2 & A3).
    exists F'. destruct r; auto.
  Qed.
  Lemma h_pre {A} (m : EM A) (p : Prop) (P : list frame -> Prop) Q X : (p -> hoare P m Q X) -> hoare (fun F => P F /\ p) m Q X.
  Proof. intros H s r s' F R Hs [Hp Hq] Ho Hd. eapply H; eauto. Qed.
  Lemma h_attempt {A} (m : EM A) P Q X : hoare P m Q X ->
    hoare P (attempt m) (fun r F => match r with Ok a => Q a F | Raise _ => X F end) X.
  Proof.
    intros Hm s r s' F R Hs Hp Ho Hd. unfold attempt in Hd. destruct (m s) as [r1 s1| |] eqn:E1; try discriminate.
    injection Hd as <- <-. eapply Hm; eauto.
  Qed.
  Lemma h_fuel {A} P (Q : A -> _) X : hoare P out_of_fuel Q X.
  Proof. intros s r s' F R _ _ _ H. discriminate. Qed.
  Lemma h_blocked {A} P (Q : A -> _) X : hoare P blocked Q X.
  Proof. intros s r s' F R _ _ _ H. discriminate. Qed.
  (** changes of the state that leave the scopes alone *)
  Lemma h_modify f (P : list frame -> Prop) X : (forall s, s_scopes (f s) = s_scopes s) -> (forall s, st_ok T saved s -> st_ok T saved (f s)) ->
    hoare P (modify f) (fun _ => P) X.
  Proof. intros H1 H2 s r s' F R Hs Hp Ho [= <- <-]. exists F. rewrite H1. auto. Qed.

  Lemma agree_app gs : forall G F, agree T (gs ++ G) F -> exists fs F0, F = fs ++ F0 /\ length fs = length gs /\ agree T G F0.
  Proof.
    induction gs as [|g gs IH]; intros G F H; [exists [], F; auto|]. destruct F as [|f F]; [easy|]. destruct H as [Hf HA].
    destruct (IH _ _ HA) as (fs & F0 & -> & Hl & H0). exists (f :: fs), F0. split; [auto|]. split; [cbn; congruence|auto].
  Qed.
  Lemma h_frame {A} g g' G f (m : EM A) (Q : A -> Prop) :
    frame_ok T g G f ->
    hoare (agree T (g :: G)) m (fun a F => agree T (g' :: G) F /\ Q a) (agree T (g :: G)) ->
    hoare (agree T G) (in_frames [f] m) (fun p F => agree T G F /\ Q (fst p) /\ exists f', snd p = [f'] /\ frame_ok T g' G f') (agree T G).
  Proof.
    intros Hf Hm s r s' F R Hs HA Ho Hd. unfold in_frames in Hd.
    destruct (m (set_scopes ([f] ++ s_scopes s) s)) as [r1 s1| |] eqn:E1; try discriminate.
    assert (H1 : s_scopes (set_scopes ([f] ++ s_scopes s) s) = (f :: F) ++ R) by (cbn; now rewrite Hs).
    assert (H2 : st_ok T saved (set_scopes ([f] ++ s_scopes s) s)) by (destruct Ho; now constructor).
    destruct (Hm _ _ _ _ _ H1 (conj Hf HA) H2 E1) as (F1 & A1 & A2 & A3).
    assert (A4 : exists f1 F0, F1 = f1 :: F0 /\ agree T G F0).
    { destruct r1; [destruct A3 as [A3 _]|]; (destruct F1 as [|f1 F0]; [easy|]); destruct A3; eauto. }
    destruct A4 as (f1 & F0 & -> & A4). injection Hd as <- <-. exists F0. cbn. rewrite A1. cbn. split; auto. split.
    - destruct A2; now constructor.
    - destruct r1 as [a|e]; auto. destruct A3 as [[A3 _] Hq]. cbn. split; auto. split; auto. exists f1. auto.
  Qed.
  Lemma h_frame2 {A} g1 g1' g2 g2' G f1 f2 (m : EM A) (Q : A -> Prop) :
    frame_ok T g1 (g2 :: G) f1 -> frame_ok T g2 G f2 ->
    hoare (agree T (g1 :: g2 :: G)) m (fun a F => agree T (g1' :: g2' :: G) F /\ Q a) (agree T (g1 :: g2 :: G)) ->
    hoare (agree T G) (in_frames [f1; f2] m)
      (fun p F => agree T G F /\ Q (fst p) /\ exists f1' f2', snd p = [f1'; f2'] /\ frame_ok T g1' (g2' :: G) f1' /\ frame_ok T g2' G f2') (agree T G).
  Proof.
    intros Hf1 Hf2 Hm s r s' F R Hs HA Ho Hd. unfold in_frames in Hd.
    destruct (m (set_scopes ([f1; f2] ++ s_scopes s) s)) as [r1 s1| |] eqn:E1; try discriminate.
    assert (H1 : s_scopes (set_scopes ([f1; f2] ++ s_scopes s) s) = (f1 :: f2 :: F) ++ R) by (cbn; now rewrite Hs).
    assert (H2 : st_ok T saved (set_scopes ([f1; f2] ++ s_scopes s) s)) by (destruct Ho; now constructor).
    destruct (Hm _ _ _ _ _ H1 (conj Hf1 (conj Hf2 HA)) H2 E1) as (F1 & A1 & A2 & A3).
    assert (A4 : exists x1 x2 F0, F1 = x1 :: x2 :: F0 /\ agree T G F0).
    { destruct r1; [destruct A3 as [A3 _]|]; (destruct F1 as [|x1 [|x2 F0]]; [easy|destruct A3 as [_ []]|]); destruct A3 as (? & ? & ?); eauto. }
    destruct A4 as (x1 & x2 & F0 & -> & A4). injection Hd as <- <-. exists F0. cbn. rewrite A1. cbn. split; auto. split.
    - destruct A2; now constructor.
    - destruct r1 as [a|e]; auto. destruct A3 as [(A3 & A5 & _) Hq]. cbn. split; auto. split; auto. exists x1, x2. auto.
  Qed.
  (** on top of scopes that the code does not know *)
  Lemma h_frame_root {A} g g' f (m : EM A) (P : list frame -> Prop) (Q : A -> Prop) :
    frame_ok T g [] f ->
    hoare (agree T [g]) m (fun a F => agree T [g'] F /\ Q a) (agree T [g]) ->
    hoare P (in_frames [f] m) (fun p F => P F /\ Q (fst p)) P.
  Proof.
    intros Hf Hm s r s' F R Hs HA Ho Hd. unfold in_frames in Hd.
    destruct (m (set_scopes ([f] ++ s_scopes s) s)) as [r1 s1| |] eqn:E1; try discriminate.
    assert (H1 : s_scopes (set_scopes ([f] ++ s_scopes s) s) = [f] ++ s_scopes s) by reflexivity.
    assert (H2 : st_ok T saved (set_scopes ([f] ++ s_scopes s) s)) by (destruct Ho; now constructor).
    destruct (Hm _ _ _ _ _ H1 (conj Hf I) H2 E1) as (F1 & A1 & A2 & A3).
    assert (A4 : exists f1, F1 = [f1]).
    { destruct r1; [destruct A3 as [A3 _]|]; (destruct F1 as [|f1 [|f2 F0]]; [easy|eauto|destruct A3 as [_ []]]). }
    destruct A4 as (f1 & ->). injection Hd as <- <-. exists F. cbn. rewrite A1. cbn. split; auto. split.
    - destruct A2; now constructor.
    - destruct r1 as [a|e]; auto. destruct A3 as [_ Hq]. auto.
  Qed.
  Lemma h_root {A} g g' f (m : EM A) (P : list frame -> Prop) (Q : A -> Prop) :
    frame_ok T g [] f ->
    hoare (agree T [g]) m (fun a F => agree T [g'] F /\ Q a) (agree T [g]) ->
    forall R0, hoare P (in_root (f :: R0) m) (fun a F => P F /\ Q a) P.
  Proof.
    intros Hf Hm R0 s r s' F R Hs HA Ho Hd. unfold in_root in Hd.
    destruct (m (set_scopes (f :: R0) s)) as [r1 s1| |] eqn:E1; try discriminate.
    assert (H1 : s_scopes (set_scopes (f :: R0) s) = [f] ++ R0) by reflexivity.
    assert (H2 : st_ok T saved (set_scopes (f :: R0) s)) by (destruct Ho; now constructor).
    destruct (Hm _ _ _ _ _ H1 (conj Hf I) H2 E1) as (F1 & A1 & A2 & A3). injection Hd as <- <-. exists F. cbn. split; auto. split.
    - destruct A2; now constructor.
    - destruct r1 as [a|e]; auto. destruct A3 as [_ Hq]. auto.
  Qed.
  Lemma h_in_frame {A} g g' G f (m : EM A) (Q : A -> Prop) :
    frame_ok T g G f ->
    hoare (agree T (g :: G)) m (fun a F => agree T (g' :: G) F /\ Q a) (agree T (g :: G)) ->
    hoare (agree T G) (in_frame f m) (fun a F => agree T G F /\ Q a) (agree T G).
  Proof.
    intros Hf Hm. eapply h_bind; [eapply h_frame; eauto|]. intros p. apply h_ret. intros F (H1 & H2 & _). auto.
  Qed.
  Lemma h_in_frame_root {A} g g' f (m : EM A) (P : list frame -> Prop) (Q : A -> Prop) :
    frame_ok T g [] f ->
    hoare (agree T [g]) m (fun a F => agree T [g'] F /\ Q a) (agree T [g]) ->
    hoare P (in_frame f m) (fun a F => P F /\ Q a) P.
  Proof. intros Hf Hm. eapply h_bind; [eapply h_frame_root; eauto|]. intros p. now apply h_ret. Qed.
  Lemma h_mapE {A B C} (P : list frame -> Prop) (f : A -> EM B) (R : C -> B -> Prop) l : forall us : list C,
    Forall2 (fun x u => hoare P (f x) (fun v F => P F /\ R u v) P) l us ->
    hoare P (mapE f l) (fun vs F => P F /\ Forall2 R us vs) P.
  Proof.
    induction l as [|x l IH]; intros us H; inversion H; subst; cbn.
    - apply h_ret. auto.
    - eapply h_bind; [eassumption|]. intros v. apply h_pre. intros Hv. eapply h_bind; [eapply IH; eassumption|].
      intros vs. apply h_pre. intros Hvs. apply h_ret. auto.
  Qed.

  (** *** Updates *)
  Lemma h_update (P : list frame -> Prop) leaf u (HD : wf_defs D) :
    (forall old, ok u old -> hoare P (leaf old) (fun v F => P F /\ ok u v) P) ->
    forall ks t ws v a m, steps T t ks u -> Forall2 key_val ks ws -> ok t v ->
      hoare P (update_path leaf v ws a m) (fun v F => P F /\ ok t v) P.
  Proof.
    intros Hleaf. induction ks as [|k ks IH]; intros t ws v a m Hs Hw Hv; inversion Hw; subst.
    - inversion Hs; subst. cbn. auto.
    - rename y into w. inversion Hs; subst; inversion Hv; subst; match goal with H : key_val _ w |- _ => cbn in H end; match goal with H : exists _, w = _ |- _ => destruct H as [z ->] | H : w = _ |- _ => rewrite H in *; clear H end; cbn -[Z.leb Z.ltb].
      + destruct (_ || _)%bool eqn:B1; [apply h_raise; auto|]. apply Bool.orb_false_iff in B1. destruct B1 as [_ B1].
        destruct (_ <=? _)%Z eqn:B2; [apply h_ret; auto|]. apply Z.leb_gt in B2. apply Z.ltb_ge in B1.
        eapply h_bind; [eapply IH; eauto|].
        * match goal with Hl : forall v, In v _ -> _ |- _ => apply Hl end. apply nth_In. lia.
        * intros v'. apply h_pre. intros Hv'. apply h_ret. intros F HF. split; auto. apply array_set_ok; auto.
      + destruct assoc eqn:Ha.
        * eapply h_bind; [eapply IH; eauto; apply assoc_In in Ha; eauto|]. intros v'. apply h_pre. intros Hv'. apply h_ret.
          intros F HF. split; auto. apply map_set_ok; auto.
        * destruct l'; [apply h_ret; auto|apply h_raise; auto].
      + destruct assoc eqn:Ha.
        * eapply h_bind; [eapply IH; eauto; apply assoc_In in Ha; eauto|]. intros v'. apply h_pre. intros Hv'. apply h_ret.
          intros F HF. split; auto. apply map_set_ok; auto.
        * destruct l'; [apply h_ret; auto|apply h_raise; auto].
      + destruct assoc eqn:Ha.
        * eapply h_bind; [eapply IH; eauto|].
          -- match goal with Hl : forall f, In f _ -> has_type _ _ _ (lookup _ _), Hi : In ?f _ |- _ => specialize (Hl f Hi) end.
             unfold lookup in *. now rewrite Ha in *.
          -- intros v'. apply h_pre. intros Hv'. apply h_ret. intros F HF. split; auto. apply record_set_ok; auto.
        * destruct l'; [apply h_ret; auto|apply h_raise; auto].
  Qed.
End Proofs.
