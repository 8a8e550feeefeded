(** Whole tables. *)
From Verif Require Import Base PyNum ScopeModel TransModel TransSpec TransProofs TransProofs2.
Open Scope string_scope.
Open Scope list_scope.

Lemma order_given indexed named t : new_transformation indexed named = Ok t -> forall k, In k (t_order t) <-> In k (map fst (t_exprs t)).
Proof. intros H k. destruct (new_spec _ _ _ H) as (E & O & _). rewrite E, O. unfold given. rewrite fold_set_in, in_app_iff, sort_set_in. tauto. Qed.
Lemma fields_used indexed named t : new_transformation indexed named = Ok t ->
  forall f, In f (t_fields t) <-> exists k a, In (k, a) (t_exprs t) /\ (In f (variables a) \/ In f (texts a)).
Proof.
  intros H f. destruct (new_spec _ _ _ H) as (_ & _ & F & L & _). rewrite F, sort_set_in, in_flat_map.
  assert (S : forall k a, In (k, a) (t_exprs t) -> supported a).
  { clear F H. intros k a Hin. apply to_numpy_ok. induction L as [|[k1 a1] [k2 e2] l l' [_ E] _ IH]; [destruct Hin|]. destruct Hin as [E1|Hin]; [|auto]. injection E1 as -> ->. eauto. }
  split.
  - intros ([k a] & Hin & Hf). exists k, a. split; auto. apply fields_of; auto. apply supported_plain. eauto.
  - intros (k & a & Hin & Hf). exists (k, a). split; auto. cbn [snd]. apply fields_of_conv; eauto.
Qed.
Lemma exprs_supported indexed named t : new_transformation indexed named = Ok t -> forall k a, In (k, a) (t_exprs t) -> supported a.
Proof.
  intros H k a Hin. destruct (new_spec _ _ _ H) as (_ & _ & F & L & _). clear F H.
  apply to_numpy_ok. induction L as [|[k1 a1] [k2 e2] l l' [_ E] _ IH]; [destruct Hin|]. destruct Hin as [E1|Hin]; [|auto]. injection E1 as -> ->. eauto.
Qed.

Section Tables.
  Variable V : Type.
  Variable lit : val -> V.
  Variable fn : string -> list V -> V.
  Variable numpy : string -> list V -> V.
  Hypothesis A : agree V fn numpy.
  Notation lita := (fun a => lit (to_json a)).
  Notation meaning := (meaning V lit fn).

  Lemma compute_spec indexed named t n dataset names : new_transformation indexed named = Ok t ->
    (forall f l, assoc f dataset = Some l -> length l = n) ->
    (forall f, In f (t_fields t) -> In f names /\ has_key f dataset = true) ->
    ~ In "numpy" (t_fields t) -> ~ In "math" (t_fields t) ->
    exists cs, compute V lita numpy t n dataset names = Ok cs /\
      Forall2 (fun ka kc => fst kc = fst ka /\ full V n (snd kc) /\ is_scalar V (snd kc) = (match variables (snd ka) with [] => true | _ => false end) /\
        forall i, (i < n)%nat -> at_row V i (snd kc) = meaning (env_row V dataset i) (to_json (snd ka))) (t_exprs t) cs.
  Proof.
    intros H HL HF Hn Hm. unfold compute.
    assert (E1 : forallb (fun f => existsb (String.eqb f) names) (t_fields t) = true).
    { apply forallb_forall. intros f Hf. apply existsb_exists. exists f. split; [now apply HF|apply String.eqb_refl]. }
    rewrite E1. cbn [negb].
    assert (E2 : exists env, rmapM (fun f => match assoc f dataset with Some l => Ok (f, l) | None => Raise (PyErr "KeyError") end) (t_fields t) = Ok env /\
                 (forall s, In s (t_fields t) -> assoc s env = assoc s dataset) /\ forall s, ~ In s (t_fields t) -> assoc s env = None).
    { assert (HF2 : forall f, In f (t_fields t) -> has_key f dataset = true) by (intros; now apply HF). revert HF2. clear. induction (t_fields t) as [|f l IH]; intros HF2; [exists []; cbn; intuition|].
      destruct IH as (env & E & I1 & I2). { intros; apply HF2; now right. } specialize (HF2 f (or_introl eq_refl)). unfold has_key in HF2.
      destruct (assoc f dataset) as [c|] eqn:Ec; [|discriminate]. exists ((f, c) :: env). cbn [rmapM]. rewrite Ec. cbn [rbind]. rewrite E. cbn [rbind]. split; [reflexivity|]. split; intros s Hs; cbn [assoc].
      - destruct (String.eqb_spec s f) as [->|Ne]; [auto|]. destruct Hs as [->|Hs]; [easy|auto].
      - destruct (String.eqb_spec s f) as [->|Ne]; [destruct Hs; now left|]. apply I2. intros X. apply Hs. now right. }
    destruct E2 as (env & E2 & I1 & I2).
    pose proof (fields_used _ _ _ H) as FU. pose proof (exprs_supported _ _ _ H) as SU. destruct (new_spec _ _ _ H) as (_ & _ & _ & L & _).
    assert (L' : forall ex, Forall2 (fun ka kl => fst kl = fst ka /\ to_numpy (snd ka) = Ok (snd kl)) ex (t_lambdas t) -> (forall k a, In (k, a) ex -> In (k, a) (t_exprs t)) ->
      exists cs, rmapM (fun kl => env0 <- rmapM (fun f => match assoc f dataset with Some l => Ok (f, l) | None => Raise (PyErr "KeyError") end) (t_fields t) ;;
               c <- run V lita numpy n env0 (snd kl) ;; Ok (fst kl, c)) (t_lambdas t) = Ok cs /\
        Forall2 (fun ka kc => fst kc = fst ka /\ full V n (snd kc) /\ is_scalar V (snd kc) = (match variables (snd ka) with [] => true | _ => false end) /\
        forall i, (i < n)%nat -> at_row V i (snd kc) = meaning (env_row V dataset i) (to_json (snd ka))) ex cs).
    { clear L. generalize (t_lambdas t) as ls. intros ls ex L. induction L as [|[k a] [k' e] ex ls [K E] _ IH]; intros G; [exists []; split; [reflexivity|constructor]|].
      destruct IH as (cs & IHc & IHf). { intros; apply G; now right. } cbn [fst snd] in K, E. subst k'. specialize (G k a (or_introl eq_refl)).
      assert (VF : forall s, In s (variables a) -> In s (t_fields t)) by (intros s Hs; apply FU; eauto 6).
      destruct (run_meaning V lit fn numpy A n env a e) as (c & R1 & R2 & R3 & R4); auto.
      - intros s l Hs. destruct (in_dec string_dec s (t_fields t)) as [Y|N]; [rewrite I1 in Hs by auto; eauto|rewrite I2 in Hs by auto; discriminate].
      - intros s Hs. unfold has_key. rewrite I1 by auto. apply HF. auto.
      - intros _. unfold has_key. now rewrite !I2.
      - exists ((k, c) :: cs). cbn [rmapM snd fst]. rewrite E2 in *. cbn [rbind] in *. rewrite R1. cbn [rbind]. rewrite IHc. split; [reflexivity|]. constructor; auto. cbn [fst snd]. repeat split; auto.
        intros i Hi. rewrite (R4 i Hi). apply meaning_ext; [apply supported_plain; eauto|]. intros s Hs. unfold env_row. now rewrite I1 by auto. }
    now apply L'.
  Qed.
  Lemma assoc_f2 {B C} (Q : B -> C -> Prop) ex cs k a : Forall2 (fun (ka : string * B) (kc : string * C) => fst kc = fst ka /\ Q (snd ka) (snd kc)) ex cs ->
    assoc k ex = Some a -> exists c, assoc k cs = Some c /\ Q a c.
  Proof.
    induction 1 as [|[k1 a1] [k2 c2] ex cs [K HQ] _ IH]; [discriminate|]. cbn [assoc fst snd] in *. subst k2. destruct (String.eqb k k1); auto. intros E. injection E as ->. eauto.
  Qed.
  Definition value_of (t : transformation) (n : nat) (dataset : list (string * list V)) (k : string) (c : column V) : Prop :=
    exists a, assoc k (t_exprs t) = Some a /\ full V n c /\ is_scalar V c = (match variables a with [] => true | _ => false end) /\
      forall i, (i < n)%nat -> at_row V i c = meaning (env_row V dataset i) (to_json a).
  Lemma in_order_spec indexed named t n dataset names : new_transformation indexed named = Ok t ->
    (forall f l, assoc f dataset = Some l -> length l = n) ->
    (forall f, In f (t_fields t) -> In f names /\ has_key f dataset = true) ->
    ~ In "numpy" (t_fields t) -> ~ In "math" (t_fields t) ->
    exists computed cs, compute V lita numpy t n dataset names = Ok computed /\ in_order V t computed = Ok cs /\ Forall2 (value_of t n dataset) (t_order t) cs.
  Proof.
    intros H HL HF Hn Hm. destruct (compute_spec _ _ _ n dataset names H HL HF Hn Hm) as (cs & E & F). exists cs.
    assert (O : forall k, In k (t_order t) -> exists c, assoc k cs = Some c /\ value_of t n dataset k c).
    { intros k Hk. apply (order_given _ _ _ H) in Hk. destruct (assoc_some_in _ _ Hk) as [a Ea].
      destruct (assoc_f2 (fun a c => full V n c /\ is_scalar V c = (match variables a with [] => true | _ => false end) /\
        forall i, (i < n)%nat -> at_row V i c = meaning (env_row V dataset i) (to_json a)) _ _ k a F Ea) as (c & Ec & Q). exists c. split; auto. exists a. auto. }
    unfold in_order. revert O. induction (t_order t) as [|k l IH]; intros O; [exists []; repeat split; auto|].
    destruct IH as (r & _ & E2 & F2). { intros; apply O; now right. } destruct (O k (or_introl eq_refl)) as (c & Ec & Q). exists (c :: r). cbn [rmapM]. rewrite Ec. cbn [rbind]. rewrite E2. repeat split; auto.
  Qed.
  Lemma env_row_combine names table i s : env_row V (combine names table) i s = row V names table i s.
  Proof. reflexivity. Qed.
  Lemma vstack_columns n cs : (forall c, In c cs -> is_scalar V c = false) -> exists l, vstack V n cs = Ok l /\ Forall2 (fun c col => c = Column col) cs l.
  Proof.
    unfold vstack. generalize (forallb (is_scalar V) cs || Nat.eqb n 1)%bool as b. intros b. induction cs as [|c cs IH]; intros H; [exists []; split; constructor|].
    destruct IH as (l & E & F). { intros; apply H; now right. } pose proof (H c (or_introl eq_refl)) as S. destruct c as [v|col]; [discriminate|]. exists (col :: l). cbn [rmapM rbind]. rewrite E. split; [reflexivity|now constructor].
  Qed.
  Lemma vstack_mixed n cs : n <> 1%nat -> forallb (is_scalar V) cs = false -> (exists c, In c cs /\ is_scalar V c = true) -> vstack V n cs = Raise (PyErr "ValueError").
  Proof.
    intros Hn Hs. unfold vstack. rewrite Hs. apply Nat.eqb_neq in Hn. rewrite Hn. cbn [orb]. clear Hs Hn. intros (c & Hc & S). induction cs as [|d cs IH]; [destruct Hc|]. cbn [rmapM].
    destruct d as [v|col]; [reflexivity|]. cbn [rbind]. destruct Hc as [Hc|Hc]; [subst c; discriminate|]. now rewrite IH.
  Qed.
End Tables.
