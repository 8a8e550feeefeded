From Verif Require Import Base ScopeModel SesModel SesSpec.
Open Scope string_scope.
Open Scope list_scope.
Section S.
Variables C E : Type.
Variable toAst : val -> res C.
Variable fromAst : C -> res E.
Notation step := (step toAst fromAst).
Definition fresh (m : model C E) : Prop :=
  (forall c, conf m = Some c -> toAst (obj m) = Ok c) /\ (forall e, eng m = Some e -> exists c, toAst (obj m) = Ok c /\ fromAst c = Ok e).
Definition all_fresh (s : session C E) : Prop := NoDup (keys s) /\ forall a m, assoc a s = Some m -> fresh m.
Lemma new_fresh v : fresh (mkModel v None None).
Proof. split; cbn; discriminate. Qed.
Lemma get_conf_fresh m : fresh m -> let (r, m') := get_conf C E toAst m in
  fresh m' /\ obj m' = obj m /\ eng m' = eng m /\ match toAst (obj m) with Ok c => r = Ok c | Raise _ => r = inspector end.
Proof.
  intros [A B]. unfold get_conf. destruct (conf m) as [c|] eqn:Q.
  - rewrite (A c eq_refl). repeat split; auto. rewrite Q. intros c0 H. inversion H; subst. apply A; reflexivity.
  - destruct (toAst (obj m)) as [c|e] eqn:T; (split; [|repeat split]).
    + split; cbn; [intros c0 H; inversion H; now subst|rewrite T; exact B].
    + split; [rewrite Q; discriminate|rewrite T; exact B].
Qed.
Lemma get_engine_fresh m : fresh m -> let (r, m') := get_engine C E toAst fromAst m in
  fresh m' /\ obj m' = obj m /\ r = match toAst (obj m) with Ok c => match fromAst c with Ok e => Ok e | Raise _ => inspector end | Raise _ => inspector end.
Proof.
  intro F. unfold get_engine. destruct (eng m) as [e|] eqn:Q.
  - split; [exact F|]. split; [reflexivity|]. destruct F as [A B]. destruct (B e Q) as (c & T & U). now rewrite T, U.
  - pose proof (get_conf_fresh m F) as G. destruct (get_conf C E toAst m) as [r m']. destruct G as (G1 & G2 & G3 & G4).
    destruct (toAst (obj m)) as [c|x] eqn:T; subst r; cbn.
    + destruct (fromAst c) as [e|x] eqn:U; cbn; (split; [|split; [exact G2|reflexivity]]); [|exact G1].
      destruct G1 as [A B]. split; cbn; [exact A|]. intros e0 H. inversion H; subst e0. exists c. rewrite G2. auto.
    + split; [exact G1|]. split; [exact G2|reflexivity].
Qed.
Lemma set_fresh s a m : all_fresh s -> fresh m -> all_fresh (dict_set a m s).
Proof.
  intros [N F] M. split; [now apply keys_set_NoDup|]. intros b x. destruct (String.eqb b a) eqn:Q.
  - apply String.eqb_eq in Q. subst b. rewrite assoc_set_eq. intro H. inversion H; now subst.
  - apply String.eqb_neq in Q. rewrite assoc_set_neq by exact Q. apply F.
Qed.
Lemma del_fresh s a : all_fresh s -> all_fresh (dict_del a s).
Proof.
  intros [N F]. split; [now apply keys_del_NoDup|]. intros b x. destruct (String.eqb b a) eqn:Q.
  - apply String.eqb_eq in Q. subst b. rewrite assoc_del_eq by exact N. discriminate.
  - apply String.eqb_neq in Q. rewrite assoc_del_neq by exact Q. apply F.
Qed.
Lemma with_fresh s a f : all_fresh s -> (forall m, fresh m -> fresh (snd (f m))) -> all_fresh (snd (with_model C E s a f)).
Proof.
  intros F P. unfold with_model. destruct (assoc a s) as [m|] eqn:Q; [|exact F]. specialize (P m (proj2 F _ _ Q)).
  destruct (f m) as [r m']. cbn in *. now apply set_fresh.
Qed.
Lemma step_fresh s c : ~ moves c -> all_fresh s -> all_fresh (snd (step s c)).
Proof.
  intros N F. destruct c as [[v|e] n|a b|a|a f|a f|a|a]; cbn [SesModel.step].
  - apply set_fresh; [exact F|apply new_fresh].
  - exact F.
  - destruct (assoc a s) as [m|] eqn:Q; [|exact F]. cbn. apply del_fresh, set_fresh; [exact F|exact (proj2 F _ _ Q)].
  - destruct (assoc a s) as [m|] eqn:Q; [|exact F]. cbn. now apply del_fresh.
  - apply with_fresh; [exact F|]. intros m M. destruct (f (obj m)) as [v|e]; cbn; [apply new_fresh|exact M].
  - elim N. exact I.
  - apply with_fresh; [exact F|]. intros m M. pose proof (get_conf_fresh m M) as G. destruct (get_conf C E toAst m) as [[c|x] m']; cbn; tauto.
  - apply with_fresh; [exact F|]. intros m M. pose proof (get_engine_fresh m M) as G. destruct (get_engine C E toAst fromAst m) as [[c|x] m']; cbn; tauto.
Qed.
Lemma run_fresh l : forall s, (forall c, In c l -> ~ moves c) -> all_fresh s -> all_fresh (run toAst fromAst s l).
Proof.
  induction l as [|c l IH]; intros s N F; [exact F|]. unfold run. cbn [fold_left]. apply IH; [intros d I; apply N; now right|].
  apply step_fresh; [apply N; now left|exact F].
Qed.
Lemma says s a : all_fresh s -> fst (step s (UseConf a)) = says_conf C E toAst (document s a) /\ fst (step s (UseEngine a)) = says_engine C E toAst fromAst (document s a).
Proof.
  intros [_ F]. cbn [SesModel.step]. unfold with_model, document, says_conf, says_engine. destruct (assoc a s) as [m|] eqn:Q; [|now split].
  pose proof (get_conf_fresh m (F _ _ Q)) as G. pose proof (get_engine_fresh m (F _ _ Q)) as H.
  destruct (get_conf C E toAst m) as [r m1]. destruct (get_engine C E toAst fromAst m) as [r' m2].
  destruct G as (_ & _ & _ & G). destruct H as (_ & _ & H). destruct (toAst (obj m)) as [c|x]; subst r; subst r'; cbn; [|now split].
  destruct (fromAst c) as [e|x]; now split.
Qed.
(** documents *)
Lemma get_conf_obj m : obj (snd (get_conf C E toAst m)) = obj m.
Proof. unfold get_conf. destruct (conf m); [reflexivity|]. destruct (toAst (obj m)); reflexivity. Qed.
Lemma get_engine_obj m : obj (snd (get_engine C E toAst fromAst m)) = obj m.
Proof.
  unfold get_engine. destruct (eng m); [reflexivity|]. pose proof (get_conf_obj m) as G. destruct (get_conf C E toAst m) as [[c|x] m']; cbn in *; [|exact G].
  destruct (fromAst c); exact G.
Qed.
Lemma document_set (s : session C E) a m b : document (dict_set a m s) b = if String.eqb b a then Some (obj m) else document s b.
Proof.
  unfold document. destruct (String.eqb b a) eqn:Q.
  - apply String.eqb_eq in Q. subst. now rewrite assoc_set_eq.
  - apply String.eqb_neq in Q. now rewrite assoc_set_neq.
Qed.
Lemma document_del (s : session C E) a b : NoDup (keys s) -> document (dict_del a s) b = if String.eqb b a then None else document s b.
Proof.
  intro N. unfold document. destruct (String.eqb b a) eqn:Q.
  - apply String.eqb_eq in Q. subst. now rewrite assoc_del_eq.
  - apply String.eqb_neq in Q. now rewrite assoc_del_neq.
Qed.
Lemma with_document s a f b : (forall m, document s a = Some (obj m) -> b = a -> obj (snd (f m)) = obj m) -> document (snd (with_model C E s a f)) b = document s b.
Proof.
  intro P. unfold with_model. destruct (assoc a s) as [m|] eqn:Q; [|reflexivity]. destruct (f m) as [r m'] eqn:R. cbn. rewrite document_set.
  destruct (String.eqb b a) eqn:B; [|reflexivity]. apply String.eqb_eq in B. subst b.
  assert (D : document s a = Some (obj m)) by (unfold document; now rewrite Q). specialize (P m D eq_refl). rewrite R in P. cbn in P. now rewrite P, D.
Qed.
Lemma others s c b : NoDup (keys s) -> ~ In b (about c) -> document (snd (step s c)) b = document s b.
Proof.
  intros N H. destruct c as [[v|e] n|a b'|a|a f|a f|a|a]; cbn [SesModel.step about In] in *.
  - cbn. rewrite document_set. destruct (String.eqb b n) eqn:Q; [|reflexivity]. apply String.eqb_eq in Q. subst. tauto.
  - reflexivity.
  - destruct (assoc a s) as [m|]; [|reflexivity]. cbn. rewrite document_del by now apply keys_set_NoDup. rewrite document_set.
    destruct (String.eqb b a) eqn:Q; [apply String.eqb_eq in Q; subst; tauto|].
    destruct (String.eqb b b') eqn:Q'; [apply String.eqb_eq in Q'; subst; tauto|reflexivity].
  - destruct (assoc a s) as [m|]; [|reflexivity]. cbn. rewrite document_del by exact N.
    destruct (String.eqb b a) eqn:Q; [apply String.eqb_eq in Q; subst; tauto|reflexivity].
  - apply with_document. intros m _ B. subst. tauto.
  - apply with_document. intros m _ B. subst. tauto.
  - apply with_document. intros m _ _. pose proof (get_conf_obj m) as G. destruct (get_conf C E toAst m) as [[c|x] m']; exact G.
  - apply with_document. intros m _ _. pose proof (get_engine_obj m) as G. destruct (get_engine C E toAst fromAst m) as [[c|x] m']; exact G.
Qed.
Lemma failed s c e b : fst (step s c) = Raise e -> document (snd (step s c)) b = document s b.
Proof.
  destruct c as [[v|x] n|a b'|a|a f|a f|a|a]; cbn [SesModel.step].
  - discriminate.
  - reflexivity.
  - destruct (assoc a s) as [m|]; [discriminate|reflexivity].
  - destruct (assoc a s) as [m|]; [discriminate|reflexivity].
  - intro H. unfold with_model in *. destruct (assoc a s) as [m|] eqn:Q; [|reflexivity].
    destruct (f (obj m)) as [v|x]; [discriminate|]. cbn. rewrite document_set. destruct (String.eqb b a) eqn:B; [|reflexivity].
    apply String.eqb_eq in B. subst. unfold document. now rewrite Q.
  - intro H. unfold with_model in *. destruct (assoc a s) as [m|] eqn:Q; [|reflexivity].
    destruct (f (obj m)) as [v|x]; [discriminate|]. cbn. rewrite document_set. destruct (String.eqb b a) eqn:B; [|reflexivity].
    apply String.eqb_eq in B. subst. unfold document. now rewrite Q.
  - intros _. apply with_document. intros m _ _. pose proof (get_conf_obj m) as G. destruct (get_conf C E toAst m) as [[c|y] m']; exact G.
  - intros _. apply with_document. intros m _ _. pose proof (get_engine_obj m) as G. destruct (get_engine C E toAst fromAst m) as [[c|y] m']; exact G.
Qed.
Lemma step_names s c : NoDup (keys s) -> NoDup (keys (snd (step s c))).
Proof.
  intro N. assert (W : forall a f, NoDup (keys (snd (with_model C E s a f)))).
  { intros a f. unfold with_model. destruct (assoc a s) as [m|]; [|exact N]. destruct (f m) as [r m']. cbn. now apply keys_set_NoDup. }
  destruct c as [[v|e] n|a b|a|a f|a f|a|a]; cbn [SesModel.step]; try apply W; try exact N.
  - now apply keys_set_NoDup.
  - destruct (assoc a s); [|exact N]. now apply keys_del_NoDup, keys_set_NoDup.
  - destruct (assoc a s); [|exact N]. now apply keys_del_NoDup.
Qed.
Lemma run_names l : forall s, NoDup (keys s) -> NoDup (keys (run toAst fromAst s l)).
Proof. induction l as [|c l IH]; intros s N; [exact N|]. unfold run. cbn [fold_left]. apply IH. now apply step_names. Qed.
End S.
