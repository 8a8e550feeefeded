(** Fields, substitution, and the Numpy expressions of trees. *)
From Verif Require Import Base PyNum ScopeModel TransModel TransSpec.
Open Scope string_scope.
Open Scope list_scope.

Section Ind.
  Variable P : ast -> Prop.
  Hypothesis H1 : forall n, P (ARef n).
  Hypothesis H2 : P ANull.
  Hypothesis H3 : forall b, P (ABool b).
  Hypothesis H4 : forall z, P (AInt z).
  Hypothesis H5 : forall z, P (ALong z).
  Hypothesis H6 : forall v, P (AFloat v).
  Hypothesis H7 : forall v, P (ADouble v).
  Hypothesis H8 : forall s, P (AString s).
  Hypothesis H9 : forall n l, Forall P l -> P (ACall n l).
  Hypothesis H10 : forall j, P (AOther j).
  Fixpoint ast_ind2 (a : ast) : P a :=
    match a with
    | ARef n => H1 n | ANull => H2 | ABool b => H3 b | AInt z => H4 z | ALong z => H5 z | AFloat v => H6 v | ADouble v => H7 v | AString s => H8 s
    | ACall n l => H9 n l ((fix go (l : list ast) : Forall P l := match l with [] => Forall_nil _ | x :: l' => Forall_cons _ (ast_ind2 x) (go l') end) l)
    | AOther j => H10 j
    end.
End Ind.

(** *** lists of trees *)
Lemma plain_call n l : plain (ACall n l) <-> Forall plain l.
Proof. cbn [plain]. induction l as [|x l IH]; [split; constructor|]. rewrite IH. split; [intros [? ?]; now constructor|intros H; inversion H; auto]. Qed.
Lemma variables_call n l : variables (ACall n l) = flat_map variables l.
Proof. cbn [variables]. induction l as [|x l IH]; [reflexivity|]. now rewrite IH. Qed.
Lemma texts_call n l : texts (ACall n l) = flat_map texts l.
Proof. cbn [texts]. induction l as [|x l IH]; [reflexivity|]. now rewrite IH. Qed.
Lemma tables : (forall nf, In nf functions <-> In nf counterparts) /\ (forall nf, In nf constants <-> In nf counterpart_constants).
Proof.
  assert (E : forall l r : list (string * string), incl l r -> incl r l -> forall nf, In nf l <-> In nf r) by (unfold incl; firstorder).
  split; apply E; intros x Hx; cbn in Hx |- *; tauto.
Qed.
Lemma table_names n : In n (map fst functions) <-> In n (map fst counterparts).
Proof. rewrite !in_map_iff. split; intros (x & E & H); exists x; (split; [exact E|now apply tables]). Qed.
Lemma supported_call n l : supported (ACall n l) <-> (In n (map fst functions) \/ (In n ["m.pi"; "m.e"] /\ l = [])) /\ Forall supported l.
Proof.
  rewrite table_names. cbn [supported]. enough (E : (fix go (l0 : list ast) : Prop := match l0 with [] => True | x :: l' => supported x /\ go l' end) l <-> Forall supported l) by tauto.
  induction l as [|x l IH]; [split; constructor|]. rewrite IH. split; [intros [? ?]; now constructor|intros H; inversion H; auto].
Qed.
Lemma find_fields_call n l : find_fields (to_json (ACall n l)) = if String.eqb n "@" then [] else flat_map (fun a => find_fields (to_json a)) l.
Proof.
  cbn [to_json find_fields]. destruct (String.eqb n "@"); [reflexivity|]. rewrite app_nil_r. induction l as [|x l IH]; [reflexivity|]. cbn [map flat_map]. now rewrite IH.
Qed.
Lemma replace_call subs n l : replace subs (to_json (ACall n l)) = VDict [(n, VArr (map (fun a => replace subs (to_json a)) l))].
Proof. cbn [to_json replace]. do 4 f_equal. induction l as [|x l IH]; [reflexivity|]. cbn [map]. now rewrite IH. Qed.
Fixpoint all_some {A} (l : list (option A)) : option (list A) :=
  match l with [] => Some [] | Some x :: l' => match all_some l' with Some xs => Some (x :: xs) | None => None end | None :: _ => None end.
Lemma meaning_call V lit fn env k args : meaning V lit fn env (VDict [(k, VArr args)]) = option_map (fn k) (all_some (map (meaning V lit fn env) args)).
Proof.
  cbn [meaning].
  enough (E : (fix go (l : list val) := match l with [] => Some [] | x :: l' => match meaning V lit fn env x, go l' with Some v, Some vs => Some (v :: vs) | _, _ => None end end) args
              = all_some (map (meaning V lit fn env) args)) by (rewrite E; now destruct (all_some _)).
  induction args as [|x l IH]; [reflexivity|]. cbn [map all_some]. rewrite IH. now destruct (meaning V lit fn env x).
Qed.

(** *** findFields *)
Lemma fields_of a : plain a -> forall f, In f (find_fields (to_json a)) -> In f (variables a) \/ In f (texts a).
Proof.
  induction a as [n| |b|z|z|v|v|s|n l IH|j] using ast_ind2; intros Hp f Hf; try (cbn in *; tauto).
  rewrite find_fields_call in Hf. destruct (String.eqb n "@"); [easy|]. rewrite variables_call, texts_call. apply in_flat_map in Hf as (x & Hx & Hf).
  rewrite plain_call, Forall_forall in Hp. rewrite Forall_forall in IH. destruct (IH x Hx (Hp x Hx) f Hf) as [E|E]; [left|right]; apply in_flat_map; eauto.
Qed.
Lemma fields_of_conv a : supported a -> forall f, In f (variables a) \/ In f (texts a) -> In f (find_fields (to_json a)).
Proof.
  induction a as [n| |b|z|z|v|v|s|n l IH|j] using ast_ind2; intros Hp f Hf; try (cbn in *; tauto).
  rewrite find_fields_call. rewrite supported_call, Forall_forall in Hp. destruct Hp as [Hn Hp]. destruct (String.eqb_spec n "@") as [->|_].
  { destruct Hn as [Hn|[Hn _]]; cbn in Hn; repeat (destruct Hn as [Hn|Hn]; [discriminate|]); destruct Hn. }
  rewrite variables_call, texts_call, !in_flat_map in Hf. rewrite Forall_forall in IH. apply in_flat_map.
  destruct Hf as [(x & Hx & Hf)|(x & Hx & Hf)]; exists x; split; auto.
Qed.
Lemma supported_plain a : supported a -> plain a.
Proof.
  induction a as [n| |b|z|z|v|v|s|n l IH|j] using ast_ind2; intros H; try exact I; try destruct H. 
  rewrite plain_call. assert (S := proj2 (proj1 (supported_call n l) (conj H H0))). rewrite Forall_forall in *. auto.
Qed.

(** *** replace *)
Section Replace.
  Variable V : Type.
  Variable lit : val -> V.
  Variable fn : string -> list V -> V.
  Notation meaning := (meaning V lit fn).
  Definition updated (subs : list (string * val)) (env : string -> option V) (s : string) : option V :=
    match assoc s subs with Some j => meaning env j | None => env s end.
  Lemma replace_meaning subs env a : plain a -> (forall s, In s (texts a) -> assoc s subs = None) ->
    meaning env (replace subs (to_json a)) = meaning (updated subs env) (to_json a).
  Proof.
    induction a as [n| |b|z|z|v|v|s|n l IH|j] using ast_ind2; intros Hp Ht; try reflexivity.
    - cbn [to_json replace TransSpec.meaning]. unfold updated. now destruct (assoc n subs).
    - cbn [to_json replace]. now rewrite (Ht s (or_introl eq_refl)).
    - rewrite replace_call. cbn [to_json]. rewrite !meaning_call, !map_map. do 2 f_equal. apply map_ext_in. intros x Hx.
      rewrite plain_call, Forall_forall in Hp. rewrite Forall_forall in IH. apply IH; auto. intros s Hs. apply Ht. rewrite texts_call. apply in_flat_map. eauto.
    - destruct Hp.
  Qed.
  Lemma meaning_ext env env' a : plain a -> (forall s, In s (variables a) -> env s = env' s) -> meaning env (to_json a) = meaning env' (to_json a).
  Proof.
    induction a as [n| |b|z|z|v|v|s|n l IH|j] using ast_ind2; intros Hp Hv; try reflexivity.
    - cbn. apply Hv. now left.
    - cbn [to_json]. rewrite !meaning_call, !map_map. do 2 f_equal. apply map_ext_in. intros x Hx.
      rewrite plain_call, Forall_forall in Hp. rewrite Forall_forall in IH. apply IH; auto. intros s Hs. apply Hv. rewrite variables_call. apply in_flat_map. eauto.
    - destruct Hp.
  Qed.
End Replace.
Lemma replace_id subs a : plain a -> (forall s, In s (variables a) \/ In s (texts a) -> assoc s subs = None) -> replace subs (to_json a) = to_json a.
Proof.
  induction a as [n| |b|z|z|v|v|s|n l IH|j] using ast_ind2; intros Hp Ht; try reflexivity.
  - cbn. now rewrite (Ht n (or_introl (or_introl eq_refl))).
  - cbn. now rewrite (Ht s (or_intror (or_introl eq_refl))).
  - rewrite replace_call. cbn [to_json]. do 4 f_equal. apply map_ext_in. intros x Hx.
    rewrite plain_call, Forall_forall in Hp. rewrite Forall_forall in IH. apply IH; auto. intros s Hs. apply Ht. rewrite variables_call, texts_call, !in_flat_map. destruct Hs; [left|right]; eauto.
  - destruct Hp.
Qed.

(** *** toNumpyExpr *)
Lemma to_numpy_call n l : to_numpy (ACall n l) =
  match assoc n constants, l with
  | Some c, [] => Ok (NCall c [])
  | _, _ => match assoc n functions with Some f => es <- rmapM to_numpy l ;; Ok (NCall f es) | None => Raise (PyErr "ValueError") end
  end.
Proof.
  cbn [to_numpy].
  enough (E : (fix go (l0 : list ast) := match l0 with [] => Ok [] | x :: l' => y <- to_numpy x ;; ys <- go l' ;; Ok (y :: ys) end) l = rmapM to_numpy l) by (rewrite E; reflexivity).
  induction l as [|x l IH]; [reflexivity|]. cbn [rmapM]. now rewrite IH.
Qed.
Lemma assoc_some_in {A} k (d : list (string * A)) : In k (map fst d) -> exists v, assoc k d = Some v.
Proof. intros H. destruct (assoc k d) as [v|] eqn:E; [eauto|]. apply assoc_None in E. now destruct E. Qed.
Lemma rmapM_all {A B} (f : A -> res B) l : Forall (fun x => exists y, f x = Ok y) l -> exists ys, rmapM f l = Ok ys.
Proof. induction 1 as [|x l [y E] _ [ys IH]]; [now exists []|]. exists (y :: ys). cbn [rmapM]. now rewrite E, IH. Qed.
Lemma to_numpy_ok a : (exists e, to_numpy a = Ok e) <-> supported a.
Proof.
  induction a as [n| |b|z|z|v|v|s|n l IH|j] using ast_ind2; try (split; [intros _; exact I|intros _; eexists; reflexivity]); try (split; [intros [e E]; discriminate E|intros []]).
  rewrite supported_call, to_numpy_call. split.
  - intros [e E]. destruct (assoc n constants) as [c|] eqn:Ec.
    + destruct l as [|x l].
      * split; [|constructor]. right. split; [|reflexivity]. apply assoc_In in Ec. cbn in Ec. cbn. intuition congruence.
      * apply assoc_In in Ec. cbn in Ec. destruct Ec as [Ec|[Ec|[]]]; injection Ec as <- <-; discriminate E.
    + destruct (assoc n functions) as [f|] eqn:Ef; [|discriminate E]. split; [left; apply assoc_In in Ef; apply in_map_iff; now exists (n, f)|].
      destruct (rmapM to_numpy l) as [es|] eqn:El; [|discriminate E]. apply rmapM_ok_Forall2 in El. clear - El IH. induction El as [|x y l es E _ IHl]; constructor; inversion IH; subst; eauto. apply H1. eauto.
  - intros [Hn Hl]. destruct Hn as [Hn|[Hn ->]].
    + destruct (assoc_some_in _ _ Hn) as [f Ef]. rewrite Ef.
      destruct (rmapM_all to_numpy l) as [es Es]; [rewrite Forall_forall in *; intros x Hx; apply IH; auto|]. rewrite Es. cbn [rbind].
      destruct (assoc n constants) as [c|]; [destruct l|]; eauto.
    + cbn in Hn. destruct Hn as [<-|[<-|[]]]; cbn; eauto.
Qed.
