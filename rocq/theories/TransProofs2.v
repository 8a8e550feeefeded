(** The columns that a transformation computes. *)
From Verif Require Import Base PyNum ScopeModel TransModel TransSpec TransProofs.
Open Scope string_scope.
Open Scope list_scope.

Section Run.
  Variable V : Type.
  Variable lit : val -> V.
  Variable fn : string -> list V -> V.
  Variable numpy : string -> list V -> V.
  Hypothesis A : agree V fn numpy.
  Notation lita := (fun a => lit (to_json a)).
  Notation run := (run V lita numpy).
  Notation meaning := (meaning V lit fn).
  Definition env_row (env : list (string * list V)) (i : nat) (s : string) : option V := match assoc s env with Some l => nth_error l i | None => None end.
  Definition full (n : nat) (c : column V) : Prop := match c with Scalar _ => True | Column l => length l = n end.

  Lemma run_call n env f args : run n env (NCall f args) = if has_key (module_of f) env then Raise (PyErr "AttributeError") else cs <- rmapM (run n env) args ;; apply V numpy n f cs.
  Proof.
    cbn [TransModel.run]. destruct (has_key (module_of f) env); [reflexivity|].
    enough (E : (fix go (l : list nexpr) := match l with [] => Ok [] | x :: l' => y <- run n env x ;; ys <- go l' ;; Ok (y :: ys) end) args = rmapM (run n env) args) by (now rewrite E).
    induction args as [|x l IH]; [reflexivity|]. cbn [rmapM]. now rewrite IH.
  Qed.
  Lemma rows_all i cs : rows_of V i cs = all_some (map (at_row V i) cs).
  Proof. induction cs as [|c cs IH]; [reflexivity|]. cbn [rows_of map all_some]. rewrite IH. now destruct (at_row V i c). Qed.
  Lemma every_nth {B} (f : nat -> option B) l : forall s m, every f (seq s m) = Some l -> length l = m /\ forall i, (i < m)%nat -> nth_error l i = f (s + i)%nat.
  Proof.
    intros s m. revert s l. induction m as [|m IH]; intros s l H; cbn [seq every] in H.
    - injection H as <-. split; [reflexivity|intros i Hi; lia].
    - destruct (f s) as [y|] eqn:E; [|discriminate]. destruct (every f (seq (S s) m)) as [ys|] eqn:Es; [|discriminate]. injection H as <-. destruct (IH _ _ Es) as [L N]. split; [cbn; lia|].
      intros [|i] Hi; cbn; [now rewrite Nat.add_0_r|]. rewrite N by lia. f_equal. lia.
  Qed.
  Lemma every_all {B} (f : nat -> option B) m : forall s, (forall i, (s <= i < s + m)%nat -> exists y, f i = Some y) -> exists l, every f (seq s m) = Some l.
  Proof.
    induction m as [|m IH]; intros s H; cbn [seq every]; [now exists []|]. destruct (H s ltac:(lia)) as [y E]. rewrite E. destruct (IH (S s)) as [l El]; [intros i Hi; apply H; lia|]. rewrite El. eauto.
  Qed.
  Lemma rows_some n i cs : (i < n)%nat -> Forall (full n) cs -> exists vs, rows_of V i cs = Some vs.
  Proof.
    intros Hi. induction 1 as [|c cs Hc _ [vs IH]]; cbn [rows_of]; [eauto|]. rewrite IH. destruct c as [v|l]; cbn [at_row]; [eauto|]. cbn in Hc.
    destruct (nth_error l i) eqn:E; [eauto|]. apply nth_error_None in E. lia.
  Qed.
  Lemma rows_scalar i cs : forallb (is_scalar V) cs = true -> rows_of V i cs = rows_of V 0 cs /\ exists vs, rows_of V 0 cs = Some vs.
  Proof.
    induction cs as [|c cs IH]; cbn [forallb rows_of]; [eauto|]. intros H. apply andb_true_iff in H as [H1 H2]. destruct (IH H2) as [E [vs Evs]]. rewrite E, Evs. destruct c; [|discriminate]. cbn. eauto.
  Qed.
  Lemma apply_spec n f cs : Forall (full n) cs -> exists c, apply V numpy n f cs = Ok c /\ full n c /\ is_scalar V c = forallb (is_scalar V) cs /\
    forall i, (i < n)%nat -> at_row V i c = option_map (numpy f) (rows_of V i cs).
  Proof.
    intros F. unfold apply. destruct (forallb (is_scalar V) cs) eqn:Es.
    - destruct (rows_scalar 0 cs Es) as [_ [vs E]]. rewrite E. exists (Scalar (numpy f vs)). repeat split. intros i Hi. cbn. destruct (rows_scalar i cs Es) as [-> _]. now rewrite E.
    - destruct (every_all (fun i => match rows_of V i cs with Some vs => Some (numpy f vs) | None => None end) n 0) as [l El].
      { intros i Hi. destruct (rows_some n i cs ltac:(lia) F) as [vs ->]. eauto. }
      rewrite El. exists (Column l). apply every_nth in El as [L N]. repeat split; auto.
  Qed.
  Lemma run_meaning n env a e : (forall s l, assoc s env = Some l -> length l = n) -> to_numpy a = Ok e ->
    (forall s, In s (variables a) -> has_key s env = true) -> (calls a = true -> has_key "numpy" env = false /\ has_key "math" env = false) ->
    exists c, run n env e = Ok c /\ full n c /\ is_scalar V c = (match variables a with [] => true | _ => false end) /\
      forall i, (i < n)%nat -> at_row V i c = meaning (env_row env i) (to_json a).
  Proof.
    intros HL. revert e. induction a as [s| |b|z|z|v|v|s|m l IH|j] using ast_ind2; intros e He Hv Hc;
      try (injection He as <-; eexists; repeat split; reflexivity); try discriminate He.
    - injection He as <-. specialize (Hv s (or_introl eq_refl)). unfold has_key in Hv. destruct (assoc s env) as [col|] eqn:E; [|discriminate].
      exists (Column col). cbn. rewrite E. repeat split; [eapply HL; eauto|]. intros i Hi. unfold env_row. now rewrite E.
    - destruct (Hc eq_refl) as [Hn Hm]. rewrite to_numpy_call in He.
      assert (D : (exists c, assoc m constants = Some c /\ l = [] /\ e = NCall c []) \/ (exists f es, assoc m functions = Some f /\ rmapM to_numpy l = Ok es /\ e = NCall f es)).
      { assert (D2 : match assoc m functions with Some f => es <- rmapM to_numpy l ;; Ok (NCall f es) | None => Raise (PyErr "ValueError") end = Ok e ->
                     exists f es, assoc m functions = Some f /\ rmapM to_numpy l = Ok es /\ e = NCall f es).
        { destruct (assoc m functions) as [f|]; [|discriminate]. destruct (rmapM to_numpy l) as [es|]; [|discriminate]. intros H. injection H as <-. eauto 6. }
        destruct (assoc m constants) as [c|]; [destruct l as [|x l]|]; auto. injection He as <-. left. eauto 6. }
      clear He. destruct D as [(c & Ec & -> & ->)|(f & es & Ef & Es & ->)]; rewrite run_call.
      + assert (K : has_key (module_of c) env = false) by (unfold module_of; destruct (String.prefix "math." c); assumption). rewrite K. cbn [rmapM rbind].
        destruct (apply_spec n c [] (Forall_nil _)) as (k & -> & F & S & R). exists k. repeat split; auto. intros i Hi. rewrite (R i Hi). cbn. f_equal. apply (proj2 A). apply tables. now apply assoc_In.
      + assert (K : has_key (module_of f) env = false) by (unfold module_of; destruct (String.prefix "math." f); assumption). rewrite K.
        assert (B : exists cs, rmapM (run n env) es = Ok cs /\ Forall (full n) cs /\ forallb (is_scalar V) cs = (match flat_map variables l with [] => true | _ => false end) /\
          forall i, (i < n)%nat -> map (at_row V i) cs = map (fun a => meaning (env_row env i) (to_json a)) l).
        { rewrite variables_call in Hv. apply rmapM_ok_Forall2 in Es. clear - Es IH Hv Hn Hm.
          induction Es as [|x y l es E _ IHl]; [exists []; repeat split; constructor|]. inversion IH as [|? ? I1 I2]; subst. cbn [flat_map] in Hv.
          destruct IHl as (cs & C1 & C2 & C3 & C4); auto. { intros s Hs. apply Hv. apply in_or_app. auto. }
          destruct (I1 y E) as (c & D1 & D2 & D3 & D4); auto. { intros s Hs. apply Hv. apply in_or_app. auto. }
          exists (c :: cs). cbn [rmapM]. rewrite D1, C1. repeat split; auto.
          - cbn [forallb flat_map]. rewrite D3, C3. now destruct (variables x).
          - intros i Hi. cbn [map]. now rewrite D4, C4. }
        destruct B as (cs & -> & F & S & R). cbn [rbind]. destruct (apply_spec n f cs F) as (k & -> & Fk & Sk & Rk). exists k. rewrite variables_call. repeat split; auto; [now rewrite Sk|].
        intros i Hi. rewrite (Rk i Hi), rows_all, (R i Hi). cbn [to_json]. rewrite meaning_call, map_map.
        destruct (all_some _) as [vs|]; [|reflexivity]. cbn. f_equal. apply (proj1 A). apply tables. now apply assoc_In.
  Qed.
End Run.

(** *** __init__ *)
Lemma forall2_impl {A B} (P Q : A -> B -> Prop) : (forall a b, P a b -> Q a b) -> forall l l', Forall2 P l l' -> Forall2 Q l l'.
Proof. intros H. induction 1; constructor; auto. Qed.
Lemma insert_in s x l : In x (insert s l) <-> x = s \/ In x l.
Proof.
  induction l as [|y l IH]; cbn; [intuition|]. destruct (String.compare s y) eqn:E; cbn.
  - apply String.compare_eq_iff in E. subst. intuition.
  - intuition.
  - rewrite IH. intuition.
Qed.
Lemma sort_set_in x l : In x (sort_set l) <-> In x l.
Proof. induction l as [|y l IH]; cbn; [tauto|]. rewrite insert_in, IH. intuition. Qed.
Lemma lt_trans a b c : String.compare a b = Lt -> String.compare b c = Lt -> String.compare a c = Lt.
Proof.
  revert b c. induction a as [|x a IH]; intros [|y b] [|z c]; cbn; try discriminate; auto.
  unfold Ascii.compare.
  destruct (N.compare_spec (Ascii.N_of_ascii x) (Ascii.N_of_ascii y)) as [E1|E1|E1]; try discriminate;
  destruct (N.compare_spec (Ascii.N_of_ascii y) (Ascii.N_of_ascii z)) as [E2|E2|E2]; try discriminate; intros H1 H2;
  destruct (N.compare_spec (Ascii.N_of_ascii x) (Ascii.N_of_ascii z)) as [E3|E3|E3]; try reflexivity; try lia; eauto.
Qed.
Lemma insert_increasing s l : increasing l -> increasing (insert s l).
Proof.
  induction 1 as [|x l Hf Hs IH]; cbn; [repeat constructor|]. destruct (String.compare s x) eqn:E.
  - now constructor.
  - constructor; [|now constructor]. constructor; [exact E|]. rewrite Forall_forall in *. intros y Hy. eapply lt_trans; [exact E|auto].
  - constructor; auto. rewrite Forall_forall in *. intros y Hy. apply insert_in in Hy. destruct Hy as [->|Hy]; auto. rewrite String.compare_antisym, E. reflexivity.
Qed.
Lemma sort_set_increasing l : increasing (sort_set l).
Proof. induction l; cbn; [constructor|now apply insert_increasing]. Qed.

(** the expressions that a transformation is made of *)
Definition given (indexed : list ast) (named : list (string * ast)) : list (string * ast) :=
  fold_left (fun d kv => dict_set (fst kv) (snd kv) d) (combine (map index_name (seq 0 (length indexed))) indexed) named.
Lemma fold_set_in (ix named : list (string * ast)) k : In k (map fst (fold_left (fun d kv => dict_set (fst kv) (snd kv) d) ix named)) <-> In k (map fst ix) \/ In k (map fst named).
Proof.
  revert named. induction ix as [|[k' v] ix IH]; intros named; cbn [fold_left map In]; [tauto|]. rewrite IH. cbn [fst snd].
  pose proof (keys_set_in k' v named k) as E. unfold keys in E. rewrite E. intuition.
Qed.
Lemma fold_set_nodup (ix named : list (string * ast)) : NoDup (map fst named) -> NoDup (map fst (fold_left (fun d kv => dict_set (fst kv) (snd kv) d) ix named)).
Proof. revert named. induction ix as [|[k v] ix IH]; intros named H; cbn [fold_left]; auto. apply IH. now apply keys_set_NoDup. Qed.
Lemma fold_set_assoc (ix named : list (string * ast)) k : NoDup (map fst ix) ->
  assoc k (fold_left (fun d kv => dict_set (fst kv) (snd kv) d) ix named) = match assoc k ix with Some a => Some a | None => assoc k named end.
Proof.
  revert named. induction ix as [|[k' v] ix IH]; intros named H; cbn [fold_left assoc]; auto. cbn [map fst] in H. inversion H as [|? ? N1 N2]; subst. rewrite IH by auto. cbn [fst snd].
  destruct (String.eqb_spec k k') as [->|E].
  - assert (Z : assoc k' ix = None) by (now apply assoc_None). now rewrite Z, assoc_set_eq.
  - now rewrite assoc_set_neq.
Qed.

Lemma new_spec indexed named t : new_transformation indexed named = Ok t ->
  t_exprs t = given indexed named /\
  t_order t = map fst (combine (map index_name (seq 0 (length indexed))) indexed) ++ sort_set (map fst named) /\
  t_fields t = sort_set (flat_map (fun kv => find_fields (to_json (snd kv))) (t_exprs t)) /\
  Forall2 (fun ka kl => fst kl = fst ka /\ to_numpy (snd ka) = Ok (snd kl)) (t_exprs t) (t_lambdas t) /\ (t_exprs t <> [] -> forallb python_name (t_fields t) = true).
Proof.
  unfold new_transformation, given. set (ex := fold_left _ _ named). set (fl := sort_set (flat_map _ ex)). 
  destruct (rmapM _ ex) as [ls|] eqn:E; [|discriminate]. cbn [rbind]. intros H. injection H as <-. cbn [t_exprs t_order t_fields t_lambdas].
  apply rmapM_ok_Forall2 in E.
  assert (G : Forall2 (fun ka kl => (fst kl = fst ka /\ to_numpy (snd ka) = Ok (snd kl)) /\ forallb python_name fl = true) ex ls).
  { revert E. apply forall2_impl. intros [k a] [k' e]. cbn [fst snd]. destruct (to_numpy a); [|discriminate]. cbn [rbind]. destruct (forallb python_name fl); [|discriminate]. intros H. injection H as -> ->. auto. }
  repeat split; auto.
  - revert G. apply forall2_impl. tauto.
  - intros Hne. clear E. clearbody fl. destruct G as [|? ? ? ? [_ G] _]; [now destruct Hne|exact G].
Qed.
