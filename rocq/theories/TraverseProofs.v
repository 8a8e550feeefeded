(** Proofs for C36, C37 and C44: traversals, the static call graph and the deadlock check. *)
From Verif Require Import Base ScopeModel CoreModel EngineModel CallGraphModel CallGraphSpec CallGraphProofs CoreInd CoreFlow StaticModel TraverseModel TraverseSpec.
Open Scope string_scope.
Open Scope list_scope.

(** * inside *)
Lemma inside_trans a b c : inside a b -> inside b c -> inside a c.
Proof. induction 1; auto. intros. eapply in_part; eauto. Qed.
Lemma part_inside n p : In p (parts n) -> inside n p.
Proof. intros H. eapply in_part; [exact H|constructor]. Qed.
Lemma inside_inv n m : inside n m -> m = n \/ exists p, In p (parts n) /\ inside p m.
Proof. intros H. inversion H; subst; eauto. Qed.
Lemma everywhere_here P n : everywhere P n -> P n.
Proof. intros H. apply H. constructor. Qed.
Lemma everywhere_part P n p : In p (parts n) -> everywhere P n -> everywhere P p.
Proof. intros I H m M. apply H. eapply in_part; eauto. Qed.
Lemma everywhere_inside P n p : inside n p -> everywhere P n -> everywhere P p.
Proof. intros I H m M. apply H. eapply inside_trans; eauto. Qed.
Lemma everywhere_intro (P : node -> Prop) n : P n -> (forall p, In p (parts n) -> everywhere P p) -> everywhere P n.
Proof. intros H F m M. apply inside_inv in M. destruct M as [->|(p & I & M)]; [exact H|]. now apply (F p). Qed.
Lemma mentions_inside n m c : inside n m -> mentions m c -> mentions n c.
Proof. intros I (k & K & O). exists k. split; [eapply inside_trans; eauto|exact O]. Qed.
Lemma mentions_part n p c : In p (parts n) -> mentions p c -> mentions n c.
Proof. intros I. apply mentions_inside. now apply part_inside. Qed.
Lemma mentions_own n c : In c (own n) -> mentions n c.
Proof. intros O. exists n. split; [constructor|exact O]. Qed.

(** * collect *)
Definition collect_node (n : node) : list node := match n with NE e => collect e | NA a => collect_arg a end.
Lemma in_flat {A} (f : A -> list node) l x m : In x l -> In m (f x) -> In m (flat f l).
Proof. intros I M. unfold flat. apply in_concat. exists (f x). split; [now apply in_map|exact M]. Qed.
Lemma flat_in {A} (f : A -> list node) l m : In m (flat f l) -> exists x, In x l /\ In m (f x).
Proof. intros H. unfold flat in H. apply in_concat in H. destruct H as (y & Y & M). apply in_map_iff in Y. destruct Y as (x & <- & I). eauto. Qed.
Ltac split_in I :=
  repeat match type of I with
  | In _ (_ ++ _) => apply in_app_or in I; destruct I as [I|I]
  | In _ (_ :: _) => destruct I as [<-|I]
  | In _ [] => destruct I
  | In _ (map _ _) => let x := fresh "x" in apply in_map_iff in I; destruct I as (x & <- & I)
  | In _ (flat_map _ _) => let x := fresh "x" in let J := fresh "J" in apply in_flat_map in I; destruct I as (x & J & I)
  | In _ (opt_list ?o) => destruct o; cbn [opt_list] in I
  end.
Ltac find_in :=
  match goal with
  | |- In _ (_ ++ _) => apply in_or_app; first [left; find_in | right; find_in]
  | |- In _ (_ :: _) => first [left; reflexivity | right; find_in]
  | H : In ?x ?l, M : In ?m _ |- In ?m (flat _ ?l) => apply (in_flat _ _ x); [exact H|cbn beta; find_in]
  | M : In ?m ?l |- In ?m ?l' => exact M
  end.
Lemma collect_parts n p m : In p (parts n) -> In m (collect_node p) -> In m (collect_node n).
Proof.
  intros I M. destruct n as [e|a]; [destruct e|destruct a]; cbn [parts] in I; split_in I; cbn [collect_node] in *; cbn [collect collect_arg]; try (cbn [opt_list] in *; contradiction); find_in.
Qed.
Lemma collect_self n : is_ast n -> In n (collect_node n).
Proof. destruct n as [e|[]]; intros H; try contradiction; cbn [collect_node collect_arg]; try (now left). destruct e; now left. Qed.
Lemma collect_inside n m : inside n m -> is_ast m -> In m (collect_node n).
Proof. intros H A. induction H; [now apply collect_self|]. eapply collect_parts; eauto. Qed.
(** conversely *)
Definition clause_of (n m : node) : Prop := exists its el it, n = NE (ECond its el) /\ In it its /\ m = NE (EIf (fst it) (snd it) None).
Ltac part_in :=
  match goal with
  | |- In _ (_ ++ _) => apply in_or_app; first [left; part_in | right; part_in]
  | |- In _ (_ :: _) => first [left; reflexivity | right; part_in]
  | |- In _ (map _ _) => apply in_map_iff; eexists; split; [reflexivity|eassumption]
  | |- In _ (flat_map _ _) => apply in_flat_map; eexists; split; [eassumption|part_in]
  end.
Lemma collect_only n : forall m, In m (collect_node n) -> inside n m \/ exists k, inside n k /\ clause_of k m.
Proof.
  induction n as [n IH] using node_induction. intros m M.
  assert (P : forall p, In p (parts n) -> In m (collect_node p) -> inside n m \/ exists k, inside n k /\ clause_of k m).
  { intros p I K. rewrite Forall_forall in IH. destruct (IH p I m K) as [H|(k & H & C)]; [left; eapply in_part; eauto|right; exists k; split; [eapply in_part; eauto|exact C]]. }
  destruct n as [e|a]; [destruct e|destruct a]; cbn [collect_node collect collect_arg] in M; cbn [parts] in P.
  all: repeat match type of M with
        | In _ (_ ++ _) => apply in_app_or in M; destruct M as [M|M]
        | In _ (NE (EIf (fst ?x) _ _) :: _) => destruct M as [<-|M]; [right; eexists; split; [constructor|do 3 eexists; split; [reflexivity|split; [eassumption|reflexivity]]]|]
        | In _ (_ :: _) => destruct M as [<-|M]; [left; constructor|]
        | In _ [] => destruct M
        | In _ (match ?o with Some _ => _ | None => _ end) => destruct o
        | In _ (flat _ _) => let x := fresh "x" in let J := fresh "J" in apply flat_in in M; destruct M as (x & J & M); cbn beta in M
        end.
  all: match type of M with
    | In _ (collect ?e) => apply (P (NE e)); [|exact M]
    | In _ (collect_arg ?a) => apply (P (NA a)); [|exact M]
    end.
  all: cbn [opt_list]; part_in.
Qed.

(** * The static call graph *)
Definition node_calls (n : node) : list string := match n with NE e => calls e | NA a => arg_calls a end.
Lemma in_all_calls {A} (f : A -> list string) l x m : In x l -> In m (f x) -> In m (all_calls f l).
Proof. intros I M. unfold all_calls. apply in_concat. exists (f x). split; [now apply in_map|exact M]. Qed.
Ltac find_call :=
  match goal with
  | |- In _ (_ ++ _) => apply in_or_app; first [left; find_call | right; find_call]
  | |- In _ (_ :: _) => first [left; reflexivity | right; find_call]
  | H : In ?x ?l, M : In ?m _ |- In ?m (all_calls _ ?l) => apply (in_all_calls _ _ x); [exact H|cbn beta; find_call]
  | M : In ?m ?l |- In ?m ?l' => exact M
  end.
Lemma calls_parts n p c : In p (parts n) -> ~ In p (forgotten n) -> In c (node_calls p) -> In c (node_calls n).
Proof.
  intros I F M. destruct n as [e|a]; [destruct e|destruct a]; cbn [parts] in I; split_in I; cbn [node_calls] in *; cbn [calls arg_calls forgotten] in *;
    try (exfalso; apply F; now left); try (cbn [opt_list] in *; contradiction); find_call.
Qed.
Lemma calls_own n c : In c (own n) -> In c (node_calls n).
Proof.
  intros I. destruct n as [e|a]; [destruct e|destruct a]; cbn [own] in I; try contradiction; cbn [node_calls calls arg_calls]; split_in I; try (now left); try contradiction.
  apply in_or_app. left. now apply in_map.
Qed.
Lemma mentions_calls n c : nothing_forgotten n -> mentions n c -> In c (node_calls n).
Proof.
  intros N (m & I & O). induction I as [n|n p m J I IH]; [now apply calls_own|].
  apply (calls_parts n p); [exact J| |apply IH; [now apply (everywhere_part _ n)|exact O]].
  intros F. apply (N n (in_self n) p c F). exists m. auto.
Qed.
Lemma body_mentions body e c : In e body -> nothing_forgotten (NE e) -> mentions (NE e) c -> In c (body_calls body).
Proof. intros I N M. unfold body_calls. apply (in_all_calls _ _ e); [exact I|]. exact (mentions_calls _ _ N M). Qed.

(** * Relations kept by evaluation *)
Definition rel (R : st -> st -> Prop) (nb : Prop) {A} (m : EM A) : Prop :=
  forall s, match m s with Done _ s' => R s s' | Blocked => nb | OutOfFuel => True end.
Section Rel.
  Variable E : env.
  Variable R : st -> st -> Prop.
  Variable nb : Prop.
  Variable Okn : node -> Prop.
  Variable Okf : string -> Prop.
  Hypothesis R_same : forall s s', s_cells s' = s_cells s -> s_pools s' = s_pools s -> s_trace s' = s_trace s -> R s s'.
  Hypothesis R_trans : forall a b c, R a b -> R b c -> R a c.
  Hypothesis R_trace : forall f s, Okf f -> R s (add_trace f s).
  Notation J := (fun A m => @rel R nb A m).
  Lemma rel_bind A B (m : EM A) (k : A -> EM B) : rel R nb m -> (forall a, rel R nb (k a)) -> rel R nb (bind m k).
  Proof.
    intros M K s. unfold bind. specialize (M s). destruct (m s) as [[a|e] s1| |]; try exact M; auto.
    specialize (K a s1). destruct (k a s1); auto. eapply R_trans; eauto.
  Qed.
  Lemma rel_try A B (m : EM A) (k : res A -> EM B) : rel R nb m -> (forall a, rel R nb (k a)) -> rel R nb (bind (attempt m) k).
  Proof.
    intros M K s. unfold bind, attempt. specialize (M s). destruct (m s) as [r s1| |]; try exact M; auto.
    specialize (K r s1). destruct (k r s1); auto. eapply R_trans; eauto.
  Qed.
  Lemma rel_same A (m : EM A) : (forall s, match m s with Done _ s' => s_cells s' = s_cells s /\ s_pools s' = s_pools s /\ s_trace s' = s_trace s | Blocked => False | OutOfFuel => True end) -> rel R nb m.
  Proof. intros H s. specialize (H s). destruct (m s); auto; [|contradiction]. apply R_same; apply H. Qed.
  Lemma rel_frames A fs (m : EM A) : rel R nb m -> rel R nb (in_frames fs m).
  Proof.
    intros M s. unfold in_frames. specialize (M (set_scopes (fs ++ s_scopes s) s)). destruct (m _) as [r s1| |]; auto.
    eapply R_trans; [|eapply R_trans; [exact M|]]; apply R_same; reflexivity.
  Qed.
  Lemma rel_root A fs (m : EM A) : rel R nb m -> rel R nb (in_root fs m).
  Proof.
    intros M s. unfold in_root. specialize (M (set_scopes fs s)). destruct (m _) as [r s1| |]; auto.
    eapply R_trans; [|eapply R_trans; [exact M|]]; apply R_same; reflexivity.
  Qed.
  Lemma rel_handle flt e : rel R nb (handle E flt e).
  Proof. apply rel_same. intros s. unfold handle. destruct flt; [destruct (in_filter _ _ _) as [[]|]|]; cbn; auto. Qed.
  Hypothesis J_cell : forall n c path to t ks, Okn (NE (ECellTo c path to)) -> from to t -> (forall vs, rel R nb (apply E n to vs)) ->
    rel R nb (_ <== modify (add_trace "cell-to") ;; cell_update c (fun old => update_path (update_leaf E (apply E n) t) old ks 2006 2007)).
  Hypothesis J_pool : forall n p path to init t h tail i, Okn (NE (EPoolTo p path to init)) -> from to t -> (forall vs, rel R nb (apply E n to vs)) ->
    rel R nb (pool_update p h (fun old => update_path (update_leaf E (apply E n) t) old tail 2010 2011) i).
  Hypothesis J_pool_trace : forall p path to init, Okn (NE (EPoolTo p path to init)) -> Okf "pool-to".
  Hypothesis J_del : forall p e h, Okn (NE (EPoolDel p e)) -> rel R nb (upd_pool p (fun x => pool_put (dict_del h (p_value x)) x)).
  Hypothesis J_del_trace : forall p e, Okn (NE (EPoolDel p e)) -> Okf "pool-del".
  Hypothesis Ok_parts : forall n, Okn n -> Forall Okn (parts n).
  Hypothesis Ok_call : forall f args, Okn (NE (ECall f args)) -> Okf f.
  Hypothesis Ok_ref : forall f, Okn (NA (ARef f)) -> Okf f.
  Hypothesis Ok_fill : forall f fills, Okn (NA (AFill f fills)) -> Okf f.
  Hypothesis Ok_user : forall nm ch args, Okn (NE (ECallUser nm ch args)) -> names_one_of E nm ch /\ forall x, In x ch -> Okf ("u." ++ x)%string.
  Hypothesis Ok_body : forall f ps body, Okf f -> assoc f (e_fcns E) = Some (ps, body) -> Forall (fun e => Okn (NE e)) body.

  Theorem rel_flow n : (forall e, Okn (NE e) -> rel R nb (eval E n e)) /\ (forall a vs, Okn (NA a) -> rel R nb (apply E n a vs)).
  Proof.
    apply (flow_eval E J J Okn Okf false); auto.
    - intros A f. apply rel_same. intros s. auto.
    - intros A. apply rel_same. intros s. exact I.
    - intros A B m k M K s. unfold bind. specialize (M s). destruct (m s) as [[a|e] s1| |] eqn:Em; try exact M; auto.
      assert (Ma : may m a) by (exists s, s1; exact Em). specialize (K a Ma s1). destruct (k a s1); auto. eapply R_trans; eauto.
    - intros A B m k M K Kx. apply rel_try; [exact M|]. intros [a|e]; auto.
    - intros A e. apply rel_same. intros s. cbn. auto.
    - intros A fs m. apply rel_frames.
    - intros A fs m. apply rel_root.
    - intros c. apply rel_same. intros s. unfold get_cell. destruct (assoc _ _); auto.
    - intros c. apply rel_same. intros s. unfold get_pool. destruct (assoc _ _); auto.
    - intros bs. apply rel_same. intros s. cbn. auto.
    - intros bs. apply rel_same. intros s. unfold set_vars_m. destruct (set_vars _ _). cbn. auto.
    - intros l. apply rel_same. intros s. cbn. auto.
    - intros v. apply rel_same. intros s. cbn. auto.
    - apply rel_same. intros s. unfold check_time. destruct (s_timeout s); auto. destruct (_ <=? _)%Z; auto. cbn zeta. destruct (_ <? _)%Z; auto.
    - apply rel_same. intros s. cbn. auto.
    - intros f F s. cbn. auto.
    - intros k es flt _ H. apply rel_try; [exact H|]. intros [v|e]; [apply rel_same; intros s; cbn; auto|apply rel_handle].
    - intros p path to init H s. cbn. apply R_trace. eauto.
    - intros p e H s. cbn. apply R_trace. eauto.
    - discriminate.
    - discriminate.
    - discriminate.
  Qed.
  Lemma rel_exec n es : (forall e, In e es -> Okn (NE e)) -> rel R nb (exec E n es).
  Proof.
    intros H. unfold exec, run. apply rel_bind; [|intros; apply rel_same; intros s; cbn; auto].
    induction es as [|e es IH]; cbn [mapE]; [apply rel_same; intros s; cbn; auto|].
    apply rel_bind; [apply rel_flow; apply H; now left|]. intros v. apply rel_bind; [apply IH; intros; apply H; now right|].
    intros; apply rel_same; intros s; cbn; auto.
  Qed.
  Lemma rel_update_path leaf a m : (forall v, rel R nb (leaf v)) -> forall path obj, rel R nb (update_path leaf obj path a m).
  Proof.
    intros L. assert (RR : forall A (r : res A), rel R nb (fun s => Done r s)) by (intros; apply rel_same; auto).
    induction path as [|k path IH]; intros obj; [apply L|]. cbn [update_path].
    destruct obj; try apply RR; destruct k; try apply RR; try (destruct path; apply RR).
    - cbn zeta. destruct (_ || _)%bool; [apply RR|]. destruct (_ <=? _)%Z; [apply RR|]. apply rel_bind; [apply IH|]. intros; apply RR.
    - destruct (assoc _ _) as [v|]; [apply rel_bind; [apply IH|]; intros; apply RR|]. destruct path; apply RR.
  Qed.
  Lemma rel_leaf n to t : (forall vs, rel R nb (apply E n to vs)) -> from to t -> forall old, rel R nb (update_leaf E (apply E n) t old).
  Proof.
    intros H F old. assert (RR : forall A (r : res A), rel R nb (fun s => Done r s)) by (intros; apply rel_same; auto).
    destruct to; cbn [from] in F; [destruct F as [v ->]; apply RR|subst t; cbn [update_leaf]..]; auto.
    destruct (assoc _ _); [auto|apply RR].
  Qed.
End Rel.

(** * The names called at run time *)
Definition grows (P : string -> Prop) (s s' : st) : Prop := exists l, s_trace s' = l ++ s_trace s /\ Forall P l.
(** "call" gets a name of its enum *)
Definition enum_names (E : env) : node -> Prop := everywhere (fun m => match m with NE (ECallUser nm choices _) => names_one_of E nm choices | _ => True end).
Section Trace.
  Variable E : env.
  Variable P : string -> Prop.
  Hypothesis P_body : forall f ps body e c, P f -> assoc f (e_fcns E) = Some (ps, body) -> In e body -> mentions (NE e) c -> P c.
  Hypothesis N_body : forall f ps body e, assoc f (e_fcns E) = Some (ps, body) -> In e body -> enum_names E (NE e).
  Definition only (n : node) : Prop := enum_names E n /\ forall c, mentions n c -> P c.
  Lemma grows_same s s' : s_trace s' = s_trace s -> grows P s s'.
  Proof. intros H. exists []. split; [exact H|constructor]. Qed.
  Lemma grows_trans a b c : grows P a b -> grows P b c -> grows P a c.
  Proof. intros (l & L & F) (l' & L' & F'). exists (l' ++ l). rewrite L', L, app_assoc. split; [reflexivity|now apply Forall_app]. Qed.
  Lemma only_parts n : only n -> Forall only (parts n).
  Proof. intros [A B]. apply Forall_forall. intros p I. split; [now apply (everywhere_part _ n)|]. intros c M. apply B. eapply mentions_part; eauto. Qed.
  Notation J := (rel (grows P) True).
  Lemma g_same A (m : EM A) : (forall s, match m s with Done _ s' => s_trace s' = s_trace s | _ => True end) -> J m.
  Proof. intros H s. specialize (H s). destruct (m s); auto. now apply grows_same. Qed.
  Lemma g_bind A B (m : EM A) (k : A -> EM B) : J m -> (forall a, J (k a)) -> J (bind m k).
  Proof. apply rel_bind. apply grows_trans. Qed.
  Lemma g_get_cell c : J (get_cell c). Proof. apply g_same. intros s. unfold get_cell. now destruct (assoc _ _). Qed.
  Lemma g_get_pool c : J (get_pool c). Proof. apply g_same. intros s. unfold get_pool. now destruct (assoc _ _). Qed.
  Lemma g_upd_cell c f : J (upd_cell c f). Proof. apply g_same. intros s. unfold upd_cell. now destruct (assoc _ _). Qed.
  Lemma g_upd_pool c f : J (upd_pool c f). Proof. apply g_same. intros s. unfold upd_pool. now destruct (assoc _ _). Qed.
  Lemma g_ret A (a : A) : J (ret a). Proof. apply g_same. reflexivity. Qed.
  Lemma g_trace f : P f -> J (modify (add_trace f)).
  Proof. intros F s. cbn. exists [f]. split; [reflexivity|]. constructor; [exact F|constructor]. Qed.
  Theorem trace_flow n : (forall e, only (NE e) -> J (eval E n e)) /\ (forall a vs, only (NA a) -> J (apply E n a vs)).
  Proof.
    assert (S : forall s s', s_cells s' = s_cells s -> s_pools s' = s_pools s -> s_trace s' = s_trace s -> grows P s s') by (intros; now apply grows_same).
    assert (M : forall n c, In c (own n) -> only n -> P c) by (intros k c I [_ H]; apply H, mentions_own, I).
    apply (rel_flow E (grows P) True only P); auto using only_parts; [exact grows_trans|..].
    - intros f s F. exists [f]. split; [reflexivity|]. constructor; [exact F|constructor].
    - intros k c path to t ks H F A. apply g_bind; [apply g_trace; apply (M (NE (ECellTo c path to))); [now left|exact H]|]. intros _. unfold cell_update.
      assert (U : forall v, J (update_path (update_leaf E (apply E k) t) v ks 2006 2007)).
      { intros v. apply rel_update_path; [exact S|exact grows_trans|]. intros. apply (rel_leaf E (grows P) True S k to); auto. }
      apply g_bind; [apply g_get_cell|]. intros x. destruct (c_shared x); [destruct (c_locked x); [intros s; exact I|]|]; repeat first [apply g_bind; intros | apply g_upd_cell | apply U | apply g_ret].
    - intros k p path to init t h tail i H F A. unfold pool_update, pool_update_body.
      assert (U : forall v, J (update_path (update_leaf E (apply E k) t) v tail 2010 2011)).
      { intros v. apply rel_update_path; [exact S|exact grows_trans|]. intros. apply (rel_leaf E (grows P) True S k to); auto. }
      apply g_bind; [apply g_get_pool|]. intros x. destruct (p_shared x); [destruct (p_locklock x); [intros s; exact I|]; destruct (existsb _ _); [intros s; exact I|]|];
        repeat first [apply g_bind; intros | apply g_upd_pool | apply g_get_pool | apply U | apply g_ret | match goal with |- J (if ?b then _ else _) => destruct b end].
    - intros p path to init H. apply (M (NE (EPoolTo p path to init))); [now left|exact H].
    - intros. apply g_upd_pool.
    - intros p e H. apply (M (NE (EPoolDel p e))); [now left|exact H].
    - intros f args H. apply (M (NE (ECall f args))); [now left|exact H].
    - intros f H. apply (M (NA (ARef f))); [now left|exact H].
    - intros f fills H. apply (M (NA (AFill f fills))); [now left|exact H].
    - intros nm ch args H. split; [exact (everywhere_here _ _ (proj1 H))|]. intros x I. apply (M (NE (ECallUser nm ch args))); [now apply (in_map (fun x => ("u." ++ x)%string))|exact H].
    - intros f ps body F A. apply Forall_forall. intros e I. split; [eapply N_body; eauto|]. intros c Mc. eapply P_body; eauto.
  Qed.
  Lemma trace_exec n es : (forall e, In e es -> only (NE e)) -> J (exec E n es).
  Proof.
    intros H. unfold exec, run. apply g_bind; [|intros; apply g_ret].
    induction es as [|e es IH]; cbn [mapE]; [apply g_ret|].
    apply g_bind; [apply trace_flow; apply H; now left|]. intros v. apply g_bind; [apply IH; intros; apply H; now right|].
    intros; apply g_ret.
  Qed.
End Trace.
