(** Properties C44 (traversals reach every node) and C36 (the static call graph is complete). *)
From Coq Require Import Permutation.
From Verif Require Import Base ScopeModel CoreModel EngineModel CallGraphModel CallGraphSpec CallGraphProps CoreDemo CoreInd CoreFlow StaticModel StaticScope StaticProps TraverseModel TraverseSpec TraverseProofs.
Open Scope string_scope.
Open Scope list_scope.
Open Scope Z_scope.

(** * C44 *)
(** On an expression, collect visits every node in it, and nothing else (the clauses of "cond" count as "if" nodes). *)
Theorem C44_collect_expression : forall e m,
  (inside (NE e) m -> is_ast m -> In m (collect e))
  /\ (In m (collect e) -> inside (NE e) m \/ exists its el it, inside (NE e) (NE (ECond its el)) /\ In it its /\ m = NE (EIf (fst it) (snd it) None)).
Proof.
  intros e m. split; [apply (collect_inside (NE e))|]. intros H. destruct (collect_only (NE e) m H) as [K|(k & K & its & el & it & -> & I & ->)]; [now left|right; eauto 6].
Qed.
(** Nothing is visited twice: the visited nodes are a listing of the node, each of its parts and parts of parts
    once per occurrence (and the clauses of "cond" once each). *)
Definition itself (n : node) : list node := match n with NA (AExpr _) => [] | _ => [n] end.
Definition clauses (n : node) : list node :=
  match n with NE (ECond its _) => map (fun it => NE (EIf (fst it) (snd it) None)) its | _ => [] end.
Inductive listing : node -> list node -> Prop :=
| listing_parts n ls l : Forall2 listing (parts n) ls -> Permutation l (itself n ++ clauses n ++ concat ls) -> listing n l.
Lemma flat_eq (es : list expr) : flat collect es = concat (map collect_node (map NE es)).
Proof. unfold flat. now rewrite map_map. Qed.
Lemma flat_snd {K} (bs : list (K * expr)) : flat (fun b => collect (snd b)) bs = concat (map collect_node (map (fun b => NE (snd b)) bs)).
Proof. unfold flat. now rewrite map_map. Qed.
Lemma flat_args (es : list arg) : flat collect_arg es = concat (map collect_node (map NA es)).
Proof. unfold flat. now rewrite map_map. Qed.
Lemma flat_opt (o : option (list expr)) : match o with Some es => flat collect es | None => [] end = concat (map collect_node (map NE (opt_list o))).
Proof. destruct o; [apply flat_eq|reflexivity]. Qed.
Lemma collect_eq n : Permutation (collect_node n) (itself n ++ clauses n ++ concat (map collect_node (parts n))).
Proof.
  assert (E : (forall its el, n <> NE (ECond its el)) -> collect_node n = itself n ++ clauses n ++ concat (map collect_node (parts n))).
  { intros N. destruct n as [e|a]; [destruct e|destruct a]; try (exfalso; eapply N; reflexivity);
      cbn [collect_node collect collect_arg itself clauses parts app]; rewrite ?map_app, ?concat_app; cbn [map concat]; rewrite ?map_app, ?concat_app; cbn [map concat collect_node collect_arg]; rewrite ?app_nil_r, ?flat_opt, <- ?flat_eq, <- ?flat_snd, <- ?flat_args; try reflexivity.
    - clear N. f_equal. f_equal. unfold flat. rewrite flat_map_concat_map, concat_map, map_map. induction cases as [|c cs IH]; [reflexivity|]. cbn [map concat]. rewrite concat_app, <- IH. f_equal. now rewrite map_map.
    - unfold flat. now rewrite map_map. }
  destruct n as [e|a]; [|rewrite E; [reflexivity|discriminate]]. destruct e; try (rewrite E; [reflexivity|discriminate]). clear E.
  cbn [collect_node collect itself clauses parts app]. constructor. rewrite flat_opt, map_app, concat_app, app_assoc. apply Permutation_app_tail.
  induction its as [|[p t] its IH]; [reflexivity|]. unfold flat in *. cbn [map concat flat_map fst snd app]. constructor.
  rewrite map_app, concat_app. cbn [map concat]. rewrite <- !app_assoc. cbn [collect_node].
  rewrite (Permutation_app_comm (map (fun it => NE (EIf (fst it) (snd it) None)) its)), <- !app_assoc. apply Permutation_app_head.
  rewrite map_map. apply Permutation_app_head. rewrite Permutation_app_comm. rewrite IH. reflexivity.
Qed.
Theorem C44_collect_once : forall e, listing (NE e) (collect e).
Proof.
  intros e. change (collect e) with (collect_node (NE e)). generalize (NE e). clear e. intros n.
  induction n as [n IH] using node_induction. apply listing_parts with (ls := map collect_node (parts n)); [|apply collect_eq].
  induction IH as [|p ps Hp _ IHps]; cbn [map]; constructor; auto.
Qed.
(** On a document without a merge section, collect visits every node of the document. *)
Theorem C44_collect_partial : forall fcns D m, d_merge D = None -> in_doc fcns D m -> is_ast m -> In m (collect_doc fcns D).
Proof.
  intros fcns D m M (e & I & H) A. pose proof (collect_inside (NE e) m H A) as K. cbn [collect_node] in K.
  unfold doc_top in I. rewrite M in I. unfold collect_doc.
  repeat (apply in_app_or in I; destruct I as [I|I]); try contradiction.
  - apply in_or_app. left. eapply in_flat; eauto.
  - apply in_or_app. right. apply in_or_app. left. eapply in_flat; eauto.
  - do 2 (apply in_or_app; right). apply in_or_app. left. eapply in_flat; eauto.
  - do 3 (apply in_or_app; right). apply in_concat in I. destruct I as (body & B & I). apply in_map_iff in B. destruct B as (f & <- & B).
    eapply in_flat; [exact B|]. unfold collect_fcn. cbn [collect_arg]. right. eapply in_flat; eauto.
Qed.
Example C44_collect_example : let D := demo_doc MMap [ECond [(ERef "input", [int 1])] (Some [ECall "apply" [AFcn ["x"] [ERef "x"]; AExpr (ECellTo "k" [] (ARef "u.f"))]])] in
  d_merge D = None /\ in_doc [] D (NA (ARef "u.f")) /\ length (collect_doc [] D) = 9%nat.
Proof.
  cbn zeta. split; [reflexivity|]. split; [|reflexivity]. eexists. split; [left; reflexivity|].
  eapply in_part; [right; right; left; reflexivity|]. eapply in_part; [right; left; reflexivity|]. eapply in_part; [left; reflexivity|].
  eapply in_part; [left; reflexivity|]. constructor.
Qed.
(** With a merge section it does not: EngineConfig.collect leaves merge out. *)
Definition with_merge (D : doc) (es : list expr) : doc := {|
  d_method := MFold; d_begin := d_begin D; d_action := d_action D; d_end := d_end D; d_merge := Some es; d_zero := d_zero D;
  d_cells := d_cells D; d_pools := d_pools D; d_name := d_name D; d_instance := d_instance D; d_metadata := d_metadata D;
  d_version := d_version D; d_check := d_check D; d_options := d_options D |}.
Theorem C44_refuted : exists D m pe, in_doc [] D m /\ is_ast m /\ ~ In m (collect_doc [] D)
  /\ pe (ERef "tallyOne") = Some (ERef "tallyTwo") /\ d_merge (replace_doc pe (fun _ => None) D) = Some [ERef "tallyOne"].
Proof.
  exists (with_merge (demo_doc MFold [ERef "input"]) [ERef "tallyOne"]), (NE (ERef "tallyOne")).
  exists (fun e => match e with ERef "tallyOne" => Some (ERef "tallyTwo") | _ => None end). split; [|split; [exact I|split; [|split; reflexivity]]].
  - exists (ERef "tallyOne"). split; [right; left; reflexivity|constructor].
  - intros [H|[]]. discriminate.
Qed.

(** replace keeps a node at which the function is not defined, and goes on with each of its parts *)
Definition hole : expr := EDoc.
Definition blank (n : node) : node :=
  let hs {A} (l : list A) := map (fun _ => hole) l in
  let named {K A} (l : list (K * A)) := map (fun b => (fst b, hole)) l in
  let opt {A} (o : option (list A)) := option_map hs o in
  match n with
  | NE e => NE match e with
      | ELit _ _ | ERef _ | EDoc | EError _ _ => e
      | ECall f args => ECall f (map (fun _ => AExpr hole) args)
      | ECallUser _ ch args => ECallUser hole ch (hs args)
      | ENewObj fs => ENewObj (named fs)
      | ENewArr es => ENewArr (hs es)
      | EDo es => EDo (hs es)
      | ELet bs => ELet (named bs)
      | ESet bs => ESet (named bs)
      | EAttrGet _ path => EAttrGet hole (hs path)
      | EAttrTo _ path _ => EAttrTo hole (hs path) (AExpr hole)
      | ECellGet c path => ECellGet c (hs path)
      | ECellTo c path _ => ECellTo c (hs path) (AExpr hole)
      | EPoolGet p path => EPoolGet p (hs path)
      | EPoolTo p path _ _ => EPoolTo p (hs path) (AExpr hole) hole
      | EPoolDel p _ => EPoolDel p hole
      | EIf _ t el => EIf hole (hs t) (opt el)
      | ECond its el => ECond (map (fun it => (hole, hs (snd it))) its) (opt el)
      | EWhile _ body => EWhile hole (hs body)
      | EDoUntil body _ => EDoUntil (hs body) hole
      | EFor init _ upd body => EFor (named init) hole (named upd) (hs body)
      | EForeach x _ body q => EForeach x hole (hs body) q
      | EForkeyval k v _ body => EForkeyval k v hole (hs body)
      | ECast _ u cases part => ECast hole u (map (fun c => (fst c, hs (snd c))) cases) part
      | EUpcast _ w => EUpcast hole w
      | EIfNotNull bs t el => EIfNotNull (named bs) (hs t) (opt el)
      | EPack es => EPack (named es)
      | EUnpack _ fmt t el => EUnpack hole fmt (hs t) (opt el)
      | ETry es flt => ETry (hs es) flt
      | ELog es => ELog (hs es)
      end
  | NA a => NA match a with
      | AExpr _ => AExpr hole
      | AFcn ps body => AFcn ps (hs body)
      | ARef f => ARef f
      | AFill f fills => AFill f (map (fun b => (fst b, AExpr hole)) fills)
      end
  end.
Section Replace.
  Variable pe : expr -> option expr.
  Variable pa : arg -> option arg.
  Definition replace_node (n : node) : node := match n with NE e => NE (replace pe pa e) | NA a => NA (replace_arg pe pa a) end.
  Definition defined_at (n : node) : option node :=
    match n with NE e => option_map NE (pe e) | NA (AExpr _) => None | NA a => option_map NA (pa a) end.
  (** [blank] forgets the parts: the node itself is unchanged *)
  Theorem C44_replace : forall n,
    (forall n', defined_at n = Some n' -> replace_node n = n')
    /\ (defined_at n = None -> blank (replace_node n) = blank n /\ parts (replace_node n) = map replace_node (parts n)).
  Proof.
    intros n. split.
    - intros n' H. destruct n as [e|a]; cbn [defined_at replace_node] in *.
      + destruct (pe e) as [e'|] eqn:P; [injection H as <-|discriminate]. destruct e; cbn [replace]; now rewrite P.
      + destruct a; try discriminate; (destruct (pa _) as [a'|] eqn:P; [injection H as <-|discriminate]); cbn [replace_arg]; now rewrite P.
    - intros H. assert (X : forall e, pe e = None -> n = NE e -> blank (replace_node n) = blank n /\ parts (replace_node n) = map replace_node (parts n)).
      { intros e P ->. clear H. destruct e; cbn [replace_node replace]; rewrite P; cbn [blank parts map replace_node].
        all: split; [|rewrite ?map_app; cbn [map replace_node]; rewrite ?map_app, ?map_map; cbn [map replace_node snd on_snd]; try reflexivity].
        all: try (rewrite ?map_map; reflexivity).
        all: try (repeat match goal with o : option (list expr) |- _ => destruct o end; cbn [option_map opt_list map]; rewrite ?map_map; reflexivity).
        - f_equal. f_equal; [rewrite map_map; apply map_ext; intros [p t]; cbn; now rewrite map_map|]. repeat match goal with o : option (list expr) |- _ => destruct o end; cbn; [now rewrite map_map|reflexivity].
        - clear P. f_equal; [|repeat match goal with o : option (list expr) |- _ => destruct o end; cbn; [now rewrite !map_map|reflexivity]].
          induction its as [|[p t] its IH]; [reflexivity|]. cbn [map flat_map fst snd]. rewrite map_app, <- IH. cbn [map]. now rewrite !map_map.
        - f_equal. f_equal. rewrite map_map. apply map_ext. intros [[x y] t]. cbn. now rewrite map_map.
        - clear P. f_equal. induction cases as [|[c t] its IH]; [reflexivity|]. cbn [map flat_map fst snd]. rewrite map_app, <- IH. cbn [map]. now rewrite !map_map. }
      destruct n as [e|a]; [apply (X e); [|reflexivity]; cbn in H; destruct (pe e); [discriminate|reflexivity]|].
      destruct a; cbn [replace_node replace_arg defined_at] in *; try (split; reflexivity).
      all: destruct (pa _); [discriminate|]; cbn [blank parts map]; rewrite ?map_map; split; reflexivity.
  Qed.
End Replace.
(** nothing changes where the function is defined nowhere *)
Theorem C44_replace_nowhere : forall pe pa, (forall e, pe e = None) -> (forall a, pa a = None) -> forall e, replace pe pa e = e.
Proof.
  intros pe pa He Ha. enough (H : forall n, replace_node pe pa n = n) by (intros e; specialize (H (NE e)); now injection H).
  intros n. induction n as [n IH] using node_induction.
  assert (Ml : forall l : list expr, Forall (fun n => replace_node pe pa n = n) (map NE l) -> map (replace pe pa) l = l).
  { intros l F. rewrite Forall_map in F. induction F as [|x l F1 F2 IHl]; [reflexivity|]. cbn [map]. rewrite IHl. cbn in F1. injection F1 as F1. now rewrite F1. }
  assert (Mn : forall K (l : list (K * expr)), Forall (fun n => replace_node pe pa n = n) (map (fun b => NE (snd b)) l) -> map (fun b => (fst b, replace pe pa (snd b))) l = l).
  { intros K l F. rewrite Forall_map in F. induction F as [|[k x] l F1 F2 IHl]; [reflexivity|]. cbn [map fst snd] in *. rewrite IHl. cbn in F1. injection F1 as F1. now rewrite F1. }
  assert (Mo : forall o : option (list expr), Forall (fun n => replace_node pe pa n = n) (map NE (opt_list o)) -> option_map (map (replace pe pa)) o = o).
  { intros [l|] F; [|reflexivity]. cbn. f_equal. now apply Ml. }
  assert (Ms : forall l : list (string * expr), Forall (fun n => replace_node pe pa n = n) (map (fun b => NE (snd b)) l) -> map (on_snd (replace pe pa)) l = l) by exact (Mn string).
  assert (M1 : forall e, replace_node pe pa (NE e) = NE e -> replace pe pa e = e) by (intros e [=]; auto).
  assert (M2 : forall e, replace_node pe pa (NA e) = NA e -> replace_arg pe pa e = e) by (intros e [=]; auto).
  destruct n as [x|a]; [destruct x|destruct a]; cbn [parts] in IH; cbn [replace_node replace replace_arg]; rewrite ?He, ?Ha; try reflexivity;
    repeat match goal with
    | H : Forall _ (_ ++ _) |- _ => apply Forall_app in H; destruct H
    | H : Forall _ (_ :: _) |- _ => inversion H; clear H; subst
    end; f_equal; f_equal; auto.
  - clear - IH M2. induction args as [|a l IHl]; [reflexivity|]. inversion IH; subst. cbn [map]. rewrite IHl by assumption. f_equal. now apply M2.
  - match goal with H : Forall _ (flat_map _ _) |- _ => rename H into F end. clear - F Ml M1. induction its as [|[p t] l IHl]; [reflexivity|]. cbn [flat_map fst snd app] in F. inversion F as [|? ? F1 F2]; subst. apply Forall_app in F2. destruct F2 as [F2 F3].
    cbn [map fst snd]. rewrite IHl by assumption. rewrite (M1 _ F1), (Ml _ F2). reflexivity.
  - match goal with H : Forall _ (flat_map _ _) |- _ => rename H into F end. clear - F Ml. induction cases as [|[c t] l IHl]; [reflexivity|]. cbn [flat_map fst snd] in F. apply Forall_app in F. destruct F as [F2 F3].
    cbn [map fst snd]. rewrite IHl by assumption. rewrite (Ml _ F2). reflexivity.
  - clear - IH M2. induction fills as [|[k a] l IHl]; [reflexivity|]. inversion IH; subst. cbn [map]. rewrite IHl by assumption. f_equal. unfold on_snd. cbn [fst snd]. f_equal. now apply M2.
Qed.
Example C44_replace_example :
  replace (fun e => match e with ERef "x" => Some (int 5) | _ => None end) (fun a => match a with ARef "u.f" => Some (ARef "u.g") | _ => None end)
    (ETry [ECall "apply" [ARef "u.f"; AExpr (add (ERef "x") (ERef "y"))]] None)
  = ETry [ECall "apply" [ARef "u.g"; AExpr (add (int 5) (ERef "y"))]] None.
Proof. reflexivity. Qed.
(** In a document, replace works on each expression of begin, action, end and the functions and keeps everything else
    (the merge section too, see C44_refuted). *)
Theorem C44_replace_document : forall pe pa fcns D,
  let D' := replace_doc pe pa D in
  (forall i, nth_error (d_begin D') i = option_map (replace pe pa) (nth_error (d_begin D) i)) /\
  (forall i, nth_error (d_action D') i = option_map (replace pe pa) (nth_error (d_action D) i)) /\
  (forall i, nth_error (d_end D') i = option_map (replace pe pa) (nth_error (d_end D) i)) /\
  d_method D' = d_method D /\ d_zero D' = d_zero D /\ d_cells D' = d_cells D /\ d_pools D' = d_pools D /\ d_name D' = d_name D
  /\ d_instance D' = d_instance D /\ d_metadata D' = d_metadata D /\ d_version D' = d_version D /\ d_check D' = d_check D /\ d_options D' = d_options D
  /\ map fst (replace_fcns pe pa fcns) = map fst fcns
  /\ (forall f ps body, assoc f fcns = Some (ps, body) -> assoc f (replace_fcns pe pa fcns) = Some (ps, map (replace pe pa) body)).
Proof.
  intros pe pa fcns D. cbn zeta. do 3 (split; [intros i; apply nth_error_map|]). repeat (split; [reflexivity|]).
  split; [unfold replace_fcns; rewrite map_map; reflexivity|].
  intros f ps body. unfold replace_fcns. induction fcns as [|[k [ps0 b0]] fcns IH]; [discriminate|]. cbn [map assoc fst snd].
  destruct (String.eqb f k); [intros H; injection H as -> ->; reflexivity|exact IH].
Qed.
Print Assumptions C44_replace_document.
Print Assumptions C44_collect_expression.
Print Assumptions C44_collect_once.
Print Assumptions C44_collect_partial.
Print Assumptions C44_refuted.
Print Assumptions C44_replace.
Print Assumptions C44_replace_nowhere.

(** * C36 *)
Definition u_names (fcns : list (string * (list string * list expr))) : Prop := forall f, In f (map fst fcns) -> exists x, f = ("u." ++ x)%string.
Lemma assoc_mapsnd {A B} (g : A -> B) k (l : list (string * A)) : assoc k (map (fun f => (fst f, g (snd f))) l) = option_map g (assoc k l).
Proof. induction l as [|[j y] l IH]; [reflexivity|]. cbn [map assoc fst snd]. destruct (String.eqb k j); [reflexivity|exact IH]. Qed.
Lemma graph_fcn fcns D f ps body : u_names fcns -> assoc f fcns = Some (ps, body) -> assoc f (graph_of fcns D) = Some (body_calls body).
Proof.
  intros U A. assert (I : In f (map fst fcns)) by (apply (in_map fst _ (f, (ps, body))), in_assoc, A). destruct (U f I) as [x ->].
  unfold graph_of. cbn [assoc]. cbn [append String.eqb Ascii.eqb Bool.eqb]. assert (X : assoc ("u." ++ x) (map (fun f => (fst f, body_calls (snd (snd f)))) fcns) = Some (body_calls body)).
  { rewrite (assoc_mapsnd (fun p => body_calls (snd p))), A. reflexivity. }
  destruct (d_merge D); cbn [app assoc append String.eqb Ascii.eqb Bool.eqb]; exact X.
Qed.
Lemma graph_section fcns D c : section_of D c <> [] -> assoc (key_of c) (graph_of fcns D) = Some (body_calls (section_of D c)).
Proof. destruct c; try reflexivity. cbn [section_of key_of]. unfold graph_of. destruct (d_merge D); [reflexivity|contradiction]. Qed.

(** Every function named in the text of a section or user function is in its entry, if nothing is named in the places that
    the walk methods forget. *)
Theorem C36_entries_partial : forall fcns D, u_names fcns -> Forall (fun e => nothing_forgotten (NE e)) (doc_top fcns D) ->
  (forall cl e c, In e (section_of D cl) -> mentions (NE e) c -> calls_directly (graph_of fcns D) (key_of cl) c)
  /\ (forall f ps body e c, assoc f fcns = Some (ps, body) -> In e body -> mentions (NE e) c -> calls_directly (graph_of fcns D) f c).
Proof.
  intros fcns D U N. rewrite Forall_forall in N. split.
  - intros cl e c I M. exists (body_calls (section_of D cl)). split.
    + apply graph_section. intros K. now rewrite K in I.
    + apply (body_mentions _ e); [exact I| |exact M]. apply N. unfold doc_top. destruct cl; cbn [section_of] in I; rewrite !in_app_iff; auto.
  - intros f ps body e c A I M. exists (body_calls body). split; [eapply graph_fcn; eauto|]. apply (body_mentions _ e); [exact I| |exact M].
    apply N. unfold doc_top. rewrite !in_app_iff. do 4 right. apply in_concat. exists body. split; [|exact I]. apply in_map_iff. exists (f, (ps, body)). split; [reflexivity|now apply in_assoc].
Qed.

(** What runs: every function called while the engine works was named in the text of the section or of a function that
    can be called from it. *)
Section Run.
  Variable E : env.
  Variable D : doc.
  Hypothesis N : Forall (fun e => enum_names E (NE e)) (doc_top (e_fcns E) D).
  Lemma enum_body f ps body e : assoc f (e_fcns E) = Some (ps, body) -> In e body -> enum_names E (NE e).
  Proof.
    intros A I. rewrite Forall_forall in N. apply N. unfold doc_top. rewrite !in_app_iff. do 4 right. apply in_concat. exists body. split; [|exact I]. apply in_map_iff. exists (f, (ps, body)). split; [reflexivity|now apply in_assoc].
  Qed.
  Lemma enum_section cl e : In e (section_of D cl) -> enum_names E (NE e).
  Proof. intros I. rewrite Forall_forall in N. apply N. unfold doc_top. destruct cl; cbn [section_of] in I; rewrite !in_app_iff; auto. Qed.
  Variable P : string -> Prop.
  Hypothesis P_body : forall f ps body e c, P f -> assoc f (e_fcns E) = Some (ps, body) -> In e body -> mentions (NE e) c -> P c.
  Lemma run_trace n cl s : (forall e c, In e (section_of D cl) -> mentions (NE e) c -> P c) ->
    match do_call E D n cl s with Done _ s' => grows P s s' | _ => True end.
  Proof.
    intros S.
    assert (X : forall fs es, es = section_of D cl -> rel (grows P) True (in_root fs (exec E n es))).
    { intros fs es ->. apply rel_root; [intros; now apply grows_same|apply grows_trans|]. apply trace_exec; [exact P_body|exact enum_body|].
      intros e I. split; [eapply enum_section; eauto|]. intros c. apply S, I. }
    destruct cl as [|input|a b|]; cbn [do_call section_of] in *.
    - unfold bind at 1, begin. destruct (d_begin D) as [|e es] eqn:B; [cbn; now apply grows_same|].
      unfold bind. specialize (X [frame_let (common_vars D ++ version_vars D) []] _ eq_refl (start E D RAction s)).
      destruct (in_root _ _ _) as [[v|x] s1| |]; cbn; auto.
    - unfold action. destruct (d_check D input) as [inp|x]; [|now apply grows_same]. cbn zeta.
      specialize (X [action_frame D inp (prepare E D s)] _ eq_refl (prepare E D s)).
      destruct (in_root _ _ _) as [[v|x] s1| |]; auto. unfold finish. destruct (d_method D); exact X.
    - unfold merge. destruct (d_merge D) as [es|] eqn:B; [|now apply grows_same]. cbn zeta.
      match goal with |- context [in_root ?f ?m ?t] => specialize (X f _ eq_refl t); destruct (in_root f m t) as [[v|x] s1| |] end; auto.
    - unfold bind at 1, end_. destruct (d_end D) as [|e es] eqn:B; [cbn; now apply grows_same|].
      unfold bind. match goal with |- context [in_root ?f ?m ?t] => specialize (X f _ eq_refl t); destruct (in_root f m t) as [[v|x] s1| |] end; cbn; auto.
  Qed.
End Run.
Theorem C36_text : forall E D n cl s r s', Forall (fun e => enum_names E (NE e)) (doc_top (e_fcns E) D) ->
  do_call E D n cl s = Done r s' ->
  exists l, s_trace s' = l ++ s_trace s /\ Forall (fun c => exists e, In e (section_of D cl) /\ can_call (e_fcns E) (NE e) c) l.
Proof.
  intros E D n cl s r s' N R.
  pose proof (run_trace E D N (fun c => exists e, In e (section_of D cl) /\ can_call (e_fcns E) (NE e) c)) as H.
  specialize (H ltac:(intros f ps body e c (e0 & I0 & C) A I M; exists e0; split; [exact I0|eapply can_through; eauto]) n cl s ltac:(intros e c I M; exists e; split; [exact I|now apply can_here])).
  rewrite R in H. exact H.
Qed.
(** ... and so it is found in the call graph from the entry of the section. *)
Theorem C36_run_partial : forall E D n cl s r s', u_names (e_fcns E) -> Forall (fun e => enum_names E (NE e) /\ nothing_forgotten (NE e)) (doc_top (e_fcns E) D) ->
  do_call E D n cl s = Done r s' ->
  exists l, s_trace s' = l ++ s_trace s /\ Forall (reaches (graph_of (e_fcns E) D) (key_of cl)) l.
Proof.
  intros E D n cl s r s' U N R.
  assert (N1 : Forall (fun e => enum_names E (NE e)) (doc_top (e_fcns E) D)) by (eapply Forall_impl; [|exact N]; intros e [A _]; exact A).
  assert (N2 : Forall (fun e => nothing_forgotten (NE e)) (doc_top (e_fcns E) D)) by (eapply Forall_impl; [|exact N]; intros e [_ A]; exact A).
  destruct (C36_entries_partial (e_fcns E) D U N2) as [E1 E2].
  pose proof (run_trace E D N1 (reaches (graph_of (e_fcns E) D) (key_of cl))) as H.
  specialize (H ltac:(intros f ps body e c (k & C) A I M; exists (k + 1)%nat; apply (CallGraphProofs.chain_trans _ _ (S k) f 1); [exact C|econstructor; [eapply E2; eauto|constructor]])
    n cl s ltac:(intros e c I M; exists 0%nat; econstructor; [eapply E1; eauto|constructor])).
  rewrite R in H. exact H.
Qed.
(** ** Deciding the hypotheses on concrete documents *)
Definition names_in (n : node) : list string := concat (map own (collect_node n)).
Lemma mentions_names n c : mentions n c -> In c (names_in n).
Proof.
  intros (m & I & O). unfold names_in. apply in_concat. exists (own m). split; [|exact O]. apply in_map. apply collect_inside; [exact I|]. destruct m as [|[]]; cbn; auto; contradiction.
Qed.
Definition forgets_nothing (e : expr) : bool :=
  forallb (fun m => forallb (fun p => match names_in p with [] => true | _ => false end) (forgotten m)) (collect e).
Lemma forgets_nothing_ok e : forgets_nothing e = true -> nothing_forgotten (NE e).
Proof.
  intros H m I p c F M. unfold forgets_nothing in H. rewrite forallb_forall in H. destruct m as [q|a]; [|contradiction].
  assert (K : In (NE q) (collect e)) by (apply (collect_inside (NE e)); [exact I|exact Logic.I]). specialize (H _ K). rewrite forallb_forall in H. specialize (H p F).
  apply mentions_names in M. destruct (names_in p); [contradiction|discriminate].
Qed.
Definition literal_names (e : expr) : bool :=
  forallb (fun m => match m with NE (ECallUser (ELit _ (VStr x)) choices _) => memb x choices | NE (ECallUser _ _ _) => false | _ => true end) (collect e).
Lemma literal_names_ok E e : literal_names e = true -> enum_names E (NE e).
Proof.
  intros H m I. unfold literal_names in H. rewrite forallb_forall in H. destruct m as [q|a]; [|exact Logic.I]. destruct q; try exact Logic.I.
  assert (K : In (NE (ECallUser q choices args)) (collect e)) by (apply (collect_inside (NE e)); [exact I|exact Logic.I]). specialize (H _ K). cbn in H.
  destruct q; try discriminate. destruct v; try discriminate. intros k s0 v s' R. destruct k; [discriminate|]. injection R as <- <-. eexists. split; [reflexivity|]. now apply memb_In.
Qed.

(** A document in which functions are called directly, by name, by reference and inside functions. *)
Definition calls_env : env := demo_env
  [("u.f", (["p"], [ECall "u.g" [AExpr (ERef "p")]])); ("u.g", (["p"], [add (ERef "p") (int 1)])); ("u.h", (["p"], [ECellTo "k" [] (ARef "u.g")]))] (fun _ => 0).
Definition calls_doc : doc := demo_doc MMap
  [ECallUser (str "h") ["h"; "f"] [ERef "input"]; ECall "apply" [AFcn ["z"] [ECall "u.f" [AExpr (ERef "z")]]; AExpr (ERef "input")]].
Example C36_example :
  u_names (e_fcns calls_env) /\ Forall (fun e => enum_names calls_env (NE e) /\ nothing_forgotten (NE e)) (doc_top (e_fcns calls_env) calls_doc)
  /\ exists s', do_call calls_env calls_doc 30 (CAction (VInt 3)) (load calls_doc) = Done (Ok (VInt 4)) s'
                /\ s_trace s' = ["+"; "u.g"; "u.f"; "apply"; "+"; "u.g"; "cell-to"; "u.h"].
Proof.
  split; [|split].
  - intros f I. repeat (destruct I as [<-|I]; [eexists; reflexivity|]). contradiction.
  - apply Forall_forall. intros e I.
    assert (B : forallb (fun e => literal_names e && forgets_nothing e)%bool (doc_top (e_fcns calls_env) calls_doc) = true) by reflexivity.
    rewrite forallb_forall in B. specialize (B e I). apply Bool.andb_true_iff in B. destruct B. split; [now apply literal_names_ok|now apply forgets_nothing_ok].
  - eexists. split; vm_compute; reflexivity.
Qed.
(** Without the restriction the claim is false: a function called in the expression of "attr" is not in the call graph. *)
Definition hiding_doc : doc := demo_doc MMap [EAttrGet (ENewObj [("a", ECall "u.h" [AExpr (ERef "input")])]) [str "a"]; int 2].
Theorem C36_refuted : exists E D n cl s r s', u_names (e_fcns E) /\ Forall (fun e => enum_names E (NE e)) (doc_top (e_fcns E) D)
  /\ accepted E demo_arity D /\ s = load D
  /\ do_call E D n cl s = Done (Ok r) s' /\ In "cell-to" (s_trace s') /\ ~ reaches (graph_of (e_fcns E) D) (key_of cl) "cell-to".
Proof.
  exists calls_env, hiding_doc, 30%nat, (CAction (VInt 3)). do 3 eexists. split; [|split; [|split; [reflexivity|split; [reflexivity|split; [vm_compute; reflexivity|split]]]]].
  - intros f I. repeat (destruct I as [<-|I]; [eexists; reflexivity|]). contradiction.
  - apply Forall_forall. intros e I. apply literal_names_ok.
    assert (B : forallb literal_names (doc_top (e_fcns calls_env) hiding_doc) = true) by reflexivity. rewrite forallb_forall in B. exact (B e I).
  - cbn. auto.
  - intros R. destruct (C34_calledBy (graph_of (e_fcns calls_env) hiding_doc) "(action)") as (l & L & K). apply K in R. vm_compute in L. injection L as <-. cbn in R. intuition discriminate.
Qed.
Print Assumptions C36_entries_partial.
Print Assumptions C36_text.
Print Assumptions C36_run_partial.
Print Assumptions C36_refuted.
