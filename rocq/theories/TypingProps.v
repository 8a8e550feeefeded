(** C93: the data of a running document have the types that the type checker gave them. *)
From Verif Require Import Base PyNum ScopeModel CoreModel EngineModel EngineSpec EngineProofs EngineProps TypeModel TypeSpec TypeProofs TypeProofs2 TypeProps
  TypingModel TypingSpec TypingProofs TypingProofs2 TypingProofs3 TypingProofs4.
Open Scope string_scope.
Open Scope list_scope.

(** *** A document for the examples *)
Fixpoint map_prog (l acc : list val) : libprog :=
  match l with
  | [] => LRet (VArr (rev acc))
  | v :: l' => LCall 1 [v] (fun r => match r with Ok w => map_prog l' (w :: acc) | Raise e => LRaise e end)
  end.
Definition ex_lib (f : string) : option libfun :=
  if String.eqb f "+" then
    Some (Strict (fun avs => match avs with
                             | [AV (VInt a); AV (VInt b)] =>
                                 if ((- 2 ^ 31 <=? a + b) && (a + b <? 2 ^ 31))%Z%bool then LRet (VInt (a + b)) else LRaise (PFAErr 18000)
                             | _ => LRaise (PyErr "TypeError")
                             end))
  else if String.eqb f "a.map" then
    Some (Strict (fun avs => match avs with [AV (VArr l); AF _] => map_prog l [] | _ => LRaise (PyErr "TypeError") end))
  else None.
Definition ex_env (fcns : list (string * (list string * list expr))) : env := {|
  e_lib := ex_lib; e_libref := fun _ _ => LRaise (PyErr "TypeError"); e_libparams := fun _ => []; e_fcns := fcns;
  e_decode := fun _ _ => Raise AvroErr; e_tyname := fun ty => ty; e_pack := fun _ _ => Raise (PyErr "TypeError");
  e_unpack := fun _ _ => None; e_message := fun _ => ""; e_time := fun _ => 0%Z; e_rand := fun _ => 0%Z |}.
Definition ex_T (fcns : string -> option (list ty * ty)) : tenv := {|
  te_defs := []; te_cells := fun c => if String.eqb c "c" then Some (TArray TInt) else None; te_pools := fun _ => None;
  te_out := TUnion [TInt; TNull]; te_fcns := fcns;
  te_lib := fun f atys t => (f = "+" /\ atys = [AT TInt; AT TInt] /\ t = TInt) \/
                            (f = "a.map" /\ atys = [AT (TArray TInt); AFn [TInt] TInt] /\ t = TArray TInt);
  te_libref := fun _ _ _ => False; te_schema := fun _ => TNull; te_exh := fun _ _ _ => False; te_fmt := fun _ => TNull |}.
Lemma frame_all T g G f : Forall2 (fun a b => fst a = fst b /\ has_type true (te_defs T) (snd a) (snd b)) g f -> frame_ok T g G f.
Proof.
  induction 1 as [|[x t] [y v] g f [H1 H2] _ [I1 I2]]; [split; [discriminate|intros ? H; discriminate H]|]. cbn in H1, H2. subst y. split.
  - intros z u. cbn. destruct String.eqb; eauto. intros [= <-]. eauto.
  - intros z Hz. unfold has_key in *. cbn in *. destruct String.eqb; auto.
Qed.
Lemma nil_wf : wf_defs [].
Proof. intros n. split; [constructor|easy]. Qed.
Lemma map_prog_typed l : forall T acc, (forall v, In v (l ++ acc) -> has_type true (te_defs T) TInt v) ->
  lib_typed T (fcn_of [AT (TArray TInt); AFn [TInt] TInt]) (no_lazy) (TArray TInt) (map_prog l acc).
Proof.
  induction l as [|v l IH]; intros T acc H; cbn.
  - constructor. constructor. intros v Hv. apply in_rev in Hv. now apply H.
  - constructor.
    + cbn. intros ps r [= <- <-]. constructor; [apply H; now left|constructor].
    + cbn. intros ps r w [= <- <-] Hw. apply IH. intros x Hx. apply in_app_or in Hx. destruct Hx as [Hx|[<-|Hx]]; auto; apply H; right; apply in_or_app; auto.
    + intros e. constructor.
Qed.
Lemma ex_typed fcns fts : (forall f, fts f = None <-> assoc f fcns = None) ->
  (forall f ps body pts r, assoc f fcns = Some (ps, body) -> fts f = Some (pts, r) ->
     length ps = length pts /\ NoDup ps /\ exists t g', block (ex_T fts) (combine ps pts) [] body t g' /\ (t = TExc \/ sub (ex_T fts) r t)) ->
  env_typed (ex_T fts) (ex_env fcns).
Proof.
  intros H1 H2. constructor; try easy; auto; [apply nil_wf| |].
  - intros f g atys t avs Hl [(-> & -> & ->)|(-> & -> & ->)] Ha; cbn in Hl; injection Hl as <-;
      inversion Ha as [|? a1 ? l1 A1 R1]; subst; inversion R1 as [|? a2 ? l2 A2 R2]; subst; inversion R2; subst.
    + destruct a1 as [v1|]; [|destruct A1]. destruct a2 as [v2|]; [|destruct A2]. cbn in A1, A2. inversion A1; subst. inversion A2; subst.
      destruct (_ && _)%bool eqn:Hb; [|constructor]. constructor. constructor. apply andb_prop in Hb. destruct Hb as [B1 B2].
      apply Z.leb_le in B1. apply Z.ltb_lt in B2. unfold int_range. auto.
    + destruct a1 as [v1|]; [|destruct A1]. destruct a2 as [v2|]; [destruct A2|]. cbn in A1. inversion A1; subst.
      apply map_prog_typed. intros v Hv. rewrite app_nil_r in Hv. auto.
  - intros f p atys t Hl. cbn in Hl. unfold ex_lib in Hl. destruct String.eqb; [discriminate|]. destruct String.eqb; discriminate.
Qed.
Definition ex_T0 : tenv := ex_T (fun _ => None).
Definition ex_env0 : env := ex_env [].
Lemma ex_typed0 : env_typed ex_T0 ex_env0.
Proof. apply ex_typed; easy. Qed.
(** let x = a.map(cell c, y => y + input); cell c := x; try x[0] *)
Definition ex_action : list expr :=
  [ELet [("x", ECall "a.map" [AExpr (ECellGet "c" []); AFcn ["y"] [ECall "+" [AExpr (ERef "y"); AExpr (ERef "input")]]])];
   ECellTo "c" [] (AExpr (ERef "x"));
   ETry [EAttrGet (ERef "x") [ELit "(int)" (VInt 1)]] None].
Definition ex_doc : doc := {|
  d_method := MMap; d_begin := []; d_action := ex_action; d_end := []; d_merge := None; d_zero := VNull;
  d_cells := [("c", CellDecl (VArr [VInt 1; VInt 2]) false true)]; d_pools := [];
  d_name := VStr "ex"; d_instance := VInt 0; d_metadata := VDict []; d_version := None;
  d_check := fun v => match v with VInt z => if ((- 2 ^ 31 <=? z) && (z <? 2 ^ 31))%Z%bool then Ok v else Raise AvroErr | _ => Raise AvroErr end;
  d_options := engine_options [] [] |}.
Lemma sub_refl T t : wf_defs (te_defs T) -> wf t -> keeps_unions t t -> sub T t t.
Proof. intros HD Hw Hk. split; auto. split; auto. split; auto. now apply C10_refl. Qed.
Lemma ex_doc_typed : doc_typed ex_T0 ex_doc TInt.
Proof.
  constructor; try easy; try (now left).
  - cbn [d_method ex_doc d_action]. unfold ex_action. do 2 eexists. split.
    + eapply bl_cons; [|eapply bl_cons; [|eapply bl_last]].
      * apply st_let with (us := [TArray TInt]).
        -- constructor; [|constructor]. cbn [snd]. eapply t_call_lib; [reflexivity|discriminate|right; repeat split|].
           constructor; [constructor; eapply t_cell_get; [reflexivity|constructor|constructor]|]. constructor; [|constructor].
           eapply a_fcn; [reflexivity|repeat constructor; easy| |right; apply sub_refl; [apply nil_wf|exact I|reflexivity]].
           apply bl_last. apply st_expr. eapply t_call_lib; [reflexivity|discriminate|left; repeat split|].
           repeat constructor.
        -- repeat constructor; easy.
        -- intros x [<-|[]]. reflexivity.
      * apply st_expr. eapply t_cell_to; [reflexivity|constructor|constructor|constructor; apply t_ref; reflexivity|].
        constructor. apply sub_refl; [apply nil_wf|exact I|reflexivity].
      * apply st_expr. eapply t_try. eapply bl_last. apply st_expr. eapply t_attr_get; [apply t_ref; reflexivity| |].
        -- constructor; [|constructor]. eapply k_index; [apply t_lit; apply ht_int; unfold int_range; cbn; split; [discriminate|reflexivity]|now left].
        -- constructor. constructor.
    + right. cbn. apply sub_refl; [apply nil_wf| |]; cbn; intuition; now subst.
  - intros c d [[= <- <-]|[]]. eexists. split; [reflexivity|]. constructor. intros v [<-|[<-|[]]]; constructor; unfold int_range; lia.
  - constructor.
  - constructor. unfold int_range. lia.
  - constructor. intros k v [].
  - intros v w Hc. cbn in Hc. destruct v; try discriminate. destruct (_ && _)%bool eqn:Hb in Hc; [|discriminate]. injection Hc as <-. constructor.
    apply andb_prop in Hb. destruct Hb as [B1 B2]. apply Z.leb_le in B1. apply Z.ltb_lt in B2. unfold int_range. auto.
Qed.

(** *** Expressions *)
(** Running a well-typed expression: if it returns, it returns a value of its type, and whether it returns or raises, every
    declared variable, cell, pool and emitted value still has its type. Only part of what the type checker promises: the
    functions of the library, the decoder of JSON data and "pack" are assumed to return what their types say (env_typed),
    and the rules of TypingModel leave out some expressions that the type checker takes. *)
Theorem C93_sound_partial T E saved n G e t s r s' F R : env_typed T E -> typed T G e t ->
  s_scopes s = F ++ R -> agree T G F -> st_ok T saved s -> eval E n e s = Done r s' ->
  exists F', s_scopes s' = F' ++ R /\ agree T G F' /\ st_ok T saved s' /\ forall v, r = Ok v -> has_type true (te_defs T) t v.
Proof.
  intros HE Ht Hs Ha Ho Hd. destruct (sound T E HE saved n) as (H & _).
  destruct (H _ _ _ Ht _ _ _ _ _ Hs Ha Ho Hd) as (F' & H1 & H2 & H3). exists F'. split; auto. destruct r as [v|x].
  - destruct H3 as [H3 H4]. split; auto. split; auto. now intros w [= <-].
  - split; auto. split; auto. discriminate.
Qed.
Example C93_sound_example :
  let e := ECall "a.map" [AExpr (ECellGet "c" []); AFcn ["y"] [ECall "+" [AExpr (ERef "y"); AExpr (ERef "input")]]] in
  let s := set_scopes [[("input", VInt 10)]] (load ex_doc) in
  typed ex_T0 [[("input", TInt)]] e (TArray TInt) /\ agree ex_T0 [[("input", TInt)]] (s_scopes s) /\ st_ok ex_T0 false s /\
  exists s', eval ex_env0 9 e s = Done (Ok (VArr [VInt 11; VInt 12])) s'.
Proof.
  cbn zeta. split; [|split; [|split]].
  - eapply t_call_lib; [reflexivity|discriminate|right; repeat split|].
    constructor; [constructor; eapply t_cell_get; [reflexivity|constructor|constructor]|]. constructor; [|constructor].
    eapply a_fcn; [reflexivity|repeat constructor; easy| |right; apply sub_refl; [apply nil_wf|exact I|reflexivity]].
    apply bl_last. apply st_expr. eapply t_call_lib; [reflexivity|discriminate|left; repeat split|]. repeat constructor.
  - cbn. split; auto. apply frame_all. repeat constructor; unfold int_range; cbn; lia.
  - pose proof (load_ok ex_T0 ex_doc TInt ex_doc_typed) as [[O1 O2 O3] _]. now constructor.
  - eexists. vm_compute. reflexivity.
Qed.
(** An expression of which the type checker knows that it only raises exceptions (type TExc) does not return. *)
Theorem C93_raises_partial T E saved n G e s r s' F R : env_typed T E -> typed T G e TExc ->
  s_scopes s = F ++ R -> agree T G F -> st_ok T saved s -> eval E n e s = Done r s' -> exists x, r = Raise x.
Proof.
  intros HE Ht Hs Ha Ho Hd. destruct (C93_sound_partial _ _ _ _ _ _ _ _ _ _ _ _ HE Ht Hs Ha Ho Hd) as (_ & _ & _ & _ & H).
  destruct r as [v|x]; [|eauto]. specialize (H v eq_refl). inversion H.
Qed.
Example C93_raises_example :
  typed ex_T0 [[]] (EIf (ELit "b" (VBool true)) [EError "no" None] (Some [EError "nor" (Some 3%Z)])) TExc /\
  exists s', eval ex_env0 9 (EIf (ELit "b" (VBool true)) [EError "no" None] (Some [EError "nor" (Some 3%Z)])) (set_scopes [[]] (load ex_doc))
    = Done (Raise (UserErr "no" None)) s'.
Proof.
  split.
  - eapply t_if_else; [apply t_lit; constructor|apply bl_last; apply st_expr; apply t_error|apply bl_last; apply st_expr; apply t_error|].
    intros u [<-|[<-|[]]]; now left.
  - eexists. vm_compute. reflexivity.
Qed.

(** *** Engines *)
Lemma C93_calls T E (HE : env_typed T E) Dc it (HD : doc_typed T Dc it) n cs : forall s rs s', flags_of Dc s -> engine_ok T Dc s ->
  (0 <= s_started s /\ 0 <= s_finished s)%Z -> (s_started s + Z.of_nat (length cs) < 2 ^ 63)%Z -> (s_finished s + Z.of_nat (length cs) < 2 ^ 63)%Z ->
  Forall (call_ok T) cs -> history E Dc n cs s = Some (rs, s') -> engine_ok T Dc s' /\ Forall2 (outcome_ok T Dc) cs rs.
Proof.
  induction cs as [|c cs IH]; intros s rs s' Hf He [P1 P2] R1 R2 Hc Hh; cbn in Hh.
  - injection Hh as <- <-. auto.
  - destruct (do_call E Dc n c s) as [r s1| |] eqn:Hd; try discriminate.
    destruct (history E Dc n cs s1) as [[rs1 s2]|] eqn:Hh1; [|discriminate]. injection Hh as <- <-. inversion Hc as [|? ? C1 C2]; subst.
    cbn [length] in R1, R2. rewrite Nat2Z.inj_succ in R1, R2.
    destruct (call_typed T E HE Dc it HD n c s r s1) as [G1 G2]; auto; try (unfold long_range; lia).
    destruct (call_counts _ _ _ _ _ _ _ Hf Hd) as [K1 K2].
    destruct (IH s1 rs1 s2) as [I1 I2]; auto.
    + eapply do_call_flags; eauto.
    + destruct (enters Dc c), (returns (c, r)); lia.
    + destruct (enters Dc c); lia.
    + destruct (returns (c, r)); lia.
Qed.
(** A well-typed document gives only results of its output type, and keeps all cells, pools and the tally in their types,
    over any history of calls of begin, action, merge and end, whatever the inputs. *)
Theorem C93_history_partial T E Dc it n cs rs s' : env_typed T E -> doc_typed T Dc it -> Forall (call_ok T) cs ->
  (Z.of_nat (length cs) < 2 ^ 63)%Z -> history E Dc n cs (load Dc) = Some (rs, s') ->
  engine_ok T Dc s' /\ Forall2 (outcome_ok T Dc) cs rs.
Proof.
  intros HE HD Hc Hl Hh. eapply C93_calls; eauto; try (cbn; lia).
  - apply flags_load.
  - eapply load_ok; eauto.
Qed.
Example C93_history_example : env_typed ex_T0 ex_env0 /\ doc_typed ex_T0 ex_doc TInt /\
  exists s', history ex_env0 ex_doc 9 [CAction (VInt 10); CAction (VStr "no"); CAction (VInt 2147483640); CAction (VInt 100)] (load ex_doc)
    = Some ([Ok (VInt 12); Raise AvroErr; Raise (PFAErr 18000); Ok (VInt 112)], s') /\
  cell_value s' "c" = Some (VArr [VInt 111; VInt 112]).
Proof. split; [apply ex_typed0|]. split; [apply ex_doc_typed|]. eexists. split; vm_compute; reflexivity. Qed.

(** *** Branches *)
(** The type that the checker gives to an "if", "cond", "cast" or array of several branches is one that the rules allow,
    if it does not lose a union. *)
Theorem C93_branches T us t : wf_defs (te_defs T) -> good_candidates us -> broadestType (te_defs T) us = Ok t ->
  (forall u, In u us -> u <> TExc -> keeps_unions t u) -> joins T t us.
Proof.
  intros HD Hg Hb Hk u Hu. destruct (is_exc u) eqn:He; [left; now destruct u|right].
  assert (Hn : u <> TExc) by (intros ->; discriminate). destruct (C12_accepts_all _ _ _ HD Hg Hb) as (W & _ & A).
  destruct (proj1 Hg u (conj Hu Hn)) as [W' _]. repeat split; auto. apply A. now split.
Qed.
Example C93_branches_example : broadestType [] [TInt; TExc; TNull; TDouble] = Ok (TUnion [TDouble; TNull]) /\
  joins ex_T0 (TUnion [TDouble; TNull]) [TInt; TExc; TNull; TDouble].
Proof.
  split; [reflexivity|]. apply C93_branches; [apply nil_wf| |reflexivity|].
  - split.
    + intros c [[<-|[<-|[<-|[<-|[]]]]] H]; cbn; auto; now destruct H.
    + cbn. unfold one_document. cbn. intuition; subst; try discriminate.
  - intros u [<-|[<-|[<-|[<-|[]]]]] _; cbn; auto.
Qed.

(** *** Where the type checker accepts too much *)
Definition ex_state (fs : scopes) : st := set_scopes fs (load ex_doc).
(** "set": a double accepts a union of int and double (datatype.py:85-116), but the union's data are tagged. *)
Theorem C93_union_refuted : exists n G e u t s s' v,
  typed ex_T0 G e u /\ look G "x" = Some t /\ accepts [] [] t u = true /\ agree ex_T0 G (s_scopes s) /\ st_ok ex_T0 false s /\
  eval ex_env0 n (ESet [("x", e)]) s = Done (Ok VNull) s' /\ scope_get "x" (s_scopes s') = Ok v /\ ~ has_type true [] t v.
Proof.
  exists 9%nat, [[("x", TDouble); ("y", TUnion [TInt; TDouble])]], (ERef "y"), (TUnion [TInt; TDouble]), TDouble,
    (ex_state [[("x", VInt 0); ("y", VDict [("int", VInt 3)])]]). do 2 eexists.
  split; [now apply t_ref|]. split; [reflexivity|]. split; [reflexivity|]. split; [|split; [|split; [vm_compute; reflexivity|split; [reflexivity|]]]].
  - cbn. split; auto. apply frame_all. constructor; [split; [reflexivity|constructor; unfold long_range; lia]|].
    constructor; [split; [reflexivity|]|constructor]. eapply ht_tagged with (t := TInt); try easy; [now left|exact (tag_same TInt)|constructor; unfold int_range; cbn; lia].
  - pose proof (load_ok ex_T0 ex_doc TInt ex_doc_typed) as [[O1 O2 O3] _]. now constructor.
  - intros H. inversion H.
Qed.
(** "ifnotnull": a value that was tagged as an int when it became a [null, double] is bound as {"int": 3}, not as a double. *)
Theorem C93_ifnotnull_refuted : exists n G e ts m s s' v,
  typed ex_T0 G e (TUnion ts) /\ not_null_member ts m /\ agree ex_T0 G (s_scopes s) /\ st_ok ex_T0 false s /\
  eval ex_env0 n (EIfNotNull [("x", tyname m, e)] [ERef "x"] (Some [ELit "d" (VInt 0)])) s = Done (Ok v) s' /\ ~ has_type true [] m v.
Proof.
  exists 9%nat, [[("z", TUnion [TNull; TDouble]); ("a", TUnion [TNull; TInt])]], (EDo [ESet [("z", ERef "a")]; ERef "z"]), [TNull; TDouble], TDouble,
    (ex_state [[("z", VNull); ("a", VDict [("int", VInt 3)])]]). do 2 eexists.
  split; [|split; [|split; [|split; [|split; [vm_compute; reflexivity|]]]]].
  - apply t_do with (t := TUnion [TNull; TDouble]) (g' := [("z", TUnion [TNull; TDouble]); ("a", TUnion [TNull; TInt])]).
    eapply bl_cons; [apply st_expr|apply bl_last; apply st_expr; now apply t_ref].
    apply t_set with (us := [TUnion [TNull; TInt]]); [constructor; [now apply t_ref|constructor]|reflexivity|repeat constructor; easy|].
    intros x u [[= <- <-]|[]]. eexists. split; [reflexivity|]. repeat split; cbn; auto; intuition; now subst.
  - split; [now right; left|]. split; [discriminate|]. intros u [<-|[<-|[]]]; auto.
  - cbn. split; auto. apply frame_all. constructor; [split; [reflexivity|]|constructor; [split; [reflexivity|]|constructor]].
    + eapply ht_member with (t := TNull); [now left|constructor].
    + eapply ht_tagged with (t := TInt); try easy; [now right; left|exact (tag_same TInt)|constructor; unfold int_range; cbn; lia].
  - pose proof (load_ok ex_T0 ex_doc TInt ex_doc_typed) as [[O1 O2 O3] _]. now constructor.
  - intros H. inversion H.
Qed.
(** "set" of several variables (util.py:140-153): as soon as one of them lives in an outer scope, all of them are passed on
    to it; a variable bound again by "ifnotnull" or "cast" inside is then set outside, where it may have another type. *)
Theorem C93_set_refuted : exists n g bs us s s' v,
  let G := [("x", TInt)] :: [g] in
  Forall2 (typed ex_T0 G) (map snd bs) us /\
  (forall x u, In (x, u) (combine (map fst bs) us) -> exists t, look G x = Some t /\ sub ex_T0 t u) /\
  nn_case ex_T0 [g] ("x", "int", ERef "z") TInt /\ agree ex_T0 [g] (s_scopes s) /\ st_ok ex_T0 false s /\
  eval ex_env0 n (EIfNotNull [("x", "int", ERef "z")] [ESet bs] None) s = Done (Ok VNull) s' /\
  assoc "x" g = Some TString /\ scope_get "x" (s_scopes s') = Ok v /\ ~ has_type true [] TString v.
Proof.
  exists 9%nat, [("x", TString); ("y", TInt); ("z", TUnion [TNull; TInt])], [("x", ELit "i" (VInt 5)); ("y", ELit "i" (VInt 6))], [TInt; TInt],
    (ex_state [[("x", VStr "s"); ("y", VInt 0); ("z", VInt 3)]]). do 2 eexists. cbn zeta.
  split; [|split; [|split; [|split; [|split; [|split; [vm_compute; reflexivity|split; [reflexivity|split; [reflexivity|]]]]]]]].
  - repeat constructor; unfold int_range; lia.
  - intros x u [[= <- <-]|[[= <- <-]|[]]]; eexists; (split; [reflexivity|]); apply sub_refl; try easy; apply nil_wf.
  - apply c_nn with (ts := [TNull; TInt]); [now apply t_ref| |exact I|reflexivity]. split; [now right; left|]. split; [discriminate|].
    intros u [<-|[<-|[]]]; auto.
  - cbn. split; auto. apply frame_all. repeat (constructor; [split; [reflexivity|]|]); try constructor; try (unfold int_range; lia).
    eapply ht_member with (t := TInt); [now right; left|constructor; unfold int_range; lia].
  - pose proof (load_ok ex_T0 ex_doc TInt ex_doc_typed) as [[O1 O2 O3] _]. now constructor.
  - intros H. inversion H.
Qed.
(** A reference to a function with filled-in arguments (pfaast.py:1724-1738): the names of the filled-in arguments are checked,
    their types are not. *)
Definition fill_fcns := [("u.f", (["x"; "y"], [ERef "y"]))].
Definition fill_types (f : string) : option (list ty * ty) := if String.eqb f "u.f" then Some ([TInt; TInt], TInt) else None.
Theorem C93_fill_refuted : exists n f s s' v, env_typed (ex_T fill_types) (ex_env fill_fcns) /\
  fill_types f = Some ([TInt; TInt], TInt) /\ typed (ex_T fill_types) [[]] (ELit "s" (VStr "no")) TString /\
  agree (ex_T fill_types) [[]] (s_scopes s) /\ st_ok (ex_T fill_types) false s /\
  eval (ex_env fill_fcns) n (ECall "a.map" [AExpr (ENewArr [ELit "i" (VInt 1)]); AFill f [("y", AExpr (ELit "s" (VStr "no")))]]) s = Done (Ok v) s' /\
  ~ has_type true [] (TArray TInt) v.
Proof.
  exists 9%nat, "u.f", (ex_state [[]]). do 2 eexists. split; [|split; [reflexivity|split; [repeat constructor|split; [|split; [|split; [vm_compute; reflexivity|]]]]]].
  - apply ex_typed.
    + intros f. unfold fill_types, fill_fcns. cbn. now destruct String.eqb.
    + intros f ps body pts r H1 H2. unfold fill_types in H2. cbn in H1. destruct String.eqb; [|discriminate]. injection H1 as <- <-. injection H2 as <- <-.
      split; [reflexivity|]. split; [repeat constructor; cbn; intuition discriminate|]. do 2 eexists. split; [apply bl_last; apply st_expr; now apply t_ref|].
      right. apply sub_refl; try easy. apply nil_wf.
  - cbn. split; auto. apply frame_all. constructor.
  - pose proof (load_ok ex_T0 ex_doc TInt ex_doc_typed) as [[O1 O2 O3] _]. now constructor.
  - intros H. inversion H as [| | | | | | | | | | | |? ? H1| | | |]; subst. specialize (H1 (VStr "no") (or_introl eq_refl)). inversion H1.
Qed.
Print Assumptions C93_sound_partial.
Print Assumptions C93_raises_partial.
Print Assumptions C93_history_partial.
Print Assumptions C93_branches.
Print Assumptions C93_union_refuted.
Print Assumptions C93_ifnotnull_refuted.
Print Assumptions C93_set_refuted.
Print Assumptions C93_fill_refuted.
