(** Property C59: a document that passes the scoping rules never meets an unknown variable. *)
From Verif Require Import Base ScopeModel CoreModel EngineModel CoreDemo CoreScopes CoreInd StaticModel StaticScope.
Open Scope string_scope.
Open Scope list_scope.
Open Scope Z_scope.

Definition accepted (E : env) (fa : string -> nat -> option nat) (D : doc) : Prop :=
  walk_doc (is_user E) (params_of E) fa (e_fcns E) D = true.
Definition tame_doc (E : env) (fa : string -> nat -> option nat) (D : doc) : Prop :=
  Forall (fun f => Forall (fun e => tame E fa (NE e)) (snd (snd f))) (e_fcns E)
  /\ Forall (fun e => tame E fa (NE e)) (d_begin D ++ d_action D ++ d_end D ++ match d_merge D with Some es => es | None => [] end).

Section Doc.
  Variable E : env.
  Variable fa : string -> nat -> option nat.
  Variable D : doc.
  Hypothesis L : lib_sound E fa.
  Hypothesis A : accepted E fa D.
  Hypothesis T : tame_doc E fa D.
  Hypothesis C : forall v, known (d_check D v).
  Local Notation wsec := (walk_section (is_user E) (params_of E) fa).
  Lemma doc_env_ok : env_ok E fa.
  Proof.
    split; [exact L|]. intros f ps body H. apply in_assoc in H. pose proof A as A0. unfold accepted, walk_doc in A0. do 4 (apply Bool.andb_true_iff in A0; destruct A0 as [A0 _]).
    rewrite forallb_forall in A0. split; [exact (A0 _ H)|]. destruct T as [T1 _]. rewrite Forall_forall in T1. exact (T1 _ H).
  Qed.
  Lemma section_safe names es f n s r s' : wsec names es = true -> Forall (fun e => tame E fa (NE e)) es ->
    (forall x, In x names -> has_key x f = true) -> in_root [f] (exec E n es) s = Done r s' -> known r.
  Proof.
    intros W F H R. apply ok_some in W. destruct W as [T' W]. unfold in_root in R.
    destruct (exec E n es (set_scopes [f] s)) as [r0 s1| |] eqn:X; try discriminate. injection R as <- <-.
    destruct (proj1 (exec_safe E fa doc_env_ok n es _ _ W F) (set_scopes [f] s) r0 s1) as [_ K]; [discriminate| |exact X|destruct r0; [discriminate|congruence]].
    intros x V. cbn [s_scopes set_scopes]. unfold bound. cbn [existsb]. rewrite (H x); [reflexivity|].
    unfold section, visible in V. cbn [existsb sc_syms] in V. apply memb_In. cbn in V. now rewrite Bool.orb_false_r in V.
  Qed.
  Lemma in_let bs x : In x (map fst bs) -> has_key x (frame_let bs []) = true.
  Proof. apply has_key_let_in. Qed.
  Lemma version_names : map fst (version_vars D) = match d_version D with Some _ => ["version"] | None => [] end.
  Proof. unfold version_vars. now destruct (d_version D). Qed.
  Lemma tally_in s : map fst (tally_vars D s) = tally_names D.
  Proof. unfold tally_vars, tally_names. now destruct (d_method D). Qed.
  Lemma call_known n c s r s' : do_call E D n c s = Done r s' -> known r.
  Proof.
    pose proof A as A0. unfold accepted, walk_doc in A0.
    apply Bool.andb_true_iff in A0. destruct A0 as [A0 Am]. apply Bool.andb_true_iff in A0. destruct A0 as [A0 Ae].
    apply Bool.andb_true_iff in A0. destruct A0 as [A0 Aa]. apply Bool.andb_true_iff in A0. destruct A0 as [_ Ab].
    destruct T as [_ T2]. apply Forall_app in T2. destruct T2 as [Tb T2]. apply Forall_app in T2. destruct T2 as [Ta T2]. apply Forall_app in T2. destruct T2 as [Te Tm].
    destruct c as [|input|one two|]; cbn [do_call].
    - unfold bind, begin, ret. destruct (d_begin D) as [|e es] eqn:B; [intros [= <- _]; discriminate|]. unfold bind, ret.
      match goal with |- context [in_root ?f ?m ?s] => destruct (in_root f m s) as [[v|e0] s1| |] eqn:X end; try discriminate; intros [= <- <-]; [discriminate|].
      refine (fun K => section_safe _ _ _ _ _ _ _ Ab Tb _ X (f_equal _ _)); [|exact (f_equal (fun r => match r with Raise e => e | _ => e0 end) K)].
      intros x I. apply in_let. rewrite map_app, version_names. exact I.
    - unfold action. destruct (d_check D input) as [inp|e] eqn:Ck; [|intros [= <- _]; pose proof (C input) as Kc; rewrite Ck in Kc; exact Kc].
      match goal with |- context [in_root ?f ?m ?s] => destruct (in_root f m s) as [[v|e0] s1| |] eqn:X end; try discriminate.
      + destruct (finish D v s1) as [r0 s2] eqn:Fi. intros [= <- _]. unfold finish in Fi. destruct (d_method D); injection Fi as <- _; discriminate.
      + intros [= <- _].
        refine (fun K => section_safe _ _ _ _ _ _ _ Aa Ta _ X (f_equal _ _)); [|exact (f_equal (fun r => match r with Raise e => e | _ => e0 end) K)].
        intros x I. apply in_let. rewrite !map_app, version_names, tally_in. unfold action_names, common_names in I.
        cbn [map fst common_vars counter_vars app] in *. repeat rewrite in_app_iff in *. cbn [In] in *. rewrite ?in_app_iff in *. cbn [In] in *. intuition.
    - unfold merge. destruct (d_merge D) as [es|] eqn:M; [|intros [= <- _]; discriminate].
      match goal with |- context [in_root ?f ?m ?s] => destruct (in_root f m s) as [[v|e0] s1| |] eqn:X end; try discriminate; intros [= <- <-]; [discriminate|].
      refine (fun K => section_safe _ _ _ _ _ _ _ Am Tm _ X (f_equal _ _)); [|exact (f_equal (fun r => match r with Raise e => e | _ => e0 end) K)].
      intros x I. apply in_let. rewrite map_app, version_names. exact I.
    - unfold bind, end_, ret. destruct (d_end D) as [|e es] eqn:B; [intros [= <- _]; discriminate|]. unfold bind, ret.
      match goal with |- context [in_root ?f ?m ?s] => destruct (in_root f m s) as [[v|e0] s1| |] eqn:X end; try discriminate; intros [= <- <-]; [discriminate|].
      refine (fun K => section_safe _ _ _ _ _ _ _ Ae Te _ X (f_equal _ _)); [|exact (f_equal (fun r => match r with Raise e => e | _ => e0 end) K)].
      intros x I. apply in_let. rewrite !map_app, version_names, tally_in. unfold end_names, common_names in I.
      cbn [map fst common_vars counter_vars app] in *. repeat rewrite in_app_iff in *. cbn [In] in *. rewrite ?in_app_iff in *. cbn [In] in *. intuition.
  Qed.
End Doc.

(** *** C59 *)
(** A document accepted by the scoping rules, used by any sequence of calls, never raises the error of an unknown
    variable; "set" and "step" are restricted to one variable at a time, the name in "call" must be one of the symbols of its type, and functions
    filled into library functions to those of the right number of parameters: see C59_refuted. *)
Theorem C59_accepted_partial : forall E fa D n cs s rs s',
  lib_sound E fa -> accepted E fa D -> tame_doc E fa D -> (forall v, known (d_check D v)) ->
  history E D n cs s = Some (rs, s') -> Forall known rs.
Proof.
  intros E fa D n cs s rs s' L A T C. revert s rs. induction cs as [|c cs IH]; intros s rs H; cbn [history] in H.
  - injection H as <- _. constructor.
  - destruct (do_call E D n c s) as [r s1| |] eqn:X; try discriminate. destruct (history E D n cs s1) as [[rs1 s2]|] eqn:Y; [|discriminate].
    injection H as <- <-. constructor; [exact (call_known E fa D L A T C n c s r s1 X)|]. exact (IH _ _ Y).
Qed.
Print Assumptions C59_accepted_partial.

(** The demonstration library meets the hypotheses. *)
Definition demo_arity (f : string) (i : nat) : option nat := if (String.eqb f "apply" && Nat.eqb i 0)%bool then Some 1%nat else None.
Lemma demo_sound fcns time : lib_sound (demo_env fcns time) demo_arity.
Proof.
  split.
  - intros f g avs H G. cbn [demo_env e_lib] in H. unfold demo_lib in H.
    destruct (String.eqb f "+"); [injection H as <-; destruct avs as [|[[]|] [|[[]|] [|]]]; cbn; try discriminate; exact I|].
    destruct (String.eqb f "<"); [injection H as <-; destruct avs as [|[[]|] [|[[]|] [|]]]; cbn; try discriminate; exact I|].
    destruct (String.eqb f "apply") eqn:F; [injection H as <-|].
    + destruct avs as [|[v|a] [|[w|b] [|]]]; cbn; try discriminate. split.
      * destruct (G 0%nat a eq_refl) as (k & K & Fi). unfold demo_arity in K. rewrite F in K. cbn in K. injection K as <-. exact Fi.
      * intros [v|e] Kr; [exact I|]. intros ->. now apply Kr.
    + destruct (String.eqb f "&&"); discriminate.
  - intros f p H. cbn [demo_env e_lib] in H. unfold demo_lib in H.
    destruct (String.eqb f "+"); [discriminate|]. destruct (String.eqb f "<"); [discriminate|]. destruct (String.eqb f "apply"); [discriminate|].
    destruct (String.eqb f "&&"); [|discriminate]. injection H as <-. cbn. intros [v|e] Kr; [|intros ->; now apply Kr].
    destruct v as [|[]| | | | | |]; cbn; auto. intros [w|e] Kr2; [exact I|]. intros ->. now apply Kr2.
  - intros g avs G. cbn. discriminate.
  - intros ty v. cbn. destruct (String.eqb ty "int"); [destruct v; discriminate|]. destruct (String.eqb ty "string"); [destruct v; discriminate|discriminate].
  - intros fs vs. cbn. discriminate.
  - intros fmt v bs H. discriminate.
Qed.
Definition static_env : env := demo_env [("u.f", (["p"], [ELet [("q", add (ERef "p") (int 1))]; ERef "q"]))] (fun _ => 0).
Definition twice : arg := AFcn ["z"] [ECall "u.f" [AExpr (ECall "u.f" [AExpr (ERef "z")])]].
Definition static_doc : doc := demo_doc MFold
  [ELet [("x", int 0)];
   EFor [("i", int 0)] (ECall "<" [AExpr (ERef "i"); AExpr (ERef "input")]) [("i", add (ERef "i") (int 1))]
     [ELet [("y", add (ERef "i") (ERef "x"))]; ESet [("x", ERef "y")]];
   ECellTo "k" [] twice;
   ECallUser (str "f") ["f"] [ERef "x"];
   add (ERef "tally") (ECall "apply" [twice; AExpr (ERef "x")])].
Ltac names_tac := intros k s v s' H; destruct k; [discriminate|]; injection H as <- <-; eexists; split; [reflexivity|now left].
Ltac tame_tac := constructor; [first [exact I | names_tac | cbn; lia]|cbn [parts map app flat_map opt_list snd fst]; repeat (apply Forall_cons; [tame_tac|]); apply Forall_nil].
Example C59_example :
  lib_sound static_env demo_arity /\ accepted static_env demo_arity static_doc /\ tame_doc static_env demo_arity static_doc
  /\ (forall v, known (d_check static_doc v))
  /\ exists s', history static_env static_doc 40 [CAction (VInt 3); CAction (VStr "no"); CAction (VInt 4)] (load static_doc)
                = Some ([Ok (VInt 5); Raise AvroErr; Ok (VInt 13)], s').
Proof.
  split; [apply demo_sound|]. split; [reflexivity|]. split.
  - split.
    + constructor; [|constructor]. cbn [snd static_env demo_env e_fcns]. repeat (apply Forall_cons; [tame_tac|]). apply Forall_nil.
    + cbn [static_doc demo_doc d_begin d_action d_end d_merge app]. repeat (apply Forall_cons; [tame_tac|]). apply Forall_nil.
  - split; [intros v; cbn; destruct v; discriminate|]. eexists. vm_compute. reflexivity.
Qed.
(** Without the restriction on "set" the claim is false: variables of two scopes set at once (C09). *)
Definition mixed_set : doc := demo_doc MMap
  [ELet [("x", int 0)];
   EIf (ELit "true" (VBool true)) [ELet [("y", int 0)]; ESet [("x", int 1); ("y", int 2)]] None;
   ERef "x"].
Theorem C59_refuted : exists E fa D n cs rs s',
  lib_sound E fa /\ accepted E fa D /\ (forall v, known (d_check D v)) /\ history E D n cs (load D) = Some (rs, s') /\ ~ Forall known rs.
Proof.
  exists static_env, demo_arity, mixed_set, 20%nat, [CAction (VInt 0)]. do 2 eexists.
  split; [apply demo_sound|]. split; [reflexivity|]. split; [intros v; cbn; destruct v; discriminate|]. split; [vm_compute; reflexivity|].
  intros F. apply Forall_inv in F. now apply F.
Qed.
Print Assumptions C59_refuted.
(** and the rules do refuse a variable that is out of scope, or was never declared *)
Example C59_refuses :
  ~ accepted static_env demo_arity (demo_doc MMap [EDo [ELet [("x", int 0)]]; ERef "x"])
  /\ ~ accepted static_env demo_arity (demo_doc MMap [ERef "tally"])
  /\ ~ accepted static_env demo_arity (demo_doc MMap [ECall "u.f" []])
  /\ ~ accepted static_env demo_arity (demo_doc MMap [ECall "apply" [AFcn ["a"; "b"] [ERef "a"]; AExpr (int 1)]]).
Proof. repeat split; intros H; discriminate H. Qed.
