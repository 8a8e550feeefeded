(** C105: the documents in the memory of pfainspector. *)
From Verif Require Import Base ScopeModel SesModel SesSpec SesProofs.
Open Scope string_scope.
Open Scope list_scope.

(** After any sequence of load, rename, drop, json change and reporting commands, with any errors, a report is about the document as it is then. *)
Theorem C105_current : forall C E (toAst : val -> res C) (fromAst : C -> res E) l a, (forall c, In c l -> ~ moves c) ->
  let s := run toAst fromAst [] l in
  fst (step toAst fromAst s (UseConf a)) = says_conf C E toAst (document s a) /\
  fst (step toAst fromAst s (UseEngine a)) = says_engine C E toAst fromAst (document s a).
Proof.
  intros C E toAst fromAst l a N s. apply says. apply run_fresh; [exact N|]. split; [constructor|discriminate].
Qed.
(** A command changes only the documents it names; reporting commands change none. *)
Theorem C105_others : forall C E (toAst : val -> res C) (fromAst : C -> res E) l c b, ~ In b (about c) ->
  let s := run toAst fromAst [] l in document (snd (step toAst fromAst s c)) b = document s b.
Proof. intros C E toAst fromAst l c b H s. apply others; [|exact H]. apply run_names. constructor. Qed.
(** A command that ends in an error changes no document. *)
Theorem C105_error : forall C E (toAst : val -> res C) (fromAst : C -> res E) l c e b,
  let s := run toAst fromAst [] l in fst (step toAst fromAst s c) = Raise e -> document (snd (step toAst fromAst s c)) b = document s b.
Proof. intros C E toAst fromAst l c e b s H. eapply failed. exact H. Qed.
(** What the commands do to the documents they name. *)
Theorem C105_commands : forall C E (toAst : val -> res C) (fromAst : C -> res E) l, let s := run toAst fromAst [] l in
  (forall v n, document (snd (step toAst fromAst s (Load (Ok v) n))) n = Some v) /\
  (forall a b, a <> b -> document s a <> None ->
     fst (step toAst fromAst s (Rename a b)) = Ok Done /\ document (snd (step toAst fromAst s (Rename a b))) b = document s a /\ document (snd (step toAst fromAst s (Rename a b))) a = None) /\
  (forall a, document s a <> None -> fst (step toAst fromAst s (Drop a)) = Ok Done /\ document (snd (step toAst fromAst s (Drop a))) a = None) /\
  (forall a f v w, document s a = Some v -> f v = Ok w ->
     document (snd (step toAst fromAst s (Change a f))) a = Some w /\ document (snd (step toAst fromAst s (Move a f))) a = Some w).
Proof.
  intros C E toAst fromAst l s. assert (N : NoDup (keys s)) by (apply run_names; constructor). split; [|split; [|split]].
  - intros v n. cbn. rewrite document_set, String.eqb_refl. reflexivity.
  - intros a b D P. cbn. unfold document in P. destruct (assoc a s) as [m|] eqn:Q; [|congruence]. cbn. split; [reflexivity|].
    rewrite !document_del by now apply keys_set_NoDup. rewrite !document_set, !String.eqb_refl.
    apply not_eq_sym in D. apply String.eqb_neq in D. rewrite D. split; [|reflexivity]. unfold document. now rewrite Q.
  - intros a P. cbn. unfold document in P. destruct (assoc a s) as [m|] eqn:Q; [|congruence]. cbn. split; [reflexivity|].
    rewrite document_del by exact N. now rewrite String.eqb_refl.
  - intros a f v w P F. cbn. unfold document in P. unfold with_model. destruct (assoc a s) as [m|] eqn:Q; [|discriminate].
    inversion P; subst v. rewrite F. cbn. rewrite !document_set, String.eqb_refl. now split.
Qed.

(** Cases that meet the hypotheses: documents are numbers, those from 10 on cannot be read and those from 5 on have no engine. *)
Definition ast_of (v : val) : res Z := match v with VInt z => if (z <? 10)%Z then Ok z else Raise (PyErr "PFASyntaxException") | _ => Raise (PyErr "PFASyntaxException") end.
Definition engine_of (z : Z) : res Z := if (z <? 5)%Z then Ok (z + 100)%Z else Raise (PyErr "PFASemanticException").
Definition plus (n : Z) (v : val) : res val := match v with VInt z => Ok (VInt (z + n)) | _ => Raise (PyErr "InspectorError") end.
Definition begin : list command := [Load (Ok (VInt 1)) "a"; UseEngine "a"; Change "a" (plus 3); UseConf "a"; Load (Ok (VStr "x")) "b"; Change "b" (plus 1); Rename "a" "c"].
Example C105_case : (forall c, In c begin -> ~ moves c) /\
  let s := run ast_of engine_of [] begin in
  document s "c" = Some (VInt 4) /\ document s "a" = None /\ document s "b" = Some (VStr "x") /\ fst (step ast_of engine_of s (UseEngine "c")) = Ok (Eng 104%Z) /\
  fst (step ast_of engine_of s (UseEngine "b")) = Raise (PyErr "InspectorError") /\ fst (step ast_of engine_of s (Drop "a")) = Raise (PyErr "InspectorError").
Proof. split; [|repeat split]. intros c H. cbn in H. intuition (subst; cbn in *; tauto). Qed.

(** The claims fail in two ways. After externalize and internalize, pfa valid still speaks of the document before: here it calls a document valid that cannot be read. *)
Theorem C105_stale_refuted : exists (toAst fromAst' : val -> res val) l a v e, let s := run toAst fromAst' [] l in
  document s a = Some v /\ (exists x, toAst v = Raise x) /\ fst (step toAst fromAst' s (UseEngine a)) = Ok (Eng e).
Proof.
  exists (fun v => z <- ast_of v ;; Ok (VInt z)), (fun v => Ok v), [Load (Ok (VInt 1)) "a"; UseEngine "a"; Move "a" (plus 20)], "a", (VInt 21), (VInt 1).
  split; [reflexivity|]. split; [eexists; reflexivity|reflexivity].
Qed.
(** Renaming a document to the name it has deletes it, whatever the session. *)
Theorem C105_rename_refuted : forall C E (toAst : val -> res C) (fromAst : C -> res E) l a, let s := run toAst fromAst [] l in
  document s a <> None -> fst (step toAst fromAst s (Rename a a)) = Ok Done /\ document (snd (step toAst fromAst s (Rename a a))) a = None.
Proof.
  intros C E toAst fromAst l a s P. assert (N : NoDup (keys s)) by (apply run_names; constructor). cbn. unfold document in P.
  destruct (assoc a s) as [m|] eqn:Q; [|congruence]. cbn. split; [reflexivity|]. rewrite document_del by now apply keys_set_NoDup. now rewrite String.eqb_refl.
Qed.

Print Assumptions C105_current.
Print Assumptions C105_others.
Print Assumptions C105_error.
Print Assumptions C105_commands.
Print Assumptions C105_stale_refuted.
Print Assumptions C105_rename_refuted.
