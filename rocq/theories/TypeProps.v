(** C10, C11, C12: acceptance between types, and the type of several branches. *)
From Verif Require Import Base PyNum ScopeModel TypeModel TypeSpec TypeProofs TypeProofs2.
Open Scope string_scope.
Open Scope list_scope.

(** A document with a recursive record and a record with a default. *)
Definition f1 (n : string) (t : ty) : field := Field n t None None.
Definition doc1 : defs :=
  [("Tree", [f1 "value" (TUnion [TDouble; TString]); f1 "left" (TUnion [TNull; TRecord "Tree"]); f1 "right" (TUnion [TNull; TRecord "Tree"])]);
   ("Opt", [Field "x" TInt (Some (VInt 3)) None; f1 "e" (TEnum "E" ["a"; "b"])])].
Lemma doc1_wf : wf_defs doc1.
Proof.
  intros n. unfold fields_of. cbn [assoc doc1].
  destruct (String.eqb n "Tree"); [|destruct (String.eqb n "Opt")]; split;
    try (apply nodup_str_ok; reflexivity);
    intros f Hf; cbn in Hf; intuition (subst; cbn; tauto).
Qed.

(** *** C10 *)
Theorem C10_refl D a : wf_defs D -> wf a -> accepts D D a a = true.
Proof. intros HD Ha. apply accepts_fits; auto. now apply fits_refl. Qed.
Theorem C10_trans D a b c : wf_defs D -> wf a -> wf b -> wf c ->
  accepts D D a b = true -> accepts D D b c = true -> accepts D D a c = true.
Proof.
  intros HD Ha Hb Hc H1 H2. apply accepts_fits in H1; auto. apply accepts_fits in H2; auto. apply accepts_fits; auto.
  now apply fits_trans with b.
Qed.
(** The memo of records already entered gives the coinductive reading: a is accepted exactly if some set of records
    that is closed under "the fields fit" says so. Also for types of two different documents. *)
Theorem C10_meaning D1 D2 a b : wf_defs D1 -> wf_defs D2 -> wf a -> wf b -> (accepts D1 D2 a b = true <-> Accepts D1 D2 a b).
Proof. intros. now apply accepts_Accepts. Qed.
Example C10_example :
  let t := TArray (TUnion [TNull; TRecord "Tree"; TDouble]) in
  let u := TArray (TUnion [TRecord "Tree"; TInt]) in
  accepts doc1 doc1 t u = true /\ accepts doc1 doc1 u t = false /\ accepts doc1 doc1 u (TArray (TRecord "Tree")) = true /\
  accepts doc1 doc1 t (TArray (TRecord "Tree")) = true /\ accepts doc1 doc1 t t = true.
Proof. repeat split; reflexivity. Qed.
(** Between three documents that define the same record differently transitivity fails: a default fills the gap left
    by the second document, so nothing relates the field of the first to that of the third. *)
Theorem C10_documents_refuted :
  exists D1 D2 D3 a, wf_defs D1 /\ wf_defs D2 /\ wf_defs D3 /\ wf a /\
    accepts D1 D2 a a = true /\ accepts D2 D3 a a = true /\ accepts D1 D3 a a = false.
Proof.
  exists [("R", [Field "f" TString (Some (VStr "none")) None])], [("R", [])], [("R", [f1 "f" TInt])], (TRecord "R").
  assert (W : forall l, NoDup (map f_name l) -> (forall f, In f l -> wf (f_type f)) -> wf_defs [("R", l)]).
  { intros l H1 H2 n. unfold fields_of. cbn. destruct (String.eqb n "R"); [auto|]. split; [constructor|intros f []]. }
  split; [|split; [|split]].
  - apply W; [apply nodup_str_ok; reflexivity|]. intros f [<-|[]]. exact I.
  - apply W; [constructor|intros f []].
  - apply W; [apply nodup_str_ok; reflexivity|]. intros f [<-|[]]. exact I.
  - repeat split; reflexivity.
Qed.

(** *** C11 *)
(** Values without union tags (as in the input files). *)
Theorem C11_untagged D a b v : wf_defs D -> wf a -> wf b -> accepts D D a b = true -> has_type false D b v -> has_type false D a v.
Proof. intros HD Ha Hb H. apply accepts_fits in H; auto. now apply fits_value. Qed.
(** Values as titus holds them, a union as {tag: value}; missing: types that accept a union without being one. *)
Theorem C11_tagged_partial D a b v : wf_defs D -> wf a -> wf b -> keeps_unions a b ->
  accepts D D a b = true -> has_type true D b v -> has_type true D a v.
Proof. intros HD Ha Hb Hk H Hv. apply accepts_fits in H; auto. now apply fits_tagged with b. Qed.
Example C11_example :
  let a := TMap (TUnion [TString; TDouble]) in
  let b := TMap (TUnion [TInt; TString]) in
  wf a /\ wf b /\ keeps_unions a b /\ accepts doc1 doc1 a b = true /\
  has_type true doc1 b (VDict [("p", VDict [("int", VInt 3)]); ("q", VStr "s")]).
Proof.
  cbn. repeat split; auto; try (intros y [<-|[<-|[]]]; reflexivity).
  constructor. intros k v [E|[E|[]]]; injection E as <- <-.
  - apply ht_tagged with TInt; [reflexivity|now left|discriminate|apply (tag_same TInt)|]. constructor. unfold int_range; lia.
  - apply ht_member with TString; [right; now left|constructor].
Qed.
(** double accepts [int, double], although a value of the latter is held as {"int": 3}: *)
Theorem C11_refuted :
  exists D a b v, wf_defs D /\ wf a /\ wf b /\ accepts D D a b = true /\ has_type true D b v /\ ~ has_type true D a v.
Proof.
  exists doc1, TDouble, (TUnion [TInt; TDouble]), (VDict [("int", VInt 3)]).
  split; [apply doc1_wf|]. split; [exact I|]. split; [cbn; auto|]. split; [reflexivity|]. split.
  - apply ht_tagged with TInt; [reflexivity|now left|discriminate|apply (tag_same TInt)|]. constructor. unfold int_range; lia.
  - intros H. inversion H.
Qed.
(** Nor does it hold between documents: the default of the accepting record hides that the field is missing. *)
Theorem C11_documents_refuted :
  exists D1 D2 a v, wf_defs D1 /\ wf_defs D2 /\ wf a /\ accepts D1 D2 a a = true /\ has_type false D2 a v /\ ~ has_type false D1 a v.
Proof.
  exists [("R", [Field "f" TString (Some (VStr "none")) None])], [("R", [])], (TRecord "R"), (VDict []).
  assert (W : forall l, NoDup (map f_name l) -> (forall f, In f l -> wf (f_type f)) -> wf_defs [("R", l)]).
  { intros l H1 H2 n. unfold fields_of. cbn. destruct (String.eqb n "R"); [auto|]. split; [constructor|intros f []]. }
  split; [|split; [|split; [exact I|split; [reflexivity|split]]]].
  - apply W; [apply nodup_str_ok; reflexivity|]. intros f [<-|[]]. exact I.
  - apply W; [constructor|intros f []].
  - apply ht_record; [intros f []|intros k v []|intros f []].
  - intros H. inversion H as [| | | | | | | | | | | | | |n d Hk _ _| |]; subst.
    specialize (Hk _ (or_introl eq_refl)). discriminate.
Qed.

(** *** C12 *)
(** the candidates that are not the type of an expression that always raises *)
Definition real (cs : list ty) (c : ty) : Prop := In c cs /\ c <> TExc.
Definition good_candidates (cs : list ty) : Prop :=
  (forall c, real cs c -> wf c /\ uniq c) /\ one_document (filter (fun t => negb (is_exc t)) cs).
Lemma real_In cs c : In c (filter (fun t => negb (is_exc t)) cs) <-> real cs c.
Proof.
  rewrite filter_In. unfold real. split; intros [H1 H2]; (split; [exact H1|]).
  - intros ->. discriminate.
  - destruct c; auto; congruence.
Qed.
Lemma C12_best D cs t : wf_defs D -> good_candidates cs -> broadestType D cs = Ok t -> best (filter (fun t => negb (is_exc t)) cs) t.
Proof.
  intros HD [Hg Ho] H. unfold broadestType in H. eapply broadest_best; eauto.
  - apply Forall_forall. intros c Hc. now apply Hg, real_In.
  - apply Forall_forall. intros c Hc. now apply Hg, real_In.
Qed.
(** The result is a well-formed type that accepts every branch, ... *)
Theorem C12_accepts_all D cs t : wf_defs D -> good_candidates cs -> broadestType D cs = Ok t ->
  wf t /\ uniq t /\ forall c, real cs c -> accepts D D t c = true.
Proof.
  intros HD Hg H. destruct (C12_best D cs t HD Hg H) as (W & U & F & _). split; [exact W|]. split; [exact U|].
  intros c Hc. rewrite Forall_forall in F. apply accepts_fits; auto; [now apply Hg|]. now apply F, real_In.
Qed.
(** ... and the least one: any type that accepts every branch accepts the result. *)
Theorem C12_least D cs t u : wf_defs D -> good_candidates cs -> broadestType D cs = Ok t ->
  wf u -> uniq u -> (forall c, real cs c -> accepts D D u c = true) -> accepts D D u t = true.
Proof.
  intros HD Hg H Wu Uu Hu. destruct (C12_best D cs t HD Hg H) as (W & U & _ & L). apply accepts_fits; auto.
  apply L; auto. apply Forall_forall. intros c Hc. apply real_In in Hc. apply (accepts_fits D); auto. now apply Hg.
Qed.
(** Otherwise it is an error of the type checker, or there is no real branch; the recursion does end. *)
Theorem C12_total D cs e : broadestType D cs = Raise e ->
  (forall c, ~ real cs c) /\ e = PyErr "ValueError" \/ (exists c, real cs c) /\ e <> PyErr "RecursionError".
Proof.
  intros H. unfold broadestType in H. set (r := filter (fun t => negb (is_exc t)) cs) in *.
  destruct r as [|c r'] eqn:Er.
  - left. cbn in H. injection H as <-. split; [|reflexivity]. intros c Hc. apply real_In in Hc. fold r in Hc. now rewrite Er in Hc.
  - right. split; [exists c; apply real_In; fold r; rewrite Er; now left|]. intros ->. revert H. apply broadest_no_rec; [|discriminate].
    intros d Hd. pose proof (proj1 (list_max_le (map depth (c :: r')) _) (le_n _)) as F. rewrite Forall_forall in F.
    apply Nat.lt_succ_r, F, in_map, Hd.
Qed.
Example C12_example :
  let cs := [TArray TInt; TExc; TArray (TUnion [TNull; TString]); TArray TFloat] in
  good_candidates cs /\ broadestType doc1 cs = Ok (TArray (TUnion [TFloat; TNull; TString])).
Proof.
  split; [|reflexivity]. split.
  - intros c [Hc He]. cbn in Hc. intuition (subst; try congruence; cbn; intuition (try discriminate); repeat constructor; cbn; intuition discriminate).
  - split; intros n s r H; cbn in H; intuition discriminate.
Qed.
(** Two arrays and a null have a least type, but the function tries a union with two arrays and fails. *)
Example C12_needless_failure :
  broadestType doc1 [TArray TInt; TArray TString; TNull] = Raise AvroErr /\
  accepts doc1 doc1 (TUnion [TArray (TUnion [TInt; TString]); TNull]) (TArray TInt) = true /\
  accepts doc1 doc1 (TUnion [TArray (TUnion [TInt; TString]); TNull]) (TArray TString) = true /\
  accepts doc1 doc1 (TUnion [TArray (TUnion [TInt; TString]); TNull]) TNull = true.
Proof. repeat split; reflexivity. Qed.

Print Assumptions C10_refl.
Print Assumptions C10_trans.
Print Assumptions C10_meaning.
Print Assumptions C10_documents_refuted.
Print Assumptions C11_untagged.
Print Assumptions C11_tagged_partial.
Print Assumptions C11_refuted.
Print Assumptions C11_documents_refuted.
Print Assumptions C12_accepts_all.
Print Assumptions C12_least.
Print Assumptions C12_total.
