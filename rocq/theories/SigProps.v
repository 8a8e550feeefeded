(** C13: which signature of a library function a call gets, and with what types. *)
From Verif Require Import Base Effects ScopeModel TypeModel TypeSpec TypeProofs TypeProofs2 TypeProps VersionModel SigModel SigSpec SigProofs SigProofs2 SigProofs3.
From Coq Require Import Permutation Lia.
Open Scope string_scope.
Open Scope list_scope.
Open Scope nat_scope.

(** *** soundness *)
Lemma sigs_first D cases args v s ts t : sigs_accepts D cases args v = Ok (Some (s, ts, t)) ->
  exists before after, cases = before ++ s :: after /\ Forall (fun s' => sig_accepts D s' args v = Ok None) before /\ sig_accepts D s args v = Ok (Some (ts, t)).
Proof.
  induction cases as [|s0 cases IH]; intros H; [discriminate|]. cbn [sigs_accepts] in H. destruct (sig_accepts D s0 args v) as [[[ts0 t0]|]|] eqn:E; try discriminate.
  - cbn in H. injection H as -> -> ->. exists [], cases. auto.
  - cbn [rbind] in H. destruct (IH H) as (b & a & -> & F & Es). exists (s0 :: b), a. split; [reflexivity|]. split; [now constructor|exact Es].
Qed.
(** Signatures in which no function, wild enum, wild fixed or EnumFields occurs are matched by the ideal rules. *)
Lemma matches_ideal D sigma E E' : forall p s a, first_order p = true ->
  matches D false (stands D false sigma) E s false p a -> matches D true (stands D true sigma) E' s false p a.
Proof.
  induction p using pat_induct; intros s' a Hf Hm; try discriminate;
    try (inversion Hm; subst; [now apply m_plain|eapply m_promoted; eassumption]).
  - inv_match Hm. apply m_array. auto.
  - inv_match Hm. apply m_map. auto.
  - cbn [first_order] in Hf. rewrite forallb_forall in Hf. rewrite Forall_forall in H. inv_match Hm.
    + match goal with Hp : Permutation _ _ |- _ => rename Hp into Pm end. eapply m_union; [eassumption|]. eapply Forall2_in_impl; [|eassumption].
      intros q t Hq. assert (In q qs) by (eapply Permutation_in; [apply Permutation_sym, Pm|apply in_or_app; now left]). auto.
    + eapply m_member; eauto.
  - inv_match Hm; [apply m_fixed|apply m_fixed_name].
  - inv_match Hm; [apply m_enum|apply m_enum_name].
  - inv_match Hm; [apply m_record_name|]. apply m_record; [assumption|]. cbn [first_order] in Hf. rewrite forallb_forall in Hf. rewrite Forall_forall in *.
    intros [k q] Hkq. match goal with F : forall x, In x fs -> exists t, _ |- _ => destruct (F _ Hkq) as (t & A & B) end. exists t. split; [exact A|].
    apply (H _ Hkq); [apply (Hf _ Hkq)|exact B].
  - destruct o; [discriminate|]. inv_match Hm. apply m_wild; auto.
  - inv_match Hm. apply m_wild_record; [assumption|]. cbn [first_order] in Hf. rewrite forallb_forall in Hf. rewrite Forall_forall in *.
    intros [k q] Hkq. match goal with F : forall x, In x fs -> exists t, _ |- _ => destruct (F _ Hkq) as (t & A & B) end. exists t. split; [exact A|].
    apply (H _ Hkq); [apply (Hf _ Hkq)|exact B].
Qed.
(** The signature that a call gets is the first that does not turn it down. It is in force in this version and takes as
    many arguments as there are; there are types for its labels with which it fits in the sense of [good_call]. *)
Theorem C13_sound D sizes symbols cases args v s ts t : document D sizes symbols -> Forall (doc_ptype sizes symbols) args ->
  sigs_accepts D cases args v = Ok (Some (s, ts, t)) ->
  (exists before after, cases = before ++ s :: after /\ Forall (fun s' => sig_accepts D s' args v = Ok None) before) /\
  (current (s_life s) v = true \/ deprecated (s_life s) v = true) /\ length (s_params s) = length args /\
  exists sigma, good_call D false sigma s args ts t.
Proof.
  intros HD Ha H. apply sigs_first in H as (b & a & -> & F & Es). split; [eauto|]. destruct (sig_accepts_sound D sizes symbols HD s args v ts t Ha Es) as (Hv & Hl & Hs).
  split; [now apply Bool.orb_true_iff|]. now split.
Qed.
(** By the rules as they should be, if the signature has no function, wild enum, wild fixed or EnumFields in it. *)
Theorem C13_ideal_partial D sizes symbols cases args v s ts t : document D sizes symbols -> Forall (doc_ptype sizes symbols) args ->
  sigs_accepts D cases args v = Ok (Some (s, ts, t)) -> Forall (fun kp => first_order (snd kp) = true) (s_params s) ->
  exists sigma, good_call D true sigma s args ts t.
Proof.
  intros HD Ha H Hf. destruct (C13_sound _ _ _ _ _ _ _ _ _ HD Ha H) as (_ & _ & _ & sigma & F & Q). exists sigma. split; [|exact Q].
  eapply Forall2_in_impl; [|exact F]. intros p a Hp. apply matches_ideal. apply in_map_iff in Hp as (kp & <- & Hk). rewrite Forall_forall in Hf. now apply Hf.
Qed.
(** *** completeness *)
(** If no signature is found, then no direct signature in force fits the arguments with each label standing for one and
    the same type throughout (and not for a union of two fixed types or two enums). *)
Theorem C13_rejection D sizes symbols cases args v : document D sizes symbols -> Forall (doc_ptype sizes symbols) args ->
  sigs_accepts D cases args v = Ok None -> forall s, In s cases -> Forall (fun kp => direct (snd kp) = true) (s_params s) ->
  (current (s_life s) v = true \/ deprecated (s_life s) v = true) ->
  forall sigma, (forall l a, sigma l = Some a -> match a with PVal t => wf t /\ modest t = true | PFcn _ _ => True end) ->
  ~ Forall2 (fun p a => matches D true (fun _ l a => sigma l = Some a) (fun _ _ => False) false false p a) (map snd (s_params s)) args.
Proof.
  intros HD Ha H s Hs Hd Hv sigma Hm F. induction cases as [|s0 cases IH]; [destruct Hs|]. cbn [sigs_accepts] in H.
  destruct (sig_accepts D s0 args v) as [[[ts0 t0]|]|] eqn:E; try discriminate. cbn [rbind] in H. destruct Hs as [->|Hs]; [|now apply IH].
  apply (sig_accepts_complete D sizes symbols s args v sigma HD Ha Hd Hm (proj2 (Bool.orb_true_iff _ _) Hv)); [|exact E].
  eapply Forall2_in_impl; [|exact F]. intros p a _. apply matches_impl; auto.
Qed.

(** *** the signatures of some library functions *)
Definition always : lifespan := Life None None None.
Definition W_ l := QWild l None.
(** a.append, lib/array.py; a.map; enum.toString; model.tree.simpleTest; model.tree.simpleWalk; "+"; "&&" with nulls *)
Definition sig_append : sig := Sig [("a", QArray (W_ "A")); ("item", W_ "A")] (QArray (W_ "A")) always.
Definition sig_map : sig := Sig [("a", QArray (W_ "A")); ("fcn", QFcn [W_ "A"] (W_ "B"))] (QArray (W_ "B")) always.
Definition sig_head : sig := Sig [("a", QArray (W_ "A"))] (W_ "A") always.
Definition sig_enumToString : sig := Sig [("x", QWildEnum "A")] QString always.
Definition numbers : list ty := [TInt; TLong; TFloat; TDouble].
Definition sig_plus : sig := Sig [("x", QWild "A" (Some numbers)); ("y", W_ "A")] (W_ "A") always.
Definition sig_and : sig := let u := QUnion [QBoolean; QNull] in Sig [("x", u); ("y", u)] u always.
Definition sig_simpleTest : sig :=
  Sig [("datum", QWildRecord "D" []); ("comparison", QWildRecord "T" [("field", QEnumFields "F" "D"); ("operator", QString); ("value", W_ "V")])] QBoolean always.
Definition sig_simpleWalk : sig :=
  let u := QUnion [QWildRecord "T" []; W_ "S"] in
  Sig [("datum", QWildRecord "D" []); ("treeNode", QWildRecord "T" [("pass", u); ("fail", u)]);
       ("test", QFcn [QWildRecord "D" []; QWildRecord "T" []] QBoolean)] (W_ "S") always.
(** overloads for int and long, as in bitwise & (lib/core.py:396) *)
Definition sig_logical : list sig := [Sig [("x", QInt); ("y", QInt)] QInt always; Sig [("x", QLong); ("y", QLong)] QLong always].

Definition v1 : version := Ver 0%Z 8%Z 1%Z.
(** a datum, a comparison, and two trees that differ in the order of the unions *)
Definition nodes (u : ty) : list field := [f1 "field" (TEnum "Names" ["x"; "y"]); f1 "operator" TString; f1 "value" TDouble; f1 "pass" u; f1 "fail" u].
Definition doc2 : defs :=
  [("Datum", [f1 "x" TInt; f1 "y" TString]); ("Leaf", [f1 "score" TDouble]);
   ("Node", nodes (TUnion [TRecord "Node"; TRecord "Leaf"])); ("Edon", nodes (TUnion [TRecord "Leaf"; TRecord "Edon"]))].
Definition names2 (n : string) : list string := if String.eqb n "Names" then ["x"; "y"] else if String.eqb n "E" then ["a"; "b"] else if String.eqb n "F" then ["c"] else [].
Lemma doc2_ok : document doc2 (fun _ => 0) names2.
Proof.
  split.
  - intros n. unfold fields_of. cbn [assoc doc2]. repeat match goal with |- context [String.eqb n ?x] => destruct (String.eqb n x) end;
      (split; [apply nodup_str_ok; reflexivity|intros f Hf; cbn in Hf; intuition (subst; cbn; tauto)]).
  - intros n f. unfold fields_of. cbn [assoc doc2]. repeat match goal with |- context [String.eqb n ?x] => destruct (String.eqb n x) end; cbn [In nodes]; intros Hf;
      repeat destruct Hf as [<-|Hf]; try destruct Hf; (split; [cbn; tauto|]; split; [cbn; repeat (constructor; cbn; try tauto); intuition discriminate|];
      split; intros m ss H; cbn in H; intuition (try discriminate); match goal with H : TEnum _ _ = TEnum _ _ |- _ => injection H as <- <- end; reflexivity).
Qed.
Ltac docs := repeat (apply Forall_cons || apply Forall_nil);
  repeat match goal with
  | |- doc_ptype _ _ (PVal _) => cbn [doc_ptype]
  | |- doc_ptype _ _ (PFcn _ _) => split; [repeat (apply Forall_cons || apply Forall_nil); right|right]
  | |- doc_type _ _ _ => split; [cbn; tauto|]; split; [cbn; repeat (constructor; cbn; try tauto); intuition discriminate|];
      split; let m := fresh "m" in let ss := fresh "ss" in let H := fresh "H" in intros m ss H; cbn in H; intuition (try discriminate);
      match goal with H : TEnum _ _ = TEnum _ _ |- _ => injection H as <- <- end; reflexivity
  end.

Example C13_example :
  let args := [PVal (TArray (TUnion [TInt; TNull])); PVal TDouble] in
  Forall (doc_ptype (fun _ => 0) names2) args /\
  sigs_accepts doc2 [sig_map; sig_append] args v1 =
    Ok (Some (sig_append, [PVal (TArray (TUnion [TDouble; TNull])); PVal (TUnion [TDouble; TNull])], PVal (TArray (TUnion [TDouble; TNull])))) /\
  sigs_accepts doc2 sig_logical [PVal TInt; PVal TLong] v1 = Ok (Some (Sig [("x", QLong); ("y", QLong)] QLong always, [PVal TLong; PVal TLong], PVal TLong)) /\
  sigs_accepts doc2 [sig_and] [PVal (TUnion [TNull; TBool]); PVal TNull] v1 = Ok (Some (sig_and, [PVal (TUnion [TNull; TBool]); PVal TNull], PVal (TUnion [TBool; TNull]))) /\
  sigs_accepts doc2 [sig_and] [PVal TBool; PVal TInt] v1 = Ok None.
Proof. split; [docs|]. repeat split; reflexivity. Qed.

(** *** EnumFields: the enum of a comparison lists the fields of the datum, in this order *)
Lemma string_eqb_list ss l : (if list_eq_dec string_dec ss l then true else false) = true -> ss = l.
Proof. destruct (list_eq_dec string_dec ss l); [auto|discriminate]. Qed.
Theorem C13_simpleTest D args v s ts t : sigs_accepts D [sig_simpleTest] args v = Ok (Some (s, ts, t)) ->
  exists n m e ss, args = [PVal (TRecord n); PVal (TRecord m)] /\ has_field D m "field" (TEnum e ss) /\ ss = map f_name (fields_of D n) /\
    has_field D m "operator" TString /\ t = PVal TBool.
Proof.
  intros H. cbn [sigs_accepts] in H. destruct (sig_accepts D sig_simpleTest args v) as [[[ts0 t0]|]|] eqn:E; try discriminate. cbn in H. injection H as <- <- <-.
  unfold sig_accepts in E. cbn [sig_simpleTest s_life s_params] in E. destruct (current always v || deprecated always v)%bool; [|discriminate].
  destruct args as [|a1 [|a2 [|]]]; try discriminate. cbn [length Nat.eqb negb] in E.
  unfold check_all in E. cbn [map snd combine allM fst] in E.
  destruct a1 as [t1|ps r]; [|discriminate]. destruct t1; try discriminate.
  cbn [check map fst forallb allM] in E. unfold bind at 1 2 3 in E. unfold add_member at 1 in E. cbn [ret assoc dict_set] in E. unfold ret at 1 in E.
  destruct a2 as [t2|ps r]; [|discriminate]. destruct t2; try discriminate. unfold bind at 1 2 in E. unfold add_member at 1 in E.
  destruct (mem "field" (field_names D name0) && _)%bool; [|discriminate].
  destruct (field_type D name0 "field") as [u1|] eqn:F1; [|discriminate]. destruct u1; try discriminate. unfold bind at 1 2 in E. unfold add_member at 1 in E. unfold set_expected in E.
  cbn [dict_set String.eqb Ascii.eqb Bool.eqb assoc SigModel.members expectedFields app] in E. unfold ret at 1 in E.
  unfold bind at 1 in E. destruct (field_type D name0 "operator") as [u2|] eqn:F2; [|discriminate]. destruct u2; try discriminate. unfold ret at 1 in E.
  unfold bind at 1 in E. destruct (field_type D name0 "value") as [u3|] eqn:F3; [|discriminate].
  assert (Ev : exists ld, check D (W_ "V") (PVal u3) true false = (_ <~ add_member "V" (PVal u3) ;; ret true) \/ check D (W_ "V") (PVal u3) true false = ret false)
    by (exists tt; destruct u3; auto).
  destruct Ev as (_ & [Ev|Ev]); rewrite Ev in E; [|discriminate].
  unfold bind, add_member in E. cbn [dict_set String.eqb Ascii.eqb Bool.eqb assoc SigModel.members expectedFields app ret] in E. unfold ret in E.
  unfold resolve in E. cbn [determine_all] in E. unfold determine at 1 in E. cbn [SigModel.members expectedFields] in E.
  replace (broadest_ptype D fcn_eqb [PVal (TRecord name)]) with (Ok (PVal (TRecord name))) in E by reflexivity. cbn [rbind] in E.
  destruct (list_eq_dec string_dec symbols (field_names D name)) as [Es|]; [|discriminate].
  exists name, name0, name1, symbols. split; [reflexivity|]. split; [now apply field_type_spec|]. split; [exact Es|]. split; [now apply field_type_spec|].
  cbn [rbind] in E. match type of E with context [rbind ?m _] => destruct m as [x1|e1]; [|cbn in E; destruct e1; try discriminate; destruct (String.eqb _ _); discriminate] end.
  cbn [rbind] in E. match type of E with context [rbind ?m _] => destruct m as [x2|e1]; [|cbn in E; destruct e1; try discriminate; destruct (String.eqb _ _); discriminate] end.
  cbn in E. congruence.
Qed.
Example C13_simpleTest_example :
  sigs_accepts doc2 [sig_simpleTest] [PVal (TRecord "Datum"); PVal (TRecord "Node")] v1 =
    Ok (Some (sig_simpleTest, [PVal (TRecord "Datum"); PVal (TRecord "Node")], PVal TBool)) /\
  sigs_accepts doc2 [sig_simpleTest] [PVal (TRecord "Leaf"); PVal (TRecord "Node")] v1 = Ok None.
Proof. split; reflexivity. Qed.

(** *** arithmetic: two numbers give the wider type *)
Theorem C13_arithmetic D x y v : In x numbers -> In y numbers ->
  exists w, In w [x; y] /\ (w = x \/ widens w x) /\ (w = y \/ widens w y) /\
    sigs_accepts D [sig_plus] [PVal x; PVal y] v = Ok (Some (sig_plus, [PVal w; PVal w], PVal w)).
Proof.
  intros Hx Hy. cbn in Hx, Hy.
  assert (Q : forall w, In w [x; y] -> (w = x \/ widens w x) -> (w = y \/ widens w y) -> sig_accepts D sig_plus [PVal x; PVal y] v = Ok (Some ([PVal w; PVal w], PVal w)) ->
    exists w, In w [x; y] /\ (w = x \/ widens w x) /\ (w = y \/ widens w y) /\
      sigs_accepts D [sig_plus] [PVal x; PVal y] v = Ok (Some (sig_plus, [PVal w; PVal w], PVal w))).
  { intros w H1 H2 H3 H4. exists w. split; [exact H1|]. split; [exact H2|]. split; [exact H3|]. cbn [sigs_accepts]. now rewrite H4. }
  unfold sig_accepts in Q. cbn [sig_plus s_life] in Q. replace (current always v || deprecated always v)%bool with true in Q by reflexivity.
  repeat destruct Hx as [<-|Hx]; try destruct Hx; repeat destruct Hy as [<-|Hy]; try destruct Hy;
    match goal with Q : forall w, In w [?a; ?b] -> _ |- _ =>
      first [apply (Q a); [cbn; tauto|first [left; reflexivity|right; constructor]|first [left; reflexivity|right; constructor]|reflexivity]
            |apply (Q b); [cbn; tauto|first [left; reflexivity|right; constructor]|first [left; reflexivity|right; constructor]|reflexivity]] end.
Qed.

(** *** where the rules followed are not the ones they should be *)
Lemma ideal_covers D sigma p a : matches D true (stands D true sigma) (obeys D sigma) false false p a -> forall l, p = W_ l -> exists t, sigma l = Some t /\ wfp t /\ covers D t a.
Proof. intros H l ->. inv_match H. assumption. Qed.
(** The number of parameters of a function that is passed is not looked at: a.map takes a function of two. *)
Theorem C13_fcn_arity_refuted : exists D args ts t, document D (fun _ => 0) (fun _ => []) /\ Forall (doc_ptype (fun _ => 0) (fun _ => [])) args /\
  sigs_accepts D [sig_map] args v1 = Ok (Some (sig_map, ts, t)) /\ forall sigma ts t, ~ good_call D true sigma sig_map args ts t.
Proof.
  exists [], [PVal (TArray TInt); PFcn [TInt; TInt] TInt], [PVal (TArray TInt); PFcn [TInt; TInt] TInt], (PVal (TArray TInt)).
  split; [split; [intros n; split; [constructor|intros f []]|intros n f []]|]. split; [docs|]. split; [reflexivity|].
  intros sigma ts t (F & _). cbn in F. inversion F as [|? ? ? ? _ F']; subst. inversion F' as [|? ? ? ? Hm _]; subst. inv_match Hm.
  match goal with H : true = true -> _ |- _ => specialize (H eq_refl); discriminate end.
Qed.
(** Nor must the function accept the elements: a.map takes a function of an int on an array of doubles. *)
Theorem C13_contravariance_refuted : exists D args ts t, document D (fun _ => 0) (fun _ => []) /\ Forall (doc_ptype (fun _ => 0) (fun _ => [])) args /\
  sigs_accepts D [sig_map] args v1 = Ok (Some (sig_map, ts, t)) /\ forall sigma ts t, ~ good_call D true sigma sig_map args ts t.
Proof.
  assert (HD : wf_defs []) by (intros n; split; [constructor|intros f []]).
  exists [], [PVal (TArray TDouble); PFcn [TInt] TInt], [PVal (TArray TDouble); PFcn [TInt] TInt], (PVal (TArray TInt)).
  split; [split; [exact HD|intros n f []]|]. split; [docs|]. split; [reflexivity|].
  intros sigma ts t (F & _). cbn in F. inversion F as [|? ? ? ? Ha F']; subst. inversion F' as [|? ? ? ? Hm _]; subst. inv_match Ha. inv_match Hm.
  match goal with H : matches _ _ _ _ _ _ _ (PVal TDouble) |- _ => inv_match H end. match goal with H : Forall _ _ |- _ => inversion H; subst end. cbn [fst snd] in *.
  match goal with H : matches _ _ _ _ false true _ (PVal TInt) |- _ => inv_match H end.
  match goal with H : stands _ _ _ false "A" _ |- _ => destruct H as (t1 & S1 & W1 & C1) end.
  match goal with H : stands _ _ _ true "A" _ |- _ => destruct H as (t2 & S2 & W2 & C2) end. cbn [andb] in C1, C2.
  rewrite S1 in S2. injection S2 as <-. destruct t1 as [t1|]; [|destruct C1]. cbn [covers wfp] in *.
  assert (X : accepts [] [] TInt TDouble = true) by (apply C10_trans with t1; auto; try exact I; apply W1). discriminate X.
Qed.
(** A wild enum need not be an enum: enum.toString takes an int. *)
Theorem C13_wild_enum_refuted : exists D args ts t, document D (fun _ => 0) (fun _ => []) /\ Forall (doc_ptype (fun _ => 0) (fun _ => [])) args /\
  sigs_accepts D [sig_enumToString] args v1 = Ok (Some (sig_enumToString, ts, t)) /\ forall sigma ts t, ~ good_call D true sigma sig_enumToString args ts t.
Proof.
  exists [], [PVal TInt], [PVal TInt], (PVal TString).
  split; [split; [intros n; split; [constructor|intros f []]|intros n f []]|]. split; [docs|]. split; [reflexivity|].
  intros sigma ts t (F & _). cbn in F. inversion F as [|? ? ? ? Hm _]; subst. inv_match Hm.
  match goal with H : true = true -> _ |- _ => destruct (H eq_refl) as (n & ss & Hx); discriminate end.
Qed.
(** The restriction to numbers is not enforced: an int plus a string is well typed, and a union. *)
Theorem C13_number_refuted : exists D args ts t, document D (fun _ => 0) (fun _ => []) /\ Forall (doc_ptype (fun _ => 0) (fun _ => [])) args /\
  sigs_accepts D [sig_plus] args v1 = Ok (Some (sig_plus, ts, t)) /\ forall sigma ts t, ~ good_call D true sigma sig_plus args ts t.
Proof.
  exists [], [PVal TInt; PVal TString], [PVal (TUnion [TInt; TString]); PVal (TUnion [TInt; TString])], (PVal (TUnion [TInt; TString])).
  split; [split; [intros n; split; [constructor|intros f []]|intros n f []]|]. split; [docs|]. split; [reflexivity|].
  intros sigma ts t (F & _). cbn in F. inversion F as [|? ? ? ? Ha F']; subst. inversion F' as [|? ? ? ? Hm _]; subst.
  destruct (ideal_covers _ _ _ _ Hm "A" eq_refl) as (u & S1 & W1 & C1). inv_match Ha.
  match goal with H : true = true -> obeys _ _ _ _ |- _ => destruct (H eq_refl) as (u' & S2 & In2) end. rewrite S1 in S2. injection S2 as ->. cbn [covers] in C1.
  repeat destruct In2 as [<-|In2]; try destruct In2; discriminate C1.
Qed.
(** A tree whose unions list the node type first is accepted; the same with the leaf first is not, although it fits by the
    ideal rules. *)
Definition walk_args (n : string) : list ptype := [PVal (TRecord "Datum"); PVal (TRecord n); PFcn [TRecord "Datum"; TRecord n] TBool].
Lemma walk_good n u : has_field doc2 n "pass" u -> has_field doc2 n "fail" u -> (u = TUnion [TRecord n; TRecord "Leaf"] \/ u = TUnion [TRecord "Leaf"; TRecord n]) ->
  exists sigma ts t, good_call doc2 true sigma sig_simpleWalk (walk_args n) ts t.
Proof.
  intros H1 H2 Hu. set (sigma := fun l => if String.eqb l "D" then Some (PVal (TRecord "Datum")) else if String.eqb l "T" then Some (PVal (TRecord n)) else if String.eqb l "S" then Some (PVal (TRecord "Leaf")) else None).
  assert (Cov : forall x, covers doc2 (PVal (TRecord x)) (PVal (TRecord x))) by (intros x; cbn [covers]; apply C10_refl; [apply doc2_ok|exact I]).
  assert (St : forall r l x, sigma l = Some (PVal (TRecord x)) -> stands doc2 true sigma r l (PVal (TRecord x))).
  { intros r l x E. exists (PVal (TRecord x)). split; [exact E|]. split; [cbn; auto|]. destruct (true && r)%bool; apply Cov. }
  assert (Mu : forall s r, matches doc2 true (stands doc2 true sigma) (obeys doc2 sigma) s r (QUnion [QWildRecord "T" []; W_ "S"]) (PVal u)).
  { intros s r. destruct Hu as [-> | ->].
    - eapply (m_union _ _ _ _ s r _ [QWildRecord "T" []; W_ "S"] []); [reflexivity|]. constructor; [apply m_wild_record; [now apply St|constructor]|].
      constructor; [|constructor]. apply m_wild; [discriminate|now apply St].
    - eapply (m_union _ _ _ _ s r _ [W_ "S"; QWildRecord "T" []] []); [apply perm_swap|]. constructor; [apply m_wild; [discriminate|now apply St]|].
      constructor; [|constructor]. apply m_wild_record; [now apply St|constructor]. }
  exists sigma, (walk_args n), (PVal (TRecord "Leaf")). split; [|split; [reflexivity|split]].
  - cbn [map snd s_params sig_simpleWalk walk_args]. constructor; [apply m_wild_record; [now apply St|constructor]|]. constructor; [|constructor; [|constructor]].
    + apply m_wild_record; [now apply St|]. repeat constructor; exists u; (split; [assumption|apply Mu]).
    + apply m_fcn; [reflexivity| |apply m_plain; constructor]. cbn [combine]. repeat (apply Forall_cons || apply Forall_nil); cbn [fst snd]; (apply m_wild_record; [now apply St|constructor]).
  - cbn [map snd s_params sig_simpleWalk walk_args combine]. repeat (apply Forall_cons || apply Forall_nil).
    + split; [now apply pt_wild_record|]. split; [cbn; auto|apply Cov].
    + split; [now apply pt_wild_record|]. split; [cbn; auto|apply Cov].
    + split; [apply pt_fcn|]. split; [exact I|cbn; auto].
  - now apply rt_wild.
Qed.
Theorem C13_union_order_refuted : exists D args, document D (fun _ => 0) names2 /\ Forall (doc_ptype (fun _ => 0) names2) args /\
  sigs_accepts D [sig_simpleWalk] args v1 = Ok None /\ exists sigma ts t, good_call D true sigma sig_simpleWalk args ts t.
Proof.
  exists doc2, (walk_args "Edon"). split; [apply doc2_ok|]. split; [docs|]. split; [reflexivity|].
  apply (walk_good "Edon" (TUnion [TRecord "Leaf"; TRecord "Edon"])); [exists (f1 "pass" (TUnion [TRecord "Leaf"; TRecord "Edon"]))|exists (f1 "fail" (TUnion [TRecord "Leaf"; TRecord "Edon"]))|now right];
    (split; [cbn; tauto|split; reflexivity]).
Qed.
Example C13_union_order_example :
  sigs_accepts doc2 [sig_simpleWalk] (walk_args "Node") v1 = Ok (Some (sig_simpleWalk, walk_args "Node", PVal (TRecord "Leaf"))).
Proof. reflexivity. Qed.
(** An element that is a union of two enums is turned down wherever a wildcard stands, even alone. *)
Theorem C13_two_enums_refuted : exists D args, document D (fun _ => 0) names2 /\ Forall (doc_ptype (fun _ => 0) names2) args /\
  sigs_accepts D [sig_head] args v1 = Ok None /\ exists sigma ts t, good_call D true sigma sig_head args ts t.
Proof.
  set (u := TUnion [TEnum "E" ["a"; "b"]; TEnum "F" ["c"]]). exists doc2, [PVal (TArray u)]. split; [apply doc2_ok|]. split; [docs|]. split; [reflexivity|].
  assert (Wu : wfp (PVal u)) by (split; [cbn; tauto|cbn; repeat (constructor; cbn; try tauto); intuition discriminate]).
  assert (Cu : covers doc2 (PVal u) (PVal u)) by (apply C10_refl; [apply doc2_ok|apply Wu]).
  exists (fun _ => Some (PVal u)), [PVal (TArray u)], (PVal u). split; [|split; [reflexivity|split]].
  - cbn [map snd s_params sig_head]. constructor; [|constructor]. apply m_array, m_wild; [discriminate|]. exists (PVal u). auto.
  - cbn [map snd s_params sig_head combine]. apply Forall_cons; [|apply Forall_nil]. split; [apply pt_array; now apply pt_wild|]. split; [apply Wu|]. cbn [covers]. apply C10_refl; [apply doc2_ok|apply Wu].
  - now apply rt_wild.
Qed.
(** A clash of types escapes as an error of the Avro library, so that the signatures after it are not tried. *)
Theorem C13_crash_refuted : exists D args s', document D (fun _ => 0) names2 /\ Forall (doc_ptype (fun _ => 0) names2) args /\
  sigs_accepts D [sig_append; s'] args v1 = Raise AvroErr /\ exists ts t, sigs_accepts D [s'] args v1 = Ok (Some (s', ts, t)).
Proof.
  exists doc2, [PVal (TArray (TUnion [TArray TInt; TNull])); PVal (TArray TString)],
    (Sig [("a", QArray (W_ "A")); ("b", QArray QString)] (QArray (W_ "A")) always).
  split; [apply doc2_ok|]. split; [docs|]. split; [reflexivity|]. eexists. eexists. reflexivity.
Qed.
(** A label that stands for a union of an int and a double comes to stand for a union of a double alone. *)
Example C13_narrowed : sigs_accepts doc2 [sig_head] [PVal (TArray (TUnion [TInt; TDouble]))] v1 =
  Ok (Some (sig_head, [PVal (TArray (TUnion [TDouble]))], PVal (TUnion [TDouble]))).
Proof. reflexivity. Qed.

Print Assumptions C13_sound.
Print Assumptions C13_ideal_partial.
Print Assumptions C13_rejection.
Print Assumptions C13_simpleTest.
Print Assumptions C13_arithmetic.
Print Assumptions C13_fcn_arity_refuted.
Print Assumptions C13_contravariance_refuted.
Print Assumptions C13_wild_enum_refuted.
Print Assumptions C13_number_refuted.
Print Assumptions C13_union_order_refuted.
Print Assumptions C13_two_enums_refuted.
Print Assumptions C13_crash_refuted.
