(** Property C40, continued: which values find a case in a block that is not partial. *)
From Coq Require Import SpecFloat.
From Verif Require Import Base PyNum ScopeModel TypeModel TypeSpec TypeProofs TypeProofs2 JsonModel JsonSpec JsonFuel
  SnapModel SnapSpec SnapProofs CoreModel CoreInv CoreFuel EngineModel EngineSpec EngineProofs ControlSpec ControlProofs
  ControlProps CoreDemo CastBlockModel.
Open Scope string_scope.
Open Scope list_scope.
Open Scope Z_scope.

(** *** What the statements are about *)
(** The run time reads a case's type with titus' decoder, and calls it by its name. *)
Definition reads (E : env) (n : nat) (P : parsers) (D : defs) (typ : string -> ty) : Prop :=
  forall t, (forall v, e_decode E t v = decode n P D (typ t) v) /\ e_tyname E t = tyname (typ t).
(** neither the type nor what it contains as items or values is a union; the fields of its records may be *)
Fixpoint no_union (t : ty) : Prop := match t with TArray x | TMap x => no_union x | TUnion _ => False | _ => True end.
Definition case_type (typ : string -> ty) (c : string * string * list expr) : ty := typ (snd (fst c)).

(** *** Types that accept each other *)
Lemma widens_asym a b : widens a b -> widens b a -> False.
Proof. intros H K. destruct H; inversion K. Qed.
Lemma twin D : forall t m, no_union t -> no_union m -> fits all_names t m -> fits all_names m t ->
  tyname t = tyname m /\ forall n v, stored n D m v -> stored n D t v.
Proof.
  induction t; intros m Ut Um H K; inversion H; subst; try (now destruct Um); try (now destruct Ut);
    try (exfalso; match goal with W : widens _ _ |- _ => inversion W; subst; inversion K as [|? ? W2| | | | | | |]; subst; inversion W2 end; fail);
    try (split; [reflexivity|now intros]).
  - inversion K; subst; try discriminate; try (match goal with W : widens _ _ |- _ => inversion W end; fail).
    split; [reflexivity|]. intros [|n] v Hs; [destruct Hs|]. cbn [stored] in *. destruct v; auto.
  - inversion K; subst; try discriminate; try (match goal with W : widens _ _ |- _ => inversion W end; fail).
    destruct (IHt b Ut Um) as [_ Hs]; [assumption|assumption|]. split; [reflexivity|].
    intros [|n] v Hv; [destruct Hv|]. cbn [stored] in *. destruct v; auto.
  - inversion K; subst; try discriminate; try (match goal with W : widens _ _ |- _ => inversion W end; fail).
    destruct (IHt b Ut Um) as [_ Hs]; [assumption|assumption|]. split; [reflexivity|].
    intros [|n] v Hv; [destruct Hv|]. cbn [stored] in *. destruct v; auto. destruct Hv as [Hn Hv]. split; [exact Hn|].
    intros k x Hx. apply Hs. eapply Hv; eauto.
Qed.

Lemma find_case D from types m : check_cast D false from types = true -> In m (must_find from) ->
  exists t, In t types /\ accepts D D t m = true /\ accepts D D m t = true.
Proof.
  unfold check_cast. rewrite Bool.andb_true_iff. intros [_ H] Hm. cbn [orb] in H. rewrite forallb_forall in H. specialize (H m Hm).
  apply existsb_exists in H. destruct H as (t & Ht & H). apply Bool.andb_true_iff in H. exists t. tauto.
Qed.
(** the first case that does not reject the value *)
Lemma first_not_rejected E fu v : forall (cases : list (string * string * list expr)) c0 w0, In c0 cases -> accepted E fu (snd (fst c0)) v w0 ->
  exists cs1 c cs2, cases = cs1 ++ c :: cs2 /\ Forall (fun c => rejected E fu (snd (fst c)) v) cs1 /\
    ((exists w, accepted E fu (snd (fst c)) v w) \/
     (exists u x, seen_as E fu (snd (fst c)) v u /\ e_decode E (snd (fst c)) u = Raise x /\ x <> AvroErr /\ x <> PyErr "TypeError")).
Proof.
  induction cases as [|c cs IH]; intros c0 w0 Hin Hacc; [destruct Hin|].
  assert (D : rejected E fu (snd (fst c)) v \/ exists u, seen_as E fu (snd (fst c)) v u /\
     ((exists w, e_decode E (snd (fst c)) u = Ok w) \/ exists x, e_decode E (snd (fst c)) u = Raise x /\ x <> AvroErr /\ x <> PyErr "TypeError")).
  { destruct (cast_value fu v (e_tyname E (snd (fst c)))) as [u|] eqn:Cv.
    - apply cast_value_spec in Cv. destruct (e_decode E (snd (fst c)) u) as [w|x] eqn:De.
      + right. exists u. split; [exact Cv|]. left. eauto.
      + assert (Dx : (x = AvroErr \/ x = PyErr "TypeError") \/ (x <> AvroErr /\ x <> PyErr "TypeError")).
        { destruct x; try (right; split; discriminate).
          - left. now left.
          - destruct (String.eqb_spec kind "TypeError") as [->|N]; [now left; right|]. right. split; [discriminate|congruence]. }
        destruct Dx as [Dx|Dx].
        * left. intros u' Hu'. rewrite <- (seen_fun _ _ _ _ _ _ Cv Hu'), De. destruct Dx as [-> | ->]; auto.
        * right. exists u. split; [exact Cv|]. right. exists x. auto.
    - left. intros u Hu. apply cast_value_spec in Hu. congruence. }
  destruct D as [R|(u & Hu & [(w & Hw)|(x & Hx & N1 & N2)])].
  - destruct Hin as [->|Hin].
    + destruct Hacc as (u & Hu & Hd). destruct (R u Hu); congruence.
    + destruct (IH c0 w0 Hin Hacc) as (cs1 & c' & cs2 & -> & F & H). exists (c :: cs1), c', cs2. split; [reflexivity|]. split; [now constructor|exact H].
  - exists [], c, cs. split; [reflexivity|]. split; [constructor|]. left. exists w, u. auto.
  - exists [], c, cs. split; [reflexivity|]. split; [constructor|]. right. exists u, x. auto.
Qed.

(** *** C40 *)
(** In a block that is not partial and passes the check, some case accepts any value of the expression's type; the first
    case that does not reject it either runs or fails with an error other than a mismatch.
    _partial: only if the cases the check found have no unions inside, or are literally the types looked for. *)
Theorem C40_exhaustive_partial : forall E n P D typ from cases v,
  reads E n P D typ -> wf_defs D -> defs_sat uniq D -> wf from -> uniq from ->
  (forall c, In c cases -> wf (case_type typ c) /\ uniq (case_type typ c)) ->
  check_cast D false from (map (case_type typ) cases) = true ->
  (forall c m, In c cases -> In m (must_find from) -> accepts D D (case_type typ c) m = true -> accepts D D m (case_type typ c) = true ->
     case_type typ c = m \/ no_union (case_type typ c) /\ no_union m) ->
  stored n D from v ->
  (exists c w, In c cases /\ accepted E (is_union from) (snd (fst c)) v w) /\
  (exists cs1 c cs2, cases = cs1 ++ c :: cs2 /\ Forall (fun c => rejected E (is_union from) (snd (fst c)) v) cs1 /\
    ((exists w, accepted E (is_union from) (snd (fst c)) v w) \/
     (exists u x, seen_as E (is_union from) (snd (fst c)) v u /\ e_decode E (snd (fst c)) u = Raise x /\ x <> AvroErr /\ x <> PyErr "TypeError"))).
Proof.
  intros E n P D typ from cases v R WD UD Wf Uf Wc Ck Tw Hs.
  assert (A : exists c w, In c cases /\ accepted E (is_union from) (snd (fst c)) v w).
  { assert (K : exists m k x, In m (must_find from) /\ (k <= n)%nat /\ stored k D m x /\ wf m /\ uniq m /\
       forall ty, tyname (typ ty) = tyname m -> seen_as E (is_union from) ty v x).
    { destruct (is_union from) eqn:Iu.
      - destruct from as [| | | | | | | | | | | | |ts|]; try discriminate. destruct n as [|n]; [destruct Hs|]. cbn [stored] in Hs.
        assert (Wm : forall t, In t ts -> wf t /\ uniq t).
        { clear - Wf Uf. destruct Uf as [_ Uf]. cbn in Wf. induction ts as [|t0 ts IH]; [intros t []|]. destruct Wf as [W1 W2], Uf as [U1 U2].
          intros t [<-|Ht]; [|now apply IH]. split; [destruct t0; auto; destruct W1|exact U1]. }
        destruct v as [| | | | | | |d]; try (now destruct Hs).
        + exists TNull, 1%nat, VNull. destruct (Wm _ Hs). split; [exact Hs|]. split; [lia|]. split; [exact I|]. split; [assumption|]. split; [assumption|].
          intros ty _. apply seen_plain. right. discriminate.
        + destruct d as [|[tag x] [|]]; try (now destruct Hs). destruct Hs as (m & Hm & Et & Hx). destruct (Wm _ Hm). exists m, n, x.
          split; [exact Hm|]. split; [lia|]. split; [exact Hx|]. split; [assumption|]. split; [assumption|].
          intros ty Hn. apply seen_tagged; [reflexivity|]. left. destruct (R ty) as [_ ->]. congruence.
      - exists from, n, v. split; [destruct from; try discriminate; now left|]. split; [lia|]. split; [exact Hs|]. split; [exact Wf|]. split; [exact Uf|].
        intros ty _. apply seen_plain. now left. }
    destruct K as (m & k & x & Hm & Hk & Hx & Wm & Um & Hseen).
    destruct (find_case _ _ _ _ Ck Hm) as (t & Ht & H1 & H2). apply in_map_iff in Ht. destruct Ht as (c & <- & Hc).
    destruct (Wc c Hc) as [Wt Ut].
    assert (Tn : tyname (case_type typ c) = tyname m /\ stored k D (case_type typ c) x).
    { destruct (Tw c m Hc Hm H1 H2) as [->|[N1 N2]]; [now split|].
      apply (accepts_fits D _ _ WD Wt Wm) in H1. apply (accepts_fits D _ _ WD Wm Wt) in H2.
      destruct (twin D _ _ N1 N2 H1 H2) as [En Hst]. split; [exact En|]. now apply Hst. }
    destruct Tn as [En Hst]. destruct (stored_decode P D WD UD k _ x Wt Ut Hst) as (w & Hw & _).
    exists c, w. split; [exact Hc|]. exists x. split; [now apply Hseen|]. destruct (R (snd (fst c))) as [-> _].
    apply (decode_ge _ _ _ _ _ _ Hw). exact Hk. }
  split; [exact A|]. destruct A as (c & w & Hc & Ha). eapply first_not_rejected; eauto.
Qed.
(** Every value of the type of a case is a value that the expression may have: no case is out of place, in partial blocks too. *)
Theorem C40_cases : forall D partial from types t v, wf_defs D -> wf from -> wf t -> check_cast D partial from types = true -> In t types ->
  has_type false D t v -> has_type false D from v.
Proof.
  intros D partial from types t v HD Hf Ht H Hin Hv. unfold check_cast in H. apply Bool.andb_true_iff in H. destruct H as [H _]. rewrite forallb_forall in H.
  specialize (H t Hin). apply accepts_fits in H; auto. now apply (fits_value D from t).
Qed.
Example C40_cases_example : check_cast [] true (TUnion [TString; TDouble]) [TInt; TString] = true /\ check_cast [] true (TUnion [TString; TDouble]) [TBool; TString] = false.
Proof. split; reflexivity. Qed.
Print Assumptions C40_exhaustive_partial.
(** An environment that reads types so, for the examples. *)
Definition reading (n : nat) (P : parsers) (D : defs) (typ : string -> ty) : env :=
  let E := demo_env [] (fun _ => 0) in
  Env (e_lib E) (e_libref E) (e_libparams E) (e_fcns E) (fun t => decode n P D (typ t)) (fun t => tyname (typ t))
      (e_pack E) (e_unpack E) (e_message E) (e_time E) (e_rand E).
Definition demo_types (t : string) : ty :=
  if String.eqb t "int" then TInt else if String.eqb t "double" then TDouble else if String.eqb t "string" then TString
  else if String.eqb t "ints" then TArray TInt else if String.eqb t "[int,double]" then TUnion [TInt; TDouble] else TNull.
Definition no_parsers : parsers := Parsers (fun _ => None) (fun _ => None).
Definition half_more : pf := S754_finite false 3 (-1).   (* 1.5 *)

Example C40_exhaustive_example :
  let E := reading 9 no_parsers [] demo_types in
  let cases := [("x", "string", [str "s"]); ("y", "ints", [str "a"]); ("z", "null", [str "n"])] in
  let from := TUnion [TNull; TString; TArray TInt] in
  let v := VDict [("array", VArr [VInt 3])] in
  check_cast [] false from (map (case_type demo_types) cases) = true /\ stored 9 [] from v /\
  accepted E true "ints" v (VArr [VInt 3]) /\
  check_cast [] false from (map (case_type demo_types) (tl cases)) = false /\
  check_cast [] true from (map (case_type demo_types) (tl cases)) = true.
Proof.
  cbv zeta. split; [reflexivity|]. split.
  - cbn [stored]. exists (TArray TInt). split; [right; right; now left|]. split; [reflexivity|]. intros x [<-|[]]. exact I.
  - split; [|split; reflexivity]. exists (VArr [VInt 3]). split; [apply seen_tagged; [reflexivity|now left]|reflexivity].
Qed.

(** Without that: a case whose type is a union passes the check for a member that is a number, and never accepts it. The
    block is not partial, and returns null although its only case returns a string. *)
Theorem C40_exhaustive_refuted : exists E n P D typ from cases e s s1 v,
  reads E n P D typ /\ check_cast D false from (map (case_type typ) cases) = true /\ stored n D from v /\
  runs E e s (Ok v) s1 /\ runs E (ECast e (is_union from) cases false) s (Ok VNull) s1 /\
  Forall (fun c => rejected E (is_union from) (snd (fst c)) v) cases.
Proof.
  exists (reading 9 no_parsers [] demo_types), 9%nat, no_parsers, [], demo_types, TDouble, [("x", "[int,double]", [str "s"])].
  exists (ELit "(double)" (VFlt half_more)).
  assert (J : Forall (fun c => rejected (reading 9 no_parsers [] demo_types) false (snd (fst c)) (VFlt half_more)) [("x", "[int,double]", [str "s"])]).
  { constructor; [|constructor]. intros u H. inversion H; subst; try discriminate. left. reflexivity. }
  pose (s := St [] [] [] 0 0 VNull [] [] None 0 0 0 []). exists s, s, (VFlt half_more).
  split; [split; reflexivity|]. split; [reflexivity|]. split; [exact I|]. split; [exists 1%nat; reflexivity|].
  split; [|exact J]. apply C40_no_match with (VFlt half_more); [exists 1%nat; reflexivity|exact J].
Qed.
Print Assumptions C40_exhaustive_refuted.
(** An expression that is no union is matched by decoding alone: a double with a case for int before the one for double is
    cut to an integer, and infinity makes the block fail with OverflowError. *)
Theorem C40_narrowing_refuted : exists E n P D typ from cases,
  reads E n P D typ /\ check_cast D false from (map (case_type typ) cases) = true /\
  (exists v, stored n D from v /\ v = VFlt half_more /\ forall s, runs E (ECast (ELit "(double)" v) (is_union from) cases false) s (Ok (VInt 1)) s) /\
  (exists v, stored n D from v /\ v = VFlt (S754_infinity false) /\
     forall s, runs E (ECast (ELit "(double)" v) (is_union from) cases false) s (Raise (PyErr "OverflowError")) s).
Proof.
  exists (reading 9 no_parsers [] demo_types), 9%nat, no_parsers, [], demo_types, TDouble, [("x", "int", [ERef "x"]); ("x", "double", [ERef "x"])].
  split; [split; reflexivity|]. split; [reflexivity|]. split.
  - exists (VFlt half_more). split; [exact I|]. split; [reflexivity|]. intros s. exists 9%nat. destruct s; reflexivity.
  - exists (VFlt (S754_infinity false)). split; [exact I|]. split; [reflexivity|]. intros s. exists 9%nat. destruct s; reflexivity.
Qed.
Print Assumptions C40_narrowing_refuted.
Print Assumptions C40_cases.
