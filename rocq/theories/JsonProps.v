(** JSON encoding (C15), input checking (C16) and comparison (C17). *)
From Verif Require Import Base PyNum PyNumProofs NumOrder ScopeModel TypeModel TypeSpec TypeProofs TypeProofs2 TypeProps.
From Verif Require Import JsonModel JsonSpec JsonFuel JsonProofs JsonProofs2 JsonProofs3.
Require Import SpecFloat.
Open Scope string_scope.
Open Scope list_scope.
Open Scope Z_scope.

(** Conditions on the documents: no union directly in a union, distinct names of members and fields, nothing but null is called null. *)
Definition good_defs (D : defs) : Prop := wf_defs D /\ defs_sat uniq D /\ defs_sat null_names D.
Definition good (t : ty) : Prop := wf t /\ uniq t /\ null_names t.

Lemma doc1_fields (Q : ty -> Prop) : Q (TUnion [TDouble; TString]) -> Q (TUnion [TNull; TRecord "Tree"]) -> Q TInt -> Q (TEnum "E" ["a"; "b"]) ->
  defs_sat Q doc1.
Proof.
  intros H1 H2 H3 H4 n f. unfold fields_of. cbn [assoc doc1].
  destruct (String.eqb n "Tree"); [|destruct (String.eqb n "Opt")]; cbn; intuition (subst; assumption).
Qed.
Lemma doc1_good : good_defs doc1.
Proof.
  split; [exact doc1_wf|]. split; apply doc1_fields; cbn; try tauto; repeat split; try discriminate; try reflexivity;
    repeat constructor; cbn; intuition discriminate.
Qed.
Lemma doc1_separated : defs_sat separated doc1.
Proof.
  apply doc1_fields; cbn; try tauto; (split; [|tauto]);
    repeat constructor; unfold passes_for; cbn; intuition discriminate.
Qed.
Definition leaf : val := VDict [("value", VDict [("double", VInt 3)]); ("left", VNull); ("right", VNull)].
Definition tree : val := VDict [("value", VDict [("string", VStr "root")]); ("left", VDict [("Tree", leaf)]); ("right", VNull)].
Definition no_parse : parsers := {| parse_int := fun _ => None; parse_float := fun _ => None |}.

(** *** C15 *)
(** Whatever jsonDecoder makes of a JSON document, jsonEncoder gives a document that decodes to the same datum, for all
    schemas in which no union member passes for an earlier one. [n] bounds the Python recursion: at any sufficient
    depth the result is the same. *)
Theorem C15_roundtrip_partial P D t n j v :
  good_defs D -> defs_sat separated D -> good t -> separated t -> decode n P D t j = Ok v ->
  exists j', forall k, (S n <= k)%nat -> encode k D true t v = Ok j' /\ decode k P D t j' = Ok v.
Proof.
  intros (WD & UD & ND) SD (W & U & N) Sp H. destruct (roundtrip P D WD SD UD ND n t j v W U Sp N H) as (j' & E & F).
  exists j'. intros k Hk. split; [now apply (encode_ge _ _ (S n))|now apply (decode_ge _ _ (S n))].
Qed.
Example C15_roundtrip_example :
  let t := TArray (TUnion [TRecord "Tree"; TArray TInt]) in
  let j := VArr [VDict [("Tree", tree)]; VDict [("array", VArr [VInt 1])]] in
  good_defs doc1 /\ defs_sat separated doc1 /\ good t /\ separated t /\
  exists v, decode 10 no_parse doc1 t j = Ok v /\ v <> j.
Proof.
  split; [exact doc1_good|]. split; [exact doc1_separated|]. split; [|split].
  - split; [cbn; tauto|]. split; cbn; repeat split; try discriminate; repeat constructor; cbn; intuition discriminate.
  - cbn. repeat split; repeat constructor; unfold passes_for; cbn; intuition discriminate.
  - eexists. split; [reflexivity|]. discriminate.
Qed.
(** In general the branch of the union is lost: the encoder takes the first member that fits and does not read the tag. *)
Theorem C15_refuted : exists t j v j' w,
  good t /\ decode 5 no_parse [] t j = Ok v /\ encode 5 [] true t v = Ok j' /\ decode 5 no_parse [] t j' = Ok w /\
  v = VDict [("int", VInt 3)] /\ exists f, w = VDict [("double", VFlt f)].
Proof.
  exists (TUnion [TDouble; TInt]), (VDict [("int", VInt 3)]). do 3 eexists. split; [|split; [reflexivity|split; [reflexivity|split; [reflexivity|split; [reflexivity|eexists; reflexivity]]]]].
  split; [cbn; tauto|]. split; cbn; repeat split; try discriminate; repeat constructor; cbn; intuition discriminate.
Qed.

(** *** C16 *)
Theorem C16_idempotent P D t n v w :
  good_defs D -> good t -> check n P D v t = Ok w -> forall k, (n <= k)%nat -> check k P D w t = Ok w.
Proof.
  intros (WD & UD & ND) (W & U & N) H k Hk. apply (check_ge _ _ n); [|exact Hk].
  apply shape_fix; auto. now apply (check_shape P D WD ND n t v).
Qed.
(** A valid datum passes unchanged. *)
Lemma datum_shape D n : forall t v, datum n D t v -> shape n D t v.
Proof.
  induction n as [|n IH]; intros t v H; [destruct H|]. cbn [datum shape] in *.
  destruct t; destruct v; try tauto; try (destruct H; fail); eauto.
  - induction H as [|f kx fs d [H1 H2] H IHF]; constructor; auto.
  - destruct d as [|[tag x] [|]]; try tauto. destruct H as (t' & I & E & N & Hd). exists t'. auto.
Qed.
Theorem C16_valid_unchanged P D t n v :
  good_defs D -> good t -> datum n D t v -> forall k, (n <= k)%nat -> check k P D v t = Ok v.
Proof.
  intros (WD & UD & ND) (W & U & N) H k Hk. apply (check_ge _ _ n); [|exact Hk]. apply shape_fix; auto. now apply datum_shape.
Qed.
(** The result has the structure of the type; what is not checked is in [C16_valid_refuted]. *)
Theorem C16_shape_partial P D t n v w : good_defs D -> good t -> check n P D v t = Ok w -> shape n D t w.
Proof. intros (WD & UD & ND) (W & U & N) H. now apply (check_shape P D WD ND n t v). Qed.
Definition leaf_s : val := VDict [("value", VDict [("string", VStr "leaf")]); ("left", VNull); ("right", VNull)].
Example C16_example :
  let w := VDict [("value", VDict [("string", VStr "root")]); ("left", VDict [("Tree", leaf_s)]); ("right", VNull)] in
  good_defs doc1 /\ good (TRecord "Tree") /\
  check 10 no_parse doc1 (VDict [("right", VNull); ("value", VStr "root"); ("left", VDict [("Tree", leaf_s)])]) (TRecord "Tree") = Ok w /\
  datum 10 doc1 (TRecord "Tree") w.
Proof.
  split; [exact doc1_good|]. split; [split; [cbn; tauto|split; cbn; tauto]|]. split; [reflexivity|].
  assert (L : forall n, datum (S (S (S n))) doc1 (TRecord "Tree") leaf_s).
  { intros n. remember (S (S n)) as m eqn:Em. cbn [datum leaf_s]. change (fields_of doc1 "Tree") with
      [f1 "value" (TUnion [TDouble; TString]); f1 "left" (TUnion [TNull; TRecord "Tree"]); f1 "right" (TUnion [TNull; TRecord "Tree"])].
    subst m. remember (S n) as m eqn:Em.
    constructor; [split; [reflexivity|]|constructor; [split; [reflexivity|]|constructor; [split; [reflexivity|]|constructor]]];
      cbn [datum snd f_type f1]; try (split; [now left|subst; discriminate]).
    exists TString. split; [cbn; tauto|]. split; [reflexivity|]. split; [discriminate|subst; exact I]. }
  remember 9%nat as n eqn:En. cbn [datum]. change (fields_of doc1 "Tree") with
      [f1 "value" (TUnion [TDouble; TString]); f1 "left" (TUnion [TNull; TRecord "Tree"]); f1 "right" (TUnion [TNull; TRecord "Tree"])].
  subst n.
  constructor; [split; [reflexivity|]|constructor; [split; [reflexivity|]|constructor; [split; [reflexivity|]|constructor]]];
    cbn [snd f_type f1].
  - exists TString. cbn. split; [tauto|]. split; [reflexivity|]. split; [discriminate|exact I].
  - exists (TRecord "Tree"). split; [cbn; tauto|]. split; [reflexivity|]. split; [discriminate|]. apply (L 5%nat).
  - split; [cbn; tauto|discriminate].
Qed.
(** checkData lets through data that are not valid: integers out of range, booleans for integers, unknown symbols, fixed of another size. *)
Theorem C16_valid_refuted : exists P D, forall n,
  (forall z, check (S n) P D (VInt z) TInt = Ok (VInt z)) /\
  (exists z, ~ datum (S n) D TInt (VInt z)) /\
  (check (S n) P D (VBool true) TInt = Ok (VBool true) /\ ~ datum (S n) D TInt (VBool true)) /\
  (check (S n) P D (VStr "c") (TEnum "E" ["a"; "b"]) = Ok (VStr "c") /\ ~ datum (S n) D (TEnum "E" ["a"; "b"]) (VStr "c")) /\
  (check (S n) P D (VBytes [1]) (TFixed "F" 2) = Ok (VBytes [1]) /\ ~ datum (S n) D (TFixed "F" 2) (VBytes [1])).
Proof.
  exists no_parse, []. intros n. split; [reflexivity|]. split; [exists (2 ^ 40); cbn; unfold int_range; lia|].
  split; [split; [reflexivity|cbn; tauto]|]. split; [split; [reflexivity|cbn; intuition discriminate]|].
  split; [reflexivity|cbn; discriminate].
Qed.
(** An untagged string in a union is not kept as a string if it can be read as an earlier member: int("12") is 12. *)
Theorem C16_string_refuted P : parse_int P "12" = Some 12 ->
  check 3 P [] (VStr "12") (TUnion [TInt; TString]) = Ok (VDict [("int", VInt 12)]) /\
  check 3 P [] (VStr "null") (TUnion [TNull; TString]) = Ok VNull.
Proof. intros H. cbn. unfold to_int. rewrite H. split; reflexivity. Qed.
(** It is kept if string is the first member, or no earlier member takes strings. *)
Theorem C16_string_partial P D n s ts : check (S (S n)) P D (VStr s) (TUnion (TString :: ts)) = Ok (VDict [("string", VStr s)]).
Proof. reflexivity. Qed.
(** nor is a string other than "null", "true" and "false" taken for null or boolean *)
Theorem C16_string_after_null_partial P D n s : s <> "null" -> s <> "true" -> s <> "false" ->
  check (S (S n)) P D (VStr s) (TUnion [TNull; TBool; TString]) = Ok (VDict [("string", VStr s)]).
Proof.
  intros H1 H2 H3. cbn. rewrite (proj2 (String.eqb_neq s "null")) by exact H1. cbn.
  rewrite (proj2 (String.eqb_neq s "true")) by exact H2. rewrite (proj2 (String.eqb_neq s "false")) by exact H3. reflexivity.
Qed.

(** *** C17 *)
(** On values that it can order, compare gives -1, 0 or 1, is 0 on equal values, changes sign when its arguments are exchanged and is transitive. *)
Theorem C17_total_preorder D t n x y z :
  good_defs D -> good t -> ordered n D t x -> ordered n D t y -> ordered n D t z ->
  exists a b c, forall k, (n <= k)%nat ->
    compare k D t x y = Ok a /\ compare k D t y z = Ok b /\ compare k D t x z = Ok c /\
    compare k D t y x = Ok (- a) /\ compare k D t x x = Ok 0 /\
    (a = -1 \/ a = 0 \/ a = 1) /\ (a <= 0 -> b <= 0 -> c <= 0) /\ (a < 0 -> b <= 0 -> c < 0) /\ (a <= 0 -> b < 0 -> c < 0).
Proof.
  intros (WD & UD & ND) (W & U & N) Ox Oy Oz.
  destruct (compare_fit3 D WD UD ND n t x y z W U N Ox Oy Oz) as (a & b & c & H1 & H2 & H3 & H4 & H5 & Sa & Sb & Sc & T1 & T2 & T3).
  exists a, b, c. intros k Hk. do 5 (split; [now apply (compare_ge _ n)|]). unfold sign in *. split; [exact Sa|]. lia.
Qed.
(** A NaN double comes after all other numbers and equals itself. *)
Theorem C17_nan D n v : float_num v ->
  let nan := VFlt S754_nan in
  compare (S n) D TDouble nan v = Ok (if is_nan v then 0 else 1) /\
  compare (S n) D TDouble v nan = Ok (if is_nan v then 0 else -1).
Proof.
  intros H. destruct (float_num_num v H) as (a & E & V & I & K). cbn [compare num_of]. rewrite E. unfold double_sign. rewrite I, K.
  change (py_isnan (NF S754_nan)) with (Ok true). cbn [rbind]. destruct (is_nan v); split; reflexivity.
Qed.
(** The order is the expected one: numbers by size, strings by code points, symbols by position, arrays and fields lexicographically. *)
Theorem C17_meaning D n :
  (forall a b, compare (S n) D TInt (VInt a) (VInt b) = Ok (-1) <-> a < b) /\
  (forall s x y a b, (Ascii.N_of_ascii x < Ascii.N_of_ascii y)%N ->
     compare (S n) D TString (VStr (s ++ String x a)) (VStr (s ++ String y b)) = Ok (-1)) /\
  (forall s x a, compare (S n) D TString (VStr s) (VStr (s ++ String x a)) = Ok (-1)) /\
  (forall nm l x m y r, NoDup (l ++ x :: m ++ y :: r) ->
     compare (S n) D (TEnum nm (l ++ x :: m ++ y :: r)) (VStr x) (VStr y) = Ok (-1)) /\
  (forall t l x y a b c, compare n D t x y = Ok c -> c <> 0 -> (forall e, In e l -> compare n D t e e = Ok 0) ->
     compare (S n) D (TArray t) (VArr (l ++ x :: a)) (VArr (l ++ y :: b)) = Ok c) /\
  (forall t l x a, (forall e, In e l -> compare n D t e e = Ok 0) ->
     compare (S n) D (TArray t) (VArr l) (VArr (l ++ x :: a)) = Ok (-1)).
Proof.
  split.
  { intros a b. cbn [compare]. destruct (Z.compare_spec a b); cbn; split; intros H'; try discriminate; try reflexivity; lia. }
  split.
  { intros s x y a b H. cbn [compare]. do 2 f_equal. induction s as [|c s IH]; cbn.
    - apply N.compare_lt_iff in H. rewrite H. reflexivity.
    - rewrite N.compare_refl. exact IH. }
  split.
  { intros s x a. cbn [compare]. do 2 f_equal. induction s as [|c s IH]; cbn; [reflexivity|]. rewrite N.compare_refl. exact IH. }
  split.
  { intros nm l x m y r H. cbn [compare].
    assert (I1 : forall l, ~ In x l -> forall r, index_of x (l ++ x :: r) = Some (Z.of_nat (length l))).
    { clear. induction l as [|u l IH]; intros H r; cbn [app index_of]; [now rewrite String.eqb_refl|].
      rewrite (proj2 (String.eqb_neq u x)) by (intros ->; apply H; now left). rewrite IH by (intros K; apply H; now right).
      cbn [option_map length]. f_equal. lia. }
    assert (I2 : forall l, ~ In y l -> forall r, index_of y (l ++ y :: r) = Some (Z.of_nat (length l))).
    { clear. induction l as [|u l IH]; intros H r; cbn [app index_of]; [now rewrite String.eqb_refl|].
      rewrite (proj2 (String.eqb_neq u y)) by (intros ->; apply H; now left). rewrite IH by (intros K; apply H; now right).
      cbn [option_map length]. f_equal. lia. }
    rewrite I1. 2: { apply NoDup_remove_2 in H. intros K; apply H, in_or_app; now left. }
    replace (l ++ x :: m ++ y :: r) with ((l ++ x :: m) ++ y :: r) in * by (rewrite <- app_assoc; reflexivity).
    rewrite I2. 2: { apply NoDup_remove_2 in H. intros K; apply H, in_or_app; now left. }
    rewrite sign_diff, app_length. cbn [length]. destruct (Z.compare_spec (Z.of_nat (length l)) (Z.of_nat (length l + S (length m)))); try lia. reflexivity. }
  split.
  { intros t l x y a b c Hc Nc He. cbn [compare]. generalize (cmp_len (l ++ x :: a) (l ++ y :: b)). intros last.
    induction l as [|e l IH]; cbn [app cmp_zip].
    - rewrite Hc. cbn [rbind]. now rewrite (proj2 (Z.eqb_neq c 0)).
    - rewrite He by now left. cbn [rbind Z.eqb]. apply IH. intros; apply He; now right. }
  { intros t l x a He. cbn [compare].
    assert (L : cmp_len l (l ++ x :: a) = -1).
    { unfold cmp_len. rewrite app_length. cbn [length]. destruct (Nat.compare_spec (length l) (length l + S (length a))); try lia. reflexivity. }
    rewrite L. clear L. induction l as [|e l IH]; cbn [app cmp_zip]; [reflexivity|].
    rewrite He by now left. cbn [rbind Z.eqb]. apply IH. intros; apply He; now right. }
Qed.
Example C17_example :
  let root := VDict [("value", VDict [("string", VStr "root")]); ("left", VDict [("Tree", leaf_s)]); ("right", VNull)] in
  good_defs doc1 /\ good (TArray (TRecord "Tree")) /\ ordered 10 doc1 (TArray (TRecord "Tree")) (VArr [root; leaf_s]) /\
  compare 10 doc1 (TArray (TRecord "Tree")) (VArr [root; leaf_s]) (VArr [leaf_s; root]) = Ok 1.
Proof.
  split; [exact doc1_good|]. split; [split; [cbn; tauto|split; cbn; tauto]|]. split; [|reflexivity].
  assert (R : forall n v l r, (l = VNull \/ l = VDict [("Tree", leaf_s)] /\ ordered (S n) doc1 (TRecord "Tree") leaf_s) -> r = VNull ->
     ordered (S (S (S n))) doc1 (TRecord "Tree") (VDict [("value", VDict [("string", VStr v)]); ("left", l); ("right", r)])).
  { intros n v l r Hl ->. remember (S (S n)) as m eqn:Em. cbn [ordered]. change (fields_of doc1 "Tree") with
      [f1 "value" (TUnion [TDouble; TString]); f1 "left" (TUnion [TNull; TRecord "Tree"]); f1 "right" (TUnion [TNull; TRecord "Tree"])].
    intros f [<-|[<-|[<-|[]]]]; right; eexists; (split; [reflexivity|]); subst m; remember (S n) as m eqn:Em; cbn [ordered f1 f_type].
    - exists TString. split; [cbn; tauto|]. split; [reflexivity|]. subst m. exact I.
    - destruct Hl as [->|[-> H]]; [split; [now left|subst; discriminate]|]. exists (TRecord "Tree"). split; [cbn; tauto|]. split; [reflexivity|exact H].
    - split; [now left|subst; discriminate]. }
  remember 9%nat as m eqn:Em. cbn [ordered]. subst m.
  intros x [<-|[<-|[]]]; apply (R 6%nat); auto. right. split; [reflexivity|]. apply (R 4%nat); auto.
Qed.
(** What compare does not order: maps, bytes as checkData gives them, and a "float" NaN, which equals everything. *)
Theorem C17_refuted D n :
  compare (S n) D (TMap TInt) (VDict []) (VDict []) = Raise (PyErr "NotImplementedError") /\
  compare (S n) D TBytes (VBytes []) (VBytes []) = Raise (PyErr "TypeError") /\
  (let nan := VFlt S754_nan in
   compare (S n) D TFloat (VInt 1) nan = Ok 0 /\ compare (S n) D TFloat nan (VInt 2) = Ok 0 /\ compare (S n) D TFloat (VInt 1) (VInt 2) = Ok (-1)).
Proof. repeat split; reflexivity. Qed.

Print Assumptions C15_roundtrip_partial.
Print Assumptions C15_refuted.
Print Assumptions C16_idempotent.
Print Assumptions C16_valid_unchanged.
Print Assumptions C16_shape_partial.
Print Assumptions C16_valid_refuted.
Print Assumptions C16_string_refuted.
Print Assumptions C16_string_partial.
Print Assumptions C16_string_after_null_partial.
Print Assumptions C17_total_preorder.
Print Assumptions C17_nan.
Print Assumptions C17_meaning.
Print Assumptions C17_refuted.
