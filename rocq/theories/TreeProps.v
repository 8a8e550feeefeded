(** C48: tree walks. C73: tree predicates. *)
From Coq Require Import SpecFloat.
From Verif Require Import Base PyNum Effects ScopeModel TypeModel JsonModel JsonSpec JsonProofs TypeProps JsonProps TreeModel TreeSpec TreeProofs.
Open Scope string_scope.
Open Scope list_scope.
Open Scope Z_scope.

(** *** C48 *)
(** simpleWalk returns r exactly when r is the score at the end of the path along which the predicate, asked at the
    nodes of that path in order and at no other node, answers: true for pass, false for fail. *)
Theorem C48_simpleWalk {S} T v t (test : val -> M S bool) fuel s r s' :
  shows T [Pass; Fail] v t -> (vdepth v < fuel)%nat ->
  (simpleWalk fuel T v test s = (Ok r, s') <->
   exists p, follow t p = Some r /\ answers test of_bool (along t p) p s s').
Proof.
  intros Hv Hf. rewrite <- (walk_ok test of_bool T [Pass; Fail]); [|intros []; cbn; auto|exact Hv|exact Hf].
  unfold simpleWalk. assert (E : forall f w u, walk f T (fun node => b <~ test node;; ret (if b : bool then "pass" else "fail")) w u
    = walk f T (fun node => a <~ test node;; ret (side_name (of_bool a))) w u).
  { induction f as [|f IH]; intros w u; [reflexivity|]. cbn [walk]. unfold bind, ret.
    destruct (test w u) as [[b|e] u']; [|reflexivity].
    replace (if b then "pass" else "fail") with (side_name (of_bool b)) by now destruct b.
    destruct (lift _ _) as [[x|e] u2]; [|reflexivity]. destruct (lift _ _) as [[g|e] u3]; [|reflexivity].
    destruct (fst g); [apply IH|reflexivity]. }
  now rewrite E.
Qed.
(** The same for missingWalk, whose predicate may also say "missing". *)
Theorem C48_missingWalk {S} T v t (test : val -> M S (option bool)) fuel s r s' :
  shows T [Pass; Fail; Missing] v t -> (vdepth v < fuel)%nat ->
  (missingWalk fuel T v test s = (Ok r, s') <->
   exists p, follow t p = Some r /\ answers test of_option (along t p) p s s').
Proof.
  intros Hv Hf. rewrite <- (walk_ok test of_option T [Pass; Fail; Missing]); [|intros [[]|]; cbn; auto|exact Hv|exact Hf].
  unfold missingWalk. assert (E : forall f w u, walk f T (fun node => r <~ test node;;
      ret (match r with Some true => "pass" | Some false => "fail" | None => "missing" end)) w u
    = walk f T (fun node => a <~ test node;; ret (side_name (of_option a))) w u).
  { induction f as [|f IH]; intros w u; [reflexivity|]. cbn [walk]. unfold bind, ret.
    destruct (test w u) as [[b|e] u']; [|reflexivity].
    replace (match b with Some true => "pass" | Some false => "fail" | None => "missing" end) with (side_name (of_option b)) by now destruct b as [[]|].
    destruct (lift _ _) as [[x|e] u2]; [|reflexivity]. destruct (lift _ _) as [[g|e] u3]; [|reflexivity].
    destruct (fst g); [apply IH|reflexivity]. }
  now rewrite E.
Qed.
(** A walk fails only by the failure of the predicate at a node it has come to. *)
Theorem C48_raise {S} T v t (test : val -> M S bool) fuel s e s' :
  shows T [Pass; Fail] v t -> (vdepth v < fuel)%nat ->
  (simpleWalk fuel T v test s = (Raise e, s') <->
   exists p n s1, node_at t p = Some n /\ answers test of_bool (along t p) p s s1 /\ test n s1 = (Raise e, s')).
Proof.
  intros Hv Hf. rewrite <- (walk_raise test of_bool T [Pass; Fail]); [|intros []; cbn; auto|exact Hv|exact Hf].
  unfold simpleWalk. assert (E : forall f w u, walk f T (fun node => b <~ test node;; ret (if b : bool then "pass" else "fail")) w u
    = walk f T (fun node => a <~ test node;; ret (side_name (of_bool a))) w u).
  { induction f as [|f IH]; intros w u; [reflexivity|]. cbn [walk]. unfold bind, ret.
    destruct (test w u) as [[b|e'] u']; [|reflexivity].
    replace (if b then "pass" else "fail") with (side_name (of_bool b)) by now destruct b.
    destruct (lift _ _) as [[x|e'] u2]; [|reflexivity]. destruct (lift _ _) as [[g|e'] u3]; [|reflexivity].
    destruct (fst g); [apply IH|reflexivity]. }
  now rewrite E.
Qed.
(** There is only one such path. *)
Theorem C48_unique_path {S A} (test : val -> M S A) to_side t p1 p2 s s1 s2 r1 r2 :
  follow t p1 = Some r1 -> follow t p2 = Some r2 ->
  answers test to_side (along t p1) p1 s s1 -> answers test to_side (along t p2) p2 s s2 -> p1 = p2 /\ r1 = r2 /\ s1 = s2.
Proof. apply answers_unique. Qed.
(** The walk of any Python value, tree or not, comes to an end after at most as many steps as the value is deep. *)
Theorem C48_terminates {S} T v (test : val -> M S bool) fuel k s : (vdepth v < fuel)%nat ->
  simpleWalk (fuel + k) T v test s = simpleWalk fuel T v test s /\
  ((forall n u u', test n u <> (Raise (PyErr "out of fuel"), u')) ->
   forall s', simpleWalk fuel T v test s <> (Raise (PyErr "out of fuel"), s')).
Proof.
  intros H. split; [now apply walk_more|]. intros Ht s'. apply walk_no_fuel; [|exact H].
  intros w u u'. unfold bind, ret. specialize (Ht w u). destruct (test w u) as [[b|e] u1]; [discriminate|]. intros K. injection K as -> ->. now apply (Ht u').
Qed.
(** Every score of the tree is the result for some predicate, whatever the path to it. *)
Theorem C48_every_score T v t (script rest : list (option bool)) fuel r :
  shows T [Pass; Fail; Missing] v t -> (vdepth v < fuel)%nat -> follow t (map of_option script) = Some r ->
  missingWalk fuel T v
    (fun (_ : val) (s : list (option bool)) => match s with a :: s' => (Ok a, s') | [] => (Raise (PyErr "no answer"), []) end)
    (script ++ rest) = (Ok r, rest).
Proof.
  intros Hv Hf F. eapply C48_missingWalk; [exact Hv|exact Hf|]. exists (map of_option script). split; [exact F|].
  now apply (answers_script of_option t script r rest).
Qed.
(** simpleTree is simpleWalk with the comparison stored in each node as the predicate. *)
Theorem C48_simpleTree {S} fuel T n D dfields vfields datum v (s : S) :
  simpleTree fuel T n D dfields vfields datum v s =
  simpleWalk fuel T v (fun node => lift (rbind (simpleComparison n D dfields vfields datum node true 32061 32060)
     (fun r => match r with Some b => Ok b | None => Ok false end))) s.
Proof.
  unfold simpleTree, simpleWalk. revert v s. induction fuel as [|fuel IH]; intros v s; [reflexivity|].
  cbn [walk]. unfold bind, lift, ret. destruct (simpleComparison n D dfields vfields datum v true 32061 32060) as [[[]|]|e]; cbn [rbind];
    try reflexivity; destruct (getitem v _) as [u|e]; try reflexivity; destruct (next_node T u) as [g|e]; try reflexivity;
    destruct (fst g); try reflexivity; apply IH.
Qed.

(** A tree of two levels and a predicate that looks at the node and counts its calls. *)
Definition n2 := VDict [("field", VStr "y"); ("pass", VDict [("string", VStr "b")]); ("fail", VNull); ("missing", VDict [("string", VStr "m")])].
Definition n1 := VDict [("field", VStr "x"); ("pass", VDict [("string", VStr "a")]); ("fail", VDict [("TreeNode", n2)]); ("missing", VDict [("TreeNode", n2)])].
Definition t2 := Node n2 (Score (VStr "b")) (Score VNull) (Score (VStr "m")).
Definition t1 := Node n1 (Score (VStr "a")) t2 t2.
Definition asks (v : val) (s : Z) : res bool * Z := (Ok (match getitem v "field" with Ok (VStr f) => String.eqb f "y" | _ => false end), s + 1).
Lemma shows_n2 : shows "TreeNode" [Pass; Fail; Missing] n2 t2.
Proof.
  constructor; intros _; eexists; (split; [reflexivity|]); [constructor; discriminate|constructor|constructor; discriminate].
Qed.
Lemma shows_n1 : shows "TreeNode" [Pass; Fail; Missing] n1 t1.
Proof.
  constructor; intros _; eexists; (split; [reflexivity|]); [constructor; discriminate|constructor; apply shows_n2|constructor; apply shows_n2].
Qed.
Lemma shows_n1' : shows "TreeNode" [Pass; Fail] n1 t1.
Proof.
  constructor; [| |intros [H|[H|[]]]; discriminate]; intros _; eexists; (split; [reflexivity|]); [constructor; discriminate|].
  constructor. constructor; [| |intros [H|[H|[]]]; discriminate]; intros _; eexists; (split; [reflexivity|]); [constructor; discriminate|constructor].
Qed.
Example C48_example :
  shows "TreeNode" [Pass; Fail] n1 t1 /\ (vdepth n1 < 6)%nat /\ simpleWalk 6 "TreeNode" n1 asks 0 = (Ok (VStr "b"), 2) /\
  follow t1 [Fail; Pass] = Some (VStr "b") /\ answers asks of_bool [n1; n2] [Fail; Pass] 0 2 /\
  follow t1 (map of_option [None; None]) = Some (VStr "m").
Proof.
  split; [apply shows_n1'|]. split; [vm_compute; lia|]. split; [reflexivity|]. split; [reflexivity|]. split; [|reflexivity].
  apply (answers_cons asks of_bool n1 false) with (s1 := 1); [reflexivity|].
  apply (answers_cons asks of_bool n2 true) with (s1 := 2); [reflexivity|]. constructor.
Qed.

(** *** C73 *)
(** The comparison c asks of the field f of the datum d, whose value is fv, how it compares with v. *)
Definition poses (dfields vfields : list field) (d c : list (string * val)) f fv v ft vt : Prop :=
  assoc "field" c = Some (VStr f) /\ assoc "value" c = Some v /\ assoc f d = Some fv /\
  (exists x, find (fun g => String.eqb (f_name g) f) dfields = Some x /\ f_type x = ft) /\
  (exists y, find (fun g => String.eqb (f_name g) "value") vfields = Some y /\ f_type y = vt).
(** the comparison with another operator *)
Definition with_op (op : string) (c : list (string * val)) : val := VDict (dict_set "operator" (VStr op) c).
(** an answer of true or false *)
Definition answer (r : res (option bool)) : option bool := match r with Ok b => b | Raise _ => None end.

Lemma poses_eval n D dfields vfields d c f fv v ft vt mop code1 code2 op :
  poses dfields vfields d c f fv v ft vt ->
  simpleComparison n D dfields vfields (VDict d) (with_op op c) mop code1 code2 =
  (let (fieldType, fieldValue) := if mop : bool then (ft, fv) else unwrap ft fv in
   let isNull := match fieldValue with VNull => true | _ => false end in
   if String.eqb op "alwaysTrue" then Ok (Some true)
   else if String.eqb op "alwaysFalse" then Ok (Some false)
   else if mop && String.eqb op "isMissing" then Ok (Some isNull)
   else if mop && String.eqb op "notMissing" then Ok (Some (negb isNull))
   else if String.eqb op "in" || String.eqb op "notIn" then
     if negb (items_accept D vt fieldType) then Raise (PFAErr code1)
     else if negb mop && isNull then Ok None
     else contained <- py_in fieldValue (unwrap_array v) ;; Ok (Some (if String.eqb op "in" then contained else negb contained))
   else if negb (accepts D D vt fieldType) && negb (is_number vt && is_number fieldType) then Raise (PFAErr code1)
   else if negb mop && isNull then Ok None
   else if is_number fieldType then
     match as_number (unwrap_number v), as_number fieldValue with
     | None, _ => Raise (PFAErr code1)
     | _, None => Raise (PyErr "TypeError")
     | Some y, Some x => b <- number_operator op x y code2 ;; Ok (Some b)
     end
   else b <- compare_operator op (compare n D vt fieldValue v) code2 ;; Ok (Some b)).
Proof.
  intros (H1 & H2 & H3 & (x & H4 & H5) & (y & H6 & H7)). unfold simpleComparison, with_op, getitem, field_type.
  rewrite (assoc_set_neq "operator" "field") by discriminate. rewrite H1. cbn [rbind]. rewrite H3. cbn [rbind]. rewrite assoc_set_eq. cbn [rbind].
  rewrite (assoc_set_neq "operator" "value") by discriminate. rewrite H2. cbn [rbind]. rewrite H4, H5. cbn [rbind]. rewrite H6, H7. cbn [rbind]. reflexivity.
Qed.

(** A numeric field is compared with a number (tagged or not) exactly, without conversion; a nan is different from
    every number and neither below nor above it. *)
Theorem C73_numbers n D dfields vfields d c f fv v ft vt x y mop code1 code2 :
  poses dfields vfields d c f fv v ft vt -> is_number ft = true -> (is_number vt = true \/ accepts D D vt ft = true) ->
  num_of fv = Some x ->
  (num_of v = Some y \/ exists tag w, v = VDict [(tag, w)] /\ In tag ["int"; "long"; "float"; "double"] /\ num_of w = Some y) ->
  let ask op := answer (simpleComparison n D dfields vfields (VDict d) (with_op op c) mop code1 code2) in
  match num_cmp x y with
  | Some Lt => ops_agree true false false ask
  | Some Eq => ops_agree false true false ask
  | Some Gt => ops_agree false false true ask
  | None => ops_agree false false false ask
  end.
Proof.
  intros P Hft Hvt Hx Hy ask.
  assert (E : forall op, String.eqb op "alwaysTrue" = false -> String.eqb op "alwaysFalse" = false -> String.eqb op "isMissing" = false ->
    String.eqb op "notMissing" = false -> (String.eqb op "in" || String.eqb op "notIn")%bool = false ->
    ask op = answer (b <- number_operator op x y code2 ;; Ok (Some b))).
  { intros op O1 O2 O3 O4 O5. unfold ask. rewrite (poses_eval _ _ _ _ _ _ _ _ _ _ _ _ _ _ _ P).
    assert (U : (if mop then (ft, fv) else unwrap ft fv) = (ft, fv)) by (destruct mop; [reflexivity|]; now destruct ft).
    rewrite U. cbv beta iota zeta. rewrite O1, O2, O3, O4, O5, !Bool.andb_false_r.
    assert (A : (negb (accepts D D vt ft) && negb (is_number vt && is_number ft))%bool = false).
    { rewrite Hft. destruct Hvt as [-> | ->]; [apply Bool.andb_false_r|reflexivity]. }
    rewrite A, Hft. assert (N : match fv with VNull => true | _ => false end = false) by (destruct fv; try reflexivity; discriminate).
    rewrite N, Bool.andb_false_r.
    assert (Y : as_number (unwrap_number v) = Some y).
    { destruct Hy as [Hy|(tag & w & -> & I & Hw)].
      - destruct v; cbn in Hy |- *; try discriminate; exact Hy.
      - cbn [unwrap_number]. assert (Hm : mem tag ["int"; "long"; "float"; "double"] = true).
        { unfold mem. apply existsb_exists. exists tag. split; [exact I|apply String.eqb_refl]. }
        rewrite Hm. destruct w; cbn in Hw |- *; try discriminate; exact Hw. }
    rewrite Y. assert (X : as_number fv = Some x) by (destruct fv; cbn in Hx |- *; try discriminate; exact Hx). now rewrite X. }
  destruct (num_ops x y) as (O & Le & Ge).
  assert (R : ops_agree (num_lt x y) (num_eq x y) (num_gt x y) ask).
  { unfold ops_agree. rewrite !E by reflexivity. unfold number_operator. cbn [String.eqb Ascii.eqb Bool.eqb rbind answer].
    rewrite Le, Ge. auto 7. }
  destruct (num_cmp x y) as [[]|]; destruct O as (L & Q & G); rewrite L, Q, G in R; exact R.
Qed.
(** In particular integers are compared as integers. *)
Theorem C73_ints n D dfields vfields d c f a b mop code1 code2 :
  poses dfields vfields d c f (VInt a) (VInt b) TLong TLong ->
  let ask op := answer (simpleComparison n D dfields vfields (VDict d) (with_op op c) mop code1 code2) in
  ops_agree (a <? b) (a =? b) (b <? a) ask.
Proof.
  intros P ask. pose proof (C73_numbers n D _ _ _ _ _ _ _ _ _ (NI a) (NI b) mop code1 code2 P eq_refl (or_introl eq_refl) eq_refl (or_introl eq_refl)) as H.
  fold ask in H. cbn [num_cmp] in H. destruct (Z.compare_spec a b) as [->|L|G].
  - rewrite Z.eqb_refl, Z.ltb_irrefl. exact H.
  - rewrite (proj2 (Z.ltb_lt a b)), (proj2 (Z.eqb_neq a b)), (proj2 (Z.ltb_ge b a)) by lia. exact H.
  - rewrite (proj2 (Z.ltb_ge a b)), (proj2 (Z.eqb_neq a b)), (proj2 (Z.ltb_lt b a)) by lia. exact H.
Qed.
(** Any other field whose values compare can order: the six operators answer by that order, so that exactly one of
    <, ==, > holds, and <=, >=, != follow from them. *)
Theorem C73_ordered n D dfields vfields d c f fv v ft vt :
  good_defs D -> good vt -> poses dfields vfields d c f fv v ft vt -> is_number ft = false -> accepts D D vt ft = true ->
  ordered n D vt fv -> ordered n D vt v ->
  let ask op := answer (simpleTest n D dfields vfields (VDict d) (with_op op c)) in
  exists k, compare n D vt fv v = Ok k /\ compare n D vt v fv = Ok (- k) /\ ops_agree (k <? 0) (k =? 0) (0 <? k) ask.
Proof.
  intros GD Gt P Nft Ac O1 O2 ask.
  destruct (C17_total_preorder D vt n fv v v GD Gt O1 O2 O2) as (k & b & c' & H). destruct (H n (le_n _)) as (E1 & _ & _ & E2 & _).
  exists k. split; [exact E1|]. split; [exact E2|].
  assert (E : forall op, String.eqb op "alwaysTrue" = false -> String.eqb op "alwaysFalse" = false -> String.eqb op "isMissing" = false ->
    String.eqb op "notMissing" = false -> (String.eqb op "in" || String.eqb op "notIn")%bool = false ->
    ask op = answer (b <- compare_operator op (Ok k) 32000 ;; Ok (Some b))).
  { intros op U1 U2 U3 U4 U5. unfold ask, simpleTest. rewrite (poses_eval _ _ _ _ _ _ _ _ _ _ _ _ _ _ _ P).
    rewrite U1, U2, U3, U4, U5. cbn [andb negb]. rewrite Ac, Nft. cbn [andb negb]. now rewrite E1. }
  unfold ops_agree. rewrite !E by reflexivity. unfold compare_operator. cbn [String.eqb Ascii.eqb Bool.eqb rbind answer].
  repeat split; f_equal.
  - destruct (k <=? 0) eqn:A, (k <? 0) eqn:B, (k =? 0) eqn:C; cbn; try reflexivity;
      rewrite ?Z.leb_le, ?Z.leb_gt, ?Z.ltb_lt, ?Z.ltb_ge, ?Z.eqb_eq, ?Z.eqb_neq in *; lia.
  - destruct (0 <=? k) eqn:A, (0 <? k) eqn:B, (k =? 0) eqn:C; cbn; try reflexivity;
      rewrite ?Z.leb_le, ?Z.leb_gt, ?Z.ltb_lt, ?Z.ltb_ge, ?Z.eqb_eq, ?Z.eqb_neq in *; lia.
Qed.
(** missingTest answers null on a missing value, for every operator that needs the value. *)
Theorem C73_missing n D dfields vfields d c f v ts vt op b :
  poses dfields vfields d c f VNull v (TUnion ts) vt ->
  missingTest n D dfields vfields (VDict d) (with_op op c) = Ok b ->
  b = (if String.eqb op "alwaysTrue" then Some true else if String.eqb op "alwaysFalse" then Some false else None).
Proof.
  intros P. unfold missingTest. rewrite (poses_eval _ _ _ _ _ _ _ _ _ _ _ _ _ _ _ P). cbn [unwrap].
  destruct (String.eqb op "alwaysTrue"); [congruence|]. destruct (String.eqb op "alwaysFalse"); [congruence|]. cbn [andb negb].
  destruct (String.eqb op "in" || String.eqb op "notIn")%bool.
  - destruct (negb (items_accept _ _ _)); [discriminate|congruence].
  - destruct (negb (accepts _ _ _ _) && _)%bool; [discriminate|congruence].
Qed.
(** On a value that is there, missingTest on an optional field answers what simpleTest answers on a field of the
    plain type (except for its error codes). *)
Theorem C73_present n D dfields vfields d c f v t vt w op dfields' d' ts :
  t <> TNull -> (ts = [TNull; t] \/ ts = [t; TNull]) -> w <> VNull ->
  poses dfields vfields d c f (VDict [(tyname t, w)]) v (TUnion ts) vt ->
  poses dfields' vfields d' c f w v t vt ->
  op <> "isMissing" -> op <> "notMissing" ->
  missingTest n D dfields vfields (VDict d) (with_op op c) =
  simpleComparison n D dfields' vfields (VDict d') (with_op op c) true 32011 32010.
Proof.
  intros Nt Hts Nw P P' O1 O2. unfold missingTest.
  rewrite (poses_eval _ _ _ _ _ _ _ _ _ _ _ _ _ _ _ P), (poses_eval _ _ _ _ _ _ _ _ _ _ _ _ _ _ _ P').
  assert (U : unwrap (TUnion ts) (VDict [(tyname t, w)]) = (t, w)).
  { assert (W : without_null ts = [t]) by (destruct Hts as [-> | ->]; cbn [without_null filter]; destruct t; try reflexivity; congruence).
    cbn [unwrap]. rewrite W. cbn [existsb]. now rewrite String.eqb_refl. }
  rewrite U. cbv beta iota zeta. apply String.eqb_neq in O1, O2. rewrite O1, O2, !Bool.andb_false_r.
  assert (N : match w with VNull => true | _ => false end = false) by (destruct w; try reflexivity; congruence).
  rewrite N, !Bool.andb_false_r. cbn [andb negb].
  reflexivity.
Qed.
(** The operators in and notIn are opposites; in says whether an item equal to the value of the field is in the list. *)
Theorem C73_in n D dfields vfields d c f fv l ft items :
  poses dfields vfields d c f fv (VArr l) ft (TArray items) -> accepts D D items ft = true ->
  let ask op := simpleTest n D dfields vfields (VDict d) (with_op op c) in
  exists b, ask "in" = Ok (Some b) /\ ask "notIn" = Ok (Some (negb b)) /\
    (forall s, fv = VStr s -> (b = true <-> In fv l)) /\
    (forall z, fv = VInt z -> Forall (fun y => match y with VFlt _ | VBool _ => False | _ => True end) l -> (b = true <-> In fv l)).
Proof.
  intros P A ask. exists (existsb (fun y => py_eq y fv) l).
  assert (E : forall op, (op = "in" \/ op = "notIn") -> ask op = Ok (Some (if String.eqb op "in" then existsb (fun y => py_eq y fv) l else negb (existsb (fun y => py_eq y fv) l)))).
  { intros op Ho. unfold ask, simpleTest. rewrite (poses_eval _ _ _ _ _ _ _ _ _ _ _ _ _ _ _ P).
    unfold items_accept. rewrite A. destruct Ho as [-> | ->]; reflexivity. }
  split; [now rewrite E by auto|]. split; [now rewrite E by auto|]. split.
  - intros s ->. rewrite existsb_exists. split.
    + intros (y & I & Q). destruct y; cbn in Q; try discriminate. apply String.eqb_eq in Q as ->. exact I.
    + intros I. exists (VStr s). split; [exact I|]. cbn. apply String.eqb_refl.
  - intros z -> F. rewrite existsb_exists. split.
    + intros (y & I & Q). rewrite Forall_forall in F. specialize (F y I). destruct y; cbn in Q; try discriminate; try contradiction.
      unfold num_eq in Q. cbn in Q. destruct (Z.compare_spec z0 z); try discriminate. subst. exact I.
    + intros I. exists (VInt z). split; [exact I|]. cbn. unfold num_eq. cbn. now rewrite Z.compare_refl.
Qed.
(** When the list has items of a union type, its items carry tags and the value of the field does not: in never
    finds a field of a plain type. *)
Theorem C73_in_union_refuted n D dfields vfields d c f z l ts :
  poses dfields vfields d c f (VInt z) (VArr (map (fun i => VDict [("int", VInt i)]) l)) TInt (TArray (TUnion ts)) ->
  In TInt ts -> In z l ->
  simpleTest n D dfields vfields (VDict d) (with_op "in" c) = Ok (Some false) /\
  simpleTest n D dfields vfields (VDict d) (with_op "notIn" c) = Ok (Some true).
Proof.
  intros P I _. unfold simpleTest. rewrite !(fun op => poses_eval _ _ _ _ _ _ _ _ _ _ _ _ _ _ op P).
  assert (A : items_accept D (TArray (TUnion ts)) TInt = true).
  { cbn [items_accept]. unfold accepts. cbn [acc]. apply existsb_exists. exists TInt. split; [exact I|reflexivity]. }
  rewrite A. cbn. assert (E : existsb (fun y => py_eq y (VInt z)) (map (fun i => VDict [("int", VInt i)]) l) = false).
  { clear P; induction l as [|i l IH]; [reflexivity|]. exact IH. }
  rewrite E. split; reflexivity.
Qed.
(** A string field compared with a string in a union type whose later member also takes strings is found to differ
    from itself: compare takes the last type of the union that fits the untagged value. *)
Theorem C73_union_refuted n s :
  let dfields := [Field "f" TString None None] in
  let vfields := [Field "value" (TUnion [TString; TBytes]) None None] in
  simpleTest (S (S n)) [] dfields vfields (VDict [("f", VStr s)])
    (VDict [("field", VStr "f"); ("operator", VStr "=="); ("value", VDict [("string", VStr s)])]) = Ok (Some false).
Proof. intros dfields vfields. cbn -[compare]. change (compare (S (S n)) [] (TUnion [TString; TBytes]) (VStr s) (VDict [("string", VStr s)])) with (Ok 1 : res Z). reflexivity. Qed.
(** isMissing and notMissing. *)
Theorem C73_isMissing n D dfields vfields d c f fv v ft vt :
  poses dfields vfields d c f fv v ft vt ->
  let ask op := simpleTest n D dfields vfields (VDict d) (with_op op c) in
  (ask "isMissing" = Ok (Some true) <-> fv = VNull) /\ (ask "notMissing" = Ok (Some true) <-> fv <> VNull) /\
  (ask "isMissing" = Ok (Some false) <-> fv <> VNull) /\ (ask "notMissing" = Ok (Some false) <-> fv = VNull).
Proof.
  intros P ask. unfold ask, simpleTest. rewrite !(fun op => poses_eval _ _ _ _ _ _ _ _ _ _ _ _ _ _ op P). cbn.
  destruct fv; cbn; repeat split; try congruence; intros; discriminate.
Qed.
(** An operator outside the documented list is an error. *)
Theorem C73_unknown_operator n D dfields vfields d c f fv v ft vt op r :
  poses dfields vfields d c f fv v ft vt ->
  ~ In op ["alwaysTrue"; "alwaysFalse"; "isMissing"; "notMissing"; "in"; "notIn"; "<="; "<"; ">="; ">"; "=="; "!="] ->
  simpleTest n D dfields vfields (VDict d) (with_op op c) = Ok r -> False.
Proof.
  intros P N. unfold simpleTest. rewrite (poses_eval _ _ _ _ _ _ _ _ _ _ _ _ _ _ _ P).
  assert (Q : forall x, In x ["alwaysTrue"; "alwaysFalse"; "isMissing"; "notMissing"; "in"; "notIn"; "<="; "<"; ">="; ">"; "=="; "!="] -> String.eqb op x = false).
  { intros x I. apply String.eqb_neq. intros ->. now apply N. }
  rewrite !Q by (cbn; tauto). cbn [andb negb orb].
  destruct (negb (accepts _ _ _ _) && _)%bool; [discriminate|]. destruct (is_number ft).
  - destruct (as_number (unwrap_number v)); [|discriminate]. destruct (as_number fv); [|discriminate].
    unfold number_operator. rewrite !Q by (cbn; tauto). discriminate.
  - unfold compare_operator. rewrite !Q by (cbn; tauto). discriminate.
Qed.
(** compoundTest: "and" and "or" stop at the first test that decides, "xor" makes all tests and is their parity. *)
Theorem C73_compound {S} (test : val -> M S bool) cs s b s' :
  (compoundTest "and" cs test s = (Ok b, s') <->
   exists done todo bs, cs = done ++ todo /\ tested test done bs s s' /\
     ((b = true /\ todo = [] /\ Forall (eq true) bs) \/ (b = false /\ exists bs', bs = bs' ++ [false] /\ Forall (eq true) bs'))) /\
  (compoundTest "or" cs test s = (Ok b, s') <->
   exists done todo bs, cs = done ++ todo /\ tested test done bs s s' /\
     ((b = false /\ todo = [] /\ Forall (eq false) bs) \/ (b = true /\ exists bs', bs = bs' ++ [true] /\ Forall (eq false) bs'))) /\
  (compoundTest "xor" cs test s = (Ok b, s') <->
   exists bs, tested test cs bs s s' /\ b = fold_right xorb false bs).
Proof.
  split; [apply all_tests_ok|]. split; [apply any_test_ok|].
  assert (X : forall bs, (Z.of_nat (count_occ Bool.bool_dec bs true) mod 2 =? 1) = fold_right xorb false bs).
  { induction bs as [|x bs IH]; [reflexivity|]. cbn [fold_right]. rewrite <- IH. cbn [count_occ].
    set (k := count_occ Bool.bool_dec bs true). destruct x; destruct (Bool.bool_dec _ _); try congruence.
    - rewrite Nat2Z.inj_succ. unfold Z.succ. pose proof (Z.mod_pos_bound (Z.of_nat k) 2). rewrite Z.add_mod by lia.
      assert (E : Z.of_nat k mod 2 = 0 \/ Z.of_nat k mod 2 = 1) by lia. destruct E as [-> | ->]; reflexivity.
    - now destruct (Z.of_nat k mod 2 =? 1). }
  unfold compoundTest. cbn [String.eqb Ascii.eqb Bool.eqb]. unfold bind, ret. split.
  - destruct (count_tests test cs 0 s) as [[k|e] s1] eqn:E; [|discriminate]. intros H. injection H as <- <-.
    apply count_tests_ok in E as (bs & Ht & ->). exists bs. split; [exact Ht|]. rewrite Z.add_0_l. apply X.
  - intros (bs & Ht & ->). assert (E : count_tests test cs 0 s = (Ok (Z.of_nat (count_occ Bool.bool_dec bs true)), s')).
    { apply count_tests_ok. exists bs. split; [exact Ht|lia]. }
    rewrite E. now rewrite X.
Qed.
(** With tests that have no effect these are conjunction, disjunction and parity. *)
Theorem C73_compound_pure {S} (test : val -> M S bool) g cs s : is_pure test g ->
  compoundTest "and" cs test s = (Ok (forallb g cs), s) /\ compoundTest "or" cs test s = (Ok (existsb g cs), s) /\
  compoundTest "xor" cs test s = (Ok (fold_right xorb false (map g cs)), s) /\
  (forall op, ~ In op ["and"; "or"; "xor"] -> compoundTest op cs test s = (Raise (PFAErr 32020), s)).
Proof.
  intros Hg. split; [|split; [|split]].
  - cbn. induction cs as [|c cs IH]; [reflexivity|]. cbn. unfold bind. rewrite Hg. destruct (g c); [exact IH|reflexivity].
  - cbn. induction cs as [|c cs IH]; [reflexivity|]. cbn. unfold bind. rewrite Hg. destruct (g c); [reflexivity|exact IH].
  - apply C73_compound. exists (map g cs). split; [|reflexivity].
    induction cs as [|c cs IH]; cbn; [constructor|econstructor; [apply Hg|exact IH]].
  - intros op N. unfold compoundTest. assert (Q : forall x, In x ["and"; "or"; "xor"] -> String.eqb op x = false).
    { intros x I. apply String.eqb_neq. intros ->. now apply N. }
    rewrite !Q by (cbn; tauto). reflexivity.
Qed.
(** surrogateTest gives the first answer that is not null and asks no further; without one it is an error. *)
Theorem C73_surrogate {S} (test : val -> M S (option bool)) nulls c rest b s s1 s2 :
  answers test of_option nulls (map (fun _ => Missing) nulls) s s1 ->
  (test c s1 = (Ok (Some b), s2) -> surrogateTest (nulls ++ c :: rest) test s = (Ok b, s2)) /\
  surrogateTest nulls test s = (Raise (PFAErr 32030), s1).
Proof.
  revert s. induction nulls as [|x nulls IH]; intros s H.
  - inversion H; subst. split; [|reflexivity]. intros E. cbn. unfold bind. now rewrite E.
  - cbn [map] in H. apply answers_inv in H as (a & s' & E & Et & H). destruct a as [[]|]; try discriminate.
    cbn [app surrogateTest]. unfold bind. rewrite Et. now apply IH.
Qed.

Definition fl (n : string) (t : ty) := Field n t None None.
Example C73_example :
  let dfields := [fl "x" TDouble; fl "s" (TUnion [TNull; TString])] in
  let c f v := [("field", VStr f); ("operator", VStr "?"); ("value", v)] in
  let d := [("x", VInt 3); ("s", VDict [("string", VStr "b")])] in
  poses dfields [fl "value" TInt] d (c "x" (VInt 4)) "x" (VInt 3) (VInt 4) TDouble TInt /\
  simpleTest 3 [] dfields [fl "value" TInt] (VDict d) (with_op "<" (c "x" (VInt 4))) = Ok (Some true) /\
  missingTest 3 [] dfields [fl "value" TString] (VDict d) (with_op ">" (c "s" (VStr "a"))) = Ok (Some true) /\
  missingTest 3 [] dfields [fl "value" TString] (VDict (dict_set "s" VNull d)) (with_op ">" (c "s" (VStr "a"))) = Ok None /\
  missingTest 3 [] dfields [fl "value" (TArray TString)] (VDict d) (with_op "in" (c "s" (VArr [VStr "a"; VStr "b"]))) = Ok (Some true) /\
  simpleTest 3 [] dfields [fl "value" TString] (VDict d) (with_op "<" (c "x" (VStr "a"))) = Raise (PFAErr 32001) /\
  good_defs doc1 /\ good TString /\ ordered 3 doc1 TString (VStr "b").
Proof.
  intros dfields c d. split. { repeat split; try reflexivity; eexists; split; reflexivity. }
  do 5 (split; [reflexivity|]). split; [exact doc1_good|]. split; [repeat split|exact I].
Qed.

Print Assumptions C48_simpleWalk.
Print Assumptions C48_missingWalk.
Print Assumptions C48_raise.
Print Assumptions C48_unique_path.
Print Assumptions C48_terminates.
Print Assumptions C48_every_score.
Print Assumptions C48_simpleTree.
Print Assumptions C73_numbers.
Print Assumptions C73_ints.
Print Assumptions C73_ordered.
Print Assumptions C73_missing.
Print Assumptions C73_present.
Print Assumptions C73_in.
Print Assumptions C73_in_union_refuted.
Print Assumptions C73_union_refuted.
Print Assumptions C73_isMissing.
Print Assumptions C73_unknown_operator.
Print Assumptions C73_compound.
Print Assumptions C73_compound_pure.
Print Assumptions C73_surrogate.
