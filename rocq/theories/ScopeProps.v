(** Properties C08 and C09: lexical scoping of variables. *)
From Verif Require Import Base ScopeModel ScopeSpec ScopeProofs.
Open Scope string_scope.

(** *** C08 *)
(** Reading a variable gives its value in the innermost scope which defines it, and fails exactly when no scope does. *)
Theorem C08_get : forall x ss,
  (forall v, scope_get x ss = Ok v <-> exists i, visible ss i x v) /\
  (scope_get x ss = Raise (PyErr "RuntimeError") <-> forall i, assoc x (nth i ss []) = None).
Proof.
  intros x ss. split.
  - intros v. apply scope_get_visible.
  - symmetry. apply scope_get_raises.
Qed.
Print Assumptions C08_get.

(** Declaring a variable touches the innermost scope only; there it defines that name and no other. *)
Theorem C08_let : forall x v f outer,
  exists f', scope_let [(x, v)] (f :: outer) = f' :: outer /\
    assoc x f' = Some v /\ forall y, y <> x -> assoc y f' = assoc y f.
Proof.
  intros x v f outer. exists (dict_set x v f). split; [reflexivity|]. split; [apply assoc_set_eq|].
  intros y Hy. now apply assoc_set_neq.
Qed.
Print Assumptions C08_let.

(** Setting a variable changes that variable in the innermost scope that defines it and nothing else;
    with no such scope it fails and changes nothing. *)
Theorem C08_set_one : forall x v ss,
  (forall i old, visible ss i x old ->
     exists ss', set_vars [(x, v)] ss = (Ok tt, ss') /\ length ss' = length ss /\
       forall j y, assoc y (nth j ss' []) = if (Nat.eqb j i && String.eqb y x)%bool then Some v else assoc y (nth j ss [])) /\
  ((forall i, assoc x (nth i ss []) = None) -> set_vars [(x, v)] ss = (Raise (PyErr "RuntimeError"), ss)).
Proof.
  intros x v ss. rewrite set_vars_one. split.
  - intros i old V. destruct (set1_visible x v ss i old V) as (pre & f & post & E1 & E2 & E3 & E4).
    exists (pre ++ dict_set x v f :: post)%list. rewrite E4, E1. repeat split.
    + rewrite !app_length. reflexivity.
    + intros j y. subst i. destruct (Nat.eqb_spec j (length pre)) as [->|Hj]; cbn [andb].
      * rewrite !app_nth2, Nat.sub_diag by lia. cbn [nth]. destruct (String.eqb_spec y x) as [->|Hy].
        -- apply assoc_set_eq.
        -- now apply assoc_set_neq.
      * destruct (Nat.lt_ge_cases j (length pre)).
        -- now rewrite !app_nth1.
        -- rewrite !app_nth2 by lia. destruct (j - length pre)%nat eqn:D; [lia|]. reflexivity.
  - apply set1_unbound.
Qed.
Print Assumptions C08_set_one.

(** Every program of declarations, assignments, nested blocks and function calls behaves as under the textbook
    semantics of lexical scoping: it fails exactly when that semantics meets an unknown variable, and afterwards
    every variable reads the same. *)
Theorem C08_lexical : forall globals prog,
  let '(r0, m0) := declare globals empty_env [] in
  let '(fine, r, m) := lex_ops prog r0 m0 in
  let '(out, ss) := run_ops prog [frame_let globals []] in
  out = (if fine then Ok tt else Raise (PyErr "RuntimeError")) /\
  forall x, scope_get x ss = match read x r m with Some v => Ok v | None => Raise (PyErr "RuntimeError") end.
Proof.
  intros globals prog.
  assert (Z : rep [nol] [[]] []).
  { apply rep_push. split; [constructor|]. intros [|] [|]; discriminate. }
  destruct (rep_let_many globals nol [] [] [] [] empty_env Z) as (g0 & r0 & m0 & E0 & R0 & Hr0 & _).
  { reflexivity. }
  rewrite E0.
  destruct (simulates_all prog _ _ _ _ _ _ R0 Hr0) as (b & r & m & g & f & ss & E1 & E2 & R & Hr & _).
  rewrite E1, E2. split; [reflexivity|]. intros x. unfold read. rewrite Hr.
  pose proof (rep_lookup _ _ _ x R) as H. destruct (scope_get x (f :: ss)).
  - destruct H as (l & -> & ->). reflexivity.
  - destruct H as [-> ->]. reflexivity.
Qed.
Print Assumptions C08_lexical.

(** A block never changes an outer variable it does not assign, whatever it declares (also under the same name),
    and whether or not it fails. *)
Theorem C08_block_isolated : forall params body ss y,
  ss <> [] -> existsb (assigns y) body = false ->
  scope_get y (snd (run_op (OBlock params body) ss)) = scope_get y ss.
Proof.
  intros params body ss y Hss Ha. rewrite run_op_block.
  destruct (keeps_ops_all y body Ha (frame_let params []) ss) as (f' & ss' & E & F).
  destruct (run_ops body (frame_let params [] :: ss)) as [r s0]. cbn in *. subst. cbn.
  now apply scope_get_keeps.
Qed.
Print Assumptions C08_block_isolated.

(** Shadowing, assignment through a block, and a function that does not see the caller's variables. *)
Definition demo : list op :=
  [OLet "x" (Const (VInt 1)); OLet "y" (Const (VInt 2));
   OBlock [] [OSet "y" (Var "x"); OLet "x" (Const (VInt 5)); OSet "x" (Const (VInt 6)); OLet "z" (Var "x")];
   OCall [("p", VInt 9)] [OLet "x" (Var "p"); OSet "x" (Const (VInt 7))]].
Example C08_example :
  let '(out, ss) := run_ops demo [[]] in
  out = Ok tt /\ scope_get "x" ss = Ok (VInt 1) /\ scope_get "y" ss = Ok (VInt 1) /\
  scope_get "z" ss = Raise (PyErr "RuntimeError") /\
  fst (run_ops [OLet "x" (Const VNull); OCall [] [OSet "x" (Const VNull)]] [[]]) = Raise (PyErr "RuntimeError").
Proof. repeat split. Qed.

(** *** C09 *)
(** The claim does not hold: with x declared in an outer scope and y in an inner one, setting both fails
    although setting each separately works. *)
Theorem C09_refuted : exists bs ss,
  NoDup (keys bs) /\ no_shadowing ss /\
  (exists ss', set_each bs ss = (Ok tt, ss')) /\
  fst (set_vars bs ss) = Raise (PyErr "RuntimeError").
Proof.
  exists [("x", VInt 3); ("y", VInt 4)], [[("y", VInt 2)]; [("x", VInt 1)]].
  split; [repeat constructor; cbn; intuition discriminate|].
  split; [|split; [eexists; reflexivity|reflexivity]].
  intros x i j v w Hi Hj.
  destruct i as [|[|i]], j as [|[|j]]; cbn in *; auto;
    repeat match goal with
      | H : (if String.eqb ?a ?b then _ else _) = _ |- _ => destruct (String.eqb_spec a b); subst; try discriminate
      | H : None = Some _ |- _ => discriminate H
      | H : assoc _ (match ?n with _ => _ end) = _ |- _ => destruct n; discriminate H
      end.
Qed.
Print Assumptions C09_refuted.

(** It always fails when, shadowing being excluded as the static check does, two of the names live in different scopes. *)
Theorem C09_mixed_scopes_fail : forall bs ss x v y w i j a b,
  In (x, v) bs -> In (y, w) bs -> no_shadowing ss ->
  visible ss i x a -> visible ss j y b -> i <> j ->
  fst (set_vars bs ss) = Raise (PyErr "RuntimeError").
Proof. intros bs ss x v y w i j a b Hx Hy Hs Vx Vy Hij. exact (scope_set_mixed bs x v y w Hx Hy ss _ i j a b Hs Vx Vy Hij). Qed.
Print Assumptions C09_mixed_scopes_fail.

(** What is true: when all the names are innermost defined in the same scope, the multiple assignment does what
    the separate assignments do. Missing: names defined in different scopes (refuted above). *)
Theorem C09_same_scope_partial : forall bs ss i,
  NoDup (keys bs) -> bs <> [] -> all_visible_at i bs ss ->
  set_vars bs ss = set_each bs ss /\ fst (set_vars bs ss) = Ok tt.
Proof.
  intros bs ss i Hn Hne H.
  destruct bs as [|[x0 v0] bs0]; [congruence|].
  destruct (H x0 v0) as [w0 V0]; [cbn; auto|].
  destruct (visible_split _ _ _ _ V0) as (pre & f & post & -> & Hl).
  assert (K : forall x v, In (x, v) ((x0, v0) :: bs0) -> has_key x f = true /\ forall g, In g pre -> has_key x g = false).
  { intros x v Hx. destruct (H x v Hx) as (w & V1 & _ & V3). split.
    - apply has_key_true. exists w. rewrite app_nth2, Hl, Nat.sub_diag in V1 by lia. exact V1.
    - intros g Hg. apply has_key_false. apply In_nth with (d := []) in Hg as (k & Hk & Hg).
      specialize (V3 k ltac:(lia)). rewrite app_nth1 in V3 by lia. rewrite <- Hg. exact V3. }
  unfold set_vars. rewrite scope_set_same, set_each_same; auto.
Qed.
Print Assumptions C09_same_scope_partial.
Example C09_example :
  let ss := [[]; [("x", VInt 1); ("y", VInt 2); ("z", VInt 0)]] in
  let bs := [("x", VInt 3); ("y", VInt 4)] in
  all_visible_at 1 bs ss /\ set_vars bs ss = (Ok tt, [[]; [("x", VInt 3); ("y", VInt 4); ("z", VInt 0)]]).
Proof.
  split; [|reflexivity]. intros x v Hx.
  repeat destruct Hx as [[= <- <-]|Hx]; try contradiction; eexists; repeat split; cbn; auto;
    intros [|j] Hj; try lia; reflexivity.
Qed.
