(** C98: Python code given to titus.producer.expression becomes PFA that is worth the same. *)
From Verif Require Import Base PyNum ScopeModel ChainModel PexModel PexSpec PexProofs PexProofs2 PexProofs3 PexProofs4 PexProofs5.
Open Scope string_scope.
Open Scope list_scope.

Lemma pfa_array st symbols prog : forall r, pfa st symbols true prog = Ok r <-> exists docs, statements st symbols prog = Ok docs /\ r = VArr docs.
Proof.
  intros r. unfold pfa. destruct (statements st symbols prog) as [docs|]; cbn [rbind]; [|split; [discriminate|intros (d & E & _); discriminate]].
  split; [intros H; exists docs; split; [reflexivity|]; destruct docs as [|? [|? ?]]; now injection H as <-|intros (d & E & ->); injection E as ->; now destruct d as [|? [|? ?]]].
Qed.

Section Values.
  Variable V : Type.
  Variable lit : val -> V.
  Variable text : string -> V.
  Variable fn : string -> list V -> option V.
  Variable get : V -> V -> option V.
  Variable truth : V -> option bool.
  Variable of_bool : bool -> V.
  Variable cellv poolv : string -> option V.
  Hypothesis TB : forall b, truth (of_bool b) = Some b.
  Notation meaning := (meaning V lit text fn get truth of_bool cellv poolv).
  Notation python := (python V lit text fn get truth of_bool cellv poolv).

  (** an expression of operators, comparisons, conditions, calls, items and names becomes a PFA expression, and whatever the Python code is worth the PFA expression is worth:
      chained comparisons, "and" and "or" stop where Python stops, and names stand for what they are to be replaced by *)
  Theorem C98_value : forall st env e, fits st e ->
    exists j, expression st e = Ok j /\ forall v, python st env e = Some v -> meaning env (strip j) = Some v.
  Proof. intros st env e F. destruct (value V lit text fn get truth of_bool cellv poolv TB st env e) as [G _]. exact (G F). Qed.
  (** a program of assignments becomes a program of let and set that leaves the same variables with the same values, when the symbols it was told are those in scope *)
  Theorem C98_program : forall st symbols prog docs env env', pfa st symbols true prog = Ok (VArr docs) ->
    Forall (fits_statement st) prog -> Forall named prog -> (forall x, In x symbols <-> has_key x env = true) ->
    steps V lit text fn get truth of_bool cellv poolv st env prog = Some env' -> run V lit text fn get truth of_bool cellv poolv env (map strip docs) = Some env'.
  Proof. intros st symbols prog docs env env' H. apply pfa_array in H as (d & H & E). injection E as <-. intros. eapply steps_run; eauto. Qed.
  (** the parameters of a function are in scope, but fcn cannot be told: assigning to one declares it again, which PFA refuses, whatever the value *)
  Theorem C98_params_refuted : forall st params ret x n m e env v w, x <> "@" -> fits st e -> assoc x env = Some w ->
    python st (fun s => assoc s env) e = Some v ->
    steps V lit text fn get truth of_bool cellv poolv st env [Assign n [PName m x] e] = Some (dict_set x v env) /\
    exists doc, fcn st false params ret [Assign n [PName m x] e] = Ok (VDict [("params", params); ("ret", ret); ("do", doc)]) /\
      run V lit text fn get truth of_bool cellv poolv env [strip doc] = None.
  Proof.
    intros st params ret x n m e env v w Nx F Hx Hv. split; [cbn; now rewrite Hv|]. destruct (C98_value st (fun s => assoc s env) e F) as (j & Ej & Hj). unfold fcn, pfa. cbn [statements statement]. rewrite Ej. cbn [rbind fst snd memb existsb].
    eexists. split; [reflexivity|]. cbn [run]. rewrite strip_let; [|discriminate|cbn; intuition congruence]. cbn [run1 vmap map fst snd]. unfold PexSpec.all_some. rewrite (Hj v Hv). cbn [forallb fst]. unfold has_key. now rewrite Hx.
  Qed.
End Values.

(** every name is declared once, before it is changed, and names that are in scope are not declared again: for all programs that are translated *)
Theorem C98_scopes : forall st symbols prog docs, pfa st symbols true prog = Ok (VArr docs) -> Forall named prog -> scoped symbols (map strip docs).
Proof. intros st symbols prog docs H N. apply pfa_array in H as (d & H & E). injection E as <-. eapply scoped_statements; eauto. tauto. Qed.
(** one expression for every statement, in their order; one alone is not put into an array unless an array is wanted *)
Theorem C98_document : forall st symbols prog, match pfa st symbols true prog with
  | Ok r => exists docs, r = VArr docs /\ length docs = length prog /\ pfa st symbols false prog = Ok (match docs with [d] => d | _ => VArr docs end)
  | Raise e => pfa st symbols false prog = Raise e
  end.
Proof.
  intros st symbols prog. unfold pfa. destruct (statements st symbols prog) as [docs|] eqn:E; cbn [rbind]; [|reflexivity].
  assert (L : length docs = length prog).
  { revert symbols docs E. induction prog as [|s prog IH]; intros symbols docs E; cbn [statements] in E; [now injection E as <-|]. destruct (statement st symbols s) as [[sy j]|]; [|discriminate]. cbn [rbind fst snd] in E.
    destruct (statements st sy prog) as [js|] eqn:Es; [|discriminate]. injection E as <-. cbn. f_equal. eauto. }
  destruct docs as [|d [|d' docs]]; eexists; repeat split; auto.
Qed.
Theorem C98_function : forall st want params ret prog r, fcn st want params ret prog = Ok r <-> exists j, pfa st [] want prog = Ok j /\ r = VDict [("params", params); ("ret", ret); ("do", j)].
Proof. intros. unfold fcn. destruct (pfa st [] want prog); cbn; split; [intros H; injection H as <-; eauto|intros (j & H & ->); now injection H as ->|discriminate|intros (j & H & _); discriminate]. Qed.
(** line numbers are notes: without them the expression is the same, and errors are the same, when no call has a call of String for its only argument *)
Theorem C98_lines : forall subs cells pools index e, no_string_calls e ->
  match expression (State subs cells pools true index) e, expression (State subs cells pools false index) e with
  | Ok a, Ok b => strip a = strip b
  | Raise x, Raise y => x = y
  | _, _ => False
  end.
Proof. intros subs cells pools index e H. exact (proj1 (lines subs cells pools index e H)). Qed.

(** the forms of PFA are written as calls of their words with a capital: the first is the name, the others are keywords *)
Theorem C98_forms : forall st n m f k a b ja jb, In f form_words -> In k form_words -> f <> k -> expression st a = Ok ja -> expression st b = Ok jb -> (forall s, ja <> VDict [("string", s)]) ->
  expression st (PCall n (PName m (capitalised f)) [a] [(capitalised k, b)]) = Ok (form st n [(f, ja); (k, jb)]).
Proof.
  intros st n m f k a b ja jb Hf Hk N Ea Eb T. rewrite ex_call. cbn [unfold_name rbind rmapM]. rewrite Ea. cbn [rbind].
  assert (F : forallb (fun w => (String.eqb (lower_special (capitalised w)) w && String.eqb (call_name (capitalised w)) w)%bool) form_words = true) by (vm_compute; reflexivity).
  rewrite forallb_forall in F. destruct (andb_prop _ _ (F f Hf)) as [_ Cf]. destruct (andb_prop _ _ (F k Hk)) as [Lk _]. apply String.eqb_eq in Cf, Lk. rewrite Cf. cbn [fold_kwds one_arg]. rewrite Eb. cbn [rbind]. rewrite Lk.
  assert (U : unwrap f ja = ja).
  { unfold unwrap. destruct (memb f text_forms); [|reflexivity]. destruct ja as [| | | | | | |[|[q x] [|]]]; try reflexivity. destruct (String.eqb_spec q "string") as [->|]; [exfalso; exact (T x eq_refl)|reflexivity]. }
  rewrite U. cbn [dict_set]. destruct (String.eqb_spec k f) as [->|]; [contradiction|reflexivity].
Qed.

(** ** what goes wrong *)
(** no statement but an assignment can be translated: not even an expression *)
Theorem C98_statement_refuted : (forall st symbols want n, pfa st symbols want [Statement n] = Raise (PyErr "AttributeError")) /\
  (forall st symbols want prog n r, In (Statement n) prog -> pfa st symbols want prog <> Ok r).
Proof.
  split; [reflexivity|]. intros st symbols want prog n r H E. unfold pfa in E. destruct (statements st symbols prog) as [docs|] eqn:Es; [|discriminate]. clear E r.
  revert symbols docs Es. induction prog as [|s prog IH]; intros symbols docs Es; [destruct H|]. cbn [statements] in Es. destruct H as [->|H]; [discriminate|].
  destruct (statement st symbols s) as [[sy j]|]; [|discriminate]. cbn [rbind fst snd] in Es. destruct (statements st sy prog) as [js|] eqn:E; [|discriminate]. exact (IH H sy js E).
Qed.
(** no expression with a subscript can be translated on Python 3.9 *)
Theorem C98_subscript_refuted : (forall st e j, st_index st = false -> subscripted e -> expression st e <> Ok j) /\
  (forall subs cells pools lines n m k x i, expression (State subs cells pools lines false) (PSub n (PName m x) i) = Raise (PyErr "RecursionError") /\
    (memb x cells = false -> memb x pools = false -> expression (State subs cells pools lines true) (PSub n (PName m x) (PNum k (VInt 0))) =
      Ok (form (State subs cells pools lines true) m [("attr", match assoc x subs with Some v => v | None => VStr x end); ("path", VArr [VInt 0])]))).
Proof.
  split.
  - intros st e j I S E. destruct (no_subscripts st I e) as [C _]. exact (C j E S).
  - intros. split; [reflexivity|]. intros H1 H2. unfold expression. cbn [both st_index fst snd]. cbn [rbind]. unfold based_name. cbn [st_cells st_pools]. now rewrite H1, H2.
Qed.
(** True, False and None cannot be written *)
Theorem C98_constants_refuted : forall st symbols want n m k x v, pfa st symbols want [Assign n [PName m x] (PConst k v)] = Raise (PyErr "PythonToPfaException").
Proof. reflexivity. Qed.
(** operators without their like raise errors of Python instead of the one documented *)
Theorem C98_operators_refuted : forall st n l r jl jr, expression st l = Ok jl -> expression st r = Ok jr ->
  expression st (PCompare n l [(InOp, r)]) = Raise (PyErr "AttributeError") /\ expression st (PBin n MatMult l r) = Raise (PyErr "UnboundLocalError") /\
  expression st (PBin n LShift l r) = Raise (PyErr "PythonToPfaException") /\ expression st (PBin n RShift l r) = Raise (PyErr "PythonToPfaException") /\
  expression st (PUn n UAdd l) = Raise (PyErr "PythonToPfaException").
Proof. intros st n l r jl jr El Er. rewrite ex_cmp, !ex_bin, Er. repeat split. Qed.
(** Negative calls a function that there is not *)
Theorem C98_negative_refuted : forall st n m x j, expression st x = Ok j -> expression st (PCall n (PName m "Negative") [x] []) = Ok (form st n [("U-", j)]) /\ expression st (PUn n USub x) = Ok (form st n [("u-", j)]).
Proof. intros st n m x j H. rewrite ex_call, ex_un. cbn [unfold_name rbind rmapM]. rewrite H. split; reflexivity. Qed.
(** a list for the only argument is taken for the arguments *)
Theorem C98_list_argument_refuted : forall st n m k f a b, expression st (PCall n (PName m f) [PList k [PNum k (VInt a); PNum k (VInt b)]] []) = expression st (PCall n (PName m f) [PNum k (VInt a); PNum k (VInt b)] []).
Proof. reflexivity. Qed.
(** what stands in the middle of a chain of comparisons is evaluated twice *)
Theorem C98_twice_refuted : forall st n a b c o1 o2 f1 f2 ja jb jc f, expression st a = Ok ja -> expression st b = Ok jb -> expression st c = Ok jc ->
  cmp_function o1 = Some f1 -> cmp_function o2 = Some f2 -> ~ In f [f1; f2; "&&"; "@"] ->
  exists j, expression st (PCompare n a [(o1, b); (o2, c)]) = Ok j /\ occurrences f j = (occurrences f ja + 2 * occurrences f jb + occurrences f jc)%nat.
Proof.
  intros st n a b c o1 o2 f1 f2 ja jb jc f Ea Eb Ec E1 E2 N. rewrite ex_cmp, Eb. cbn [rbind]. destruct (cmp_names _ _ E1) as [-> _]. cbn [rbind]. rewrite Ea. cbn [rbind fold_cmp]. rewrite Ec. cbn [rbind]. destruct (cmp_names _ _ E2) as [-> _]. cbn [rbind].
  eexists. split; [reflexivity|]. cbn [In] in N.
  assert (Q : forall g, g <> f -> String.eqb g f = false) by (intros g H; now apply String.eqb_neq).
  unfold form. destruct (st_lines st); cbn [occurrences]; rewrite ?(Q "@"), ?(Q "&&"), ?(Q f1), ?(Q f2) by tauto; lia.
Qed.
(** a cell by itself is taken for a variable *)
Theorem C98_cell_refuted : forall subs pools lines index n m c a, assoc c subs = None ->
  expression (State subs [c] pools lines index) (PName n c) = Ok (VStr c) /\
  expression (State subs [c] pools lines index) (PAttr m (PName n c) a) = Ok (form (State subs [c] pools lines index) n [("cell", VStr c); ("path", VArr [VDict [("string", VStr a)]])]).
Proof. intros. unfold expression. cbn [both fst snd]. unfold based_name. cbn [st_subs st_cells memb existsb]. rewrite H, String.eqb_refl. now split. Qed.
(** values without a name, and names without a value, are dropped *)
Theorem C98_tuple_refuted : forall st n m k x y z a b, x <> y ->
  pfa st [] false [Assign n [PTuple m [PName m x; PName m y]] (PTuple m [PNum k a; PNum k b; z])] = Ok (form st n [("let", VDict [(x, a); (y, b)])]) /\
  pfa st [] false [Assign n [PTuple m [PName m x; PName m y]] (PTuple m [PNum k a])] = Ok (form st n [("let", VDict [(x, a)])]).
Proof.
  intros st n m k x y z a b N. apply not_eq_sym in N as N'. apply String.eqb_neq in N'. split; [|reflexivity]. unfold pfa. cbn [statements statement name_list assign_tuple]. unfold expression. cbn [both fst rbind memb existsb]. rewrite N'. cbn [orb dict_set rbind]. now rewrite N'.
Qed.
(** line numbers change expressions *)
Theorem C98_lines_refuted : let e := PCall 1 (PName 1 "Error") [PCall 1 (PName 1 "String") [PStr 1 "no"] []] [] in
  expression (State [] [] [] false true) e = Ok (VDict [("error", VStr "no")]) /\
  exists j, expression (State [] [] [] true true) e = Ok j /\ strip j = VDict [("error", VDict [("string", VStr "no")])].
Proof. cbn zeta. split; [reflexivity|]. eexists. split; reflexivity. Qed.
(** types cannot be written as texts *)
Theorem C98_keyword_refuted : forall subs cells pools index n k t z,
  expression (State subs cells pools false index) (PCall n (PName n "Value") [PNum k (VInt z)] [("Type", PStr n t)]) = Ok (VDict [("value", VInt z); ("type", VDict [("string", VStr t)])]).
Proof. reflexivity. Qed.

(** ** examples *)
Definition st0 : state := State [("k", VInt 3)] ["tbl"] [] true true.
(** y = x + k if 0 < x < tbl.top else -m.sqrt(x) *)
Definition e0 : pex :=
  PIf 1 (PCompare 1 (PNum 1 (VInt 0)) [(LtOp, PName 1 "x"); (LtOp, PAttr 1 (PName 1 "tbl") "top")])
    (PBin 1 Add (PName 1 "x") (PName 1 "k")) (PUn 1 USub (PCall 1 (PAttr 1 (PName 1 "m") "sqrt") [PName 1 "x"] [])).
Example C98_value_ex : fits st0 e0.
Proof. cbn. repeat split; try discriminate. exists "m.sqrt". split; [reflexivity|discriminate]. Qed.
Definition zfn (f : string) (l : list Z) : option Z :=
  match l with [a; b] => if String.eqb f "+" then Some (a + b)%Z else if String.eqb f "<" then Some (if (a <? b)%Z then 1 else 0)%Z else None | [a] => if String.eqb f "u-" then Some (- a)%Z else if String.eqb f "m.sqrt" then Some (Z.sqrt a) else None | _ => None end.
Definition zpython := python Z (fun v => match v with VInt z => z | _ => 0%Z end) (fun s => Z.of_nat (String.length s)) zfn (fun a b => Some (a + b)%Z) (fun v => if (v =? 1)%Z then Some true else if (v =? 0)%Z then Some false else None)
  (fun b : bool => if b then 1%Z else 0%Z) (fun _ => Some 10%Z) (fun _ => None) st0.
Example C98_value_ex2 : zpython (fun s => if String.eqb s "x" then Some 7%Z else None) e0 = Some 10%Z /\ zpython (fun s => if String.eqb s "x" then Some 16%Z else None) e0 = Some (-4)%Z.
Proof. split; vm_compute; reflexivity. Qed.
Definition p0 : list stmt := [Assign 1 [PName 1 "y"] e0; Assign 2 [PName 2 "x"] (PName 2 "y"); Assign 3 [PTuple 3 [PName 3 "x"; PName 3 "y"]] (PTuple 3 [PName 3 "y"; PName 3 "x"])].
Example C98_program_ex : Forall (fits_statement st0) p0 /\ Forall named p0 /\ (exists docs, pfa st0 ["x"] true p0 = Ok (VArr docs) /\ length docs = 3%nat).
Proof.
  split; [|split].
  - repeat constructor; try discriminate; try reflexivity. exists "m.sqrt". split; [reflexivity|discriminate].
  - repeat constructor; cbn; try discriminate. intuition discriminate.
  - eexists. split; vm_compute; reflexivity.
Qed.
Example C98_lines_ex : no_string_calls e0 /\ no_string_calls (PCall 1 (PName 1 "Error") [PStr 1 "no"] []).
Proof. cbn. repeat split. Qed.
Example C98_subscript_ex : subscripted (PBin 1 Add (PNum 1 (VInt 1)) (PAttr 1 (PSub 1 (PName 1 "x") (PStr 1 "a")) "b")).
Proof. cbn. auto. Qed.
Example C98_twice_ex : exists j, expression st0 (PCompare 1 (PNum 1 (VInt 0)) [(LtOp, PCall 1 (PAttr 1 (PName 1 "u") "draw") [] []); (LtOp, PNum 1 (VInt 9))]) = Ok j /\ occurrences "u.draw" j = 2%nat.
Proof. eexists. split; vm_compute; reflexivity. Qed.

Example C98_forms_ex : In "foreach" form_words /\ In "in" form_words /\ capitalised "foreach" = "Foreach" /\ capitalised "in" = "In".
Proof. repeat split; cbn; tauto. Qed.

Print Assumptions C98_forms. Print Assumptions C98_value. Print Assumptions C98_program. Print Assumptions C98_params_refuted. Print Assumptions C98_scopes. Print Assumptions C98_document. Print Assumptions C98_function.
Print Assumptions C98_lines. Print Assumptions C98_statement_refuted. Print Assumptions C98_subscript_refuted. Print Assumptions C98_constants_refuted. Print Assumptions C98_operators_refuted.
Print Assumptions C98_negative_refuted. Print Assumptions C98_list_argument_refuted. Print Assumptions C98_twice_refuted. Print Assumptions C98_cell_refuted. Print Assumptions C98_tuple_refuted.
Print Assumptions C98_lines_refuted. Print Assumptions C98_keyword_refuted.
