(** C101: what PrettyPFA statements become. *)
From Verif Require Import Base PprModel PprSpec PprProofs PprProofs2.
Open Scope string_scope.

(** For all values, functions, cells and pools: a program none of whose variables is named as a cell, pool or function does, when translated, what its text says. If it ends, its translation ends
    with the same value or error and the same cells, pools and variables, and the other way round. *)
Theorem C101_meaning : forall V W (M : machine V W) st m a s, good st -> asExpr st m = Ok a -> clean st m -> clean_env st (fst s) ->
  (forall n, run V W M st n s m <> Raise (PyErr "fuel") -> eval V W M (S n) s a = run V W M st n s m) /\
  (forall n, eval V W M n s a <> Raise (PyErr "fuel") -> run V W M st n s m = eval V W M n s a).
Proof.
  intros V W M st m a s G E C Cs. split; intros n H.
  - destruct (translation V W M st G true n (S n) eq_refl m a s E C Cs) as [[R | [[_ R] | [R _]]] _]; [symmetry; exact R | destruct (H R) | discriminate R].
  - destruct (translation V W M st G false n n eq_refl m a s E C Cs) as [[R | [[R _] | [_ R]]] _]; [exact R | discriminate R | destruct (H R)].
Qed.
(** Translating raises no other errors than the module's own. *)
Theorem C101_errors : forall st m e, asExpr st m = Raise e -> exists text, e = PyErr ("PrettyPfaException: " ++ text).
Proof. intros st m e E. apply (proj1 (errors st m) e E). Qed.
(** Assignments to the end of a path are refused for these reasons only: "=" with a function, "to" with anything else, "to" for a pool without init, init for anything but a pool. *)
Theorem C101_to : forall st b r p d t i p' t' , each (asExpr st) p = Ok p' -> asExpr st t = Ok t' -> (forall x, i = Some x -> exists x', asExpr st x = Ok x') ->
  (exists a, asExpr st (MTo (b, r) p d t i) = Ok a) <-> (is_fcn t' = negb d /\ (In b (pools st) -> d = false -> i <> None) /\ (i <> None -> In b (pools st))).
Proof.
  intros st b r p d t i p' t' Ep Et Hi. cbn [asExpr]. rewrite Ep. cbn [rbind]. rewrite Et. cbn [rbind].
  assert (Mem : forall l, mem b l = true <-> In b l).
  { intros l. unfold mem. rewrite existsb_exists. split; [intros (x & I & E); apply String.eqb_eq in E; subst; exact I | intros I; exists b; split; [exact I | apply String.eqb_refl]]. }
  specialize (Mem (pools st)). unfold to_expr.
  destruct i as [x|]; [destruct (Hi x eq_refl) as [x' Ex]; rewrite Ex|]; cbn [rbind]; destruct (mem b (pools st)) eqn:B;
  destruct d, (is_fcn t'); cbn; split; intros H;
  repeat match goal with H : exists _, _ |- _ => destruct H end; try discriminate;
  repeat match goal with H : _ /\ _ |- _ => destruct H end; try discriminate; try (eexists; reflexivity);
  try (repeat split; try reflexivity; try congruence; try tauto; intros; apply Mem; reflexivity);
  try (exfalso; match goal with H : _ -> false = false -> _ <> None |- _ => apply H; [apply Mem; reflexivity | reflexivity | reflexivity] end);
  try (exfalso; match goal with H : Some _ <> None -> In _ _ |- _ => assert (Z : In b (pools st)) by (apply H; discriminate); apply Mem in Z; discriminate Z end).
  split; [reflexivity|]. split; [intros I; apply Mem in I; discriminate I | intros I; destruct (I eq_refl)].
Qed.

(** The running of trees is that of the language: a variable is the one declared last in the innermost scope that has it, assignment changes that one and no other, a group of statements gives the
    value of its last one and leaves the scopes as they were below its own, and of several conditions the first true one counts. *)
Inductive false_tests {V W P} (M : machine V W) (test : state V W -> P -> res (V * state V W)) : state V W -> list P -> state V W -> Prop :=
| FNone s : false_tests M test s [] s
| FOne s p v s' l s'' : test s p = Ok (v, s') -> truth _ _ M v = false -> false_tests M test s' l s'' -> false_tests M test s (p :: l) s''.
Lemma assoc_set : forall V (l : list (string * V)) x y v, assoc x l <> None -> assoc y (dict_set x v l) = if String.eqb y x then Some v else assoc y l.
Proof.
  induction l as [|[k u] l IH]; intros x y v N; cbn in *; [congruence|].
  destruct (String.eqb_spec x k) as [->|D]; cbn; [destruct (String.eqb_spec y k); reflexivity|].
  destruct (String.eqb_spec y k) as [->|D2]; [destruct (String.eqb_spec k x); [congruence | reflexivity]|]. apply IH, N.
Qed.
Theorem C101_scopes :
  (forall V (e : env V) x v y, look (declare e x v) y = if String.eqb y x then Some v else look e y) /\
  (forall V (s : list (string * V)) (e : env V) y, look (s :: e) y = match assoc y s with None => look e y | found => found end) /\
  (forall V (e : env V) x v, match assign e x v with
     | Ok e' => look e x <> None /\ (forall y, look e' y = if String.eqb y x then Some v else look e y) /\ (forall n, look (skipn n e) x = None -> skipn n e' = skipn n e)
     | Raise _ => look e x = None end) /\
  (forall V W (M : machine V W) A f e w (l : list A) u a v e' w' e'', seq V W A f ([] :: e, w) l = Ok (u, e') -> f e' a = Ok (v, (w' :: e'', w)) ->
     block V W M A f (e, w) (l ++ [a]) = Ok (v, (e'', w))) /\
  (forall V W (M : machine V W) P T test branch s l p (t : T) v s' s'' l' els, false_tests M test s (map fst l) s' -> test s' p = Ok (v, s'') -> truth _ _ M v = true ->
     conds V W M P T test branch s (l ++ (p, t) :: l') els = branch s'' t) /\
  (forall V W (M : machine V W) P T test branch s (l : list (P * T)) s' els, false_tests M test s (map fst l) s' ->
     conds V W M P T test branch s l els = match els with Some t => branch s' t | None => Ok (v_null _ _ M, s') end).
Proof.
  split; [|split; [|split; [|split; [|split]]]].
  - intros V [|s e] x v y; cbn; destruct (String.eqb_spec y x); reflexivity.
  - intros V s e y. cbn. destruct (assoc y s); reflexivity.
  - intros V e x v. induction e as [|s e IH]; cbn; [reflexivity|].
    destruct (assoc x s) as [u|] eqn:A.
    + split; [discriminate|]. split.
      * intros y. cbn. rewrite assoc_set by congruence. destruct (String.eqb_spec y x); [reflexivity | reflexivity].
      * intros [|n] E; cbn in *; [rewrite A in E; discriminate | reflexivity].
    + destruct (assign e x v) as [e'|]; cbn; [|exact IH]. destruct IH as (I1 & I2 & I3). split; [exact I1|]. split.
      * intros y. cbn. rewrite I2. destruct (String.eqb_spec y x) as [->|D]; [rewrite A; reflexivity | reflexivity].
      * intros [|n] E; cbn in *; [rewrite A in E; congruence | apply I3, E].
  - intros V W M A f e w l u a v e' w' e'' E1 E2. unfold block. cbn [fst snd].
    assert (K : forall l s u e', seq V W A f s l = Ok (u, e') -> f e' a = Ok (v, (w' :: e'', w)) -> seq V W A f s (l ++ [a]) = Ok ((u ++ [v])%list, (w' :: e'', w))).
    { clear. induction l as [|b l IH]; intros s u e' E1 E2; cbn in *.
      - injection E1 as <- <-. rewrite E2. reflexivity.
      - destruct (f s b) as [[vb sb]|]; cbn in *; [|discriminate]. destruct (seq V W A f sb l) as [[ul sl]|] eqn:E; cbn in *; [|discriminate].
        injection E1 as <- <-. rewrite (IH sb ul sl E E2). reflexivity. }
    rewrite (K l _ u e' E1 E2). cbn. unfold last_of. rewrite last_last. reflexivity.
  - intros V W M P T test branch s l. revert s. induction l as [|[q t0] l IH]; intros s p t v s' s'' l' els F E Tr; cbn in *; inversion F; subst.
    + rewrite E. cbn. rewrite Tr. reflexivity.
    + match goal with H : test s q = _ |- _ => rewrite H end. cbn. match goal with H : truth _ _ M _ = false |- _ => rewrite H end. eapply IH; eassumption.
  - intros V W M P T test branch s l. revert s. induction l as [|[q t0] l IH]; intros s s' els F; cbn in *; inversion F; subst; [reflexivity|].
    match goal with H : test s q = _ |- _ => rewrite H end. cbn. match goal with H : truth _ _ M _ = false |- _ => rewrite H end. apply IH. assumption.
Qed.
Example C101_scopes_example : look (declare [[]; [("a", 1%Z)]] "a" 2%Z) "a" = Some 2%Z /\ assign [[("b", 0%Z)]; [("a", 1%Z)]; [("a", 9%Z)]] "a" 2%Z = Ok [[("b", 0%Z)]; [("a", 2%Z)]; [("a", 9%Z)]].
Proof. split; reflexivity. Qed.

(** A small machine: values are numbers, texts and functions; tick() gives the number of its calls so far. *)
Inductive tval := TNull | TBool (b : bool) | TNum (z : Z) | TStr (s : string) | TFcn (f : dotted) | TFill (f : dotted) (l : list (string * tval)) | TMade (f : tval).
Definition tworld : Type := list (string * tval) * Z.
Definition made (c : change tval) : tval := match c with Direct v => v | Through f => TMade f end.
Definition tset (c : string) (v : tval) (w : tworld) : tworld := (dict_set c v (fst w), snd w).
Definition tget (c : string) (w : tworld) : res tval := match assoc c (fst w) with Some v => Ok v | None => Raise (PyErr "none") end.
Definition tiny : machine tval tworld := mkMachine tval tworld TNull TBool TNum TStr TFcn TFill (fun v => match v with TBool b => b | TNum z => Z.ltb z 2 | _ => false end)
  (fun v p => match p with [] => Ok v | _ => Raise (PyErr "path") end) (fun v p c w => Ok (made c, w))
  (fun c p w => tget c w) (fun c p ch w => Ok (made ch, tset c (made ch) w)) (fun c p w => tget c w) (fun c p ch i w => Ok (made ch, tset c (made ch) w))
  (fun f l w => Ok (TNum (snd w), (fst w, Z.succ (snd w)))).
Definition known : names := mkNames [("min", []); ("tick", []); ("m", ["pi"])] ["x"] ["p"].
Definition start : env tval * tworld := ([[]], ([("x", TNum 5)], 0%Z)).
Definition nm (x : string) : mini := MName (x, []).
Definition tick : mini := MCall ("tick", []) [].
Definition set (x : string) (e : mini) : mini := MAssign false [((x, []), e)].
Definition var (x : string) (e : mini) : mini := MAssign true [((x, []), e)].
Definition program : mini := MDo [var "n" (MNum 0); MWhile (nm "n") (MDo [set "n" tick; MTo ("x", []) [] false (nm "min") None]) true; set "p" (nm "n"); MIf [(nm "p", MStr "low"); (nm "n", MStr "mid")] (Some (nm "x"))].
Example C101_meaning_example : good known /\ clean known program /\ clean_env known (fst start) /\
  run tval tworld tiny known 20 start program = Ok (TMade (TFcn ("min", [])), ([[]], ([("x", TMade (TFcn ("min", []))); ("p", TNum 2)], 3%Z))) /\
  (exists a, asExpr known program = Ok a /\ eval tval tworld tiny 21 start a = run tval tworld tiny known 20 start program).
Proof.
  assert (G : good known).
  { split; [|intros x E; cbn in *; destruct (String.eqb_spec x "x"); [subst; reflexivity | discriminate]]. intros f I. cbn in I. repeat (destruct I as [<-|I]; [split; reflexivity|]). destruct I. }
  assert (C : clean known program).
  { cbn. unfold pool_only, free. cbn. repeat split; auto; try (intros [? ?]; discriminate). intros f [<-|[<-|[<-|[]]]]; discriminate. }
  assert (D : clean_env known (fst start)) by (intros x []).
  split; [exact G|]. split; [exact C|]. split; [exact D|]. split; [vm_compute; reflexivity|].
  destruct (asExpr known program) as [a|] eqn:E; [|vm_compute in E; discriminate]. exists a. split; [reflexivity|].
  apply (C101_meaning tval tworld tiny known program a start G E C D). vm_compute. discriminate.
Qed.

(** A variable that has the name of a cell cannot be read: the cell is. *)
Theorem C101_shadow_refuted : forall (z : Z), let m := MDo [var "x" (MNum z); nm "x"] in
  run tval tworld tiny known 5 start m = Ok (TNum z, start) /\ exists a, asExpr known m = Ok a /\ eval tval tworld tiny 6 start a = Ok (TNum 5, start).
Proof. intros z. split; [reflexivity|]. eexists. split; reflexivity. Qed.
(** Nor can one that has the name of a function, or whose field makes one: a variable min, the field pi of a variable m. *)
Theorem C101_function_refuted : forall (z : Z), let m := MDo [var "min" (MNum z); nm "min"] in
  (run tval tworld tiny known 5 start m = Ok (TNum z, start) /\ exists a, asExpr known m = Ok a /\ eval tval tworld tiny 6 start a = Ok (TFcn ("min", []), start)) /\
  asExpr known (MName ("m", ["pi"])) = Ok (AFcn ("m", ["pi"])).
Proof. intros z. split; [split; [reflexivity | eexists; split; reflexivity] | reflexivity]. Qed.
(** The right-hand side of an assignment to a pool item is evaluated twice: p["k"] = tick(). *)
Theorem C101_twice_refuted : let m := MTo ("p", []) [MStr "k"] true tick None in
  (exists v e w, run tval tworld tiny known 5 start m = Ok (v, (e, w)) /\ snd w = 1%Z) /\
  (exists a, asExpr known m = Ok a /\ exists v e w, eval tval tworld tiny 6 start a = Ok (v, (e, w)) /\ snd w = 2%Z).
Proof. split; [do 3 eexists; split; reflexivity|]. eexists. split; [reflexivity|]. do 3 eexists. split; reflexivity. Qed.
(** Of several assignments with commas between them, those to cells are taken for variables. *)
Theorem C101_commas_refuted : let m := MDo [var "y" (MNum 0); MAssign false [(("x", []), MNum 1); (("y", []), MNum 2)]; nm "x"] in
  (exists e w, run tval tworld tiny known 5 start m = Ok (TNum 1, (e, w))) /\
  (exists a, asExpr known m = Ok a /\ eval tval tworld tiny 6 start a = Raise (PyErr "unknown symbol")).
Proof. split; [do 2 eexists; reflexivity|]. eexists. split; reflexivity. Qed.
(** x = f(k: 1), with a partial application on the right, is taken for x to f(k: 1) where x is a cell; so is an assignment to what an expression in parentheses gives. *)
Theorem C101_partial_refuted : forall (z : Z),
  let f := MCall ("min", []) [(Some "k", MNum z)] in
  (exists v s, run tval tworld tiny known 5 start (set "x" f) = Ok (v, s) /\ v = TFill ("min", []) [("k", TNum z)]) /\
  (exists a, asExpr known (set "x" f) = Ok a /\ asExpr known (MTo ("x", []) [] false f None) = Ok a /\
     exists s, eval tval tworld tiny 6 start a = Ok (TMade (TFill ("min", []) [("k", TNum z)]), s)) /\
  (exists a, asExpr known (MGenAssign (MNum z) [] (nm "min")) = Ok a /\ exists s, eval tval tworld tiny 6 start a = Ok (TMade (TFcn ("min", [])), s)).
Proof.
  intros z. cbv zeta. split; [do 2 eexists; split; reflexivity|]. split; eexists; (split; [reflexivity|]); [split; [reflexivity|]|]; eexists; reflexivity.
Qed.
(** Arguments without names in a call that has a named one are dropped, whatever they are. *)
Theorem C101_arguments_refuted : forall st f args, existsb is_named args = true -> asExpr st (MCall f args) = asExpr st (MCall f (filter is_named args)).
Proof. exact plain_dropped. Qed.
Example C101_arguments_example : asExpr known (MCall ("min", []) [(None, tick); (Some "y", MNum 3)]) = Ok (AFill ("min", []) [("y", ANum 3)]).
Proof. reflexivity. Qed.
Example C101_to_example : exists e, asExpr known (MTo ("p", []) [MStr "k"] false (nm "min") None) = Raise e /\ exists text, e = PyErr ("PrettyPfaException: " ++ text).
Proof. eexists. split; [reflexivity|]. apply (C101_errors known (MTo ("p", []) [MStr "k"] false (nm "min") None)). reflexivity. Qed.

Print Assumptions C101_meaning.
Print Assumptions C101_errors.
Print Assumptions C101_to.
Print Assumptions C101_scopes.
Print Assumptions C101_shadow_refuted.
Print Assumptions C101_function_refuted.
Print Assumptions C101_twice_refuted.
Print Assumptions C101_commas_refuted.
Print Assumptions C101_partial_refuted.
Print Assumptions C101_arguments_refuted.
