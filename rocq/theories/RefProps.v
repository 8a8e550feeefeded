(** Property C63: a function passed by reference behaves as when called directly. *)
From Verif Require Import Base ScopeModel VersionModel CoreModel EngineModel CoreDemo CoreScopes CoreInd StaticModel StaticScope StaticProps
  RefTable RefModel RefSpec RefProofs RefFill RefUser.
Open Scope string_scope.
Open Scope list_scope.
Open Scope Z_scope.

(** ** Concrete cases: two classes of the library, a higher-order function and a function of the document *)
(** NChooseK, lib/spec.py:35-45 with 315-330; the value, exp of a sum of logarithms there, is taken exactly here *)
Fixpoint choose (n k : nat) : Z :=
  match n, k with _, O => 1 | O, S _ => 0 | S n', S k' => choose n' k' + choose n' k end.
Definition n_choose_k : libclass := LibClass "m.special.nChooseK" plain1 GMethod (fun avs =>
  match avs with
  | [AV (VInt n); AV (VInt k)] => if ((n <=? k) || (k <? 0))%bool then BError 36000 else BRet (VInt (choose (Z.to_nat n) (Z.to_nat k)))
  | _ => BRaise (PyErr "TypeError")
  end).
Definition no_math (f : string) (vs : list val) : res val :=
  match f, vs with "len", [VStr s] => Ok (VInt (Z.of_nat (String.length s))) | _, _ => Raise (PyErr "TypeError") end.
Definition s_len : libclass := inl no_math "s.len" "len".
(** a.map, lib/array.py:921-929 *)
Fixpoint map_prog (acc vs : list val) : libprog :=
  match vs with
  | [] => LRet (VArr (rev acc))
  | v :: vs' => LCall 1 [v] (fun r => match r with Ok w => map_prog (w :: acc) vs' | Raise e => LRaise e end)
  end.
Definition a_map (avs : list aval) : libprog :=
  match avs with [AV (VArr vs); AF _] => map_prog [] vs | _ => LRaise (PyErr "TypeError") end.
Definition ref_lib (f : string) : option libfun :=
  if String.eqb f "a.map" then Some (Strict a_map)
  else if String.eqb f "s.len" then Some (direct s_len PosNone ["string"; "int"])
  else if String.eqb f "m.special.nChooseK" then Some (direct n_choose_k PosNone ["int"; "int"; "int"])
  else if String.eqb f "&&&" then Some (direct kleene_and PosNone [])
  else demo_lib f.
Definition ref_ref (f : string) : list aval -> libprog :=
  if String.eqb f "s.len" then by_reference s_len
  else if String.eqb f "m.special.nChooseK" then by_reference n_choose_k
  else if String.eqb f "&&&" then by_reference kleene_and
  else fun _ => LRaise (PyErr "TypeError").
Definition ref_env (fcns : list (string * (list string * list expr))) : env := {|
  e_lib := ref_lib; e_libref := ref_ref; e_libparams := fun _ => ["n"; "k"]; e_fcns := fcns;
  e_decode := fun _ v => Ok v; e_tyname := fun t => t; e_pack := fun _ _ => Raise (PyErr "TypeError"); e_unpack := fun _ _ => None;
  e_message := fun _ => ""; e_time := fun _ => 0; e_rand := fun _ => 0 |}.
Definition top : st := St [[("z", VInt 4)]; []] [] [] 0 0 VNull [] [] (Some 0) 0 0 0 [].
Definition words : arg := AExpr (ELit "" (VArr [VStr "ab"; VStr ""; VStr "xyz"])).
Definition numbers (l : list Z) : arg := AExpr (ELit "" (VArr (map VInt l))).
Definition answer (o : out val) : option (res val) := match o with Done r _ => Some r | _ => None end.
Definition choose_from (n : Z) : arg := AFill "m.special.nChooseK" [("n", AExpr (ELit "" (VInt n)))].

(** ** The function table *)
(** A library function that may be referenced has a method that does not look into paramTypes, which a reference does
    not supply, and takes no arguments that only the code of a direct call supplies. *)
Theorem C63_table : forall v d, In d library -> referenceable v (t_cases d) = true -> t_reads d = false /\ t_gen d <> KExtra.
Proof. exact table_spec. Qed.
(** 449 functions; those that may be referenced in version 0.8.1, and those that may not *)
Example table_size : length library = 449%nat /\ length (filter (fun d => referenceable (Ver 0 8 1) (t_cases d)) library) = 167%nat.
Proof. vm_compute. split; reflexivity. Qed.

(** ** Library functions *)
(** The function {"params": [...], "do": {g: [...]}} and the reference {"fcn": g} give the same value and have the same
    effects, for every library function that may be referenced but &&& and |||; exceptions with a code become TypeErrors. *)
Theorem C63_reference_partial : forall E py, (forall f vs c, py f vs <> Raise (PFAErr c)) ->
  forall c p ts, p <> PosFcn -> implements E c p ts ->
  forall d v ps vs n s r s', In d library -> described py d c -> referenceable v (c_cases c) = true -> t_gen d <> KThunks ->
  NoDup ps -> length ps = length vs -> two_if_lazy c vs ->
  apply E n (wrapper (c_name c) ps) vs s = Done r s' -> apply E n (ARef (c_name c)) vs s = Done (on_exn no_code r) s'.
Proof.
  intros E py P c p ts T I d v ps vs n s r s' D1 D2 R K N L W H.
  rewrite (wrapper_ref E py P c p ts T I d v ps vs n s r s' D1 D2 R K N L W H). destruct r as [|[]]; reflexivity.
Qed.
Lemma find_in d : existsb (fun e => String.eqb (t_name e) (t_name d)) library = true ->
  forallb (fun e => implb (String.eqb (t_name e) (t_name d))
    (match t_cases e, t_cases d with [(a, l)], [(b, m)] => (Bool.eqb a b && life_eqb l m)%bool | _, _ => false end
     && Bool.eqb (t_reads e) (t_reads d) && kind_eqb (t_gen e) (t_gen d))) library = true -> In d library.
Proof.
  intros H F. apply existsb_exists in H. destruct H as [e [I H]]. rewrite forallb_forall in F. specialize (F e I). rewrite H in F. cbn [implb] in F.
  apply String.eqb_eq in H. destruct e as [n1 c1 r1 g1], d as [n2 c2 r2 g2]. cbn in *. subst.
  apply andb_true_iff in F as [F F3]. apply andb_true_iff in F as [F1 F2].
  destruct c1 as [|[a l] [|]]; try discriminate. destruct c2 as [|[b m] [|]]; try discriminate.
  apply andb_true_iff in F1 as [F1 F4]. apply Bool.eqb_prop in F1, F2. apply life_eqb_eq in F4. subst. destruct g1, g2; try discriminate; exact I.
Qed.
Example choose_described : In (En "m.special.nChooseK" plain1 false KMethod) library /\ described no_math (En "m.special.nChooseK" plain1 false KMethod) n_choose_k
  /\ referenceable (Ver 0 8 1) (c_cases n_choose_k) = true /\ implements (ref_env []) n_choose_k PosNone ["int"; "int"; "int"].
Proof.
  split; [apply find_in; vm_compute; reflexivity|]. split; [|split; [reflexivity|repeat split; discriminate]].
  split; [reflexivity|]. split; [reflexivity|]. split; [reflexivity|]. intros _ avs. cbn.
  repeat match goal with |- untyped (match ?x with _ => _ end) => destruct x; cbn; try discriminate; auto end.
Qed.
Example len_described : In (En "s.len" plain1 false KInline) library /\ described no_math (En "s.len" plain1 false KInline) s_len
  /\ referenceable (Ver 0 8 1) (c_cases s_len) = true /\ implements (ref_env []) s_len PosNone ["string"; "int"].
Proof.
  split; [apply find_in; vm_compute; reflexivity|]. split; [|split; [reflexivity|repeat split; discriminate]].
  split; [reflexivity|]. split; [reflexivity|]. intros _. right. now left.
Qed.
Example choose_runs : answer (apply (ref_env []) 9 (wrapper "m.special.nChooseK" ["x"; "y"]) [VInt 5; VInt 2] top) = Some (Ok (VInt 10))
  /\ answer (apply (ref_env []) 9 (ARef "m.special.nChooseK") [VInt 5; VInt 2] top) = Some (Ok (VInt 10)).
Proof. vm_compute. split; reflexivity. Qed.

(** ** References with arguments filled in *)
(** The same for {"fcn": g, "fill": {...}} and the function that calls g on its own arguments and the filled in ones, where
    these are literals or variables. *)
Theorem C63_fill_partial : forall E py, (forall f vs c, py f vs <> Raise (PFAErr c)) ->
  forall c p ts, p <> PosFcn -> implements E c p ts ->
  forall d v qs vs fills n s r s', In d library -> described py d c -> referenceable v (c_cases c) = true -> t_gen d = KMethod ->
  NoDup qs -> length qs = length vs -> (length vs <= 208)%nat ->
  left_over fills (e_libparams E (c_name c)) = length vs ->
  (forall x a, assoc x fills = Some a -> plain_fill (s_scopes s) (qs ++ dollars 0 (length vs)) a) ->
  apply E n (fill_wrapper (c_name c) (e_libparams E (c_name c)) fills qs) vs s = Done r s' ->
  apply E n (AFill (c_name c) fills) vs s = Done (on_exn no_code r) s'.
Proof.
  intros E py P c p ts T I d v qs vs fills n s r s' D1 (D2 & D3 & D4) R K N L L2 F G H. rewrite K in D4. destruct D4 as [D4 D5].
  rewrite D3 in R. destruct (table_spec v d D1 R) as [W _].
  rewrite (fill_ref E c p ts T I qs vs fills n s r s'); auto; [destruct r as [|[]]; reflexivity|]. unfold direct. now rewrite D4.
Qed.
Example fill_runs : answer (apply (ref_env []) 9 (choose_from 6) [VInt 3] top) = Some (Ok (VInt 20))
  /\ left_over [("n", AExpr (ELit "" (VInt 6)))] (e_libparams (ref_env []) "m.special.nChooseK") = 1%nat
  /\ answer (eval (ref_env []) 9 (ECall "a.map" [numbers [1; 2; 3]; AFill "m.special.nChooseK" [("n", AExpr (ERef "z"))]]) top)
     = Some (Ok (VArr [VInt 4; VInt 6; VInt 4])).
Proof. vm_compute. repeat split; reflexivity. Qed.

(** ** Functions of the document *)
(** In a document that the static check accepts, a user function called by reference, which runs inside the scopes of its
    caller, and one called directly, which runs in scopes of its own, give the same value or exception and have the same
    effects. *)
Theorem C63_user : forall E fa D, lib_sound E fa -> accepted E fa D -> tame_doc E fa D ->
  forall f ps body qs vs n s r s', assoc f (e_fcns E) = Some (ps, body) -> length ps = length vs -> NoDup qs -> length qs = length vs ->
  apply E n (wrapper f qs) vs s = Done r s' -> apply E n (ARef f) vs s = Done r s'.
Proof. intros E fa D L A T. exact (user_ref E fa (doc_env_ok E fa D L A T)). Qed.
(** what the body does is the same in any scopes *)
Theorem C63_user_scopes : forall E fa D, lib_sound E fa -> accepted E fa D -> tame_doc E fa D ->
  forall f ps body vs n s around, assoc f (e_fcns E) = Some (ps, body) -> length ps = length vs ->
  answer (exec E n body (set_scopes (frame_let (zip_dict ps vs) [] :: around) s)) =
  answer (exec E n body (set_scopes [frame_let (zip_dict ps vs) []] s)).
Proof.
  intros E fa D L A T f ps body vs n s around H N. rewrite (body_around E fa (doc_env_ok E fa D L A T) f ps body vs n s around H N).
  destruct (exec E n body (set_scopes [frame_let (zip_dict ps vs) []] s)); reflexivity.
Qed.

(** ** Higher-order functions *)
(** A library function that calls its functions gives the same value and has the same effects when a function that only
    calls g is replaced by the reference {"fcn": g}; the exceptions are the same or have become TypeErrors. *)
Theorem C63_higher_order_partial : forall E py, (forall f vs c, py f vs <> Raise (PFAErr c)) ->
  forall c p ts, p <> PosFcn -> implements E c p ts ->
  forall d v ps, In d library -> described py d c -> referenceable v (c_cases c) = true -> t_gen d <> KThunks -> NoDup ps ->
  (forall vs, length vs = length ps -> two_if_lazy c vs) ->
  forall hof prog, e_lib E hof = Some (Strict prog) /\ assoc hof (e_fcns E) = None /\ hof <> "emit" ->
  opaque prog -> (forall xs, gives_up (prog xs)) ->
  forall n l m s r s', Forall2 (arg_swapped (c_name c) ps) l m ->
  (forall xs i, length xs = length l -> nth_error l i = Some (wrapper (c_name c) ps) -> calls_with i (length ps) (prog xs)) ->
  eval E n (ECall hof l) s = Done r s' -> exists r', eval E n (ECall hof m) s = Done r' s' /\ settled no_code r r'.
Proof.
  intros E py P c p ts T I d v ps D1 D2 R K N W hof prog H O G n l m s r s' F C X.
  apply (call_swapped E (c_name c) ps no_code) with (prog := prog) (l := l); auto.
  intros n0 vs s0 r0 s0' L Q. eapply C63_reference_partial; eauto.
Qed.
(** for user functions the exceptions are the same *)
Theorem C63_user_higher_order : forall E fa D, lib_sound E fa -> accepted E fa D -> tame_doc E fa D ->
  forall f ps body, assoc f (e_fcns E) = Some (ps, body) -> NoDup ps ->
  forall hof prog, e_lib E hof = Some (Strict prog) /\ assoc hof (e_fcns E) = None /\ hof <> "emit" ->
  opaque prog -> (forall xs, gives_up (prog xs)) ->
  forall n l m s r s', Forall2 (arg_swapped f ps) l m ->
  (forall xs i, length xs = length l -> nth_error l i = Some (wrapper f ps) -> calls_with i (length ps) (prog xs)) ->
  eval E n (ECall hof l) s = Done r s' -> eval E n (ECall hof m) s = Done r s'.
Proof.
  intros E fa D L A T f ps body B N hof prog H O G n l m s r s' F C X.
  destruct (call_swapped E f ps (fun e => e)) with (hof := hof) (prog := prog) (l := l) (m := m) (n := n) (s := s) (r := r) (s' := s') as [r' [R S]]; auto.
  - intros n0 vs s0 r0 s0' Ln Q. pose proof (C63_user E fa D L A T f ps body ps vs n0 s0 r0 s0' B Ln N Ln Q) as R. destruct r0; exact R.
  - assert (K : r' = r) by (destruct S as [-> | ->]; [reflexivity|destruct r; reflexivity]). now rewrite <- K.
Qed.
Lemma map_gives_up vs : forall acc, gives_up (map_prog acc vs).
Proof. induction vs as [|v vs IH]; intros acc; cbn; [trivial|]. split; [reflexivity|]. intros [w|e]; [apply IH|exact I]. Qed.
Lemma map_calls vs : forall acc i, calls_with i 1 (map_prog acc vs).
Proof. induction vs as [|v vs IH]; intros acc i; cbn; [trivial|]. split; [reflexivity|]. intros [w|e]; [apply IH|exact I]. Qed.
Example map_fits : opaque a_map /\ (forall xs, gives_up (a_map xs)) /\ (forall xs i, calls_with i 1 (a_map xs)).
Proof.
  split; [|split].
  - intros xs ys F. destruct F as [|a b l m S F]; [reflexivity|]. destruct F as [|a2 b2 l m S2 F]; [destruct S as [->|(f & g & -> & ->)]; reflexivity|].
    destruct F; destruct S as [->|(f & g & -> & ->)]; try reflexivity; destruct S2 as [->|(f & g & -> & ->)]; try reflexivity;
      destruct b as [[]|]; try reflexivity; destruct b2; reflexivity.
  - intros xs. destruct xs as [|[[]| ] [|[?|?] [|? ?]]]; try exact I. apply map_gives_up.
  - intros xs i. destruct xs as [|[[]| ] [|[?|?] [|? ?]]]; try exact I. apply map_calls.
Qed.
Example map_runs : answer (eval (ref_env []) 9 (ECall "a.map" [words; ARef "s.len"]) top) = Some (Ok (VArr [VInt 2; VInt 0; VInt 3]))
  /\ Forall2 (arg_swapped "s.len" ["x"]) [words; wrapper "s.len" ["x"]] [words; ARef "s.len"].
Proof. split; [vm_compute; reflexivity|]. constructor; [now left|]. constructor; [now right|constructor]. Qed.
(** a user function with a local variable and a loop, mapped over an array *)
Definition triangle : list expr :=
  [ELet [("a", ERef "x")]; EFor [("i", int 0)] (ECall "<" [AExpr (ERef "i"); AExpr (ERef "x")]) [("i", add (ERef "i") (int 1))]
     [ESet [("a", add (ERef "a") (ERef "i"))]]; ERef "a"].
Definition user_env : env := demo_env [("u.t", (["x"], triangle))] (fun _ => 0).
Definition user_doc : doc := demo_doc MMap [ECall "apply" [ARef "u.t"; AExpr (ERef "input")]].
Example user_fits : lib_sound user_env demo_arity /\ accepted user_env demo_arity user_doc /\ tame_doc user_env demo_arity user_doc.
Proof.
  split; [apply demo_sound|]. split; [reflexivity|]. split.
  - constructor; [|constructor]. cbn [snd user_env demo_env e_fcns]. unfold triangle. repeat (apply Forall_cons; [tame_tac|]). apply Forall_nil.
  - cbn [user_doc demo_doc d_begin d_action d_end d_merge app]. repeat (apply Forall_cons; [tame_tac|]). apply Forall_nil.
Qed.
Example user_runs :
  answer (apply user_env 30 (ARef "u.t") [VInt 4] top) = Some (Ok (VInt 10)) /\ answer (apply user_env 30 (wrapper "u.t" ["x"]) [VInt 4] top) = Some (Ok (VInt 10))
  /\ (let E := ref_env [("u.t", (["x"], triangle))] in answer (eval E 30 (ECall "a.map" [numbers [1; 4]; ARef "u.t"]) top) = Some (Ok (VArr [VInt 1; VInt 10]))).
Proof. vm_compute. repeat split; reflexivity. Qed.
(** a function that the check refuses, since it uses a variable of its caller, does tell the two apart *)
Example user_refused : let E := demo_env [("u.z", (["x"], [ERef "z"]))] (fun _ => 0) in
  ~ accepted E demo_arity (demo_doc MMap [int 1])
  /\ answer (apply E 30 (ARef "u.z") [VInt 0] top) = Some (Ok (VInt 4)) /\ answer (apply E 30 (wrapper "u.z" ["x"]) [VInt 0] top) = Some (Raise unknown).
Proof. split; [discriminate|]. vm_compute. split; reflexivity. Qed.

(** ** Where a reference is not a direct call *)
(** An error of the library function loses its code: titus.util.pos takes the place of the position, and the constructor
    of the exception fails. A "try" for that code no longer catches it. *)
Theorem C63_error_refuted : exists E c p ts d v ps vs n s, p <> PosFcn /\ implements E c p ts /\ In d library /\ described no_math d c
  /\ referenceable v (c_cases c) = true /\ t_gen d = KMethod /\ NoDup ps /\ length ps = length vs
  /\ answer (apply E n (wrapper (c_name c) ps) vs s) = Some (Raise (PFAErr 36000))
  /\ answer (apply E n (ARef (c_name c)) vs s) = Some (Raise (PyErr "TypeError")).
Proof.
  exists (ref_env []), n_choose_k, PosNone, ["int"; "int"; "int"], (En "m.special.nChooseK" plain1 false KMethod), (Ver 0 8 1), ["x"; "y"], [VInt 2; VInt 5], 9%nat, top.
  destruct choose_described as (A & B & C & D). split; [discriminate|]. do 4 (split; [assumption|]). split; [reflexivity|].
  split; [repeat constructor; cbn; intuition discriminate|]. split; [reflexivity|]. vm_compute. split; reflexivity.
Qed.
Theorem C63_try_refuted : exists E n l m s, Forall2 (fun a b => a = b \/ (exists ps fills qs, a = fill_wrapper "m.special.nChooseK" ps fills qs /\ b = AFill "m.special.nChooseK" fills)) l m
  /\ answer (eval E n (ETry [ECall "a.map" l] (Some [inr 36000])) s) = Some (Ok VNull)
  /\ answer (eval E n (ETry [ECall "a.map" m] (Some [inr 36000])) s) = Some (Raise (PyErr "AttributeError")).
Proof.
  exists (ref_env []), 12%nat, [numbers [1; 9]; fill_wrapper "m.special.nChooseK" ["n"; "k"] [("n", AExpr (ELit "" (VInt 6)))] ["q"]], [numbers [1; 9]; choose_from 6], top.
  split; [|vm_compute; split; reflexivity]. constructor; [now left|]. constructor; [right|constructor]. do 3 eexists. split; reflexivity.
Qed.
(** &&& and ||| may be referenced, but their methods call their arguments *)
Theorem C63_thunks_refuted : forall E c v x y n s, (c = kleene_and \/ c = kleene_or) -> e_libref E (c_name c) = by_reference c -> assoc (c_name c) (e_fcns E) = None ->
  referenceable v (c_cases c) = true /\ (exists d, In d library /\ described no_math d c) /\
  answer (apply E (S n) (ARef (c_name c)) [x; y] s) = Some (Raise (PyErr "TypeError")).
Proof.
  intros E c v x y n s H R A. split; [|split].
  - destruct H as [->| ->]; reflexivity.
  - exists (En (c_name c) plain1 false KThunks). split; [destruct H as [->| ->]; apply find_in; vm_compute; reflexivity|].
    split; [reflexivity|]. split; [destruct H as [->| ->]; reflexivity|exact H].
  - rewrite apply_S. cbn [step_app]. rewrite A, R. destruct H as [->| ->]; reflexivity.
Qed.
Example thunks_runs : let f := ["x"; "y"] in
  answer (apply (ref_env []) 9 (wrapper "&&&" f) [VDict [("boolean", VBool true)]; VNull] top) = Some (Ok VNull)
  /\ answer (apply (ref_env []) 9 (ARef "&&&") [VDict [("boolean", VBool true)]; VNull] top) = Some (Raise (PyErr "TypeError")).
Proof. vm_compute. split; reflexivity. Qed.
Print Assumptions C63_table.
Print Assumptions C63_reference_partial.
Print Assumptions C63_fill_partial.
Print Assumptions C63_user.
Print Assumptions C63_user_scopes.
Print Assumptions C63_higher_order_partial.
Print Assumptions C63_user_higher_order.
Print Assumptions C63_error_refuted.
Print Assumptions C63_try_refuted.
Print Assumptions C63_thunks_refuted.
