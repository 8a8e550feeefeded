(** Proofs about library functions called by reference (C63). *)
From Verif Require Import Base ScopeModel VersionModel CoreModel RefTable RefModel RefSpec.
Open Scope string_scope.
Open Scope list_scope.
Open Scope Z_scope.

(** ** The function table *)
Definition two_lives (l : lifespan) : Prop := l = always \/ l = ending.
Definition is_always (l : lifespan) : bool := match deprecation l with None => true | Some _ => false end.
Definition ver_eqb (a b : version) : bool := ((major a =? major b) && (minor a =? minor b) && (release a =? release b))%bool.
Definition opt_eqb (a b : option version) : bool :=
  match a, b with None, None => true | Some x, Some y => ver_eqb x y | _, _ => false end.
Definition life_eqb (a b : lifespan) : bool :=
  (opt_eqb (birth a) (birth b) && opt_eqb (deprecation a) (deprecation b) && opt_eqb (death a) (death b))%bool.
Lemma ver_eqb_eq a b : ver_eqb a b = true -> a = b.
Proof. unfold ver_eqb. destruct a, b; cbn. rewrite !andb_true_iff, !Z.eqb_eq. intros [[-> ->] ->]. reflexivity. Qed.
Lemma opt_eqb_eq a b : opt_eqb a b = true -> a = b.
Proof. destruct a, b; cbn; try discriminate; [|reflexivity]. intros H. now rewrite (ver_eqb_eq _ _ H). Qed.
Lemma life_eqb_eq a b : life_eqb a b = true -> a = b.
Proof.
  unfold life_eqb. destruct a, b; cbn. rewrite !andb_true_iff. intros [[A B] C].
  now rewrite (opt_eqb_eq _ _ A), (opt_eqb_eq _ _ B), (opt_eqb_eq _ _ C).
Qed.
Definition lives_ok (d : entry) : bool := forallb (fun c => (life_eqb (snd c) always || life_eqb (snd c) ending)%bool) (t_cases d).
Definition ref_with (L : bool) (cases : list (bool * lifespan)) : bool :=
  match filter (fun c => (is_always (snd c) || L)%bool) cases with [(w, _)] => negb w | _ => false end.
Lemma ref_with_eq v cases : forallb (fun c => (life_eqb (snd c) always || life_eqb (snd c) ending)%bool) cases = true ->
  referenceable v cases = ref_with (current ending v || deprecated ending v) cases.
Proof.
  intros H. unfold referenceable, ref_with, living.
  replace (filter _ cases) with (filter (fun c => (is_always (snd c) || (current ending v || deprecated ending v))%bool) cases); [reflexivity|].
  induction cases as [|c cs IH]; [reflexivity|]. cbn in H. apply andb_true_iff in H as [H1 H2]. cbn [filter].
  rewrite (IH H2). apply orb_true_iff in H1 as [H1|H1]; apply life_eqb_eq in H1; rewrite H1; reflexivity.
Qed.
Definition kind_eqb (a b : gkind) : bool :=
  match a, b with KMethod, KMethod | KInline, KInline | KLazy, KLazy | KThunks, KThunks | KExtra, KExtra => true | _, _ => false end.
Definition fits_table (d : entry) : bool :=
  (lives_ok d && forallb (fun L => implb (ref_with L (t_cases d)) (negb (t_reads d) && negb (kind_eqb (t_gen d) KExtra))) [true; false])%bool.
Lemma table_ok : forallb fits_table library = true.
Proof. vm_compute. reflexivity. Qed.
Lemma table_spec v d : In d library -> referenceable v (t_cases d) = true -> t_reads d = false /\ t_gen d <> KExtra.
Proof.
  intros I R. pose proof (proj1 (forallb_forall _ _) table_ok d I) as F. unfold fits_table in F.
  apply andb_true_iff in F as [F1 F2]. rewrite (ref_with_eq v) in R by exact F1.
  cbn [forallb] in F2. rewrite !andb_true_iff in F2. destruct F2 as [F2 [F3 _]].
  assert (G : (negb (t_reads d) && negb (kind_eqb (t_gen d) KExtra))%bool = true).
  { destruct (current ending v || deprecated ending v)%bool; rewrite R in *; assumption. }
  apply andb_true_iff in G as [G1 G2]. split; [now apply negb_true_iff|]. intros K. rewrite K in G2. discriminate.
Qed.

(** ** A method on values *)
Section Run.
Variable E : env.
Lemma run_values vs p ts : p <> PosFcn -> forall b, untyped b -> forall ev1 app1 ev2 app2 ss s,
  exists r s', s_scopes s' = s_scopes s /\
    run_lib E ev1 app1 [] (map AV vs) (compile false p (Some ts) b) (set_scopes ss s) = Done r (set_scopes ss s') /\
    run_lib E ev2 app2 [] (map AV vs) (compile false PosFcn None b) s = Done (referenced r) s'.
Proof using.
  intros P. induction b as [v|c|e|i args k IH|i k IH|k IH|k IH|k IH]; intros U ev1 app1 ev2 app2 ss s; cbn [compile run_lib].
  - exists (Ok v), s. repeat split.
  - exists (Raise (PFAErr c)), s. destruct p; try congruence; repeat split.
  - cbn in U. exists (Raise e), s. split; [reflexivity|]. split; [reflexivity|]. unfold raise. destruct e; try reflexivity. now elim (U code).
  - assert (N : forall A (x : A) f, match nth_error (map AV vs) i with Some (AF a) => f a | _ => x end = x).
    { intros A x f. rewrite nth_error_map. destruct (nth_error vs i); reflexivity. }
    rewrite !N. exists (Raise (PyErr "TypeError")), s. repeat split.
  - contradiction.
  - cbn in U. unfold bind, check_time. cbn [s_timeout set_scopes s_start s_tick].
    destruct (s_timeout s) as [t|].
    + destruct (t <=? 0); [apply IH; assumption|]. destruct (t <? _).
      * exists (Raise TimeoutErr), (set_tick (S (s_tick s)) s). repeat split.
      * apply (IH U ev1 app1 ev2 app2 ss (set_tick (S (s_tick s)) s)).
    + exists (Raise (PyErr "AttributeError")), s. repeat split.
  - cbn in U. unfold bind, draw. cbn [s_rand set_scopes].
    apply (IH (e_rand E (s_rand s)) (U _) ev1 app1 ev2 app2 ss (set_rand (S (s_rand s)) s)).
  - contradiction.
Qed.
End Run.

(** ** The wrapper *)
Lemma assoc_let_out x bs : forall f, ~ In x (map fst bs) -> assoc x (frame_let bs f) = assoc x f.
Proof.
  induction bs as [|[y v] bs IH]; intros f H; [reflexivity|]. cbn in *. rewrite IH by tauto.
  apply assoc_set_neq. intros ->. tauto.
Qed.
Lemma zip_keys ps : forall (vs : list val), length ps = length vs -> map fst (zip_dict ps vs) = ps.
Proof. induction ps; intros [|v vs] L; try discriminate; [reflexivity|]. cbn. f_equal. apply IHps. cbn in L. lia. Qed.
Lemma params_bound ps : forall vs f ss, NoDup ps -> length ps = length vs ->
  Forall2 (fun p v => scope_get p (frame_let (zip_dict ps vs) f :: ss) = Ok v) ps vs.
Proof.
  induction ps as [|p ps IH]; intros [|v vs] f ss N L; try discriminate; [constructor|].
  inversion N as [|? ? N1 N2]; subst. cbn [zip_dict frame_let]. constructor.
  - cbn [scope_get]. rewrite assoc_let_out.
    + now rewrite assoc_set_eq.
    + rewrite zip_keys by (cbn in L; lia). assumption.
  - apply IH; [assumption|cbn in L; lia].
Qed.
Lemma F2_length {A B} (R : A -> B -> Prop) l m : Forall2 R l m -> length l = length m.
Proof. induction 1; cbn; congruence. Qed.
Definition refs (ps : list string) : list arg := map (fun p => AExpr (ERef p)) ps.
Lemma eval_ref E n x s : eval E n (ERef x) s = OutOfFuel \/ eval E n (ERef x) s = Done (scope_get x (s_scopes s)) s.
Proof. destruct n; [left|right]; reflexivity. Qed.
Lemma refs_eval E n ps vs s : Forall2 (fun p v => scope_get p (s_scopes s) = Ok v) ps vs ->
  mapE (ev_arg (eval E n)) (refs ps) s = OutOfFuel \/ mapE (ev_arg (eval E n)) (refs ps) s = Done (Ok (map AV vs)) s.
Proof.
  induction 1 as [|p v ps vs H F IH]; [right; reflexivity|]. cbn [refs map mapE ev_arg]. unfold bind, ret.
  destruct (eval_ref E n p s) as [R|R]; rewrite R; [left; reflexivity|]. rewrite H.
  fold (refs ps). destruct IH as [IH|IH]; rewrite IH; [left|right]; reflexivity.
Qed.

Lemma set_same s : set_scopes (s_scopes s) s = s.
Proof. destruct s; reflexivity. Qed.
Lemma set_set a b s : set_scopes a (set_scopes b s) = set_scopes a s.
Proof. reflexivity. Qed.
Lemma of_res_untyped r : (forall c, r <> Raise (PFAErr c)) -> untyped (of_res r).
Proof. destruct r; cbn; [trivial|]. intros H c ->. now apply (H c). Qed.

(** the number of arguments, where Python's "and" and "or" have two *)
Definition two_if_lazy (c : libclass) (vs : list val) : Prop := match c_gen c with GLazy _ => length vs = 2%nat | _ => True end.

Lemma apply_S E n a vs : apply E (S n) a vs = step_app E (eval E n) (apply E n) a vs.
Proof. reflexivity. Qed.
Lemma eval_S E n e : eval E (S n) e = step E n (eval E n) (apply E n) e.
Proof. reflexivity. Qed.
Section Wrapper.
Variable E : env.
Variable py : string -> list val -> res val.
Hypothesis py_codes : forall f vs c, py f vs <> Raise (PFAErr c).
Variable c : libclass.
Variables (p : posv) (ts : list string).
Hypothesis text : p <> PosFcn.
Hypothesis impl : implements E c p ts.

(** the direct call in the frame of the wrapper, against the reference *)
Definition agree ps vs n s (f : frame) : Prop :=
  forall ev app r s', step E n (eval E n) (apply E n) (ECall (c_name c) (refs ps)) (set_scopes (f :: s_scopes s) s) = Done r s' ->
    exists s0, s_scopes s0 = s_scopes s /\ s' = set_scopes (f :: s_scopes s) s0 /\
      run_lib E ev app [] (map AV vs) (by_reference c (map AV vs)) (add_trace (c_name c) s) = Done (referenced r) s0.

Lemma agree_strict ps vs n s f (h : list aval -> body) :
  Forall2 (fun p v => scope_get p (f :: s_scopes s) = Ok v) ps vs ->
  direct c p ts = Strict (fun avs => compile false p (Some ts) (h avs)) ->
  h (map AV vs) = c_method c (map AV vs) -> untyped (c_method c (map AV vs)) -> agree ps vs n s f.
Proof using impl text.
  intros B D H U ev app r s' R. destruct impl as [L [R' [N X]]]. cbn [step] in R. rewrite N in R.
  destruct (String.eqb_spec (c_name c) "emit"); [contradiction|]. rewrite L, D in R.
  unfold bind at 1 in R.
  destruct (refs_eval E n ps vs (set_scopes (f :: s_scopes s) s) B) as [M|M]; rewrite M in R; [discriminate|].
  unfold bind, modify in R. rewrite H in R.
  destruct (run_values E vs p ts text (c_method c (map AV vs)) U (eval E n) (apply E n) ev app
              (f :: s_scopes s) (add_trace (c_name c) s)) as [r0 [s0 [S0 [R1 R2]]]].
  change (add_trace (c_name c) (set_scopes (f :: s_scopes s) s)) with (set_scopes (f :: s_scopes s) (add_trace (c_name c) s)) in R.
  rewrite R1 in R. injection R as <- <-. exists s0. repeat split; assumption.
Qed.

Lemma force_ref n ps vs s i (k : res val -> libprog) : Forall2 (fun p v => scope_get p (s_scopes s) = Ok v) ps vs -> (i < length vs)%nat ->
  run_lib E (eval E n) (apply E n) (refs ps) [] (LForce i k) s = OutOfFuel \/
  run_lib E (eval E n) (apply E n) (refs ps) [] (LForce i k) s =
  run_lib E (eval E n) (apply E n) (refs ps) [] (k (Ok (nth i vs VNull))) s.
Proof using.
  intros B I. cbn [run_lib]. unfold refs at 1 3. rewrite nth_error_map.
  destruct (nth_error ps i) as [x|] eqn:X.
  - cbn [option_map]. unfold bind, attempt. destruct (eval_ref E n x s) as [R|R]; rewrite R; [left; reflexivity|].
    assert (V : scope_get x (s_scopes s) = Ok (nth i vs VNull)).
    { clear -B X. revert i X. induction B as [|y v ps vs H F IH]; intros [|i] X; try discriminate.
      - injection X as <-. exact H.
      - cbn in X. cbn [nth]. now apply IH. }
    rewrite V. right. reflexivity.
  - apply nth_error_None in X. pose proof (F2_length _ _ _ B). lia.
Qed.

Lemma agree_lazy ps vs n s f (e : body) (v : val) :
  Forall2 (fun p v => scope_get p (f :: s_scopes s) = Ok v) ps vs ->
  direct c p ts = Lazy (compile true p (Some ts) e) ->
  (forall s1, s_scopes s1 = f :: s_scopes s ->
     run_lib E (eval E n) (apply E n) (refs ps) [] (compile true p (Some ts) e) s1 = OutOfFuel \/
     run_lib E (eval E n) (apply E n) (refs ps) [] (compile true p (Some ts) e) s1 = Done (Ok v) s1) ->
  c_method c (map AV vs) = BRet v -> agree ps vs n s f.
Proof using impl.
  intros B D G M ev app r s' R. destruct impl as [L [R' [N X]]]. cbn [step] in R. rewrite N in R.
  destruct (String.eqb_spec (c_name c) "emit"); [contradiction|]. rewrite L, D in R.
  unfold bind, modify in R. unfold by_reference. rewrite M. cbn [compile run_lib]. unfold ret.
  destruct (G (add_trace (c_name c) (set_scopes (f :: s_scopes s) s)) eq_refl) as [H|H]; rewrite H in R; [discriminate|].
  injection R as <- <-. exists (add_trace (c_name c) s). repeat split.
Qed.

Lemma agree_inline ps vs n s f : In c (inline_classes py) -> two_if_lazy c vs ->
  Forall2 (fun p v => scope_get p (f :: s_scopes s) = Ok v) ps vs -> agree ps vs n s f.
Proof using impl text py_codes.
  intros I T B.
  assert (U : forall g l, untyped (of_res (py g l))) by (intros; apply of_res_untyped; intros; apply py_codes).
  assert (St : forall h, direct c p ts = Strict (fun avs => compile false p (Some ts) (h avs)) ->
             (h (map AV vs) = c_method c (map AV vs)) -> untyped (c_method c (map AV vs)) -> agree ps vs n s f)
    by (intros h D1 D2 D3; exact (agree_strict ps vs n s f h B D1 D2 D3)).
  assert (La : forall e v, direct c p ts = Lazy (compile true p (Some ts) e) ->
     (forall s1, s_scopes s1 = f :: s_scopes s ->
        run_lib E (eval E n) (apply E n) (refs ps) [] (compile true p (Some ts) e) s1 = OutOfFuel \/
        run_lib E (eval E n) (apply E n) (refs ps) [] (compile true p (Some ts) e) s1 = Done (Ok v) s1) ->
     c_method c (map AV vs) = BRet v -> agree ps vs n s f)
    by (intros e v D1 D2 D3; exact (agree_lazy ps vs n s f e v B D1 D2 D3)).
  clear impl. unfold inline_classes in I.
  repeat (destruct I as [I|I]; [|]); try contradiction;
    try (apply (St (c_method c)); rewrite <- I; cbn; [reflexivity|reflexivity|first [apply U|exact Coq.Init.Logic.I]]).
  - apply (St (c_method c)); rewrite <- I; cbn; [reflexivity|reflexivity|].
    destruct (py "math.exp" _) eqn:X; cbn; [apply U|]. intros k ->. exact (py_codes _ _ _ X).
  - apply (La (BForce 0 (fun r => and_then r (fun x => if truthy x then BForce 1 (fun r => of_res r) else BRet x))) (py_and (first (map AV vs)) (second (map AV vs))));
      [rewrite <- I; reflexivity| |rewrite <- I; reflexivity].
    unfold two_if_lazy in T. rewrite <- I in T. cbn in T. destruct vs as [|x [|y [|]]]; try discriminate. clear -B.
    intros s1 S1. rewrite <- S1 in B.
    destruct (force_ref n ps [x; y] s1 0 (fun r : res val => compile true p (Some ts)
             (and_then r (fun x : val => if truthy x then BForce 1 (fun r0 : res val => of_res r0) else BRet x))) B ltac:(cbn; lia)) as [H|H]; [left; exact H|].
    cbn [compile] in H |- *. rewrite H. cbn [nth and_then]. unfold py_and. cbn [first second plain map].
    destruct (truthy x); [|right; reflexivity]. cbn [compile].
    destruct (force_ref n ps [x; y] s1 1 (fun r : res val => compile true p (Some ts) (of_res r)) B ltac:(cbn; lia)) as [G|G]; [left; exact G|].
    rewrite G. right. reflexivity.
  - apply (La (BForce 0 (fun r => and_then r (fun x => if truthy x then BRet x else BForce 1 (fun r => of_res r)))) (py_or (first (map AV vs)) (second (map AV vs))));
      [rewrite <- I; reflexivity| |rewrite <- I; reflexivity].
    unfold two_if_lazy in T. rewrite <- I in T. cbn in T. destruct vs as [|x [|y [|]]]; try discriminate. clear -B.
    intros s1 S1. rewrite <- S1 in B.
    destruct (force_ref n ps [x; y] s1 0 (fun r : res val => compile true p (Some ts)
             (and_then r (fun x : val => if truthy x then BRet x else BForce 1 (fun r0 : res val => of_res r0)))) B ltac:(cbn; lia)) as [H|H]; [left; exact H|].
    cbn [compile] in H |- *. rewrite H. cbn [nth and_then]. unfold py_or. cbn [first second plain map].
    destruct (truthy x); [right; reflexivity|]. cbn [compile].
    destruct (force_ref n ps [x; y] s1 1 (fun r : res val => compile true p (Some ts) (of_res r)) B ltac:(cbn; lia)) as [G|G]; [left; exact G|].
    rewrite G. right. reflexivity.
Qed.

Theorem wrapper_ref d v ps vs n s r s' : In d library -> described py d c -> referenceable v (c_cases c) = true -> t_gen d <> KThunks ->
  NoDup ps -> length ps = length vs -> two_if_lazy c vs ->
  apply E n (wrapper (c_name c) ps) vs s = Done r s' ->
  apply E n (ARef (c_name c)) vs s = Done (referenced r) s'.
Proof using impl text py_codes.
  intros I [D1 [D2 D3]] R K N L T H.
  rewrite D2 in R. destruct (table_spec v d I R) as [W X].
  set (f := frame_let (zip_dict ps vs) []).
  assert (B : Forall2 (fun p v => scope_get p (f :: s_scopes s) = Ok v) ps vs) by (apply params_bound; assumption).
  assert (A : forall n, agree ps vs n s f).
  { intros m. destruct (t_gen d).
    - destruct D3 as [D3 D4]. eapply (agree_strict ps vs m s f (c_method c)); try assumption; try reflexivity; [|now apply D4].
      unfold direct. now rewrite D3.
    - apply agree_inline; [apply D3; eauto|assumption|assumption].
    - apply agree_inline; [apply D3; eauto|assumption|assumption].
    - congruence.
    - congruence. }
  destruct impl as [L1 [R1 [N1 _]]].
  destruct n as [|n]; [discriminate|]. rewrite apply_S in H |- *. cbn [step_app wrapper] in H |- *. fold f in H.
  unfold in_frame, in_frames, run, bind, ret in H. cbn [mapE length app] in H. unfold bind, ret in H.
  destruct n as [|n]; [discriminate|]. rewrite eval_S in H. fold (refs ps) in H.
  destruct (step E n (eval E n) (apply E n) (ECall (c_name c) (refs ps)) (set_scopes (f :: s_scopes s) s)) as [r1 s1| |] eqn:Q; try discriminate.
  unfold bind, modify. rewrite N1, R1.
  match goal with |- context [run_lib E ?ev ?app [] _ _ _] => destruct (A n ev app r1 s1 Q) as [s0 [S0 [-> Q2]]] end.
  rewrite Q2. destruct r1 as [v1|e1]; cbn in H; injection H as <- <-; rewrite set_set, <- S0, set_same; reflexivity.
Qed.
End Wrapper.

(** ** Higher-order functions *)
(** the same argument, or the wrapper against the reference *)
Definition swapped (g : string) (ps : list string) (a b : aval) : Prop := a = b \/ (a = AF (wrapper g ps) /\ b = AF (ARef g)).
Section Higher.
Variable E : env.
Variables (g : string) (ps : list string) (n : nat).
(** what becomes of an exception *)
Variable h : exn -> exn.
Hypothesis same : forall vs s r s', length ps = length vs ->
  apply E n (wrapper g ps) vs s = Done r s' -> apply E n (ARef g) vs s = Done (on_exn h r) s'.

Lemma nth_swapped xs ys i : Forall2 (swapped g ps) xs ys ->
  match nth_error xs i, nth_error ys i with
  | Some a, Some b => swapped g ps a b
  | None, None => True
  | _, _ => False
  end.
Proof using. intros F. revert i. induction F as [|a b l m H F IH]; intros [|i]; cbn; auto. apply IH. Qed.
Lemma swap_run xs ys : Forall2 (swapped g ps) xs ys -> forall p lazies s r s', gives_up p ->
  (forall i, nth_error xs i = Some (AF (wrapper g ps)) -> calls_with i (length ps) p) ->
  run_lib E (eval E n) (apply E n) lazies xs p s = Done r s' ->
  exists r', run_lib E (eval E n) (apply E n) lazies ys p s = Done r' s' /\ settled h r r'.
Proof using same.
  intros F. induction p as [v|e|i vs k IH|i k IH|k IH|k IH]; intros lazies s r s' U C H; cbn [run_lib] in *.
  - exists r. split; [exact H|now left].
  - exists r. split; [exact H|now left].
  - destruct U as [U1 U2]. pose proof (nth_swapped xs ys i F) as S.
    destruct (nth_error xs i) as [a|] eqn:X, (nth_error ys i) as [b|]; try contradiction.
    2:{ exists r. split; [exact H|now left]. }
    destruct S as [<-|[-> ->]].
    + destruct a as [v|a]; [exists r; split; [exact H|now left]|].
      unfold bind, attempt in *. destruct (apply E n a vs s) as [x s1| |]; try discriminate.
      apply IH; [apply U2| |exact H]. intros j J. destruct (C j J) as [_ C2]. apply C2.
    + destruct (C i X) as [C1 C2]. unfold bind, attempt in *.
      destruct (apply E n (wrapper g ps) vs s) as [x s1| |] eqn:Q; try discriminate.
      rewrite (same vs s x s1 (eq_sym (C1 eq_refl)) Q). destruct x as [x|e].
      * cbn [on_exn]. apply IH; [apply U2| |exact H]. intros j J. apply (C j J).
      * rewrite U1 in H. cbn in H. unfold raise in H. injection H as <- <-.
        exists (Raise (h e)). split; [|now right]. cbn [on_exn]. rewrite U1. reflexivity.
  - destruct U as [U1 U2]. destruct (nth_error lazies i) as [[e| | |]|]; try (exists r; split; [exact H|now left]).
    unfold bind, attempt in *. destruct (eval E n e s) as [x s1| |]; try discriminate.
    apply IH; [apply U2| |exact H]. intros j J. apply (C j J).
  - unfold bind in *. destruct (check_time E s) as [[?|?] s1| |]; try discriminate.
    + apply IH; auto.
    + exists r. split; [exact H|now left].
  - unfold bind, draw in *. eapply IH; eauto; try apply U. intros j J. apply (C j J).
Qed.

(** an argument of the call as it stands in the document *)
Definition arg_swapped (a b : arg) : Prop := a = b \/ (a = wrapper g ps /\ b = ARef g).
Lemma args_swapped ev : forall l m, Forall2 arg_swapped l m -> forall s,
  match mapE (ev_arg ev) l s, mapE (ev_arg ev) m s with
  | Done (Ok xs) s1, Done (Ok ys) s2 => s1 = s2 /\ Forall2 (swapped g ps) xs ys /\ length xs = length l /\
      forall i, nth_error xs i = Some (AF (wrapper g ps)) -> nth_error l i = Some (wrapper g ps)
  | Done (Raise e1) s1, Done (Raise e2) s2 => s1 = s2 /\ e1 = e2
  | Blocked, Blocked | OutOfFuel, OutOfFuel => True
  | _, _ => False
  end.
Proof using.
  induction 1 as [|a b l m S F IH]; intros s; cbn [mapE].
  - cbn. repeat split; auto. intros [|]; discriminate.
  - unfold bind, ret. destruct S as [<-|[-> ->]].
    + destruct (ev_arg ev a s) as [[x|e] s1| |] eqn:X; auto.
      specialize (IH s1).
      destruct (mapE (ev_arg ev) l s1) as [[xs|e1] s2| |], (mapE (ev_arg ev) m s1) as [[ys|e2] s3| |]; cbn; try contradiction; auto.
      destruct IH as [-> [IH [IL IN]]]. cbn. split; [reflexivity|]. split; [constructor; [now left|assumption]|]. split; [congruence|].
      intros [|i] J; [|now apply IN]. cbn in J |- *. injection J as ->. f_equal.
      destruct a; cbn in X; unfold bind, ret in X; [destruct (ev e s) as [[?|?] ?| |]; discriminate|..]; unfold wrapper in *; inversion X; reflexivity.
    + cbn [ev_arg wrapper]. unfold ret. specialize (IH s).
      destruct (mapE (ev_arg ev) l s) as [[xs|e1] s2| |], (mapE (ev_arg ev) m s) as [[ys|e2] s3| |]; cbn; try contradiction; auto.
      destruct IH as [-> [IH [IL IN]]]. cbn. split; [reflexivity|]. split; [constructor; [now right|assumption]|]. split; [congruence|].
      intros [|i] J; [reflexivity|now apply IN].
Qed.
End Higher.
