(** Functions of the document called by reference (C63), and the arguments of a call swapped for one another. *)
From Verif Require Import Base ScopeModel VersionModel CoreModel CoreScopes CoreInd CoreFuel StaticModel StaticScope RefTable RefModel RefSpec RefProofs.
Open Scope string_scope.
Open Scope list_scope.
Open Scope Z_scope.

Section User.
Variable E : env.
Variable fa : string -> nat -> option nat.
Hypothesis OK : env_ok E fa.

(** what the body of an accepted function does depends on its arguments only, not on the scopes around *)
Lemma body_around f ps body vs k s around : assoc f (e_fcns E) = Some (ps, body) -> length ps = length vs ->
  exec E k body (set_scopes (frame_let (zip_dict ps vs) [] :: around) s) =
  widen_out around (exec E k body (set_scopes [frame_let (zip_dict ps vs) []] s)).
Proof using OK.
  intros A L. destruct (ok_fcns E fa OK _ _ _ A) as [Hw Ht]. unfold walk_fcn in Hw. apply ok_some in Hw. destruct Hw as [T' Hw].
  pose proof (proj2 (exec_safe E fa OK k body _ _ Hw Ht)) as W.
  apply (W (set_scopes [frame_let (zip_dict ps vs) []] s) around); [discriminate|]. cbn [s_scopes set_scopes].
  apply covers_start; [|intros x V; discriminate]. intros x I. apply has_key_let_in. now rewrite zip_names.
Qed.
(** the stack is as high afterwards *)
Lemma body_height f ps body vs k s r s' : assoc f (e_fcns E) = Some (ps, body) -> length ps = length vs ->
  exec E k body (set_scopes [frame_let (zip_dict ps vs) []] s) = Done r s' -> exists F, s_scopes s' = [F].
Proof using OK.
  intros A L H. destruct (ok_fcns E fa OK _ _ _ A) as [Hw Ht]. unfold walk_fcn in Hw. apply ok_some in Hw. destruct Hw as [T' Hw].
  destruct (proj1 (exec_safe E fa OK k body _ _ Hw Ht) (set_scopes [frame_let (zip_dict ps vs) []] s) r s') as [S _]; [discriminate| |exact H|].
  - cbn [s_scopes set_scopes]. apply covers_start; [|intros x V; discriminate]. intros x I. apply has_key_let_in. now rewrite zip_names.
  - apply sub_length in S. cbn in S. destruct (s_scopes s') as [|F [|]]; try discriminate. eauto.
Qed.
Lemma frame_root f ps body vs k s : assoc f (e_fcns E) = Some (ps, body) -> length ps = length vs ->
  in_frame (frame_let (zip_dict ps vs) []) (run (eval E k) body) s = call_user E (eval E k) f vs s.
Proof using OK.
  intros A L. unfold call_user. rewrite A. unfold in_frame, in_frames, in_root. cbn [app length].
  pose proof (body_around f ps body vs k s (s_scopes s) A L) as W1. pose proof (body_around f ps body vs k s [[]] A L) as W2.
  unfold exec in W1, W2. unfold bind at 1. rewrite W1, W2.
  destruct (run (eval E k) body (set_scopes [frame_let (zip_dict ps vs) []] s)) as [r s1| |] eqn:X; try reflexivity.
  destruct (body_height f ps body vs k s r s1 A L X) as [F SF]. cbn [widen_out]. unfold widen. rewrite SF. cbn [s_scopes set_scopes app skipn firstn].
  destruct r; reflexivity.
Qed.

Theorem user_ref f ps body qs vs n s r s' : assoc f (e_fcns E) = Some (ps, body) -> length ps = length vs ->
  NoDup qs -> length qs = length vs ->
  apply E n (wrapper f qs) vs s = Done r s' -> apply E n (ARef f) vs s = Done r s'.
Proof using OK.
  intros A L N L2 H. set (F := frame_let (zip_dict qs vs) []).
  assert (B : Forall2 (fun p v => scope_get p (F :: s_scopes s) = Ok v) qs vs) by (apply params_bound; assumption).
  destruct n as [|n]; [discriminate|]. rewrite apply_S in H |- *. cbn [step_app wrapper] in H |- *. fold F in H.
  unfold in_frame, in_frames, run, bind, ret in H. cbn [mapE length app] in H. unfold bind, ret in H.
  destruct n as [|n]; [discriminate|]. rewrite eval_S in H. fold (refs qs) in H. cbn [step] in H. rewrite A in H.
  unfold bind at 1 in H.
  destruct (refs_eval E n qs vs (set_scopes (F :: s_scopes s) s) B) as [M|M]; rewrite M in H; [discriminate|].
  unfold bind, modify in H |- *. rewrite A. rewrite map_map in H. cbn [plain] in H. rewrite map_id in H.
  destruct (call_user E (eval E n) f vs (add_trace f (set_scopes (F :: s_scopes s) s))) as [r1 s1| |] eqn:X; try discriminate.
  rewrite (frame_root f ps body vs (S n) _ A L). unfold call_user in X |- *. rewrite A in X |- *. unfold in_root in X |- *.
  change (set_scopes [frame_let (zip_dict ps vs) []; []] (add_trace f (set_scopes (F :: s_scopes s) s)))
    with (set_scopes [frame_let (zip_dict ps vs) []; []] (add_trace f s)) in X.
  destruct (run (eval E n) body (set_scopes [frame_let (zip_dict ps vs) []; []] (add_trace f s))) as [r2 s2| |] eqn:Y; try discriminate.
  pose proof (exec_mono E n (S n) body _ r2 s2 (Nat.le_succ_diag_r n) Y) as Y'. unfold exec in Y'. rewrite Y'. injection X as <- <-.
  destruct r2 as [v|e]; cbn in H; injection H as <- <-; reflexivity.
Qed.
End User.

(** ** Calls of higher-order functions *)
Section Call.
Variable E : env.
Variables (g : string) (ps : list string) (h : exn -> exn).
Hypothesis same : forall n vs s r s', length ps = length vs ->
  apply E n (wrapper g ps) vs s = Done r s' -> apply E n (ARef g) vs s = Done (on_exn h r) s'.
Variables (hof : string) (prog : list aval -> libprog).
Hypothesis is_lib : e_lib E hof = Some (Strict prog) /\ assoc hof (e_fcns E) = None /\ hof <> "emit".
Hypothesis blind : opaque prog.
Hypothesis stops : forall xs, gives_up (prog xs).

Theorem call_swapped n l m s r s' : Forall2 (arg_swapped g ps) l m ->
  (forall xs i, length xs = length l -> nth_error l i = Some (wrapper g ps) -> calls_with i (length ps) (prog xs)) ->
  eval E n (ECall hof l) s = Done r s' -> exists r', eval E n (ECall hof m) s = Done r' s' /\ settled h r r'.
Proof using same is_lib blind stops.
  intros F C H. destruct is_lib as [L [N X]]. destruct n as [|n]; [discriminate|]. rewrite eval_S in H |- *. cbn [step] in H |- *.
  rewrite N in H |- *. destruct (String.eqb_spec hof "emit"); [contradiction|]. rewrite L in H |- *.
  unfold bind at 1 in H. unfold bind at 1. pose proof (args_swapped g ps (eval E n) l m F s) as A.
  destruct (mapE (ev_arg (eval E n)) l s) as [[xs|e1] s1| |], (mapE (ev_arg (eval E n)) m s) as [[ys|e2] s2| |]; try contradiction; try discriminate.
  - destruct A as [-> [A [A1 A2]]]. unfold bind, modify in H |- *.
    rewrite <- (blind xs ys).
    + eapply (swap_run E g ps n h); [intros vs s0 r0 s0'; apply same|exact A|apply stops| |exact H]. intros i I. apply C; auto.
    + clear -A. induction A as [|a b xs ys S A IH]; constructor; auto. destruct S as [->|[-> ->]]; [now left|right; eauto].
  - destruct A as [-> ->]. injection H as <- <-. exists (Raise e2). split; [reflexivity|now left].
Qed.
End Call.
