(** C08 on the expression language: what a block declares stays in the block, and a user function
    neither sees nor touches the variables of its caller. *)
From Verif Require Import Base ScopeModel CoreModel CoreInv CoreScopes EngineModel CoreDemo CoreFuel.
Open Scope string_scope.
Open Scope list_scope.
Open Scope Z_scope.

(** the same variables exist in every scope *)
Definition same_names (ss ss' : scopes) : Prop := Forall2 (fun f f' => forall x, has_key x f' = has_key x f) ss ss'.
(** variables were declared in the innermost scope only *)
Definition top_only (s s' : st) : Prop := s_scopes s <> [] ->
  exists f r f' r', s_scopes s = f :: r /\ s_scopes s' = f' :: r' /\ sub_frame f f' /\ same_names r r'.
Definition names_kept (s s' : st) : Prop := s_scopes s <> [] -> same_names (s_scopes s) (s_scopes s').

Lemma same_refl ss : same_names ss ss.
Proof. induction ss; constructor; auto. Qed.
Lemma same_trans a b c : same_names a b -> same_names b c -> same_names a c.
Proof.
  intros H. revert c. induction H as [|x y l l' Hx Hl IH]; intros c H'; inversion H' as [|y' z m m' Hy Hm]; subst; constructor.
  - intros k. now rewrite Hy, Hx.
  - now apply IH.
Qed.
Lemma same_scope_set d : forall bs ss, same_names ss (snd (scope_set d bs ss)).
Proof.
  induction d as [|d IH]; intros bs ss; [apply same_refl|].
  destruct ss as [|f rest]; [apply same_refl|]. cbn [scope_set].
  set (go := fix go (todo : list (string * val)) (f : frame) (rest : scopes) : res unit * scopes := _).
  assert (G : forall todo f rest, same_names (f :: rest) (snd (go todo f rest))).
  { induction todo as [|[x v] todo IHt]; intros f0 r0; cbn; [apply same_refl|].
    destruct (has_key x f0) eqn:Hx.
    - eapply same_trans; [|apply IHt]. constructor; [|apply same_refl].
      intros y. rewrite has_key_dict_set. destruct (String.eqb_spec x y) as [->|N]; cbn; congruence.
    - specialize (IH bs r0). destruct (scope_set d bs r0) as [[u|e] r1]; cbn in *.
      + eapply same_trans; [|apply IHt]. constructor; auto.
      + constructor; auto. }
  apply G.
Qed.
Lemma same_app a b c : same_names (a ++ b) c -> same_names b (skipn (length a) c).
Proof.
  revert c. induction a as [|x a IH]; intros c H; cbn in *; auto.
  inversion H as [|? y ? m Hx Hm]; subst. cbn. now apply IH.
Qed.
Lemma same_top s s' : names_kept s s' -> top_only s s'.
Proof.
  intros H N. specialize (H N). destruct (s_scopes s) as [|f r] eqn:E; [congruence|].
  inversion H as [|? f' ? r' Hf Hr]; subst. exists f, r, f', r'. split; [auto|]. split; [auto|]. split; auto.
  intros x Hx. now rewrite Hf.
Qed.
Lemma top_trans s1 s2 s3 : top_only s1 s2 -> top_only s2 s3 -> top_only s1 s3.
Proof.
  intros H1 H2 N. destruct (H1 N) as (f & r & f' & r' & E1 & E2 & S1 & M1).
  destruct H2 as (g & q & g' & q' & E3 & E4 & S2 & M2); [rewrite E2; discriminate|].
  rewrite E2 in E3. injection E3 as <- <-. exists f, r, g', q'. split; [auto|]. split; [auto|]. split.
  - intros x Hx. auto.
  - eapply same_trans; eauto.
Qed.
Lemma frames_names s fs s1 : fs <> [] -> top_only (set_scopes (fs ++ s_scopes s) s) s1 ->
  same_names (s_scopes s) (skipn (length fs) (s_scopes s1)).
Proof.
  intros Nf H. destruct fs as [|f0 fs]; [congruence|].
  destruct H as (f & r & f' & r' & E1 & E2 & S1 & M1); [discriminate|]. cbn in E1. injection E1 as <- <-.
  rewrite E2. cbn [length skipn]. now apply same_app.
Qed.
Lemma top_closed : closed top_only.
Proof.
  assert (K : forall s s', s_scopes s' = s_scopes s -> top_only s s').
  { intros s s' E. apply same_top. intros _. rewrite E. apply same_refl. }
  split; try (intros; now apply K).
  - intros s1 s2 s3. apply top_trans.
  - intros s fs s1 H. destruct fs as [|f0 fs].
    + cbn in *. intros N. cbn. apply (H N).
    + apply same_top. intros _. cbn [s_scopes set_scopes]. apply (frames_names s (f0 :: fs)); [discriminate|auto].
  - intros s bs N. destruct (s_scopes s) as [|f r] eqn:E; [congruence|]. exists f, r. cbn.
    eexists _, _. split; [reflexivity|]. split; [reflexivity|]. split; [apply sub_frame_let|apply same_refl].
  - intros s bs. apply same_top. intros _. cbn. apply same_scope_set.
Qed.

(** composing steps that keep the names *)
Definition keeps {A} (m : EM A) : Prop := forall s r s', m s = Done r s' -> names_kept s s'.
Lemma kept_trans s1 s2 s3 : names_kept s1 s2 -> names_kept s2 s3 -> names_kept s1 s3.
Proof.
  intros H1 H2 N. specialize (H1 N). eapply same_trans; eauto. apply H2. intros E. rewrite E in H1. destruct (s_scopes s1); [congruence|inversion H1].
Qed.
Lemma keeps_here {A} (m : EM A) : (forall s r s', m s = Done r s' -> s_scopes s' = s_scopes s) -> keeps m.
Proof. intros H s r s' Hm _. rewrite (H _ _ _ Hm). apply same_refl. Qed.
Lemma keeps_ret {A} (a : A) : keeps (ret a).
Proof. apply keeps_here. now intros s r s' [= <- <-]. Qed.
Lemma keeps_raise {A} e : keeps (@raise A e).
Proof. apply keeps_here. now intros s r s' [= <- <-]. Qed.
Lemma keeps_bind {A B} (m : EM A) (k : A -> EM B) : keeps m -> (forall a, keeps (k a)) -> keeps (bind m k).
Proof.
  intros Hm Hk s r s' H. unfold bind in H. destruct (m s) as [[a|e] s1| |] eqn:E; try discriminate.
  - eapply kept_trans; [eapply Hm; eauto|eapply Hk; eauto].
  - injection H as _ <-. eapply Hm; eauto.
Qed.
Lemma keeps_frames {A} fs (m : EM A) : fs <> [] -> pres top_only m -> keeps (in_frames fs m).
Proof.
  intros Nf Hm s r s' H. unfold in_frames in H. destruct (m _) as [x s1| |] eqn:E; try discriminate.
  injection H as _ <-. intros _. cbn [s_scopes set_scopes]. apply frames_names; auto. eapply Hm; eauto.
Qed.
Lemma keeps_frame {A} f (m : EM A) : pres top_only m -> keeps (in_frame f m).
Proof. intros Hm. apply keeps_bind; [apply keeps_frames; auto; discriminate|]. intros a. apply keeps_ret. Qed.
Lemma keeps_time E : keeps (check_time E).
Proof.
  apply keeps_here. intros s r s' H. unfold check_time in H. destruct (s_timeout s); [|injection H as _ <-; auto].
  repeat match type of H with (match ?x with _ => _ end) = _ => destruct x | (if ?x then _ else _) = _ => destruct x end;
  unfold bind, modify, raise, ret in H; cbn in H; try (injection H as _ <-; reflexivity).
Qed.
Lemma keeps_fuel {A} : keeps (@out_of_fuel A).
Proof. intros s r s' H. discriminate. Qed.

Section Keeps.
  Variable E : env.
  Variable n : nat.
  Let ev := eval E n.
  Let evp : forall e, pres top_only (ev e) := proj1 (pres_eval _ top_closed E n).
  Let runp : forall es, pres top_only (run ev es) := fun es => pres_run _ top_closed ev evp es.
  Lemma keeps_conds its els keep : keeps els -> keeps (conds ev its els keep).
  Proof.
    intros He. induction its as [|[p t] its IH]; cbn; auto.
    apply keeps_bind; [now apply keeps_frame|]. intros b. destruct (truthy b); auto.
    apply keeps_bind; [now apply keeps_frame|]. intros v. apply keeps_ret.
  Qed.
  Lemma keeps_while m p body : forall pf bf, keeps (while_loop E ev m p body pf bf).
  Proof.
    induction m as [|m IH]; intros pf bf; cbn; [apply keeps_fuel|].
    apply keeps_bind; [apply keeps_frames; auto; discriminate|]. intros [b fs]. destruct (truthy b); [|apply keeps_ret].
    apply keeps_bind; [apply keeps_time|]. intros _.
    apply keeps_bind; [apply keeps_frames; auto; discriminate|]. intros r. apply IH.
  Qed.
  Lemma keeps_until m body p : forall pf bf, keeps (until_loop E ev m body p pf bf).
  Proof.
    induction m as [|m IH]; intros pf bf; cbn; [apply keeps_fuel|].
    apply keeps_bind; [apply keeps_time|]. intros _.
    apply keeps_bind; [apply keeps_frames; auto; discriminate|]. intros r.
    apply keeps_bind; [apply keeps_frames; auto; discriminate|]. intros [b fs]. destruct (truthy b); [apply keeps_ret|]. apply IH.
  Qed.
  Lemma pres_assign bs : pres top_only (vs <== ev_named ev bs ;; set_vars_m vs).
  Proof. apply (pres_bind _ top_closed); [now apply (pres_named _ top_closed)|]. intros vs. apply (pres_set _ top_closed). Qed.
  Lemma pres_declare bs : pres top_only (vs <== ev_named ev bs ;; let_vars vs).
  Proof. apply (pres_bind _ top_closed); [now apply (pres_named _ top_closed)|]. intros vs. apply (pres_let _ top_closed). Qed.
  Lemma keeps_for m p step body : forall pf bf lf, keeps (for_loop E ev m p step body pf bf lf).
  Proof.
    induction m as [|m IH]; intros pf bf lf; cbn; [apply keeps_fuel|].
    apply keeps_bind; [apply keeps_frames; auto; discriminate|]. intros [b fs]. destruct (truthy b); [|apply keeps_ret].
    apply keeps_bind; [apply keeps_time|]. intros _.
    apply keeps_bind; [apply keeps_frames; auto; discriminate|]. intros r.
    apply keeps_bind; [apply keeps_frames; [discriminate|apply pres_assign]|]. intros r'. apply IH.
  Qed.
  Lemma keeps_each items body : forall bf lf, keeps (each_loop E ev items body bf lf).
  Proof.
    induction items as [|bs items IH]; intros bf lf; cbn; [apply keeps_ret|].
    apply keeps_bind; [apply keeps_time|]. intros _.
    apply keeps_bind; [apply keeps_frames; auto; discriminate|]. intros r. apply IH.
  Qed.
  Lemma keeps_cast fu pa v cases : keeps (cast_cases E ev fu pa v cases).
  Proof.
    induction cases as [|[[name ty] body] cases IH]; cbn; [apply keeps_ret|].
    repeat match goal with
           | |- keeps (match ?x with _ => _ end) => destruct x
           | |- keeps (raise _) => apply keeps_raise
           | |- keeps (ret _) => apply keeps_ret
           | |- keeps (bind _ _) => apply keeps_bind; [|intros ?]
           | |- keeps (in_frame _ _) => now apply keeps_frame
           | _ => assumption
           end.
  Qed.
End Keeps.

(** * Specification *)
(** an operand that is just read *)
Definition operand (e : expr) : Prop := match e with ERef _ | ELit _ _ => True | _ => False end.
(** the expressions whose parts run in scopes of their own; an "else" of ifnotnull and unpack runs in the
    scope around (genpy.py:1100, 1262), so these two count only without it *)
Definition block (e : expr) : Prop :=
  match e with
  | EIf _ _ _ | ECond _ _ | EWhile _ _ | EDoUntil _ _ | EFor _ _ _ _ => True
  | EForeach _ o _ _ | EForkeyval _ _ o _ | ECast o _ _ _ | EUnpack o _ _ None => operand o
  | EIfNotNull bs _ None => Forall (fun b => operand (snd b)) bs
  | _ => False
  end.

Lemma keeps_operand E n o : operand o -> keeps (eval E n o).
Proof.
  intros H. apply keeps_here. intros s r s' Hm. destruct n; [discriminate|]. cbn [eval] in Hm.
  destruct o; try contradiction; cbn in Hm; now injection Hm as _ <-.
Qed.
(** Whatever happens in a block, the scopes around it hold the same variables afterwards (their values may
    have been changed by "set"); nothing declared inside is visible outside. Also when the block fails. *)
Theorem C08_block_names : forall E n e s r s', block e -> s_scopes s <> [] ->
  eval E n e s = Done r s' -> same_names (s_scopes s) (s_scopes s').
Proof.
  intros E n e s r s' B N H. revert N. change (names_kept s s'). revert s r s' H. change (keeps (eval E n e)).
  destruct n as [|n]; [apply keeps_fuel|].
  assert (evp : forall e, pres top_only (eval E n e)) by apply (proj1 (pres_eval _ top_closed E n)).
  assert (runp : forall es, pres top_only (run (eval E n) es)) by (intros; now apply (pres_run _ top_closed)).
  destruct e; try contradiction; cbn [eval step]; cbn [block] in B.
  - match goal with |- context [match ?o with Some _ => _ | None => _ end] => destruct o end; apply keeps_conds; [apply keeps_frame; auto|apply keeps_ret].
  - match goal with |- context [match ?o with Some _ => _ | None => _ end] => destruct o end; apply keeps_conds; [apply keeps_frame; auto|apply keeps_ret].
  - apply keeps_while.
  - apply keeps_until.
  - apply keeps_bind; [apply keeps_frames; [discriminate|apply pres_declare]|]. intros x. apply keeps_for.
  - apply keeps_bind; [now apply keeps_operand|]. intros w. destruct w; try apply keeps_raise. apply keeps_each.
  - apply keeps_bind; [now apply keeps_operand|]. intros w. destruct w; try apply keeps_raise. apply keeps_each.
  - apply keeps_bind; [now apply keeps_operand|]. intros w. apply keeps_cast.
  - match type of B with match ?o with _ => _ end => destruct o; [contradiction|] end. apply keeps_bind.
    + induction B as [|b bs Hb B IH]; cbn [mapE]; [apply keeps_ret|].
      apply keeps_bind; [|intros x; apply keeps_bind; [apply IH|intros y; apply keeps_ret]].
      apply keeps_bind; [now apply keeps_operand|intros ?v; apply keeps_ret].
    + intros vs. destruct (forallb _ vs); [|apply keeps_ret].
      apply keeps_bind; [now apply keeps_frame|intros ?v; apply keeps_ret].
  - match type of B with match ?o with _ => _ end => destruct o; [contradiction|] end. apply keeps_bind; [now apply keeps_operand|]. intros w.
    match goal with |- keeps (match ?x with _ => _ end) => destruct x end; [|apply keeps_ret]. apply keeps_bind; [now apply keeps_frame|intros x; apply keeps_ret].
Qed.
(** Any expression at all declares variables in the innermost scope only. *)
Theorem C08_declares_here : forall E n e s r s', s_scopes s <> [] -> eval E n e s = Done r s' ->
  exists f rest f' rest', s_scopes s = f :: rest /\ s_scopes s' = f' :: rest' /\
    (forall x, has_key x f = true -> has_key x f' = true) /\ same_names rest rest'.
Proof. intros E n e s r s' N H. exact (proj1 (pres_eval _ top_closed E n) e s r s' H N). Qed.
(** Inline functions and references to user functions called by the library: parameters and local variables are gone afterwards. *)
Theorem C08_function_names : forall E n f vs s r s', s_scopes s <> [] ->
  match f with AFcn _ _ => True | ARef g => assoc g (e_fcns E) <> None | _ => False end ->
  apply E n f vs s = Done r s' -> same_names (s_scopes s) (s_scopes s').
Proof.
  intros E n f vs s r s' N F H. revert N. change (names_kept s s'). revert s r s' H. change (keeps (apply E n f vs)).
  destruct n as [|n]; [apply keeps_fuel|].
  assert (runp : forall es, pres top_only (run (eval E n) es)).
  { intros; apply (pres_run _ top_closed). apply (pres_eval _ top_closed E n). }
  destruct f; try contradiction; cbn [apply step_app].
  - now apply keeps_frame.
  - apply keeps_bind; [apply keeps_here; intros s r s' [= _ <-]; reflexivity|]. intros _.
    destruct (assoc _ _) as [[ps body]|]; [|congruence]. now apply keeps_frame.
Qed.
(** A call of a user function with given argument values gives the same result and the same effects whatever
    variables its caller has, and leaves these exactly as they were. *)
Theorem C08_call_closed : forall E n f args s r s', assoc f (e_fcns E) <> None ->
  Forall (fun a => match a with AExpr (ELit _ _) => True | _ => False end) args ->
  eval E n (ECall f args) s = Done r s' ->
  s_scopes s' = s_scopes s /\
  forall ss, eval E n (ECall f args) (set_scopes ss s) = Done r (set_scopes ss s').
Proof.
  intros E n f args s r s' F L H. destruct n as [|n]; [discriminate|]. cbn [eval step] in *.
  destruct (assoc f (e_fcns E)) as [[ps body]|] eqn:Ef; [|congruence].
  assert (M : (exists avs, forall s0, mapE (ev_arg (eval E n)) args s0 = Done (Ok avs) s0) \/
              (forall s0, mapE (ev_arg (eval E n)) args s0 = OutOfFuel)).
  { clear H. induction L as [|a l Ha L IH]; cbn [mapE]; [left; exists []; reflexivity|].
    destruct a as [a| | |]; try contradiction. destruct a; try contradiction. unfold bind at 1 4. cbn [ev_arg].
    destruct n; [right; reflexivity|]. cbn [eval step]. destruct IH as [[avs IH]|IH].
    - left. eexists. intros s0. unfold bind, ret. rewrite IH. reflexivity.
    - right. intros s0. unfold bind, ret. now rewrite IH. }
  destruct M as [[avs M]|M]; [|unfold bind in H; rewrite M in H; discriminate].
  unfold bind at 1 in H. rewrite M in H. unfold bind, modify, call_user, in_root in H. rewrite Ef in H.
  destruct (run (eval E n) body _) as [x s1| |] eqn:R; try discriminate. injection H as <- <-.
  split; [reflexivity|]. intros ss. unfold bind at 1. rewrite M. unfold bind, modify, call_user, in_root. rewrite Ef.
  change (set_scopes _ (add_trace f (set_scopes ss s))) with (set_scopes [frame_let (zip_dict ps (map plain avs)) []; []] (add_trace f s)).
  rewrite R. reflexivity.
Qed.
(** ... and what its arguments may declare aside, the same holds with any arguments: once they are evaluated,
    the body starts from a scope holding the parameters only. *)
Theorem C08_call_body : forall E ev f args s1 s2 ss, s2 = set_scopes ss s1 ->
  call_user E ev f args s2 = match call_user E ev f args s1 with
                             | Done r s1' => Done r (set_scopes ss s1')
                             | Blocked => Blocked
                             | OutOfFuel => OutOfFuel
                             end.
Proof.
  intros E ev f args s1 s2 ss ->. unfold call_user. destruct (assoc f (e_fcns E)) as [[ps body]|]; [|reflexivity].
  unfold in_root. change (set_scopes ?x (set_scopes ss s1)) with (set_scopes x s1).
  destruct (run ev body _); reflexivity.
Qed.

(** [x] is set from within the branch, [y] is declared there and gone afterwards; the function u.f has a
    variable x of its own. *)
Definition scope_doc : list expr :=
  [ELet [("x", int 1)];
   EIf (ELit "(boolean)" (VBool true)) [ELet [("y", int 2)]; ESet [("x", add (ERef "y") (int 40))]] None;
   ECall "u.f" [AExpr (int 5)]].
Definition scope_env : env := demo_env [("u.f", (["p"], [ELet [("x", add (ERef "p") (int 1))]; ESet [("x", add (ERef "x") (int 1))]; ERef "x"]))] (fun _ => 0).
Definition scope_st : st := set_scopes [[]] (load (demo_doc MMap [])).
Example C08_language_example : exists s', exec scope_env 20 scope_doc scope_st = Done (Ok (VInt 7)) s' /\
  scope_get "x" (s_scopes s') = Ok (VInt 42) /\ has_key "y" (nth 0 (s_scopes s') []) = false.
Proof. eexists. split; [vm_compute; reflexivity|]. split; reflexivity. Qed.

Print Assumptions C08_block_names.
Print Assumptions C08_declares_here.
Print Assumptions C08_function_names.
Print Assumptions C08_call_closed.
Print Assumptions C08_call_body.
