(** More fuel does not change a result: the fuel of [eval] is not observable. *)
From Verif Require Import Base ScopeModel CoreModel EngineModel.
Open Scope Z_scope.

(** [m'] does what [m] does, except perhaps where [m] runs out of fuel. *)
Definition le {A} (m m' : EM A) : Prop := forall s, m s = OutOfFuel \/ m s = m' s.
Lemma le_refl {A} (m : EM A) : le m m.
Proof. intros s. auto. Qed.
Lemma le_bot {A} (m : EM A) : le out_of_fuel m.
Proof. intros s. auto. Qed.
Lemma le_bind {A B} (m m' : EM A) (k k' : A -> EM B) : le m m' -> (forall a, le (k a) (k' a)) -> le (bind m k) (bind m' k').
Proof.
  intros Hm Hk s. unfold bind. destruct (Hm s) as [->| <-]; auto. destruct (m s) as [[a|e] s1| |]; auto. apply Hk.
Qed.
Lemma le_attempt {A} (m m' : EM A) : le m m' -> le (attempt m) (attempt m').
Proof. intros Hm s. unfold attempt. destruct (Hm s) as [->| <-]; auto. Qed.
Lemma le_frames {A} fs (m m' : EM A) : le m m' -> le (in_frames fs m) (in_frames fs m').
Proof. intros Hm s. unfold in_frames. destruct (Hm (set_scopes (fs ++ s_scopes s)%list s)) as [->| <-]; auto. Qed.
Lemma le_frame {A} f (m m' : EM A) : le m m' -> le (in_frame f m) (in_frame f m').
Proof. intros Hm. apply le_bind; [now apply le_frames|]. intros. apply le_refl. Qed.
Lemma le_root {A} fs (m m' : EM A) : le m m' -> le (in_root fs m) (in_root fs m').
Proof. intros Hm s. unfold in_root. destruct (Hm (set_scopes fs s)) as [->| <-]; auto. Qed.
Lemma le_mapE {A B} (f f' : A -> EM B) l : (forall x, le (f x) (f' x)) -> le (mapE f l) (mapE f' l).
Proof.
  intros Hf. induction l as [|x l IH]; cbn; [apply le_refl|].
  apply le_bind; auto. intros y. apply le_bind; auto. intros; apply le_refl.
Qed.
Lemma le_update_path leaf leaf' obj p a m : (forall o, le (leaf o) (leaf' o)) -> le (update_path leaf obj p a m) (update_path leaf' obj p a m).
Proof.
  intros Hl. revert obj. induction p as [|k p IH]; intros obj; cbn [update_path]; auto.
  destruct obj; try apply le_refl.
  - destruct k; try apply le_refl. cbn zeta. destruct (_ || _)%bool; [apply le_refl|].
    destruct (_ <=? _); [apply le_refl|]. apply le_bind; auto. intros; apply le_refl.
  - destruct k; try apply le_refl. destruct (assoc s d); [|apply le_refl]. apply le_bind; auto. intros; apply le_refl.
Qed.
Lemma le_cell_update c u u' : (forall v, le (u v) (u' v)) -> le (cell_update c u) (cell_update c u').
Proof.
  intros Hu. apply le_bind; [apply le_refl|]. intros x. destruct (c_shared x).
  - destruct (c_locked x); [apply le_refl|]. apply le_bind; [apply le_refl|]. intros _. apply le_bind; auto. intros; apply le_refl.
  - apply le_bind; auto. intros; apply le_refl.
Qed.
Lemma le_pool_body p h u u' init : (forall v, le (u v) (u' v)) -> le (pool_update_body p h u init) (pool_update_body p h u' init).
Proof.
  intros Hu. apply le_bind; [apply le_refl|]. intros x. apply le_bind; [apply le_refl|]. intros _.
  apply le_bind; [apply le_refl|]. intros x'. apply le_bind; auto. intros; apply le_refl.
Qed.
Lemma le_pool_update p h u u' init : (forall v, le (u v) (u' v)) -> le (pool_update p h u init) (pool_update p h u' init).
Proof.
  intros Hu. apply le_bind; [apply le_refl|]. intros x. destruct (p_shared x); [|now apply le_pool_body].
  destruct (p_locklock x); [apply le_refl|]. destruct (existsb _ _); [apply le_refl|].
  apply le_bind; [apply le_refl|]. intros _. apply le_bind; [now apply le_pool_body|]. intros; apply le_refl.
Qed.

Section Fuel.
  Variable E : env.
  Section Step.
    Variables (n n' : nat) (ev ev' : expr -> EM val) (app app' : arg -> list val -> EM val).
    Hypothesis Hn : (n <= n')%nat.
    Hypothesis Hev : forall e, le (ev e) (ev' e).
    Hypothesis Happ : forall f vs, le (app f vs) (app' f vs).

    Lemma le_run es : le (run ev es) (run ev' es).
    Proof. apply le_bind; [now apply le_mapE|]. intros; apply le_refl. Qed.
    Lemma le_named bs : le (ev_named ev bs) (ev_named ev' bs).
    Proof. apply le_mapE. intros b. apply le_bind; auto. intros; apply le_refl. Qed.
    Lemma le_arg a : le (ev_arg ev a) (ev_arg ev' a).
    Proof. destruct a; try apply le_refl. apply le_bind; auto. intros; apply le_refl. Qed.
    Lemma le_args l : le (mapE (ev_arg ev) l) (mapE (ev_arg ev') l).
    Proof. apply le_mapE. apply le_arg. Qed.
    Lemma le_evs l : le (mapE ev l) (mapE ev' l).
    Proof. now apply le_mapE. Qed.
    Lemma le_lib lz args p : le (run_lib E ev app lz args p) (run_lib E ev' app' lz args p).
    Proof.
      induction p; cbn [run_lib]; try apply le_refl.
      - destruct (nth_error args i) as [[v|f]|]; try apply le_refl. apply le_bind; [now apply le_attempt|]. auto.
      - destruct (nth_error lz i) as [[e| | |]|]; try apply le_refl. apply le_bind; [now apply le_attempt|]. auto.
      - apply le_bind; [apply le_refl|]. auto.
      - apply le_bind; [apply le_refl|]. auto.
    Qed.
    Lemma le_call_user f args : le (call_user E ev f args) (call_user E ev' f args).
    Proof. unfold call_user. destruct (assoc f _) as [[ps body]|]; [|apply le_refl]. apply le_root. apply le_run. Qed.
    Lemma le_leaf to old : le (update_leaf E app to old) (update_leaf E app' to old).
    Proof. unfold update_leaf. destruct to as [v|a]; [apply le_refl|]. destruct a; auto. destruct (assoc f _); [auto|apply le_refl]. Qed.
    Lemma le_conds its els els' keep : le els els' -> le (conds ev its els keep) (conds ev' its els' keep).
    Proof.
      intros He. induction its as [|[p t] its IH]; cbn; auto.
      apply le_bind; [now apply le_frame|]. intros b. destruct (truthy b); auto.
      apply le_bind; [apply le_frame, le_run|]. intros; apply le_refl.
    Qed.
    Lemma le_while p body m : forall m' pf bf, (m <= m')%nat -> le (while_loop E ev m p body pf bf) (while_loop E ev' m' p body pf bf).
    Proof.
      clear Hn. induction m as [|m IH]; intros m' pf bf Hm; cbn; [apply le_bot|]. destruct m' as [|m']; [lia|]. cbn.
      apply le_bind; [now apply le_frames|]. intros [b fs]. destruct (truthy b); [|apply le_refl].
      apply le_bind; [apply le_refl|]. intros _. apply le_bind; [apply le_frames, le_run|]. intros. apply IH. lia.
    Qed.
    Lemma le_until body p m : forall m' pf bf, (m <= m')%nat -> le (until_loop E ev m body p pf bf) (until_loop E ev' m' body p pf bf).
    Proof.
      clear Hn. induction m as [|m IH]; intros m' pf bf Hm; cbn; [apply le_bot|]. destruct m' as [|m']; [lia|]. cbn.
      apply le_bind; [apply le_refl|]. intros _. apply le_bind; [apply le_frames, le_run|]. intros r.
      apply le_bind; [now apply le_frames|]. intros [b fs]. destruct (truthy b); [apply le_refl|]. apply IH. lia.
    Qed.
    Lemma le_for p upd body m : forall m' pf bf lf, (m <= m')%nat ->
      le (for_loop E ev m p upd body pf bf lf) (for_loop E ev' m' p upd body pf bf lf).
    Proof.
      clear Hn. induction m as [|m IH]; intros m' pf bf lf Hm; cbn; [apply le_bot|]. destruct m' as [|m']; [lia|]. cbn.
      apply le_bind; [now apply le_frames|]. intros [b fs]. destruct (truthy b); [|apply le_refl].
      apply le_bind; [apply le_refl|]. intros _. apply le_bind; [apply le_frames, le_run|]. intros r.
      apply le_bind; [|intros; apply IH; lia]. apply le_frames. apply le_bind; [apply le_named|]. intros; apply le_refl.
    Qed.
    Lemma le_each items body : forall bf lf, le (each_loop E ev items body bf lf) (each_loop E ev' items body bf lf).
    Proof.
      induction items as [|bs items IH]; intros bf lf; cbn; [apply le_refl|].
      apply le_bind; [apply le_refl|]. intros _. apply le_bind; [apply le_frames, le_run|]. auto.
    Qed.
    Lemma le_cast fu pa v cases : le (cast_cases E ev fu pa v cases) (cast_cases E ev' fu pa v cases).
    Proof.
      induction cases as [|[[name ty] body] cases IH]; cbn; [apply le_refl|].
      destruct (cast_value _ _ _) as [w|]; auto. destruct (e_decode E ty w) as [c|[]]; auto; try apply le_refl.
      - apply le_bind; [apply le_frame, le_run|]. intros; apply le_refl.
      - destruct (String.eqb kind "TypeError"); auto. apply le_refl.
    Qed.
    Lemma le_or_else el f f' : (forall es, le (f es) (f' es)) -> le (or_else el f) (or_else el f').
    Proof. intros H. destruct el; cbn; auto. apply le_refl. Qed.

    Ltac go := repeat first
      [ apply le_refl | apply le_run | apply le_named | apply le_arg | apply le_args | apply le_evs | apply le_lib
      | apply le_call_user | apply le_leaf | apply le_while; assumption | apply le_until; assumption | apply le_for; assumption
      | apply le_each | apply le_cast | apply Hev | apply Happ
      | apply le_frame | apply le_frames | apply le_root | apply le_attempt
      | apply le_conds | apply le_or_else; intros ? | apply le_update_path; intros ?
      | apply le_cell_update; intros ? | apply le_pool_update; intros ?
      | apply le_bind; [|intros ?] ].

    Lemma le_step e : le (step E n ev app e) (step E n' ev' app' e).
    Proof.
      destruct e; unfold step.
      all: try solve [go].
      - destruct (assoc f (e_fcns E)); [go|]. destruct (String.eqb f "emit"); [go|]. destruct (e_lib E f) as [[g|p]|]; go.
      - apply le_bind; [auto|]. intros nm. destruct nm; try apply le_refl. cbn zeta. destruct (has_key _ _); go.
      - apply le_bind; [go|]. intros ks. apply le_bind; [go|]. intros t. apply le_bind; [go|]. intros i.
        apply le_bind; [go|]. intros _. destruct ks as [|[] ks]; go.
      - destruct e0; apply le_conds; go.
      - destruct e; apply le_conds; go.
      - apply le_bind; [auto|]. intros v. destruct v; go.
      - apply le_bind; [auto|]. intros w. destruct w; go.
      - destruct wrap; go.
      - apply le_bind; [apply le_mapE; intros b; go|]. intros vs. destruct (forallb _ vs); go.
      - apply le_bind; [auto|]. intros b. destruct (e_unpack E fmt b); go.
    Qed.
    Lemma le_step_app f vs : le (step_app E ev app f vs) (step_app E ev' app' f vs).
    Proof.
      destruct f; unfold step_app; try solve [go].
      - apply le_bind; [apply le_refl|]. intros _. destruct (assoc f (e_fcns E)) as [[ps body]|]; go.
      - cbn zeta. apply le_frame. apply le_bind.
        + generalize (match assoc f (e_fcns E) with Some (ps, _) => ps | None => e_libparams E f end). intros ps.
          generalize 0%nat. induction ps as [|p ps IH]; intros j; [apply le_refl|].
          destruct (assoc p fills).
          * apply le_bind; [apply le_arg|]. intros v. apply le_bind; [apply IH|]. intros; apply le_refl.
          * apply le_bind; [apply le_refl|]. intros v. apply le_bind; [apply IH|]. intros; apply le_refl.
        + intros avs. apply le_bind; [apply le_refl|]. intros _. apply le_frame.
          destruct (assoc f (e_fcns E)) as [[ps body]|]; go.
    Qed.
  End Step.

  Theorem le_eval n : forall n', (n <= n')%nat ->
    (forall e, le (eval E n e) (eval E n' e)) /\ (forall f vs, le (apply E n f vs) (apply E n' f vs)).
  Proof.
    induction n as [|n IH]; intros n' Hn; [split; intros; apply le_bot|].
    destruct n' as [|n']; [lia|]. destruct (IH n') as [IH1 IH2]; [lia|]. split; intros; cbn.
    - apply le_step; auto. lia.
    - apply le_step_app; auto.
  Qed.
  Lemma eval_mono n n' e s r s' : (n <= n')%nat -> eval E n e s = Done r s' -> eval E n' e s = Done r s'.
  Proof. intros Hn H. destruct (proj1 (le_eval n n' Hn) e s) as [X|X]; congruence. Qed.
  Lemma exec_mono n n' es s r s' : (n <= n')%nat -> exec E n es s = Done r s' -> exec E n' es s = Done r s'.
  Proof.
    intros Hn H. destruct (le_run (eval E n) (eval E n') (proj1 (le_eval n n' Hn)) es s) as [X|X]; unfold exec in *; congruence.
  Qed.
  Lemma le_exec n n' es : (n <= n')%nat -> le (exec E n es) (exec E n' es).
  Proof. intros Hn. apply le_run. apply le_eval, Hn. Qed.
End Fuel.

(** What running an expression does: [runs E e s r s'] when evaluation comes back with [r] and leaves [s']. *)
Definition runs (E : env) (e : expr) (s : st) (r : res val) (s' : st) : Prop := exists n, eval E n e s = Done r s'.
Definition runs_all (E : env) (es : list expr) (s : st) (r : res val) (s' : st) : Prop := exists n, exec E n es s = Done r s'.
Lemma runs_det E e s r1 s1 r2 s2 : runs E e s r1 s1 -> runs E e s r2 s2 -> r1 = r2 /\ s1 = s2.
Proof.
  intros [n1 H1] [n2 H2]. apply (eval_mono E n1 (Nat.max n1 n2)) in H1; [|lia].
  apply (eval_mono E n2 (Nat.max n1 n2)) in H2; [|lia]. rewrite H1 in H2. injection H2; auto.
Qed.
Lemma runs_all_det E e s r1 s1 r2 s2 : runs_all E e s r1 s1 -> runs_all E e s r2 s2 -> r1 = r2 /\ s1 = s2.
Proof.
  intros [n1 H1] [n2 H2]. apply (exec_mono E n1 (Nat.max n1 n2)) in H1; [|lia].
  apply (exec_mono E n2 (Nat.max n1 n2)) in H2; [|lia]. rewrite H1 in H2. injection H2; auto.
Qed.

(** The same for the engine's methods. *)
Lemma le_do_call E D n n' c : (n <= n')%nat -> le (do_call E D n c) (do_call E D n' c).
Proof.
  intros Hn. destruct c; cbn.
  - apply le_bind; [|intros; apply le_refl]. intros s. unfold begin. destruct (d_begin D); [auto|].
    apply (le_bind _ _ _ _ (le_root _ _ _ (le_exec E n n' _ Hn)) (fun _ => le_refl _)).
  - intros s. unfold action. destruct (d_check D input); [|auto]. cbn zeta.
    destruct (le_root [action_frame D a (prepare E D s)] _ _ (le_exec E n n' (d_action D) Hn) (prepare E D s)) as [->| <-]; auto.
  - intros s. unfold merge. destruct (d_merge D); [|auto]. cbn zeta.
    match goal with |- context [in_root ?f _ ?s0] => destruct (le_root f _ _ (le_exec E n n' l Hn) s0) as [->| <-]; auto end.
  - apply le_bind; [|intros; apply le_refl]. intros s. unfold end_. destruct (d_end D); [auto|].
    apply (le_bind _ _ _ _ (le_root _ _ _ (le_exec E n n' _ Hn)) (fun _ => le_refl _)).
Qed.
Lemma history_mono E D n n' cs : (n <= n')%nat -> forall s r, history E D n cs s = Some r -> history E D n' cs s = Some r.
Proof.
  intros Hn. induction cs as [|c cs IH]; intros s r H; cbn in *; auto.
  destruct (le_do_call E D n n' c Hn s) as [X|X]; rewrite X in H; [discriminate|].
  destruct (do_call E D n' c s) as [x s1| |]; try discriminate.
  destruct (history E D n cs s1) as [[rs s2]|] eqn:Hh; [|discriminate]. now rewrite (IH _ _ Hh).
Qed.
