(** A relation between states that every primitive effect respects is respected by every evaluation. *)
From Verif Require Import Base ScopeModel CoreModel.

Record closed (R : st -> st -> Prop) : Prop := {
  cl_refl : forall s, R s s;
  cl_trans : forall s1 s2 s3, R s1 s2 -> R s2 s3 -> R s1 s3;
  cl_frames : forall s fs s1, R (set_scopes (fs ++ s_scopes s) s) s1 -> R s (set_scopes (skipn (length fs) (s_scopes s1)) s1);
  cl_root : forall s fs s1, R (set_scopes fs s) s1 -> R s (set_scopes (s_scopes s) s1);
  cl_let : forall s bs, R s (set_scopes (scope_let bs (s_scopes s)) s);
  cl_set : forall s bs, R s (set_scopes (snd (set_vars bs (s_scopes s))) s);
  cl_cell_put : forall s c x v, assoc c (s_cells s) = Some x -> R s (set_cells (dict_set c (cell_put v x) (s_cells s)) s);
  cl_cell_lock : forall s c x b, assoc c (s_cells s) = Some x -> R s (set_cells (dict_set c (cell_lock b x) (s_cells s)) s);
  cl_pool_put : forall s p x d, assoc p (s_pools s) = Some x -> R s (set_pools (dict_set p (pool_put d x) (s_pools s)) s);
  cl_pool_locks : forall s p x l, assoc p (s_pools s) = Some x -> R s (set_pools (dict_set p (pool_locks l x) (s_pools s)) s);
  cl_log : forall s l, R s (add_log l s);
  cl_emit : forall s v, R s (add_emitted v s);
  cl_tick : forall s, R s (set_tick (S (s_tick s)) s);
  cl_rand : forall s n, R s (set_rand n s);
  cl_trace : forall s f, R s (add_trace f s) }.

(** a relation indifferent to the scopes *)
Lemma closed_any_scopes (R : st -> st -> Prop) :
  (forall s1 s2 s3, R s1 s2 -> R s2 s3 -> R s1 s3) -> (forall s x, R s (set_scopes x s)) ->
  (forall s fs s1, R (set_scopes (fs ++ s_scopes s) s) s1 -> R s (set_scopes (skipn (length fs) (s_scopes s1)) s1)) /\
  (forall s fs s1, R (set_scopes fs s) s1 -> R s (set_scopes (s_scopes s) s1)) /\
  (forall s bs, R s (set_scopes (scope_let bs (s_scopes s)) s)) /\
  (forall s bs, R s (set_scopes (snd (set_vars bs (s_scopes s))) s)).
Proof. intros T S. repeat split; eauto. Qed.

Section Inv.
  Variable R : st -> st -> Prop.
  Hypothesis C : closed R.
  Definition pres {A} (m : EM A) : Prop := forall s r s', m s = Done r s' -> R s s'.

  Lemma pres_ret {A} (a : A) : pres (ret a).
  Proof. intros s r s' [= _ <-]. apply (cl_refl _ C). Qed.
  Lemma pres_raise {A} e : pres (@raise A e).
  Proof. intros s r s' [= _ <-]. apply (cl_refl _ C). Qed.
  Lemma pres_lift {A} (x : res A) : pres (lift x).
  Proof. intros s r s' [= _ <-]. apply (cl_refl _ C). Qed.
  Lemma pres_pure {A} (f : st -> res A) : pres (fun s => Done (f s) s).
  Proof. intros s r s' [= _ <-]. apply (cl_refl _ C). Qed.
  Lemma pres_fuel {A} : pres (@out_of_fuel A).
  Proof. intros s r s' H. discriminate. Qed.
  Lemma pres_blocked {A} : pres (@blocked A).
  Proof. intros s r s' H. discriminate. Qed.
  Lemma pres_bind {A B} (m : EM A) (k : A -> EM B) : pres m -> (forall a, pres (k a)) -> pres (bind m k).
  Proof.
    intros Hm Hk s r s' H. unfold bind in H. destruct (m s) as [[a|e] s1| |] eqn:E; try discriminate.
    - apply (cl_trans _ C _ s1); [eapply Hm; eauto|eapply Hk; eauto].
    - injection H as _ <-. eapply Hm; eauto.
  Qed.
  Lemma pres_attempt {A} (m : EM A) : pres m -> pres (attempt m).
  Proof. intros Hm s r s' H. unfold attempt in H. destruct (m s) eqn:E; try discriminate. injection H as _ <-. eapply Hm; eauto. Qed.
  Lemma pres_frames {A} fs (m : EM A) : pres m -> pres (in_frames fs m).
  Proof.
    intros Hm s r s' H. unfold in_frames in H. destruct (m _) as [x s1| |] eqn:E; try discriminate.
    injection H as _ <-. apply (cl_frames _ C). eapply Hm; eauto.
  Qed.
  Lemma pres_frame {A} f (m : EM A) : pres m -> pres (in_frame f m).
  Proof. intros Hm. apply pres_bind; [now apply pres_frames|]. intros a. apply pres_ret. Qed.
  Lemma pres_root {A} fs (m : EM A) : pres m -> pres (in_root fs m).
  Proof.
    intros Hm s r s' H. unfold in_root in H. destruct (m _) as [x s1| |] eqn:E; try discriminate.
    injection H as _ <-. apply (cl_root _ C _ fs). eapply Hm; eauto.
  Qed.
  Lemma pres_modify f : (forall s, R s (f s)) -> pres (modify f).
  Proof. intros Hf s r s' [= _ <-]. apply Hf. Qed.
  Lemma pres_mapE {A B} (f : A -> EM B) l : (forall x, pres (f x)) -> pres (mapE f l).
  Proof.
    intros Hf. induction l as [|x l IH]; cbn; [apply pres_ret|].
    apply pres_bind; auto. intros y. apply pres_bind; auto. intros ys. apply pres_ret.
  Qed.
  Lemma pres_let bs : pres (let_vars bs).
  Proof. apply pres_modify. intros s. apply (cl_let _ C). Qed.
  Lemma pres_set bs : pres (set_vars_m bs).
  Proof. intros s r s' H. unfold set_vars_m in H. pose proof (cl_set _ C s bs) as X. destruct (set_vars bs (s_scopes s)). injection H as _ <-. exact X. Qed.
  Lemma pres_trace f : pres (modify (add_trace f)).
  Proof. apply pres_modify. intros s. apply (cl_trace _ C). Qed.
  Lemma pres_emit v : pres (modify (add_emitted v)).
  Proof. apply pres_modify. intros s. apply (cl_emit _ C). Qed.
  Lemma pres_log v : pres (modify (add_log v)).
  Proof. apply pres_modify. intros s. apply (cl_log _ C). Qed.
  Lemma pres_time E : pres (check_time E).
  Proof.
    intros s r s' H. unfold check_time in H. destruct (s_timeout s) as [t|].
    - destruct (t <=? 0). { injection H as _ <-. apply (cl_refl _ C). }
      destruct (t <? _); injection H as _ <-; apply (cl_tick _ C).
    - injection H as _ <-. apply (cl_refl _ C).
  Qed.
  Lemma pres_draw E : pres (draw E).
  Proof. intros s r s' [= _ <-]. apply (cl_rand _ C). Qed.
  Lemma pres_get_cell c : pres (get_cell c).
  Proof. intros s r s' H. unfold get_cell in H. destruct (assoc c _); injection H as _ <-; apply (cl_refl _ C). Qed.
  Lemma pres_get_pool p : pres (get_pool p).
  Proof. intros s r s' H. unfold get_pool in H. destruct (assoc p _); injection H as _ <-; apply (cl_refl _ C). Qed.
  Lemma pres_cell_put c v : pres (upd_cell c (cell_put v)).
  Proof.
    intros s r s' H. unfold upd_cell in H. destruct (assoc c _) eqn:E; injection H as _ <-.
    - now apply (cl_cell_put _ C).
    - apply (cl_refl _ C).
  Qed.
  Lemma pres_cell_lock c b : pres (upd_cell c (cell_lock b)).
  Proof.
    intros s r s' H. unfold upd_cell in H. destruct (assoc c _) eqn:E; injection H as _ <-.
    - now apply (cl_cell_lock _ C).
    - apply (cl_refl _ C).
  Qed.
  Lemma pres_pool_put p f : pres (upd_pool p (fun x => pool_put (f x) x)).
  Proof.
    intros s r s' H. unfold upd_pool in H. destruct (assoc p _) eqn:E; injection H as _ <-.
    - now apply (cl_pool_put _ C).
    - apply (cl_refl _ C).
  Qed.
  Lemma pres_pool_locks p f : pres (upd_pool p (fun x => pool_locks (f x) x)).
  Proof.
    intros s r s' H. unfold upd_pool in H. destruct (assoc p _) eqn:E; injection H as _ <-.
    - now apply (cl_pool_locks _ C).
    - apply (cl_refl _ C).
  Qed.
  Lemma pres_update_path leaf obj p a m : (forall o, pres (leaf o)) -> pres (update_path leaf obj p a m).
  Proof.
    intros Hl. revert obj. induction p as [|k p IH]; intros obj; cbn [update_path]; auto.
    destruct obj; try apply pres_raise.
    - destruct k; try apply pres_raise.
      cbn zeta. destruct (_ || _)%bool; [apply pres_raise|]. destruct (_ <=? _); [apply pres_ret|].
      apply pres_bind; auto. intros v. apply pres_ret.
    - destruct k; try (destruct p; [apply pres_ret|apply pres_raise]).
      destruct (assoc s d).
      + apply pres_bind; auto. intros w. apply pres_ret.
      + destruct p; [apply pres_ret|apply pres_raise].
  Qed.
  Lemma pres_cell_update c upd : (forall v, pres (upd v)) -> pres (cell_update c upd).
  Proof.
    intros Hu. apply pres_bind; [apply pres_get_cell|]. intros x. destruct (c_shared x).
    - destruct (c_locked x); [apply pres_blocked|].
      apply pres_bind; [apply pres_cell_lock|]. intros _. apply pres_bind; auto. intros v.
      apply pres_bind; [apply pres_cell_put|]. intros _. apply pres_bind; [apply pres_cell_lock|]. intros _. apply pres_ret.
    - apply pres_bind; auto. intros v. apply pres_bind; [apply pres_cell_put|]. intros _. apply pres_ret.
  Qed.
  Lemma pres_pool_body p h upd init : (forall v, pres (upd v)) -> pres (pool_update_body p h upd init).
  Proof.
    intros Hu. apply pres_bind; [apply pres_get_pool|]. intros x. apply pres_bind.
    { destruct (has_key h (p_value x)); [apply pres_ret|]. apply (pres_pool_put p (fun x => dict_set h init (p_value x))). }
    intros _. apply pres_bind; [apply pres_get_pool|]. intros x'. apply pres_bind; auto. intros v.
    apply pres_bind; [apply (pres_pool_put p (fun x => dict_set h v (p_value x)))|]. intros _. apply pres_ret.
  Qed.
  Lemma pres_pool_update p h upd init : (forall v, pres (upd v)) -> pres (pool_update p h upd init).
  Proof.
    intros Hu. apply pres_bind; [apply pres_get_pool|]. intros x. destruct (p_shared x); [|now apply pres_pool_body].
    destruct (p_locklock x); [apply pres_blocked|]. destruct (existsb _ _); [apply pres_blocked|].
    apply pres_bind; [apply (pres_pool_locks p (fun _ => h :: p_locks x))|]. intros _.
    apply pres_bind; [now apply pres_pool_body|]. intros v.
    apply pres_bind; [apply (pres_pool_locks p (fun x => remove_lock h (p_locks x)))|]. intros _. apply pres_ret.
  Qed.

  Variable E : env.
  Section Step.
    Variable n : nat.
    Variable ev : expr -> EM val.
    Variable app : arg -> list val -> EM val.
    Hypothesis Hev : forall e, pres (ev e).
    Hypothesis Happ : forall f vs, pres (app f vs).

    Lemma pres_run es : pres (run ev es).
    Proof. apply pres_bind; [now apply pres_mapE|]. intros vs. apply pres_ret. Qed.
    Lemma pres_named bs : pres (ev_named ev bs).
    Proof. apply pres_mapE. intros b. apply pres_bind; auto. intros v. apply pres_ret. Qed.
    Lemma pres_arg a : pres (ev_arg ev a).
    Proof. destruct a; try apply pres_ret. apply pres_bind; auto. intros v. apply pres_ret. Qed.
    Lemma pres_args l : pres (mapE (ev_arg ev) l).
    Proof. apply pres_mapE. apply pres_arg. Qed.
    Lemma pres_evs l : pres (mapE ev l).
    Proof. now apply pres_mapE. Qed.
    Lemma pres_lib lz args p : pres (run_lib E ev app lz args p).
    Proof.
      induction p; cbn [run_lib]; try apply pres_ret; try apply pres_raise.
      - destruct (nth_error args i) as [[v|f]|]; try apply pres_raise.
        apply pres_bind; [now apply pres_attempt|]. auto.
      - destruct (nth_error lz i) as [[e| | |]|]; try apply pres_raise.
        apply pres_bind; [now apply pres_attempt|]. auto.
      - apply pres_bind; [apply pres_time|]. auto.
      - apply pres_bind; [apply pres_draw|]. auto.
    Qed.
    Lemma pres_call_user f args : pres (call_user E ev f args).
    Proof. unfold call_user. destruct (assoc f _) as [[ps body]|]; [|apply pres_raise]. apply pres_root. apply pres_run. Qed.
    Lemma pres_leaf to old : pres (update_leaf E app to old).
    Proof.
      unfold update_leaf. destruct to as [v|a]; [apply pres_ret|]. destruct a; auto.
      destruct (assoc f _); [auto|apply pres_raise].
    Qed.
    Lemma pres_conds its els keep : pres els -> pres (conds ev its els keep).
    Proof.
      intros He. induction its as [|[p t] its IH]; cbn; auto.
      apply pres_bind; [now apply pres_frame|]. intros b. destruct (truthy b); auto.
      apply pres_bind; [apply pres_frame, pres_run|]. intros v. apply pres_ret.
    Qed.
    Lemma pres_while m p body : forall pf bf, pres (while_loop E ev m p body pf bf).
    Proof.
      induction m as [|m IH]; intros pf bf; cbn; [apply pres_fuel|].
      apply pres_bind; [now apply pres_frames|]. intros [b fs]. destruct (truthy b); [|apply pres_ret].
      apply pres_bind; [apply pres_time|]. intros _. apply pres_bind; [apply pres_frames, pres_run|]. auto.
    Qed.
    Lemma pres_until m body p : forall pf bf, pres (until_loop E ev m body p pf bf).
    Proof.
      induction m as [|m IH]; intros pf bf; cbn; [apply pres_fuel|].
      apply pres_bind; [apply pres_time|]. intros _. apply pres_bind; [apply pres_frames, pres_run|]. intros r.
      apply pres_bind; [now apply pres_frames|]. intros [b fs]. destruct (truthy b); [apply pres_ret|auto].
    Qed.
    Lemma pres_for m p step body : forall pf bf lf, pres (for_loop E ev m p step body pf bf lf).
    Proof.
      induction m as [|m IH]; intros pf bf lf; cbn; [apply pres_fuel|].
      apply pres_bind; [now apply pres_frames|]. intros [b fs]. destruct (truthy b); [|apply pres_ret].
      apply pres_bind; [apply pres_time|]. intros _. apply pres_bind; [apply pres_frames, pres_run|]. intros r.
      apply pres_bind; [|auto]. apply pres_frames. apply pres_bind; [apply pres_named|]. intros vs. apply pres_set.
    Qed.
    Lemma pres_each items body : forall bf lf, pres (each_loop E ev items body bf lf).
    Proof.
      induction items as [|bs items IH]; intros bf lf; cbn; [apply pres_ret|].
      apply pres_bind; [apply pres_time|]. intros _. apply pres_bind; [apply pres_frames, pres_run|]. auto.
    Qed.
    Lemma pres_cast fu pa v cases : pres (cast_cases E ev fu pa v cases).
    Proof.
      induction cases as [|[[name ty] body] cases IH]; cbn; [apply pres_ret|].
      destruct (cast_value _ _ _) as [w|]; auto. destruct (e_decode E ty w) as [c|[]]; auto; try apply pres_raise.
      - apply pres_bind; [apply pres_frame, pres_run|]. intros o. apply pres_ret.
      - destruct (String.eqb kind "TypeError"); auto. apply pres_raise.
    Qed.
    Lemma pres_or_else el f : (forall es, pres (f es)) -> pres (or_else el f).
    Proof. intros H. destruct el; cbn; auto. apply pres_ret. Qed.
    Lemma pres_handle flt e : pres (handle E flt e).
    Proof. unfold handle. destruct flt; [|apply pres_ret]. destruct (in_filter _ _ _) as [[]|]; try apply pres_raise. apply pres_ret. Qed.

    Ltac go := repeat first
      [ apply pres_ret | apply pres_raise | apply pres_lift | apply pres_pure | apply pres_let | apply pres_set
      | apply pres_trace | apply pres_emit | apply pres_log | apply pres_get_cell | apply pres_get_pool
      | apply pres_run | apply pres_named | apply pres_arg | apply pres_args | apply pres_evs | apply pres_lib
      | apply pres_call_user | apply pres_leaf | apply pres_while | apply pres_until | apply pres_for
      | apply pres_each | apply pres_cast | apply pres_handle | apply Hev | apply Happ
      | apply pres_frame | apply pres_frames | apply pres_root | apply pres_attempt
      | apply pres_conds | apply pres_or_else; intros ? | apply pres_update_path; intros ?
      | apply pres_cell_update; intros ? | apply pres_pool_update; intros ?
      | apply pres_bind; [|intros ?] ].

    Lemma pres_step e : pres (step E n ev app e).
    Proof.
      destruct e; unfold step.
      all: try solve [go].
      - destruct (assoc f (e_fcns E)); [go|]. destruct (String.eqb f "emit"); [go|]. destruct (e_lib E f) as [[g|p]|]; go.
      - apply pres_bind; [auto|]. intros nm. destruct nm; try apply pres_raise. cbn zeta.
        destruct (has_key _ _); go.
      - apply pres_bind; [go|]. intros ks. apply pres_bind; [go|]. intros t. apply pres_bind; [go|]. intros i.
        apply pres_bind; [go|]. intros _. destruct ks as [|[] ks]; go.
      - apply pres_bind; [auto|]. intros k. apply pres_bind; [apply pres_trace|]. intros _.
        destruct k; try apply pres_ret. apply pres_bind; [apply (pres_pool_put p (fun x => dict_del s (p_value x)))|].
        intros _. apply pres_ret.
      - destruct e0; apply pres_conds; go.
      - destruct e; apply pres_conds; go.
      - apply pres_bind; [auto|]. intros v. destruct v; go.
      - apply pres_bind; [auto|]. intros w. destruct w; go.
      - destruct wrap; go.
      - apply pres_bind; [apply pres_mapE; intros b; go|]. intros vs. destruct (forallb _ vs); go.
      - apply pres_bind; [auto|]. intros b. destruct (e_unpack E fmt b); go.
      - apply pres_bind; [go|]. intros r. destruct r; go.
    Qed.
    Lemma pres_step_app f vs : pres (step_app E ev app f vs).
    Proof.
      destruct f; unfold step_app; try solve [go].
      - apply pres_bind; [apply pres_trace|]. intros _. destruct (assoc f (e_fcns E)) as [[ps body]|]; go.
      - cbn zeta. apply pres_frame. apply pres_bind.
        + generalize (match assoc f (e_fcns E) with Some (ps, _) => ps | None => e_libparams E f end). intros ps.
          generalize 0%nat. induction ps as [|p ps IH]; intros j; [apply pres_ret|].
          destruct (assoc p fills).
          * apply pres_bind; [apply pres_arg|]. intros v. apply pres_bind; [apply IH|]. intros; apply pres_ret.
          * apply pres_bind; [apply pres_pure|]. intros v. apply pres_bind; [apply IH|]. intros; apply pres_ret.
        + intros avs. apply pres_bind; [apply pres_trace|]. intros _. apply pres_frame.
          destruct (assoc f (e_fcns E)) as [[ps body]|]; go.
    Qed.
  End Step.

  Theorem pres_eval n : (forall e, pres (eval E n e)) /\ (forall f vs, pres (apply E n f vs)).
  Proof.
    induction n as [|n [IH1 IH2]]; cbn [eval apply].
    - split; intros; apply pres_fuel.
    - split; intros; [now apply pres_step|now apply pres_step_app].
  Qed.
  Lemma pres_exec n es : pres (exec E n es).
  Proof. apply pres_run. apply pres_eval. Qed.
End Inv.
