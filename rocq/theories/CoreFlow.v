(** A property of computations that the primitive effects allowed by the text of a document have is a property of
    every evaluation of that document. *)
From Verif Require Import Base ScopeModel CoreModel CoreInd.
Open Scope string_scope.
Open Scope list_scope.

(** the name given to "call" is one of the symbols of its enum type (the static type check, not modelled, gives this) *)
Definition names_one_of (E : env) (nm : expr) (choices : list string) : Prop :=
  forall k s v s', eval E k nm s = Done (Ok v) s' -> exists x, v = VStr x /\ In x choices.
(** a library function that lets the exceptions of its function arguments pass *)
Fixpoint lib_stops (p : libprog) : Prop :=
  match p with
  | LRet _ | LRaise _ => True
  | LCall _ _ k | LForce _ k => (forall e, exists e', k (Raise e) = LRaise e') /\ forall a, lib_stops (k (Ok a))
  | LTime k => lib_stops k
  | LRand k => forall z, lib_stops (k z)
  end.
Definition may {A} (m : EM A) (a : A) : Prop := exists s s', m s = Done (Ok a) s'.

Section Flow.
  Variable E : env.
  Variable J Jx : forall A, EM A -> Prop.
  Variable Okn : node -> Prop.
  Variable Okf : string -> Prop.
  Variable stop : bool.
  Hypothesis J_pure : forall A (f : st -> res A), J A (fun s => Done (f s) s).
  Hypothesis J_fuel : forall A, J A out_of_fuel.
  Hypothesis J_bind : forall A B (m : EM A) (k : A -> EM B), J A m -> (forall a, may m a -> J B (k a)) -> J B (bind m k).
  Hypothesis J_try : forall A B (m : EM A) (k : res A -> EM B), J A m -> (forall a, J B (k (Ok a))) -> (forall e, Jx B (k (Raise e))) -> J B (bind (attempt m) k).
  Hypothesis Jx_raise : forall A e, Jx A (raise e).
  Hypothesis Jx_J : stop = false -> forall A (m : EM A), J A m -> Jx A m.
  Hypothesis J_frames : forall A fs (m : EM A), J A m -> J _ (in_frames fs m).
  Hypothesis J_root : forall A fs (m : EM A), J A m -> J A (in_root fs m).
  Hypothesis J_get_cell : forall c, J _ (get_cell c).
  Hypothesis J_get_pool : forall p, J _ (get_pool p).
  Hypothesis J_let : forall bs, J _ (let_vars bs).
  Hypothesis J_set : forall bs, J _ (set_vars_m bs).
  Hypothesis J_log : forall l, J _ (modify (add_log l)).
  Hypothesis J_emit : forall v, J _ (modify (add_emitted v)).
  Hypothesis J_time : J _ (check_time E).
  Hypothesis J_draw : J _ (draw E).
  Hypothesis J_trace : forall f, Okf f -> J _ (modify (add_trace f)).
  Definition from (to : arg) (t : aval) : Prop := match to with AExpr _ => exists v, t = AV v | _ => t = AF to end.
  Hypothesis J_trynode : forall n es flt, Okn (NE (ETry es flt)) -> J _ (run (eval E n) es) ->
    J _ (r <== attempt (run (eval E n) es) ;; match r with Ok v => ret v | Raise e => handle E flt e end).
  Hypothesis J_cell : forall n c path to t ks, Okn (NE (ECellTo c path to)) -> from to t -> (forall vs, J _ (apply E n to vs)) ->
    J _ (_ <== modify (add_trace "cell-to") ;; cell_update c (fun old => update_path (update_leaf E (apply E n) t) old ks 2006 2007)).
  Hypothesis J_pool : forall n p path to init t h tail i, Okn (NE (EPoolTo p path to init)) -> from to t -> (forall vs, J _ (apply E n to vs)) ->
    J _ (pool_update p h (fun old => update_path (update_leaf E (apply E n) t) old tail 2010 2011) i).
  Hypothesis J_pool_trace : forall p path to init, Okn (NE (EPoolTo p path to init)) -> J _ (modify (add_trace "pool-to")).
  Hypothesis J_del : forall p e h, Okn (NE (EPoolDel p e)) -> J _ (upd_pool p (fun x => pool_put (dict_del h (p_value x)) x)).
  Hypothesis J_del_trace : forall p e, Okn (NE (EPoolDel p e)) -> J _ (modify (add_trace "pool-del")).
  Hypothesis Ok_parts : forall n, Okn n -> Forall Okn (parts n).
  Hypothesis Ok_call : forall f args, Okn (NE (ECall f args)) -> Okf f.
  Hypothesis Ok_ref : forall f, Okn (NA (ARef f)) -> Okf f.
  Hypothesis Ok_fill : forall f fills, Okn (NA (AFill f fills)) -> Okf f.
  Hypothesis Ok_user : forall nm ch args, Okn (NE (ECallUser nm ch args)) -> names_one_of E nm ch /\ forall x, In x ch -> Okf ("u." ++ x)%string.
  Hypothesis Ok_body : forall f ps body, Okf f -> assoc f (e_fcns E) = Some (ps, body) -> Forall (fun e => Okn (NE e)) body.
  Hypothesis Ok_strict : forall f g avs, stop = true -> Okf f -> e_lib E f = Some (Strict g) -> lib_stops (g avs).
  Hypothesis Ok_lazy : forall f p, stop = true -> Okf f -> e_lib E f = Some (Lazy p) -> lib_stops p.
  Hypothesis Ok_libref : forall f avs, stop = true -> Okf f -> lib_stops (e_libref E f avs).

  Lemma J_ret A (a : A) : J A (ret a).
  Proof. exact (J_pure A (fun _ => Ok a)). Qed.
  Lemma J_raise A e : J A (raise e).
  Proof. exact (J_pure A (fun _ => Raise e)). Qed.
  Lemma J_lift A (r : res A) : J A (lift r).
  Proof. exact (J_pure A (fun _ => r)). Qed.
  Lemma J_frame A f (m : EM A) : J A m -> J A (in_frame f m).
  Proof. intros H. apply J_bind; [now apply J_frames|]. intros p _. apply J_ret. Qed.
  Lemma J_mapE A B (f : A -> EM B) l : (forall x, In x l -> J B (f x)) -> J _ (mapE f l).
  Proof.
    induction l as [|x l IH]; intros H; cbn [mapE]; [apply J_ret|].
    apply J_bind; [apply H; now left|]. intros y _. apply J_bind; [apply IH; intros; apply H; now right|]. intros ys _. apply J_ret.
  Qed.
  Lemma J_update_path leaf a m : (forall v, J _ (leaf v)) -> forall path obj, J _ (update_path leaf obj path a m).
  Proof.
    intros L. induction path as [|k path IH]; intros obj; [apply L|]. cbn [update_path].
    destruct obj; try apply J_raise; destruct k; try apply J_raise; try (destruct path; [apply J_ret|apply J_raise]).
    - cbn zeta. destruct (_ || _)%bool; [apply J_raise|]. destruct (_ <=? _)%Z; [apply J_ret|]. apply J_bind; [apply IH|]. intros v _. apply J_ret.
    - destruct (assoc _ _) as [v|]; [apply J_bind; [apply IH|]; intros w _; apply J_ret|]. destruct path; [apply J_ret|apply J_raise].
  Qed.

  Section Step.
    Variable n : nat.
    Notation ev := (eval E n).
    Notation app := (apply E n).
    Hypothesis He : forall e, Okn (NE e) -> J _ (ev e).
    Hypothesis Ha : forall a vs, Okn (NA a) -> J _ (app a vs).
    Definition good (a : aval) : Prop := match a with AV _ => True | AF f => Okn (NA f) end.

    Lemma nodes l : Forall Okn (map NE l) -> forall e, In e l -> Okn (NE e).
    Proof. intros F e I. rewrite Forall_map, Forall_forall in F. auto. Qed.
    Lemma named {A} (l : list (A * expr)) : Forall Okn (map (fun b => NE (snd b)) l) -> forall b, In b l -> Okn (NE (snd b)).
    Proof. intros F e I. rewrite Forall_map, Forall_forall in F. auto. Qed.
    Lemma J_evs l : (forall e, In e l -> Okn (NE e)) -> J _ (mapE ev l).
    Proof. intros F. apply J_mapE. intros e I. apply He. auto. Qed.
    Lemma J_run l : (forall e, In e l -> Okn (NE e)) -> J _ (run ev l).
    Proof. intros F. apply J_bind; [now apply J_evs|]. intros vs _. apply J_ret. Qed.
    Lemma J_named (l : list (string * expr)) : (forall b, In b l -> Okn (NE (snd b))) -> J _ (ev_named ev l).
    Proof. intros F. apply J_mapE. intros b I. apply J_bind; [apply He; auto|]. intros v _. apply J_ret. Qed.
    Lemma arg_expr e : Okn (NA (AExpr e)) -> Okn (NE e).
    Proof. intros H. apply Ok_parts in H. now apply Forall_inv in H. Qed.
    Lemma J_arg a : Okn (NA a) -> J _ (ev_arg ev a).
    Proof. intros H. destruct a; try apply J_ret. apply J_bind; [apply He, arg_expr, H|]. intros v _. apply J_ret. Qed.
    Lemma arg_from a s t s' : ev_arg ev a s = Done (Ok t) s' -> from a t.
    Proof.
      destruct a; cbn [ev_arg from]; unfold bind, ret; [|now intros [= <- _]..].
      destruct (ev e s) as [[x|]| |]; try discriminate. intros [= <- _]. eauto.
    Qed.
    Lemma from_good a t : Okn (NA a) -> from a t -> good t.
    Proof. intros H. destruct a; cbn [from]; [intros [v ->]; exact I|now intros ->..]. Qed.
    Lemma args_from : forall args s avs s', mapE (ev_arg ev) args s = Done (Ok avs) s' -> Forall2 from args avs.
    Proof.
      induction args as [|a args IH]; intros s avs s' H; cbn [mapE] in H.
      - injection H as <- _. constructor.
      - unfold bind in H. destruct (ev_arg ev a s) as [[v|] s1| |] eqn:Ea; try discriminate.
        destruct (mapE (ev_arg ev) args s1) as [[vs|] s2| |] eqn:Eb; try discriminate. injection H as <- _. constructor; [eapply arg_from|]; eauto.
    Qed.
    Lemma args_good args avs : (forall a, In a args -> Okn (NA a)) -> Forall2 from args avs -> Forall good avs.
    Proof. intros H F. induction F; constructor; [eapply from_good; [apply H; now left|eauto]|apply IHF; intros; apply H; now right]. Qed.
    Lemma J_args l : (forall a, In a l -> Okn (NA a)) -> J _ (mapE (ev_arg ev) l).
    Proof. intros F. apply J_mapE. intros a I. apply J_arg. auto. Qed.
    Lemma J_lib lz avs : (forall a, In a lz -> Okn (NA a)) -> Forall good avs -> forall p, (stop = true -> lib_stops p) -> J _ (run_lib E ev app lz avs p).
    Proof.
      intros HL HA. assert (Jxr : forall A (r : res A), True) by auto. induction p as [v|e|i vs k IH|i k IH|k IH|k IH]; cbn [run_lib]; intros S.
      - apply J_ret.
      - apply J_raise.
      - destruct (nth_error avs i) as [[v|f]|] eqn:N; try apply J_raise.
        apply nth_error_In in N. rewrite Forall_forall in HA. specialize (HA _ N). apply J_try.
        + now apply Ha.
        + intros a. apply IH. intros St. now apply (S St).
        + intros e. destruct (Bool.bool_dec stop true) as [St|St].
          * destruct (S St) as [K _]. destruct (K e) as [e' ->]. apply Jx_raise.
          * apply Jx_J; [now apply Bool.not_true_is_false|]. apply IH. contradiction.
      - destruct (nth_error lz i) as [[e| | |]|] eqn:N; try apply J_raise.
        apply nth_error_In in N. apply J_try.
        + apply He, arg_expr, HL, N.
        + intros a. apply IH. intros St. now apply (S St).
        + intros e0. destruct (Bool.bool_dec stop true) as [St|St].
          * destruct (S St) as [K _]. destruct (K e0) as [e' ->]. apply Jx_raise.
          * apply Jx_J; [now apply Bool.not_true_is_false|]. apply IH. contradiction.
      - apply J_bind; [apply J_time|]. intros u _. apply IH. exact S.
      - apply J_bind; [apply J_draw|]. intros z _. apply IH. intros St. apply (S St).
    Qed.
    Lemma J_body f ps body : Okf f -> assoc f (e_fcns E) = Some (ps, body) -> J _ (run ev body).
    Proof. intros H A. apply J_run. pose proof (Ok_body _ _ _ H A) as F. rewrite Forall_forall in F. auto. Qed.
    Lemma J_user f vs : Okf f -> J _ (call_user E ev f vs).
    Proof. intros H. unfold call_user. destruct (assoc f _) as [[ps body]|] eqn:A; [|apply J_raise]. apply J_root. eapply J_body; eauto. Qed.
    Lemma J_leaf to t : Okn (NA to) -> from to t -> forall old, J _ (update_leaf E app t old).
    Proof.
      intros H F old. destruct to; cbn [from] in F; [destruct F as [v ->]; apply J_ret|subst t; cbn [update_leaf]..].
      - now apply Ha.
      - destruct (assoc _ _); [now apply Ha|apply J_raise].
      - now apply Ha.
    Qed.
    Lemma J_conds its els keep : J _ els -> (forall it, In it its -> Okn (NE (fst it)) /\ forall e, In e (snd it) -> Okn (NE e)) -> J _ (conds ev its els keep).
    Proof.
      intros Hel. induction its as [|[p t] its IH]; intros H; cbn [conds]; [exact Hel|].
      destruct (H _ (or_introl eq_refl)) as [H1 H2]. cbn [fst snd] in *.
      apply J_bind; [now apply J_frame, He|]. intros b _. destruct (truthy b); [|apply IH; intros; apply H; now right].
      apply J_bind; [now apply J_frame, J_run|]. intros v _. apply J_ret.
    Qed.
    Lemma J_while p body : Okn (NE p) -> (forall e, In e body -> Okn (NE e)) -> forall m pf bf, J _ (while_loop E ev m p body pf bf).
    Proof.
      intros Hp Hb. induction m as [|m IH]; intros pf bf; cbn [while_loop]; [apply J_fuel|].
      apply J_bind; [now apply J_frames, He|]. intros [b fs] _. destruct (truthy b); [|apply J_ret].
      apply J_bind; [apply J_time|]. intros u _. apply J_bind; [now apply J_frames, J_run|]. intros; apply IH.
    Qed.
    Lemma J_until p body : Okn (NE p) -> (forall e, In e body -> Okn (NE e)) -> forall m pf bf, J _ (until_loop E ev m body p pf bf).
    Proof.
      intros Hp Hb. induction m as [|m IH]; intros pf bf; cbn [until_loop]; [apply J_fuel|].
      apply J_bind; [apply J_time|]. intros u _. apply J_bind; [now apply J_frames, J_run|]. intros r _.
      apply J_bind; [now apply J_frames, He|]. intros [b fs] _. destruct (truthy b); [apply J_ret|apply IH].
    Qed.
    Lemma J_for p upd body : Okn (NE p) -> (forall b, In b upd -> Okn (NE (snd b))) -> (forall e, In e body -> Okn (NE e)) ->
      forall m pf bf lf, J _ (for_loop E ev m p upd body pf bf lf).
    Proof.
      intros Hp Hu Hb. induction m as [|m IH]; intros pf bf lf; cbn [for_loop]; [apply J_fuel|].
      apply J_bind; [now apply J_frames, He|]. intros [b fs] _. destruct (truthy b); [|apply J_ret].
      apply J_bind; [apply J_time|]. intros u _. apply J_bind; [now apply J_frames, J_run|]. intros r _.
      apply J_bind; [|intros; apply IH]. apply J_frames. apply J_bind; [now apply J_named|]. intros vs _. apply J_set.
    Qed.
    Lemma J_each body : (forall e, In e body -> Okn (NE e)) -> forall items bf lf, J _ (each_loop E ev items body bf lf).
    Proof.
      intros Hb. induction items as [|bs items IH]; intros bf lf; cbn [each_loop]; [apply J_ret|].
      apply J_bind; [apply J_time|]. intros u _. apply J_bind; [now apply J_frames, J_run|]. intros; apply IH.
    Qed.
    Lemma J_cast fu pa v cases : (forall c, In c cases -> forall e, In e (snd c) -> Okn (NE e)) -> J _ (cast_cases E ev fu pa v cases).
    Proof.
      induction cases as [|[[name ty] body] cases IH]; intros H; cbn [cast_cases]; [apply J_ret|].
      assert (IH' := IH (fun c I => H c (or_intror I))).
      destruct (cast_value _ _ _) as [w|]; auto. destruct (e_decode E ty w) as [c|[]]; auto; try apply J_raise.
      - apply J_bind; [apply J_frame, J_run; exact (H _ (or_introl eq_refl))|]. intros o _. apply J_ret.
      - destruct (String.eqb _ _); auto. apply J_raise.
    Qed.
    Lemma J_or_else el : (forall e, In e (opt_list el) -> Okn (NE e)) -> J _ (or_else el (run ev)).
    Proof. intros H. destruct el; cbn [or_else]; [now apply J_run|apply J_ret]. Qed.

    Lemma J_step e : Okn (NE e) -> J _ (step E n ev app e).
    Proof.
      intros H. pose proof (Ok_parts _ H) as P. destruct e; cbn [step]; cbn [parts] in P.
      - apply J_ret.
      - apply J_pure.
      - pose proof (Ok_call _ _ H) as Hf. rewrite Forall_map, Forall_forall in P.
        destruct (assoc f (e_fcns E)) as [fd|] eqn:A.
        + apply J_bind; [now apply J_args|]. intros avs _. apply J_bind; [now apply J_trace|]. intros u _. now apply J_user.
        + destruct (String.eqb f "emit").
          * apply J_bind; [now apply J_args|]. intros avs _. apply J_bind; [now apply J_trace|]. intros u _. apply J_bind; [apply J_emit|]. intros u2 _. apply J_ret.
          * destruct (e_lib E f) as [[g|p]|] eqn:L; [| |apply J_raise].
            -- apply J_bind; [now apply J_args|]. intros avs (s & s' & M). apply J_bind; [now apply J_trace|]. intros u _.
               apply J_lib; [contradiction|apply (args_good args); [exact P|eapply args_from; eauto]|]. intros St. eapply Ok_strict; eauto.
            -- apply J_bind; [now apply J_trace|]. intros u _. apply J_lib; [exact P|constructor|]. intros St. eapply Ok_lazy; eauto.
      - destruct (Ok_user _ _ _ H) as [Hn Hc]. inversion P as [|? ? P1 P2]; subst. pose proof (nodes _ P2) as P3.
        apply J_bind; [now apply He|]. intros nm (s & s' & M). destruct (Hn _ _ _ _ M) as (x & -> & Hx).
        cbn zeta. destruct (has_key _ _); [|apply J_raise]. apply J_bind; [now apply J_evs|]. intros vs _.
        apply J_bind; [apply J_trace; auto|]. intros u _. apply J_user. auto.
      - apply J_bind; [apply J_named; now apply named|]. intros kvs _. apply J_ret.
      - apply J_bind; [apply J_evs; now apply nodes|]. intros vs _. apply J_ret.
      - apply J_run. now apply nodes.
      - apply J_bind; [apply J_named; now apply named|]. intros vs _. apply J_bind; [apply J_let|]. intros u _. apply J_ret.
      - apply J_bind; [apply J_named; now apply named|]. intros vs _. apply J_bind; [apply J_set|]. intros u _. apply J_ret.
      - inversion P as [|? ? P1 P2]; subst. apply J_bind; [now apply He|]. intros v _. apply J_bind; [apply J_evs; now apply nodes|]. intros ks _. apply J_lift.
      - inversion P as [|? ? P1 P2]; subst. apply Forall_app in P2. destruct P2 as [P2 P3]. apply Forall_inv in P3.
        apply J_bind; [now apply He|]. intros v _. apply J_bind; [apply J_evs; now apply nodes|]. intros ks _.
        apply J_bind; [now apply J_arg|]. intros t (s & s' & M). apply arg_from in M. apply J_update_path. eapply J_leaf; eauto.
      - apply J_bind; [apply J_get_cell|]. intros x _. apply J_bind; [apply J_evs; now apply nodes|]. intros ks _. apply J_lift.
      - apply Forall_app in P. destruct P as [P2 P3]. apply Forall_inv in P3.
        apply J_bind; [apply J_evs; now apply nodes|]. intros ks _. apply J_bind; [now apply J_arg|]. intros t (s & s' & M). apply arg_from in M.
        eapply J_cell; eauto.
      - apply J_bind; [apply J_get_pool|]. intros x0 _. apply J_bind; [apply J_evs; now apply nodes|]. intros ks _.
        apply J_bind; [apply J_get_pool|]. intros x _. apply J_lift.
      - apply Forall_app in P. destruct P as [P2 P3]. inversion P3 as [|? ? P4 P5]; subst. apply Forall_inv in P5.
        apply J_bind; [apply J_evs; now apply nodes|]. intros ks _. apply J_bind; [now apply J_arg|]. intros t (s & s' & M). apply arg_from in M.
        apply J_bind; [now apply He|]. intros i _. apply J_bind; [eapply J_pool_trace; eauto|]. intros u _.
        destruct ks as [|[] ks]; try apply J_raise. eapply J_pool; eauto.
      - apply Forall_inv in P. apply J_bind; [now apply He|]. intros k _. apply J_bind; [eapply J_del_trace; eauto|]. intros u _.
        destruct k; try apply J_ret. apply J_bind; [eapply J_del; eauto|]. intros u2 _. apply J_ret.
      - inversion P as [|? ? P1 P2]; subst. apply Forall_app in P2. destruct P2 as [P2 P3].
        match goal with |- context [match ?o with Some _ => _ | None => _ end] => destruct o as [el|] end; (apply J_conds; [|intros it [<-|[]]; split; [exact P1|now apply nodes]]).
        + apply J_frame, J_run. now apply nodes.
        + apply J_ret.
      - apply Forall_app in P. destruct P as [P2 P3].
        assert (Q : forall it, In it its -> Okn (NE (fst it)) /\ (forall e, In e (snd it) -> Okn (NE e))).
        { intros it I. rewrite Forall_forall in P2. split; [|intros e' I']; apply P2; apply in_flat_map; exists it; (split; [exact I|]); [now left|right; now apply in_map]. }
        match goal with |- context [match ?o with Some _ => _ | None => _ end] => destruct o as [el|] end; (apply J_conds; [|exact Q]).
        + apply J_frame, J_run. now apply nodes.
        + apply J_ret.
      - inversion P as [|? ? P1 P2]; subst. apply J_while; [exact P1|now apply nodes].
      - apply Forall_app in P. destruct P as [P2 P3]. apply Forall_inv in P3. apply J_until; [exact P3|now apply nodes].
      - apply Forall_app in P. destruct P as [P1 P2]. inversion P2 as [|? ? P3 P4]; subst. apply Forall_app in P4. destruct P4 as [P4 P5].
        apply J_bind; [|intros r _; apply J_for; [exact P3|now apply named|now apply nodes]].
        apply J_frames. apply J_bind; [apply J_named; now apply named|]. intros vs _. apply J_let.
      - inversion P as [|? ? P1 P2]; subst. apply J_bind; [now apply He|]. intros v _. destruct v; try apply J_raise. apply J_each. now apply nodes.
      - inversion P as [|? ? P1 P2]; subst. apply J_bind; [now apply He|]. intros w _. destruct w; try apply J_raise. apply J_each. now apply nodes.
      - inversion P as [|? ? P1 P2]; subst. apply J_bind; [now apply He|]. intros v _. apply J_cast.
        intros c I e' I'. rewrite Forall_forall in P2. apply P2. apply in_flat_map. exists c. split; [exact I|now apply in_map].
      - apply Forall_inv in P. match goal with |- context [match ?o with Some _ => _ | None => _ end] => destruct o as [tag|] end; [|now apply He].
        apply J_bind; [now apply He|]. intros v _. apply J_ret.
      - apply Forall_app in P. destruct P as [P1 P2]. apply Forall_app in P2. destruct P2 as [P2 P3].
        apply J_bind; [apply J_mapE; intros b I; apply J_bind; [apply He; exact (named _ P1 b I)|intros v _; apply J_ret]|]. intros vs _.
        destruct (forallb _ vs); [|apply J_or_else; now apply nodes].
        apply J_bind; [apply J_frame, J_run; now apply nodes|]. intros v _. apply J_ret.
      - apply J_bind; [apply J_evs; intros e' I; apply in_map_iff in I; destruct I as (b & <- & I); exact (named _ P b I)|]. intros vs _. apply J_lift.
      - inversion P as [|? ? P1 P2]; subst. apply Forall_app in P2. destruct P2 as [P2 P3].
        apply J_bind; [now apply He|]. intros b _. destruct (e_unpack E fmt b); [|apply J_or_else; now apply nodes].
        apply J_bind; [apply J_frame, J_run; now apply nodes|]. intros v _. apply J_ret.
      - apply J_ret.
      - apply J_raise.
      - apply J_trynode; [exact H|]. apply J_run. now apply nodes.
      - apply J_bind; [apply J_evs; now apply nodes|]. intros vs _. apply J_bind; [apply J_log|]. intros u _. apply J_ret.
    Qed.
    Lemma J_step_app a vs : Okn (NA a) -> J _ (step_app E ev app a vs).
    Proof.
      intros H. pose proof (Ok_parts _ H) as P. destruct a as [e|ps body|g|g fills]; cbn [step_app]; cbn [parts] in P.
      - apply J_raise.
      - apply J_frame, J_run. now apply nodes.
      - pose proof (Ok_ref _ H) as Hf. apply J_bind; [now apply J_trace|]. intros u _. destruct (assoc g (e_fcns E)) as [[ps body]|] eqn:A.
        + apply J_frame. eapply J_body; eauto.
        + apply J_lib; [contradiction| |intros St; now apply Ok_libref]. apply Forall_map, Forall_forall. intros; exact I.
      - pose proof (Ok_fill _ _ H) as Hf. cbn zeta. apply J_frame.
        assert (PF : forall p a, assoc p fills = Some a -> Okn (NA a)).
        { intros p a A. rewrite Forall_map, Forall_forall in P. clear - A P. induction fills as [|[k b] l IH]; [discriminate|]. cbn [assoc] in A.
          destruct (String.eqb p k); [injection A as ->; apply (P (k, a)); now left|]. apply IH; auto. intros x I. apply P. now right. }
        apply J_bind.
        + generalize (match assoc g (e_fcns E) with Some (ps, _) => ps | None => e_libparams E g end). intros ps.
          generalize 0%nat. induction ps as [|p ps IH]; intros j; [apply J_ret|].
          destruct (assoc p fills) as [a|] eqn:A.
          * apply J_bind; [apply J_arg; eauto|]. intros v _. apply J_bind; [apply IH|]. intros; apply J_ret.
          * apply J_bind; [apply J_pure|]. intros v _. apply J_bind; [apply IH|]. intros; apply J_ret.
        + intros avs (s & s' & M). apply J_bind; [now apply J_trace|]. intros u _.
          destruct (assoc g (e_fcns E)) as [[ps body]|] eqn:A; apply J_frame; [apply J_frame; eapply J_body; eauto|].
          apply J_lib; [contradiction| |intros St; now apply Ok_libref].
          revert M. generalize 0%nat. generalize (e_libparams E g). intros ps. revert s s' avs.
          induction ps as [|p ps IH]; intros s s' avs j M; [injection M as <- _; constructor|].
          destruct (assoc p fills) as [a|] eqn:Ap.
          * unfold bind in M at 1. destruct (ev_arg ev a s) as [[v|] s1| |] eqn:Ea; try discriminate.
            unfold bind in M at 1. match type of M with match ?x with _ => _ end = _ => destruct x as [[vs1|] s2| |] eqn:Eb end; try discriminate.
            injection M as <- _. constructor; [|eapply IH; exact Eb]. eapply from_good; [eapply PF; eauto|eapply arg_from; eauto].
          * unfold bind in M at 1. destruct (scope_get (dollar j) (s_scopes s)) as [v|]; try discriminate.
            unfold bind in M at 1. match type of M with match ?x with _ => _ end = _ => destruct x as [[vs1|] s2| |] eqn:Eb end; try discriminate.
            injection M as <- _. constructor; [exact I|eapply IH; exact Eb].
    Qed.
  End Step.
  Theorem flow_eval : forall n, (forall e, Okn (NE e) -> J _ (eval E n e)) /\ (forall a vs, Okn (NA a) -> J _ (apply E n a vs)).
  Proof.
    induction n as [|n [IH1 IH2]].
    - split; intros; apply J_fuel.
    - split; intros; [now apply (J_step n IH1 IH2)|now apply (J_step_app n IH1 IH2)].
  Qed.
  Lemma flow_exec n es : (forall e, In e es -> Okn (NE e)) -> J _ (exec E n es).
  Proof. intros H. apply J_run; auto. apply flow_eval. Qed.
End Flow.
