(** Property C06 (and part of C07) for the expressions attr, attr-to, cell, cell-to, pool and pool-to. *)
From Verif Require Import Base ScopeModel CoreModel PathSpec PathProofs PathProps CoreFuel CoreDemo.
Open Scope string_scope.
Open Scope list_scope.
Open Scope Z_scope.

(** the expressions of a path are evaluated from left to right *)
Inductive runs_list (E : env) : list expr -> st -> list val -> st -> Prop :=
| runs_nil s : runs_list E [] s [] s
| runs_cons e es s v s1 vs s2 : runs E e s (Ok v) s1 -> runs_list E es s1 vs s2 -> runs_list E (e :: es) s (v :: vs) s2.
Lemma runs_list_eval E es s vs s' : runs_list E es s vs s' -> exists n, forall m, (n <= m)%nat -> mapE (eval E m) es s = Done (Ok vs) s'.
Proof.
  induction 1 as [s|e es s v s1 vs s2 [n1 H] _ [n2 IH]]; [exists O; reflexivity|].
  exists (n1 + n2)%nat. intros m Hm. cbn [mapE]. unfold bind at 1. rewrite (eval_mono E n1 m) with (r := Ok v) (s' := s1) by (auto; lia).
  unfold bind at 1. rewrite IH by lia. reflexivity.
Qed.
Lemma literals E l s : runs_list E (map (fun kt => ELit (fst kt) (snd kt)) l) s (map snd l) s.
Proof. induction l as [|[t v] l IH]; cbn; [constructor|]. econstructor; [exists 1%nat; reflexivity|exact IH]. Qed.
Ltac two n1 n2 := exists (S (n1 + n2))%nat; cbn [eval step].

(** *** Reading *)
Theorem C06_attr_expr E e path s v s1 ks s2 :
  runs E e s (Ok v) s1 -> runs_list E path s1 ks s2 -> runs E (EAttrGet e path) s (get_path v ks 2000 2001) s2.
Proof.
  intros [n1 H1] H2. apply runs_list_eval in H2 as [n2 H2]. two n1 n2.
  unfold bind at 1. rewrite (eval_mono E n1 (n1 + n2)) with (r := Ok v) (s' := s1) by (auto; lia).
  unfold bind at 1. rewrite H2 by lia. unfold lift. destruct (get_path _ _ _ _); reflexivity.
Qed.
Theorem C06_cell_expr E c path s x ks s1 :
  assoc c (s_cells s) = Some x -> runs_list E path s ks s1 -> runs E (ECellGet c path) s (get_path (c_value x) ks 2004 2005) s1.
Proof.
  intros Hc H2. apply runs_list_eval in H2 as [n2 H2]. two 0%nat n2. unfold bind at 1. unfold get_cell at 1. rewrite Hc.
  unfold bind at 1. rewrite H2 by lia. unfold lift. destruct (get_path _ _ _ _); reflexivity.
Qed.
Theorem C06_pool_expr E p path s x0 ks s1 x :
  assoc p (s_pools s) = Some x0 -> runs_list E path s ks s1 -> assoc p (s_pools s1) = Some x ->
  runs E (EPoolGet p path) s (get_path (VDict (p_value x)) ks 2008 2009) s1.
Proof.
  intros H0 H2 Hp. apply runs_list_eval in H2 as [n2 H2]. two 0%nat n2. unfold bind at 1. unfold get_pool at 1. rewrite H0.
  unfold bind at 1. rewrite H2 by lia. unfold bind at 1, get_pool. rewrite Hp. unfold lift. destruct (get_path _ _ _ _); reflexivity.
Qed.

(** *** Updating with a value *)
(** The result has [v] at the path and agrees with [obj] elsewhere. *)
Definition updated (obj : val) (ks : list val) (v obj' : val) : Prop :=
  (forall a m, get_path obj' ks a m = Ok v) /\ (forall q a m, diverge ks q -> get_path obj' q a m = get_path obj q a m).
Lemma set_at obj ks old a m v (s0 : st) : at_path obj ks old ->
  exists obj', updated obj ks v obj' /\ forall s, update_path (fun _ => ret v) obj ks a m s = Done (Ok obj') s.
Proof.
  intros H.
  assert (P : exists obj', forall s, update_path (fun _ => ret v) obj ks a m s = Done (Ok obj') s).
  { induction H as [w|d k w p o Hk _ [o' IH]|l i w p o Hi _ [o' IH]].
    - exists v. reflexivity.
    - eexists. intros s. cbn [update_path]. rewrite Hk. unfold bind. rewrite IH. reflexivity.
    - assert (Hlt : (i < length l)%nat) by (apply nth_error_Some; congruence).
      eexists. intros s. cbn [update_path]. cbn zeta.
      destruct (Z.of_nat (length l) <=? Z.of_nat i) eqn:E1; [apply Z.leb_le in E1; lia|].
      destruct (Z.of_nat i <? 0) eqn:E2; [apply Z.ltb_lt in E2; lia|].
      rewrite andb_false_r. cbn [orb]. rewrite Nat2Z.id. rewrite (nth_error_nth _ _ _ Hi). unfold bind. rewrite IH. reflexivity. }
  destruct P as [obj' P]. exists obj'. split; [|exact P].
  destruct (update_path_at (fun _ => ret v) obj ks old a m s0 v s0 H eq_refl) as (o2 & U2 & G & Dv).
  rewrite P in U2. injection U2 as <-. split; [intros; now apply get_path_at|exact Dv].
Qed.
(** attr-to leaves cells, pools and variables alone *)
Theorem C06_attr_to E e path to s obj s1 ks s2 v s3 old :
  runs E e s (Ok obj) s1 -> runs_list E path s1 ks s2 -> runs E to s2 (Ok v) s3 -> at_path obj ks old ->
  exists obj', runs E (EAttrTo e path (AExpr to)) s (Ok obj') s3 /\ updated obj ks v obj'.
Proof.
  intros [n1 H1] H2 [n3 H3] Hat. apply runs_list_eval in H2 as [n2 H2].
  destruct (set_at obj ks old 2002 2003 v s3 Hat) as (obj' & UP & U).
  exists obj'. split; [|exact UP]. exists (S (n1 + n2 + n3))%nat. cbn [eval step].
  unfold bind at 1. rewrite (eval_mono E n1 (n1 + n2 + n3)) with (r := Ok obj) (s' := s1) by (auto; lia).
  unfold bind at 1. rewrite H2 by lia. unfold bind at 1. cbn [ev_arg]. unfold bind at 1.
  rewrite (eval_mono E n3 (n1 + n2 + n3)) with (r := Ok v) (s' := s3) by (auto; lia). apply U.
Qed.
(** cell-to replaces the value of its cell by the updated one and leaves the rest of the cell, the other cells, the
    pools and the variables alone *)
Theorem C06_cell_to E c path to s ks s1 v s2 x old :
  runs_list E path s ks s1 -> runs E to s1 (Ok v) s2 -> assoc c (s_cells s2) = Some x -> c_locked x = false -> at_path (c_value x) ks old ->
  exists obj' s', runs E (ECellTo c path (AExpr to)) s (Ok obj') s' /\ updated (c_value x) ks v obj' /\
    assoc c (s_cells s') = Some (cell_put obj' x) /\ (forall c', c' <> c -> assoc c' (s_cells s') = assoc c' (s_cells s2)) /\
    s_pools s' = s_pools s2 /\ s_scopes s' = s_scopes s2.
Proof.
  intros H1 [n2 H2] Hc Hl Hat. apply runs_list_eval in H1 as [n1 H1].
  destruct (set_at (c_value x) ks old 2006 2007 v s2 Hat) as (obj' & UP & U). exists obj'.
  assert (St : exists s', cell_update c (fun old => update_path (fun _ => ret v) old ks 2006 2007) (add_trace "cell-to" s2) = Done (Ok obj') s' /\
    assoc c (s_cells s') = Some (cell_put obj' x) /\ (forall c', c' <> c -> assoc c' (s_cells s') = assoc c' (s_cells s2)) /\
    s_pools s' = s_pools s2 /\ s_scopes s' = s_scopes s2).
  { unfold cell_update. unfold bind at 1. unfold get_cell at 1. cbn [s_cells add_trace]. rewrite Hc. rewrite Hl. destruct (c_shared x).
    - unfold bind at 1, upd_cell at 1. cbn [s_cells add_trace]. rewrite Hc. unfold bind at 1. rewrite U.
      unfold bind at 1, upd_cell at 1. cbn [s_cells set_cells]. rewrite assoc_set_eq.
      unfold bind at 1, upd_cell at 1. cbn [s_cells set_cells]. rewrite assoc_set_eq. eexists. split; [reflexivity|]. cbn.
      split; [rewrite assoc_set_eq; unfold cell_lock, cell_put; cbn; now rewrite Hl|].
      split; [intros c' Hc'; now rewrite !assoc_set_neq by exact Hc'|]. split; reflexivity.
    - unfold bind at 1. rewrite U. unfold bind at 1, upd_cell at 1. cbn [s_cells add_trace]. rewrite Hc. eexists. split; [reflexivity|]. cbn.
      split; [now rewrite assoc_set_eq|]. split; [intros c' Hc'; now rewrite !assoc_set_neq by exact Hc'|]. split; reflexivity. }
  destruct St as (s' & R & Rest). exists s'. split; [|split; [exact UP|exact Rest]].
  exists (S (n1 + n2))%nat. cbn [eval step]. unfold bind at 1. rewrite H1 by lia. unfold bind at 1. cbn [ev_arg]. unfold bind at 1.
  rewrite (eval_mono E n2 (n1 + n2)) with (r := Ok v) (s' := s2) by (auto; lia). exact R.
Qed.
(** pool-to does the same with one item, which is the initial value if it was not in the pool *)
Theorem C06_pool_to E p path to init s h ks s1 v s2 i s3 x item old :
  runs_list E path s (VStr h :: ks) s1 -> runs E to s1 (Ok v) s2 -> runs E init s2 (Ok i) s3 ->
  assoc p (s_pools s3) = Some x -> p_locklock x = false -> p_locks x = [] ->
  item = match assoc h (p_value x) with Some w => w | None => i end -> at_path item ks old ->
  exists obj' s' y, runs E (EPoolTo p path (AExpr to) init) s (Ok obj') s' /\ updated item ks v obj' /\
    assoc p (s_pools s') = Some y /\ assoc h (p_value y) = Some obj' /\ (forall h', h' <> h -> assoc h' (p_value y) = assoc h' (p_value x)) /\
    p_shared y = p_shared x /\ p_rollback y = p_rollback x /\ p_old y = p_old x /\ p_locklock y = false /\ p_locks y = [] /\
    (forall p', p' <> p -> assoc p' (s_pools s') = assoc p' (s_pools s3)) /\ s_cells s' = s_cells s3 /\ s_scopes s' = s_scopes s3.
Proof.
  intros H1 [n2 H2] [n3 H3] Hp Hll Hlk Hi Hat. apply runs_list_eval in H1 as [n1 H1].
  destruct (set_at item ks old 2010 2011 v s3 Hat) as (obj' & UP & U). exists obj'.
  assert (Body : forall t z, assoc p (s_pools t) = Some z -> p_value z = p_value x ->
    exists t' y, pool_update_body p h (fun old => update_path (fun _ => ret v) old ks 2010 2011) i t = Done (Ok obj') t' /\
      assoc p (s_pools t') = Some y /\ assoc h (p_value y) = Some obj' /\ (forall h', h' <> h -> assoc h' (p_value y) = assoc h' (p_value x)) /\
      p_shared y = p_shared z /\ p_rollback y = p_rollback z /\ p_old y = p_old z /\ p_locklock y = p_locklock z /\ p_locks y = p_locks z /\
      (forall p', p' <> p -> assoc p' (s_pools t') = assoc p' (s_pools t)) /\ s_cells t' = s_cells t /\ s_scopes t' = s_scopes t).
  { intros t z Hz Hv. unfold pool_update_body. unfold bind at 1. unfold get_pool at 1. rewrite Hz. unfold has_key. rewrite Hv.
    destruct (assoc h (p_value x)) as [w|] eqn:Ew.
    - unfold bind at 1. unfold ret at 1. unfold bind at 1. unfold get_pool at 1. rewrite Hz, Hv, Ew. rewrite Hi in U.
      unfold bind at 1. rewrite U. unfold bind at 1, upd_pool at 1. rewrite Hz. do 2 eexists. split; [reflexivity|]. cbn.
      split; [now rewrite assoc_set_eq|]. cbn. split; [now rewrite assoc_set_eq|].
      split; [intros h' Hh; rewrite assoc_set_neq by exact Hh; now rewrite Hv|]. do 5 (split; [reflexivity|]).
      split; [intros p' Hp'; now rewrite !assoc_set_neq by exact Hp'|]. split; reflexivity.
    - unfold bind at 1. unfold upd_pool at 1. rewrite Hz. unfold bind at 1. unfold get_pool at 1. cbn [s_pools set_pools]. rewrite assoc_set_eq.
      cbn [p_value pool_put]. rewrite assoc_set_eq. rewrite Hi in U.
      unfold bind at 1. rewrite U. unfold bind at 1, upd_pool at 1. cbn [s_pools set_pools]. rewrite assoc_set_eq. do 2 eexists. split; [reflexivity|]. cbn.
      split; [now rewrite assoc_set_eq|]. cbn. split; [now rewrite assoc_set_eq|].
      split; [intros h' Hh; rewrite !assoc_set_neq by exact Hh; now rewrite Hv|]. do 5 (split; [reflexivity|]).
      split; [intros p' Hp'; now rewrite !assoc_set_neq by exact Hp'|]. split; reflexivity. }
  assert (St : exists s' y, pool_update p h (fun old => update_path (fun _ => ret v) old ks 2010 2011) i (add_trace "pool-to" s3) = Done (Ok obj') s' /\
    assoc p (s_pools s') = Some y /\ assoc h (p_value y) = Some obj' /\ (forall h', h' <> h -> assoc h' (p_value y) = assoc h' (p_value x)) /\
    p_shared y = p_shared x /\ p_rollback y = p_rollback x /\ p_old y = p_old x /\ p_locklock y = false /\ p_locks y = [] /\
    (forall p', p' <> p -> assoc p' (s_pools s') = assoc p' (s_pools s3)) /\ s_cells s' = s_cells s3 /\ s_scopes s' = s_scopes s3).
  { unfold pool_update. unfold bind at 1. unfold get_pool at 1. cbn [s_pools add_trace]. rewrite Hp, Hll, Hlk. cbn [existsb]. destruct (p_shared x) eqn:Sh.
    - unfold bind at 1, upd_pool at 1. cbn [s_pools add_trace]. rewrite Hp.
      destruct (Body (set_pools (dict_set p (pool_locks [h] x) (s_pools s3)) (add_trace "pool-to" s3)) (pool_locks [h] x)) as (t' & y & R & P1 & P2 & P3 & P4 & P5 & P6 & P7 & P8 & P9 & P10 & P11);
        [apply assoc_set_eq|reflexivity|].
      unfold bind at 1. rewrite R. unfold bind at 1, upd_pool at 1. rewrite P1. do 2 eexists. split; [reflexivity|]. cbn.
      split; [now rewrite assoc_set_eq|]. cbn in *. split; [exact P2|]. split; [exact P3|]. split; [congruence|]. split; [congruence|]. split; [congruence|].
      split; [congruence|]. split; [rewrite P8; cbn; now rewrite String.eqb_refl|].
      split; [intros p' Hp'; rewrite assoc_set_neq by exact Hp'; rewrite P9 by exact Hp'; now rewrite assoc_set_neq by exact Hp'|]. auto.
    - destruct (Body (add_trace "pool-to" s3) x Hp eq_refl) as (t' & y & R & P1 & P2 & P3 & P4 & P5 & P6 & P7 & P8 & P9 & P10 & P11).
      exists t', y. split; [exact R|]. repeat split; auto; congruence. }
  destruct St as (s' & y & R & Rest). exists s', y. split; [|split; [exact UP|exact Rest]].
  exists (S (n1 + n2 + n3))%nat. cbn [eval step]. unfold bind at 1. rewrite H1 by lia. unfold bind at 1. cbn [ev_arg]. unfold bind at 1.
  rewrite (eval_mono E n2 (n1 + n2 + n3)) with (r := Ok v) (s' := s2) by (auto; lia). unfold ret at 1. unfold bind at 1.
  rewrite (eval_mono E n3 (n1 + n2 + n3)) with (r := Ok i) (s' := s3) by (auto; lia). exact R.
Qed.
(** with an inline function of one parameter, which is called with what was there *)
Theorem C06_attr_to_function E e path x body s obj s1 ks s2 n v s3 old :
  runs E e s (Ok obj) s1 -> runs_list E path s1 ks s2 -> at_path obj ks old ->
  in_frame (frame_let [(x, old)] []) (exec E n body) s2 = Done (Ok v) s3 ->
  exists obj', runs E (EAttrTo e path (AFcn [x] body)) s (Ok obj') s3 /\ updated obj ks v obj'.
Proof.
  intros [n1 H1] H2 Hat Hb. apply runs_list_eval in H2 as [n2 H2].
  set (N := S (n1 + n2 + n)).
  assert (L : update_leaf E (apply E N) (AF (AFcn [x] body)) old s2 = Done (Ok v) s3).
  { unfold N. cbn [update_leaf apply step_app zip_dict]. change (run (eval E (n1 + n2 + n)) body) with (exec E (n1 + n2 + n) body).
    destruct (le_frame (frame_let [(x, old)] []) (exec E n body) (exec E (n1 + n2 + n) body) (le_exec E n (n1 + n2 + n) body ltac:(lia)) s2) as [X|X]; [congruence|]. etransitivity; [exact (eq_sym X)|exact Hb]. }
  destruct (C06_update_laws _ obj ks old 2002 2003 s2 v s3 Hat L) as (obj' & U & G & Dv).
  exists obj'. split; [|split; [exact G|exact Dv]]. exists (S N). cbn [eval step].
  unfold bind at 1. rewrite (eval_mono E n1 N) with (r := Ok obj) (s' := s1) by (auto; unfold N; lia).
  unfold bind at 1. rewrite H2 by (unfold N; lia). exact U.
Qed.

(** A shared cell holding a nested value; a pool item that does not exist yet. *)
Example C06_expr_example :
  let D := demo_env [] (fun _ => 0) in
  let s := St [] [("c", Cell sample true false VNull false)] [("p", Pool [] true false [] false [])] 0 0 VNull [] [] None 0 0 0 [] in
  let path := [str "a"; ECall "+" [AExpr (int 0); AExpr (int 1)]] in
  (exists s1, runs_list D path s [VStr "a"; VInt 1] s1 /\ runs D (int 7) s1 (Ok (VInt 7)) s1 /\
     assoc "c" (s_cells s1) = Some (Cell sample true false VNull false) /\ at_path sample [VStr "a"; VInt 1] (VInt 2)) /\
  runs_list D [str "h"; str "b"] s [VStr "h"; VStr "b"] s /\ runs D (ELit "(map)" sample) s (Ok sample) s /\
  at_path sample [VStr "b"] (VInt 3).
Proof.
  cbn zeta. split; [eexists; split; [|split; [exists 1%nat; reflexivity|split; [|exact (proj1 C06_example)]]]|].
  - econstructor; [exists 1%nat; reflexivity|]. econstructor; [exists 5%nat; reflexivity|]. constructor.
  - reflexivity.
  - split; [|split; [exists 1%nat; reflexivity|]].
    + econstructor; [exists 1%nat; reflexivity|]. econstructor; [exists 1%nat; reflexivity|]. constructor.
    + eapply at_key; [reflexivity|constructor].
Qed.
Print Assumptions C06_attr_expr.
Print Assumptions C06_cell_expr.
Print Assumptions C06_pool_expr.
Print Assumptions C06_attr_to.
Print Assumptions C06_cell_to.
Print Assumptions C06_pool_to.
Print Assumptions C06_attr_to_function.
