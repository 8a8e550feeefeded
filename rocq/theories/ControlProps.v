(** Properties C05, C38, C39, C40, C41: locks after failures, time limits, try, cast and loops. *)
From Verif Require Import Base ScopeModel CoreModel CoreInv CoreFuel CoreScopes EngineModel EngineSpec EngineProofs
  ControlSpec ControlProofs CoreDemo.
Open Scope string_scope.
Open Scope list_scope.
Open Scope Z_scope.

(** *** C41 *)
Lemma loop_fuel {A} (f : nat -> EM A) n s r s' : (forall n n', (n <= n')%nat -> le (f n) (f n')) ->
  f n s = Done r s' -> forall n', (n <= n')%nat -> f n' s = Done r s'.
Proof. intros M H n' L. destruct (M n n' L s) as [X|X]; congruence. Qed.

(** The interpreter's while loop follows the rules: condition, body, condition, ... until the condition is false. *)
Theorem C41_while : forall E p body s r s', runs E (EWhile p body) s r s' <-> while_runs E p body [] [] s r s'.
Proof.
  intros E p body s r s'. split.
  - intros [n H]. destruct n; [discriminate|]. cbn in H. eapply while_sound; eauto.
  - intros H. apply while_complete in H as [n H]. exists (S n). exact H.
Qed.
Print Assumptions C41_while.
Theorem C41_until : forall E p body s r s', runs E (EDoUntil body p) s r s' <-> until_runs E body p [] [] s r s'.
Proof.
  intros E p body s r s'. split.
  - intros [n H]. destruct n; [discriminate|]. cbn in H. eapply until_sound; eauto.
  - intros H. apply until_complete in H as [n H]. exists (S n). exact H.
Qed.
Print Assumptions C41_until.
(** A while loop that returns normally returns null, and the last thing it did was to find its condition false. *)
Theorem C41_while_stops : forall E p body s v s', runs E (EWhile p body) s (Ok v) s' ->
  v = VNull /\ exists pf bf sk b fs, block_runs E [pf; bf] [p] sk b fs s' /\ truthy b = false.
Proof.
  intros E p body s v s' H. apply C41_while in H. remember (Ok v) as r eqn:Hr. revert Hr.
  induction H; intros Hr; try discriminate; auto. injection Hr as <-. split; auto. eauto 8.
Qed.
Print Assumptions C41_while_stops.
(** If the condition is false at once, the body does not run at all. *)
Theorem C41_while_false_at_once : forall E p body s b fs s',
  block_runs E [[]; []] [p] s b fs s' -> truthy b = false -> runs E (EWhile p body) s (Ok VNull) s'.
Proof. intros. apply C41_while. eapply while_stop; eauto. Qed.
Print Assumptions C41_while_false_at_once.

(** for: initialize, then loop. *)
Theorem C41_for : forall E init p upd body s r s',
  runs E (EFor init p upd body) s r s' <->
  (exists n lf s1, in_frames [[]] (vs <== ev_named (eval E n) init ;; let_vars vs) s = Done (Ok (tt, [lf])) s1 /\
                   for_runs E p upd body [] [] lf s1 r s') \/
  (exists n e, in_frames [[]] (vs <== ev_named (eval E n) init ;; let_vars vs) s = Done (Raise e) s' /\ r = Raise e).
Proof.
  intros E init p upd body s r s'. 
  assert (L : forall n n', (n <= n')%nat -> le (vs <== ev_named (eval E n) init ;; let_vars vs) (vs <== ev_named (eval E n') init ;; let_vars vs)).
  { intros n n' Hn. apply le_bind; [|intros; apply le_refl]. apply le_named. apply le_eval, Hn. }
  split.
  - intros [n H]. destruct n; [discriminate|]. cbn [eval step] in H. unfold bind in H at 1.
    destruct (in_frames [[]] (vs <== ev_named (eval E n) init ;; let_vars vs) s) as [[[[] fs]|e] s1| |] eqn:Hi; try discriminate.
    + left. assert (B : exists lf, fs = [lf]).
      { apply frames_back in Hi; [| |discriminate].
        - apply sub_length in Hi. destruct fs as [|g1 [|]]; try discriminate. eauto.
        - apply (pres_bind _ grows_closed); [|intros; apply (pres_let _ grows_closed)].
          apply (pres_named _ grows_closed). apply (pres_eval _ grows_closed). }
      destruct B as [lf ->]. exists n, lf, s1. split; auto. eapply for_sound; eauto.
    + right. injection H as <- <-. eauto.
  - intros [(n & lf & s1 & Hi & H)|(n & e & Hi & ->)].
    + apply for_complete in H as [m H]. exists (S (n + m)). cbn [eval step]. unfold bind at 1.
      rewrite (frames_mono _ _ _ _ _ _ (L n (n + m)%nat ltac:(lia)) Hi). cbn [snd nth].
      destruct (le_for E (eval E m) (eval E (n + m)) (proj1 (le_eval E m (n + m) ltac:(lia))) p upd body m (n + m)%nat [] [] lf
                  ltac:(lia) s1) as [X|X]; congruence.
    + exists (S n). cbn [eval step]. unfold bind at 1. now rewrite Hi.
Qed.
Print Assumptions C41_for.

(** foreach evaluates its array, then takes one turn per element, in order. *)
Theorem C41_foreach : forall E x e body seq s l s1 r s',
  runs E e s (Ok (VArr l)) s1 ->
  (runs E (EForeach x e body seq) s r s' <-> each_runs E body (map (fun y => [(x, y)]) l) [] [] s1 r s').
Proof.
  intros E x e body seq s l s1 r s' [m He]. split.
  - intros [n H]. destruct n; [discriminate|]. cbn [eval step] in H. unfold bind in H.
    destruct (le_eval E n (n + m) ltac:(lia)) as [M _].
    assert (He' : eval E (n + m) e s = Done (Ok (VArr l)) s1) by (eapply eval_mono; [|exact He]; lia).
    destruct (eval E n e s) as [[v|x0] s2| |] eqn:Hn; try discriminate;
      apply (eval_mono E n (n + m)) in Hn; try lia; rewrite He' in Hn; try discriminate.
    injection Hn as <- <-. eapply each_sound; eauto.
  - intros H. apply each_complete in H as [n H]. exists (S (m + n)). cbn [eval step]. unfold bind.
    rewrite (eval_mono E m (m + n) _ _ _ _ ltac:(lia) He).
    destruct (le_each E (eval E n) (eval E (m + n)) (proj1 (le_eval E n (m + n) ltac:(lia))) (map (fun y => [(x, y)]) l) body [] [] s1)
      as [X|X]; congruence.
Qed.
Print Assumptions C41_foreach.
(** forkey-forval takes one turn per entry of the map, in the map's order. *)
Theorem C41_forkeyval : forall E k v e body s d s1 r s',
  runs E e s (Ok (VDict d)) s1 ->
  (runs E (EForkeyval k v e body) s r s' <->
   each_runs E body (map (fun kv => [(k, VStr (fst kv)); (v, snd kv)]) d) [] [] s1 r s').
Proof.
  intros E k v e body s d s1 r s' [m He]. split.
  - intros [n H]. destruct n; [discriminate|]. cbn [eval step] in H. unfold bind in H.
    assert (He' : eval E (n + m) e s = Done (Ok (VDict d)) s1) by (eapply eval_mono; [|exact He]; lia).
    destruct (eval E n e s) as [[w|x0] s2| |] eqn:Hn; try discriminate;
      apply (eval_mono E n (n + m)) in Hn; try lia; rewrite He' in Hn; try discriminate.
    injection Hn as <- <-. eapply each_sound; eauto.
  - intros H. apply each_complete in H as [n H]. exists (S (m + n)). cbn [eval step]. unfold bind.
    rewrite (eval_mono E m (m + n) _ _ _ _ ltac:(lia) He).
    destruct (le_each E (eval E n) (eval E (m + n)) (proj1 (le_eval E n (m + n) ltac:(lia)))
                (map (fun kv => [(k, VStr (fst kv)); (v, snd kv)]) d) body [] [] s1) as [X|X]; congruence.
Qed.
Print Assumptions C41_forkeyval.

(** Seen from outside: a foreach that logs its variable and then does anything else that neither logs nor declares the
    variable again, and returns, has logged exactly the elements of the array, each once, in order. *)
Definition silent (E : env) (rest : list expr) : Prop := forall s r s', runs_all E rest s r s' -> s_log s' = s_log s.
Definition declares_not (E : env) (x : string) (rest : list expr) : Prop :=
  forall s r s', runs_all E rest s r s' -> forall f ss f' ss', s_scopes s = f :: ss -> s_scopes s' = f' :: ss' ->
    has_key x f' = has_key x f.
Lemma each_logs E x rest : silent E rest -> declares_not E x rest -> forall l bf lf s v s',
  has_key x bf = false ->
  each_runs E (ELog [ERef x] :: rest) (map (fun y => [(x, y)]) l) bf lf s (Ok v) s' ->
  s_log s' = s_log s ++ map (fun y => [y]) l.
Proof.
  intros Hq Hd l. induction l as [|y l IH]; intros bf lf s v s' Hx H; cbn [map] in H; inversion H; subst.
  - now rewrite app_nil_r.
  - match goal with H : block_runs _ _ _ _ _ _ _ |- _ => destruct H as [n Hb] end.
    match goal with H : each_runs _ _ _ _ _ _ _ _ |- _ => rename H into He end.
    match goal with H : check_time E s = _ |- _ => rename H into Ht end.
    assert (Hlog : s_log s1 = s_log s).
    { unfold check_time in Ht. destruct (s_timeout s) as [t|]; [|discriminate].
      destruct (t <=? 0); [now injection Ht as <-|]. destruct (t <? _); [discriminate|]. now injection Ht as <-. }
    unfold in_frames in Hb.
    match type of Hb with context [exec E n ?es ?s0] => destruct (exec E n es s0) as [[w|e] sb| |] eqn:Hbody end; try discriminate.
    injection Hb as _ Hfs <-. unfold exec, run in Hbody. cbn [mapE] in Hbody.
    destruct n as [|n]; [discriminate|]. unfold bind at 1 2 in Hbody. cbn [eval step] in Hbody. unfold bind at 1 in Hbody.
    cbn [mapE] in Hbody. unfold bind at 1 in Hbody.
    destruct n as [|n]; [discriminate|]. cbn [eval step] in Hbody. cbn [s_scopes set_scopes app scope_get] in Hbody.
    assert (assoc x bf = None) as Hn by (unfold has_key in Hx; destruct (assoc x bf); [discriminate|auto]).
    rewrite Hn in Hbody. cbn [frame_let] in Hbody. rewrite assoc_set_eq in Hbody. cbn in Hbody.
    match type of Hbody with context [bind (mapE ?f rest) _ ?s0] => set (s_in := s0) in *;
      destruct (mapE f rest s_in) as [[vs|e] sb'| |] eqn:Hrest end; unfold bind at 1 in Hbody; rewrite Hrest in Hbody; try discriminate.
    assert (sb' = sb) as -> by (injection Hbody; auto).
    change (mapE (eval E (S (S n))) rest s_in = Done (Ok vs) sb) in Hrest.
    assert (R : runs_all E rest s_in (Ok (last_or_null vs)) sb).
    { exists (S (S n)). unfold exec, run, bind. now rewrite Hrest. }
    specialize (Hq _ _ _ R). specialize (Hd _ _ _ R).
    assert (G : sub_scopes (s_scopes s_in) (s_scopes sb)).
    { destruct R as [k R]. apply grows_exec in R. apply R. unfold s_in. cbn. discriminate. }
    unfold s_in in G. cbn in G. destruct (s_scopes sb) as [|g1 m1] eqn:Q; [inversion G|].
    assert (bf1 = g1) as -> by (cbn in Hfs; congruence).
    apply IH in He.
    + rewrite He. cbn [s_log set_scopes]. rewrite Hq. unfold s_in. cbn. rewrite Hlog, <- app_assoc. reflexivity.
    + erewrite Hd; [exact Hx|reflexivity|reflexivity].
Qed.
Theorem C41_foreach_in_order : forall E x e rest seq s l s1 v s',
  runs E e s (Ok (VArr l)) s1 -> silent E rest -> declares_not E x rest ->
  runs E (EForeach x e (ELog [ERef x] :: rest) seq) s (Ok v) s' ->
  s_log s' = s_log s1 ++ map (fun y => [y]) l.
Proof.
  intros E x e rest seq s l s1 v s' He Hq Hd H. apply (C41_foreach _ _ _ _ _ _ _ _ _ _ He) in H.
  eapply each_logs; [exact Hq|exact Hd| |exact H]. reflexivity.
Qed.
Print Assumptions C41_foreach_in_order.
Example C41_example :
  let E := demo_env [] (fun _ => 0) in
  let s := set_timing (Some (-1)) 0 (set_scopes [[("n", VInt 0)]] (load (demo_doc MMap []))) in
  silent E [int 1] /\ declares_not E "x" [int 1] /\
  (exists s', runs E (EForeach "x" (ENewArr [int 4; int 5; int 6]) [ELog [ERef "x"]; int 1] true) s (Ok VNull) s' /\
              s_log s' = [[VInt 4]; [VInt 5]; [VInt 6]]) /\
  (exists s', runs E (EWhile (ECall "<" [AExpr (ERef "n"); AExpr (int 3)]) [ESet [("n", add (ERef "n") (int 1))]]) s (Ok VNull) s' /\
              scope_get "n" (s_scopes s') = Ok (VInt 3)).
Proof.
  assert (P : forall E s r s', runs_all E [int 1] s r s' -> s' = s).
  { intros E s r s' [n H]. destruct n; [discriminate|]. cbn in H. unfold exec, run, bind in H. cbn in H. unfold bind in H. cbn in H. injection H; auto. }
  split; [|split; [|split]].
  - intros s r s' R. now rewrite (P _ _ _ _ R).
  - intros s r s' R f ss f' ss' H1 H2. rewrite (P _ _ _ _ R) in H2. congruence.
  - eexists. split; [exists 9%nat; vm_compute; reflexivity|reflexivity].
  - eexists. split; [exists 9%nat; vm_compute; reflexivity|reflexivity].
Qed.

(** *** C39 *)
(** try with its body's outcome [r]. *)
Lemma try_runs E es flt s r s1 : runs_all E es s r s1 ->
  forall r' s', runs E (ETry es flt) s r' s' <->
    Done r' s' = match r with Ok v => Done (Ok v) s1 | Raise e => handle E flt e s1 end.
Proof.
  intros [m Hm] r' s'. split.
  - intros [n H]. destruct n; [discriminate|]. cbn [eval step] in H. unfold bind, attempt in H.
    change (run (eval E n) es) with (exec E n es) in H.
    destruct (exec E n es s) as [x s2| |] eqn:Hx; try discriminate.
    apply (exec_mono E n (n + m)) in Hx; [|lia]. apply (exec_mono E m (n + m)) in Hm; [|lia].
    rewrite Hm in Hx. injection Hx as <- <-. destruct r; symmetry; exact H.
  - intros H. exists (S m). cbn [eval step]. unfold bind, attempt. change (run (eval E m) es) with (exec E m es). rewrite Hm.
    destruct r; symmetry; exact H.
Qed.
Lemma in_filter_spec E e flt : pfa_exception e -> exists b, in_filter E e flt = Some b /\ (b = true <-> matches E e flt).
Proof.
  intros H.
  assert (M : forall m, existsb (fun f => match f with inl m' => String.eqb m m' | inr _ => false end) flt = true <-> In (inl m) flt).
  { intros m. rewrite existsb_exists. split.
    - intros ([m'|c] & Hi & Hm); [|discriminate]. apply String.eqb_eq in Hm. now subst.
    - intros Hi. eexists. split; [exact Hi|]. apply String.eqb_refl. }
  assert (C : forall c, existsb (fun f : string + Z => match f with inl _ => false | inr c' => c =? c' end) flt = true <-> In (inr c) flt).
  { intros c. rewrite existsb_exists. split.
    - intros ([m'|c'] & Hi & Hm); [discriminate|]. apply Z.eqb_eq in Hm. now subst.
    - intros Hi. eexists. split; [exact Hi|]. apply Z.eqb_refl. }
  unfold matches. destruct e; try contradiction; cbn.
  - eexists. split; [reflexivity|]. rewrite Bool.orb_true_iff, M, C. split.
    + intros [?|?]; eauto.
    + intros [(m & [= <-] & ?)|(c & [= <-] & ?)]; auto.
  - eexists. split; [reflexivity|]. rewrite Bool.orb_true_iff, M. split.
    + intros [?|?]; eauto. destruct code; [|discriminate]. apply C in H0. eauto.
    + intros [(m & [= <-] & ?)|(c & -> & ?)]; auto. right. now apply C.
Qed.
(** The body returns: try returns its value. *)
Theorem C39_value : forall E es flt s v s', runs_all E es s (Ok v) s' -> runs E (ETry es flt) s (Ok v) s'.
Proof. intros. eapply try_runs; eauto. Qed.
Print Assumptions C39_value.
(** The body raises and there is no filter: null, whatever was raised; the effects of the body stay. *)
Theorem C39_no_filter : forall E es s e s', runs_all E es s (Raise e) s' -> runs E (ETry es None) s (Ok VNull) s'.
Proof. intros. eapply try_runs; eauto. Qed.
Print Assumptions C39_no_filter.
(** The body raises a runtime or user exception: null when the filter matches, else the same exception again. *)
Theorem C39_filter : forall E es flt s e s', pfa_exception e -> runs_all E es s (Raise e) s' ->
  (matches E e flt -> runs E (ETry es (Some flt)) s (Ok VNull) s') /\
  (~ matches E e flt -> runs E (ETry es (Some flt)) s (Raise e) s').
Proof.
  intros E es flt s e s' P H. destruct (in_filter_spec E e flt P) as (b & Hb & Hm).
  split; intros M; eapply try_runs; eauto; cbn; rewrite Hb.
  - now rewrite (proj2 Hm M).
  - destruct b; [exfalso; apply M, Hm; auto|]. reflexivity.
Qed.
Print Assumptions C39_filter.
(** The last clause of C39, "otherwise the exception propagates unchanged", fails for exceptions that are not PFA's own:
    with a filter, a timeout (or a Python exception) is replaced by an AttributeError (genpy.py:1297 reads err.message). *)
Theorem C39_refuted : exists E es flt s s',
  runs_all E es s (Raise TimeoutErr) s' /\ runs E (ETry es (Some flt)) s (Raise (PyErr "AttributeError")) s'.
Proof.
  exists (demo_env [] (fun k => 100 * Z.of_nat k)),
    [EForeach "x" (ENewArr [int 1]) [int 2] true], [inl "array index not found"],
    (set_tick 1 (set_timing (Some 50) 0 (set_scopes [[]] (load (demo_doc MMap []))))).
  eexists. split; exists 6%nat; vm_compute; reflexivity.
Qed.
Print Assumptions C39_refuted.
(** ... and without a filter try swallows the timeout, so a time limit can be defeated. *)
Theorem C39_timeout_swallowed : forall E es s s', runs_all E es s (Raise TimeoutErr) s' -> runs E (ETry es None) s (Ok VNull) s'.
Proof. intros E es s s' H. eapply C39_no_filter; eauto. Qed.
Print Assumptions C39_timeout_swallowed.
Example C39_example :
  let E := demo_env [] (fun _ => 0) in
  let s := set_scopes [[]] (load (demo_doc MMap [])) in
  (exists s', runs_all E [EError "bad" (Some 3)] s (Raise (UserErr "bad" (Some 3))) s') /\
  matches E (UserErr "bad" (Some 3)) [inr 3] /\ ~ matches E (UserErr "bad" (Some 3)) [inl "good"; inr 4].
Proof.
  split; [|split].
  - eexists. exists 1%nat. reflexivity.
  - right. exists 3. split; [reflexivity|cbn; auto].
  - intros [(m & [= <-] & H)|(c & [= <-] & H)]; cbn in H; firstorder discriminate.
Qed.

(** *** C40 *)
Lemma tag_matches_spec tag name : tag_matches tag name = true <-> narrower tag name.
Proof.
  unfold tag_matches, narrower. cbn [existsb In]. rewrite !Bool.orb_true_iff, !Bool.andb_true_iff, !Bool.orb_true_iff, !String.eqb_eq.
  intuition (subst; auto; try discriminate).
Qed.
Lemma cast_value_spec E fu v ty u : cast_value fu v (e_tyname E ty) = Some u <-> seen_as E fu ty v u.
Proof.
  split.
  - intros H. unfold cast_value in H. destruct fu; [|injection H as <-; apply seen_plain; auto].
    destruct v; try (injection H as <-; apply seen_plain; right; discriminate).
    destruct d as [|[tag w] [|]]; try (injection H as <-; apply seen_plain; right; discriminate).
    destruct (tag_matches tag _) eqn:T; [|discriminate]. injection H as <-. apply tag_matches_spec in T. now constructor.
  - intros H. inversion H as [tag w -> T|? N]; subst; cbn.
    + apply tag_matches_spec in T. now rewrite T.
    + unfold cast_value. destruct fu; auto. destruct N as [N|N]; [discriminate|].
      destruct u; auto. destruct d as [|[tag w] [|]]; auto. now destruct (N tag w).
Qed.
Lemma cast_skip E n fu pa v cs1 cs2 : Forall (fun c => rejected E fu (snd (fst c)) v) cs1 ->
  cast_cases E (eval E n) fu pa v (cs1 ++ cs2) = cast_cases E (eval E n) fu pa v cs2.
Proof.
  induction 1 as [|[[name ty] body] cs1 H _ IH]; [reflexivity|]. cbn in H |- *.
  destruct (cast_value fu v (e_tyname E ty)) as [u|] eqn:Hu; [|exact IH].
  apply cast_value_spec in Hu. destruct (H u Hu) as [->| ->]; exact IH.
Qed.
Lemma seen_fun E fu ty v u1 u2 : seen_as E fu ty v u1 -> seen_as E fu ty v u2 -> u1 = u2.
Proof. intros H1 H2. apply cast_value_spec in H1, H2. congruence. Qed.
(** The first case that accepts the value decides: its body runs, in a new scope, with its variable bound to the value.
    A partial cast block returns null afterwards. *)
Theorem C40_first_match : forall E e fu cs1 name ty body cs2 partial s v s1 w,
  runs E e s (Ok v) s1 ->
  Forall (fun c => rejected E fu (snd (fst c)) v) cs1 -> accepted E fu ty v w ->
  (forall o fs s', block_runs E [[(name, w)] : frame] body s1 o fs s' ->
     runs E (ECast e fu (cs1 ++ (name, ty, body) :: cs2) partial) s (Ok (if partial then VNull else o)) s') /\
  (forall x s', block_fails E [[(name, w)] : frame] body s1 x s' ->
     runs E (ECast e fu (cs1 ++ (name, ty, body) :: cs2) partial) s (Raise x) s').
Proof.
  intros E e fu cs1 name ty body cs2 partial s v s1 w [m He] Hr (u & Hu & Hd). apply cast_value_spec in Hu. split.
  - intros o fs s' [n Hb]. exists (S (m + n)). cbn [eval step]. unfold bind at 1.
    rewrite (eval_mono E m (m + n) _ _ _ _ ltac:(lia) He), cast_skip by exact Hr. cbn [cast_cases]. rewrite Hu, Hd.
    apply (block_mono E n (m + n)) in Hb; [|lia]. unfold exec in Hb. unfold in_frame, bind. rewrite Hb. reflexivity.
  - intros x s' [n Hb]. exists (S (m + n)). cbn [eval step]. unfold bind at 1.
    rewrite (eval_mono E m (m + n) _ _ _ _ ltac:(lia) He), cast_skip by exact Hr. cbn [cast_cases]. rewrite Hu, Hd.
    apply (block_mono E n (m + n)) in Hb; [|lia]. unfold exec in Hb. unfold in_frame, bind. rewrite Hb. reflexivity.
Qed.
Print Assumptions C40_first_match.
(** If no case accepts it, no body runs and the block returns null (even when it is not partial). *)
Theorem C40_no_match : forall E e fu cases partial s v s1,
  runs E e s (Ok v) s1 -> Forall (fun c => rejected E fu (snd (fst c)) v) cases ->
  runs E (ECast e fu cases partial) s (Ok VNull) s1.
Proof.
  intros E e fu cases partial s v s1 [m He] Hr. exists (S m). cbn [eval step]. unfold bind. rewrite He.
  rewrite <- (app_nil_r cases), cast_skip by exact Hr. reflexivity.
Qed.
Print Assumptions C40_no_match.
Example C40_example :
  let E := demo_env [] (fun _ => 0) in
  rejected E true "string" (VDict [("int", VInt 3)]) /\ accepted E true "int" (VDict [("int", VInt 3)]) (VInt 3).
Proof.
  split.
  - intros u H. inversion H as [tag w _ T|? N]; subst.
    + destruct T as [T|[[_ T]|[[T _]|[T _]]]]; cbn in T; firstorder discriminate.
    + destruct N as [N|N]; [discriminate|]. now destruct (N "int" (VInt 3)).
  - exists (VInt 3). split; [|reflexivity]. apply seen_tagged; auto. now left.
Qed.

(** *** C38 *)
(** The check made at every turn of a loop: it raises exactly when there is a limit and it is exceeded. *)
Theorem C38_check : forall E s t, s_timeout s = Some t ->
  exists s', check_time E s = Done (if (0 <? t) && (t <? e_time E (s_tick s) - s_start s) then Raise TimeoutErr else Ok tt) s'.
Proof.
  intros E s t H. unfold check_time. rewrite H. destruct (Z.leb_spec t 0), (Z.ltb_spec 0 t); try lia; [eexists; reflexivity|].
  cbn. destruct (t <? _); eexists; reflexivity.
Qed.
Print Assumptions C38_check.
(** Whatever an expression does, the limit and the starting time in force stay those of the method being run. *)
Theorem C38_limit_stable : forall E e s r s', runs E e s r s' -> s_timeout s' = s_timeout s /\ s_start s' = s_start s.
Proof. intros E e s r s' [n H]. apply (pres_eval _ stable_closed) in H. split; apply H. Qed.
Print Assumptions C38_limit_stable.
Lemma combined_spec k host : NoDup (keys host) -> forall req,
  assoc k (combined_options req host) = match assoc k host with Some v => Some v | None => assoc k req end.
Proof.
  unfold combined_options. induction host as [|[k' v] host IH]; intros Hn req; cbn [fold_left]; [reflexivity|].
  inversion Hn as [|? ? Hk Hn']; subst. rewrite IH by exact Hn'. cbn. destruct (String.eqb_spec k k') as [->|N].
  - destruct (assoc k' host) eqn:A; [|apply assoc_set_eq]. exfalso. apply Hk. clear -A.
    induction host as [|[k v] host IH]; [discriminate|]. cbn in *. destruct (String.eqb_spec k' k); auto.
  - now rewrite assoc_set_neq by exact N.
Qed.
(** The option "timeout" given by the document or the host (the host wins) is the limit of begin, action and end alike. *)
Theorem C38_timeout_option_partial : forall E D req host t s,
  d_options D = engine_options req host ->
  (assoc "timeout" host = Some t \/ (assoc "timeout" host = None /\ assoc "timeout" req = Some t)) -> NoDup (keys host) ->
  s_timeout (start E D RAction s) = Some t /\ s_timeout (start E D RBegin s) = Some t /\ s_timeout (start E D REnd s) = Some t.
Proof.
  intros E D req host t s Ho Ht Hn. cbn. rewrite Ho.
  assert (X : assoc "timeout" (combined_options req host) = Some t).
  { rewrite combined_spec by exact Hn. destruct Ht as [->|[-> ->]]; reflexivity. }
  unfold engine_options, long_opt. cbn. rewrite X. auto.
Qed.
Print Assumptions C38_timeout_option_partial.
(** The full claim fails: a limit set for begin alone, "timeout.begin", is never looked at. *)
Theorem C38_refuted : exists D E s,
  d_options D = engine_options [("timeout.begin", 5)] [] /\
  begin E D 6 (load D) = Done (Ok tt) s /\ s_tick s = 1%nat /\ s_timeout s = Some (-1) /\
  (* although the clock passed 5 ms between begin's start and every later reading *)
  forall k, (1 <= k)%nat -> 5 < e_time E k - s_start s.
Proof.
  exists (let D := demo_doc MMap [] in
          {| d_method := MMap; d_begin := [EForeach "x" (ENewArr [int 1; int 2]) [int 2] true]; d_action := []; d_end := [];
             d_merge := None; d_zero := VNull; d_cells := []; d_pools := []; d_name := VNull; d_instance := VNull;
             d_metadata := VNull; d_version := None; d_check := fun v => Ok v; d_options := engine_options [("timeout.begin", 5)] [] |}),
         (demo_env [] (fun k => 100 * Z.of_nat k)).
  eexists. split; [reflexivity|]. split; [vm_compute; reflexivity|]. split; [reflexivity|]. split; [reflexivity|].
  intros k Hk. cbn [demo_env e_time s_start]. lia.
Qed.
Print Assumptions C38_refuted.
(** In merge there is no limit attribute at all: the first turn of any loop raises AttributeError. *)
Theorem C38_merge_refuted : forall E D s, check_time E (start E D RMerge s) = Done (Raise (PyErr "AttributeError")) (start E D RMerge s).
Proof. reflexivity. Qed.
Print Assumptions C38_merge_refuted.

(** With a limit, and a clock that eventually passes it, a while loop cannot run for ever: if its condition and body come
    back from every state, then so does the loop. *)
Definition comes_back (E : env) (es : list expr) : Prop :=
  forall fs s, s_scopes s <> [] -> exists n r s', in_frames fs (exec E n es) s = Done r s'.
Definition ticks (s s' : st) : Prop :=
  (s_tick s <= s_tick s')%nat /\ s_timeout s' = s_timeout s /\ s_start s' = s_start s.
Lemma ticks_closed : closed ticks.
Proof.
  destruct (closed_any_scopes ticks) as (A1 & A2 & A3 & A4).
  { unfold ticks. intros s1 s2 s3 (?&?&?) (?&?&?). repeat split; try congruence; lia. }
  { intros s x. unfold ticks. cbn. auto. }
  split; try assumption; unfold ticks; cbn; intros; auto.
  - intuition (try congruence; lia).
Qed.
Lemma ticks_block E n fs es s r s' : in_frames fs (exec E n es) s = Done r s' -> ticks s s'.
Proof. apply (pres_frames _ ticks_closed). apply (pres_exec _ ticks_closed). Qed.
Lemma scopes_block E n fs es s r s' : in_frames fs (exec E n es) s = Done r s' -> s_scopes s <> [] -> s_scopes s' <> [].
Proof.
  intros H N. assert (G : grows s s') by (apply (pres_frames _ grows_closed) in H; [exact H|apply (pres_exec _ grows_closed)]).
  specialize (G N). intros Z. rewrite Z in G. inversion G. congruence.
Qed.
Theorem C38_while_ends : forall E p body s t N,
  s_timeout s = Some t -> 0 < t -> (forall k, (N <= k)%nat -> t < e_time E k - s_start s) ->
  s_scopes s <> [] -> comes_back E [p] -> comes_back E body ->
  exists r s', runs E (EWhile p body) s r s'.
Proof.
  intros E p body s t N Ht Hpos Hclock Hss Hp Hb.
  assert (G : forall d pf bf s, (N - s_tick s <= d)%nat -> s_timeout s = Some t -> (forall k, (N <= k)%nat -> t < e_time E k - s_start s) ->
              s_scopes s <> [] -> exists r s', while_runs E p body pf bf s r s').
  { induction d as [|d IH]; intros pf bf s0 Hd H0 Hc0 Hs0;
      (destruct (Hp [pf; bf] s0 Hs0) as (n & [[b fs]|e] & s1 & H1);
       [|do 2 eexists; apply while_cond_fails; exists n; exact H1]);
      (destruct (truthy b) eqn:Htr; [|do 2 eexists; eapply while_stop; [exists n; exact H1|exact Htr]]);
      pose proof (ticks_block _ _ _ _ _ _ _ H1) as (T1 & T2 & T3);
      pose proof (scopes_block _ _ _ _ _ _ _ H1 Hs0) as Hs1;
      (destruct (check_time E s1) as [[[]|e] s2| |] eqn:Hct;
       [|do 2 eexists; eapply while_timeout; [exists n; exact H1|exact Htr|exact Hct]| |]);
      unfold check_time in Hct; rewrite T2, H0 in Hct;
      (destruct (Z.leb_spec t 0); [lia|]);
      (destruct (Z.ltb_spec t (e_time E (s_tick s1) - s_start s1)); try discriminate).
    - rewrite T3 in *. specialize (Hc0 (s_tick s1) ltac:(lia)). lia.
    - injection Hct as <-.
      destruct (two_back _ _ _ _ _ _ _ _ _ H1) as (pf1 & bf1 & ->).
      destruct (Hb [bf1] (set_tick (S (s_tick s1)) s1) Hs1) as (n2 & [[v fs]|e] & s3 & H3).
      + destruct (one_back _ _ _ _ _ _ _ _ H3) as [bf2 ->].
        pose proof (ticks_block _ _ _ _ _ _ _ H3) as (U1 & U2 & U3). cbn in U1, U2, U3.
        pose proof (scopes_block _ _ _ _ _ _ _ H3 Hs1) as Hs3.
        assert (Hc3 : forall k, (N <= k)%nat -> t < e_time E k - s_start s3) by (intros k Hk; specialize (Hc0 k Hk); rewrite U3, T3; exact Hc0).
        assert (Hlt : (s_tick s1 < N)%nat).
        { destruct (Nat.lt_ge_cases (s_tick s1) N); auto. specialize (Hc0 (s_tick s1) H4). rewrite <- T3 in Hc0. lia. }
        destruct (IH pf1 bf2 s3) as (r & s' & Hw); [lia|congruence|exact Hc3|exact Hs3|].
        exists r, s'. eapply while_again; [exists n; exact H1|exact Htr| |exists n2; exact H3|exact Hw].
        unfold check_time. rewrite T2, H0. destruct (Z.leb_spec t 0); [lia|].
        destruct (Z.ltb_spec t (e_time E (s_tick s1) - s_start s1)); [lia|]. reflexivity.
      + do 2 eexists. eapply while_body_fails; [exists n; exact H1|exact Htr| |exists n2; exact H3].
        unfold check_time. rewrite T2, H0. destruct (Z.leb_spec t 0); [lia|].
        destruct (Z.ltb_spec t (e_time E (s_tick s1) - s_start s1)); [lia|]. reflexivity. }
  destruct (G _ [] [] s (Nat.le_refl _) Ht Hclock Hss) as (r & s' & H). exists r, s'. now apply C41_while.
Qed.
Print Assumptions C38_while_ends.
Example C38_example :
  let E := demo_env [] (fun k => 10 * Z.of_nat k) in
  let s := set_timing (Some 50) 0 (set_scopes [[]] (load (demo_doc MMap []))) in
  comes_back E [ELit "(boolean)" (VBool true)] /\ comes_back E [int 1] /\
  (exists s', runs E (EWhile (ELit "(boolean)" (VBool true)) [int 1]) s (Raise TimeoutErr) s' /\ s_tick s' = 7%nat).
Proof.
  assert (P : forall E d v, comes_back E [ELit d v]).
  { intros E d v fs s _. exists 1%nat. unfold in_frames, exec, run, bind. cbn. unfold bind. cbn. eauto. }
  split; [apply P|]. split; [apply P|]. eexists. split; [exists 20%nat; vm_compute; reflexivity|reflexivity].
Qed.

(** *** C05 *)
(** An update of a shared cell that returns has released the lock and stored what it returned at the path. *)
Theorem C05_success_partial : forall E c path to s v s' x,
  runs E (ECellTo c path to) s (Ok v) s' -> assoc c (s_cells s) = Some x -> c_shared x = true ->
  exists y, assoc c (s_cells s') = Some y /\ c_shared y = true /\ c_locked y = false /\ c_value y = v.
Proof.
  intros E c path to s v s' x [n H] Hx Hs. destruct n; [discriminate|]. cbn [eval step] in H.
  assert (M : forall A (m : EM A) s r s', pres stable m -> m s = Done r s' -> forall x, assoc c (s_cells s) = Some x ->
             exists y, assoc c (s_cells s') = Some y /\ c_shared y = c_shared x).
  { intros A m s0 r s0' Hm Hr x0 Hx0. apply Hm in Hr. pose proof (f_equal (assoc c) (sb_cells _ _ Hr)) as X.
    rewrite !assoc_map_vals, Hx0 in X. destruct (assoc c (s_cells s0')) as [y|]; [|discriminate]. cbn in X.
    injection X as X1 X2 X3. eauto. }
  unfold bind in H at 1. destruct (mapE (eval E n) path s) as [[ks|e] s1| |] eqn:H1; try discriminate.
  unfold bind in H at 1. destruct (ev_arg (eval E n) to s1) as [[t|e] s2| |] eqn:H2; try discriminate.
  destruct (M _ _ _ _ _ (pres_evs _ stable_closed (eval E n) (proj1 (pres_eval _ stable_closed E n)) path) H1 x Hx) as (x1 & Hx1 & S1).
  destruct (M _ _ _ _ _ (pres_arg _ stable_closed (eval E n) (proj1 (pres_eval _ stable_closed E n)) to) H2 x1 Hx1) as (x2 & Hx2 & S2).
  unfold bind in H at 1. cbn [modify] in H. unfold cell_update in H. unfold bind in H at 1. unfold get_cell in H.
  cbn [s_cells add_trace] in H. rewrite Hx2 in H. rewrite S2, S1, Hs in H. destruct (c_locked x2); [discriminate|].
  unfold bind in H at 1. unfold upd_cell in H at 1. cbn [s_cells add_trace] in H. rewrite Hx2 in H.
  unfold bind in H at 1.
  destruct (update_path _ _ _ _ _ _) as [[w|e] s3| |] eqn:H3 in H; try discriminate.
  assert (exists y3, assoc c (s_cells s3) = Some y3 /\ c_shared y3 = true) as (y3 & Hy3 & S3).
  { assert (P : forall t old ks, pres stable (update_path (update_leaf E (apply E n) t) old ks 2006 2007)).
    { intros. apply (pres_update_path _ stable_closed). intros o. apply (pres_leaf _ stable_closed). apply (pres_eval _ stable_closed). }
    destruct (M _ _ _ _ _ (P _ _ _) H3 (cell_lock true x2)) as (y3 & A & B); [apply assoc_set_eq|].
    exists y3. split; [exact A|]. rewrite B. cbn. congruence. }
  unfold bind in H. unfold upd_cell in H at 1. rewrite Hy3 in H. unfold upd_cell in H at 1. cbn [s_cells set_cells] in H.
  rewrite assoc_set_eq in H. cbn in H. injection H as <- <-. cbn [s_cells set_cells]. eexists.
  split; [apply assoc_set_eq|]. cbn. auto.
Qed.
Print Assumptions C05_success_partial.
(** But an update that raises keeps the lock: the next update of the cell, in a later call, blocks for ever. *)
Definition c05_doc : doc :=
  {| d_method := MMap;
     d_begin := []; d_action := [ECellTo "c" [] (AFcn ["old"] [EIf (ECall "<" [AExpr (ERef "input"); AExpr (int 0)]) [EError "negative" None] None; ERef "input"])];
     d_end := []; d_merge := None; d_zero := VNull; d_cells := [("c", CellDecl (VInt 0) true false)]; d_pools := [];
     d_name := VNull; d_instance := VNull; d_metadata := VNull; d_version := None; d_check := fun v => Ok v; d_options := no_limit |}.
Theorem C05_refuted :
  let E := demo_env [] (fun _ => 0) in
  exists s1 s2, action E c05_doc 9 (VInt 3) (load c05_doc) = Done (Ok (VInt 3)) s1 /\
    action E c05_doc 9 (VInt (-1)) s1 = Done (Raise (UserErr "negative" None)) s2 /\
    (forall n input, (9 <= n)%nat -> action E c05_doc n input s2 = Blocked).
Proof.
  eexists. eexists. split; [vm_compute; reflexivity|]. split; [vm_compute; reflexivity|].
  intros n input Hn. do 9 (destruct n as [|n]; [lia|]). reflexivity.
Qed.
Print Assumptions C05_refuted.
(** In general: in any state in which the lock is held, any update of the cell blocks as soon as its path and argument are
    evaluated - no history can release it, since the holder is gone. *)
Theorem C05_stuck : forall E c to s x n, assoc c (s_cells s) = Some x -> c_shared x = true -> c_locked x = true ->
  match to with AExpr _ => False | _ => True end ->
  eval E (S n) (ECellTo c [] to) s = Blocked.
Proof.
  intros E c to s x n Hx Hs Hl Ht. cbn [eval step mapE]. destruct to; [contradiction| | |]; cbn [ev_arg];
    unfold bind, ret, modify, cell_update, bind, get_cell; cbn [s_cells add_trace]; rewrite Hx, Hs, Hl; reflexivity.
Qed.
Print Assumptions C05_stuck.
