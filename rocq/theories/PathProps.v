(** Properties C06 and C07: reading and updating along a path. *)
From Verif Require Import Base ScopeModel CoreModel PathSpec PathProofs.
Open Scope string_scope.
Open Scope Z_scope.

(** *** C06 *)
(** Updating at a path that exists, with a value or with a function returning [v] (possibly with effects on the
    state): the result has [v] at that path, and every diverging path reads exactly as before (same value or same error).
    The original value is not changed: the model is functional, the code copies every list and dict on the way
    (genpy.py:687-704). *)
Theorem C06_update_laws : forall leaf obj p old a m s v s',
  at_path obj p old -> leaf old s = Done (Ok v) s' ->
  exists obj', update_path leaf obj p a m s = Done (Ok obj') s' /\
    (forall a' m', get_path obj' p a' m' = Ok v) /\
    (forall q a' m', diverge p q -> get_path obj' q a' m' = get_path obj q a' m').
Proof.
  intros leaf obj p old a m s v s' H Hl.
  destruct (update_path_at leaf obj p old a m s v s' H Hl) as (obj' & E & A & D).
  exists obj'. split; [exact E|]. split; [|exact D]. intros a' m'. now apply get_path_at.
Qed.
Print Assumptions C06_update_laws.
(** Reading finds exactly what is there. *)
Theorem C06_get : forall obj p w a m, at_path obj p w -> get_path obj p a m = Ok w.
Proof. intros. now apply get_path_at. Qed.
Print Assumptions C06_get.
(** An exception in the updating function leaves the caller with that exception. *)
Theorem C06_update_raises : forall leaf obj p old a m s e s',
  at_path obj p old -> leaf old s = Done (Raise e) s' ->
  update_path leaf obj p a m s = Done (Raise e) s'.
Proof.
  intros leaf obj p old a m s e s' H Hl. induction H as [w|d k w p o Hk _ IH|l i w p o Hi _ IH].
  - exact Hl.
  - cbn. rewrite Hk. unfold bind. now rewrite IH by auto.
  - assert (Hlt : (i < length l)%nat) by (apply nth_error_Some; congruence).
    cbn [update_path]. cbn zeta.
    destruct (Z.of_nat (length l) <=? Z.of_nat i) eqn:E1; [apply Z.leb_le in E1; lia|].
    destruct (Z.of_nat i <? 0) eqn:E2; [apply Z.ltb_lt in E2; lia|].
    rewrite andb_false_r. cbn [orb]. rewrite Nat2Z.id. rewrite (nth_error_nth _ _ _ Hi).
    unfold bind. now rewrite IH by auto.
Qed.
Print Assumptions C06_update_raises.
Definition sample : val := VDict [("a", VArr [VInt 1; VInt 2]); ("b", VInt 3)].
Example C06_example :
  at_path sample [VStr "a"; VInt 1] (VInt 2) /\
  diverge [VStr "a"; VInt 1] [VStr "a"; VInt 0] /\ diverge [VStr "a"; VInt 1] [VStr "b"].
Proof.
  split; [|split].
  - eapply at_key; [reflexivity|]. apply (at_item _ 1 (VInt 2)); [reflexivity|constructor].
  - exists [VStr "a"], (VInt 1), (VInt 0), [], []. repeat split; cbn; congruence || lia.
  - exists [], (VStr "a"), (VStr "b"), [VInt 1], []. repeat split; cbn; congruence.
Qed.

(** *** C07 *)
(** Reading a missing place is reported with the error code of its kind. *)
Theorem C07_get_reports : forall obj before k more a m code,
  missing_at obj before k a m code -> get_path obj (before ++ k :: more)%list a m = Raise (PFAErr code).
Proof. intros. now apply get_path_missing. Qed.
Print Assumptions C07_get_reports.
(** The claim does not hold for updates: if the missing step is the last one, the update is silently ignored. *)
Theorem C07_refuted : exists obj before k,
  missing_at obj before k 2002 2003 2003 /\
  forall v s, update_path (fun _ => ret v) obj (before ++ [k])%list 2002 2003 s = Done (Ok obj) s.
Proof.
  exists sample, [], (VStr "c"). split.
  - exists sample. split; [constructor|]. cbn. auto.
  - reflexivity.
Qed.
Print Assumptions C07_refuted.
(** ... always, for maps and arrays, at any depth, and the updating function is not even called. *)
Theorem C07_last_step_ignored : forall leaf obj before k a m code s,
  missing_at obj before k a m code -> update_path leaf obj (before ++ [k])%list a m s = Done (Ok obj) s.
Proof. intros. eapply update_path_missing_last; eauto. Qed.
Print Assumptions C07_last_step_ignored.
(** What is true: a missing step before the last is reported as reading reports it, and nothing changes.
    Missing: the last step (refuted). *)
Theorem C07_update_reports_partial : forall leaf obj before k more a m code s,
  missing_at obj before k a m code -> more <> [] ->
  update_path leaf obj (before ++ k :: more)%list a m s = Done (Raise (PFAErr code)) s.
Proof. intros. now apply update_path_missing_inner. Qed.
Print Assumptions C07_update_reports_partial.
(** Reading accepts a negative position and counts it from the end; updating reports it. *)
Theorem C07_negative_position : forall l i a m leaf s p,
  - Z.of_nat (length l) <= i < 0 ->
  get_path (VArr l) [VInt i] a m = Ok (nth (Z.to_nat (Z.of_nat (length l) + i)) l VNull) /\
  update_path leaf (VArr l) (VInt i :: p) a m s = Done (Raise (PFAErr a)) s.
Proof.
  intros l i a m leaf s p H. split.
  - cbn [get_path get_one]. destruct (i <? 0) eqn:E; [|apply Z.ltb_ge in E; lia].
    destruct (0 <=? _) eqn:E1; [|apply Z.leb_gt in E1; lia].
    destruct (_ + i <? _) eqn:E2; [|apply Z.ltb_ge in E2; lia]. reflexivity.
  - cbn [update_path]. cbn zeta. destruct (i <? 0) eqn:E; [|apply Z.ltb_ge in E; lia]. now rewrite orb_true_r.
Qed.
Print Assumptions C07_negative_position.
Example C07_example :
  missing_at sample [VStr "a"] (VInt 5) 2002 2003 2002 /\ - Z.of_nat (length [VNull]) <= -1 < 0.
Proof.
  split; [|cbn; lia]. exists (VArr [VInt 1; VInt 2]). split; [|cbn; lia].
  eapply at_key; [reflexivity|constructor].
Qed.
