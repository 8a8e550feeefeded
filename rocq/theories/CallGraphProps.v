(** C34, C35: call-graph queries. *)
From Verif Require Import Base CallGraphModel CallGraphSpec CallGraphProofs.
Open Scope string_scope.

(** calledBy always terminates and returns exactly the functions reachable by one or more calls *)
Theorem C34_calledBy : forall g f, exists r, called_by g f = Some r /\ forall c, In c r <-> reaches g f c.
Proof. exact calledBy_iff. Qed.
Theorem C34_hasSideEffects : forall g f,
  has_side_effects g f = Some true <-> reaches g f "cell-to" \/ reaches g f "pool-to" \/ reaches g f "pool-del".
Proof.
  intros g f. unfold has_side_effects. destruct (calledBy_iff g f) as (r & -> & H).
  rewrite <- !H, <- !inb_In. destruct (inb "cell-to" r), (inb "pool-to" r), (inb "pool-del" r); cbn; intuition congruence.
Qed.
Example C34_example : called_by [("u.f", ["u.g"; "+"]); ("u.g", ["u.f"; "cell-to"])] "u.f" = Some ["u.g"; "+"; "u.f"; "cell-to"]
  /\ reaches [("u.f", ["u.g"; "+"]); ("u.g", ["u.f"; "cell-to"])] "u.f" "u.f".
Proof.
  split; [reflexivity|]. exists 1%nat. econstructor.
  - exists ["u.g"; "+"]. split; [reflexivity|left; reflexivity].
  - econstructor; [|constructor]. exists ["u.f"; "cell-to"]. split; [reflexivity|left; reflexivity].
Qed.

Theorem C35_isRecursive : forall g f, is_recursive g f <> None /\ (is_recursive g f = Some true <-> reaches g f f).
Proof.
  intros g f. unfold is_recursive. destruct (calledBy_iff g f) as (r & -> & H). split; [congruence|].
  rewrite <- H, <- inb_In. destruct (inb f r); intuition congruence.
Qed.
(** callDepth is infinite exactly when a cycle is reachable (from f in zero or more calls), and otherwise
    the length of the longest chain of calls starting at f *)
Theorem C35_callDepth : forall g f, exists d, call_depth g f = Some d /\
  (d = Inf <-> exists k c, chain g f k c /\ reaches g c c) /\
  (forall n, d = Fin n <-> (forall k c, chain g f k c -> (k <= n)%nat) /\ (exists c, chain g f n c)).
Proof. exact callDepth_spec. Qed.
Theorem C35_hasRecursive : forall g f, has_recursive g f <> None /\
  (has_recursive g f = Some true <-> exists k c, chain g f k c /\ reaches g c c).
Proof.
  intros g f. unfold has_recursive. destruct (callDepth_spec g f) as (d & -> & H & _).
  split; [destruct d; congruence|]. rewrite <- H. destruct d; intuition congruence.
Qed.
Example C35_example : call_depth [("a", ["b"; "c"]); ("b", ["d"]); ("d", ["e"])] "a" = Some (Fin 3)
  /\ call_depth [("a", ["b"]); ("b", ["c"]); ("c", ["b"])] "a" = Some Inf
  /\ is_recursive [("a", ["b"]); ("b", ["c"]); ("c", ["b"])] "a" = Some false.
Proof. repeat split. Qed.

Print Assumptions C34_calledBy.
Print Assumptions C34_hasSideEffects.
Print Assumptions C35_callDepth.
