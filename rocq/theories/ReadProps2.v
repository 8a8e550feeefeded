(** Which trees and documents the reader gives, and that each of them is read from its own JSON (C45, C46). *)
From Verif Require Import Base PyNum ScopeModel ReadModel ReadSpec ReadSpec2 ReadProofs ReadProofs2 ReadProofs6 ReadProofs7 ReadProofs8 ReadProps.
Open Scope string_scope.
Open Scope list_scope.
Open Scope Z_scope.

(** ** C45 *)
(** Every well-formed tree is read from the JSON that it prints, whether it was read before or built by hand: no part of
    a tree is lost, neither in printing nor in reading. *)
Theorem C45_every_tree E a : base64_inverse E -> well_formed a -> plain_ints a ->
  exists m0, forall m, (m0 <= m)%nat -> read E m (write E a) = Ok a.
Proof. intros B W T. exact (well_formed_RT E B a W T). Qed.
Theorem C45_every_document E c : base64_inverse E -> well_formed_doc c -> plain_doc c ->
  exists m0, forall m fresh, (m0 <= m)%nat -> read_doc E m fresh (write_doc E c) = Ok c.
Proof. intros B W T. destruct (doc_RT E B c W T) as [m0 X]. exists m0. intros m f L. now apply X. Qed.
(** Different well-formed trees print different JSON. *)
Theorem C45_different E a b : base64_inverse E -> well_formed a -> well_formed b -> plain_ints a -> plain_ints b ->
  write E a = write E b -> a = b.
Proof.
  intros B Wa Wb Ta Tb Eq. destruct (C45_every_tree E a B Wa Ta) as [m1 X]. destruct (C45_every_tree E b B Wb Tb) as [m2 Y].
  specialize (X (m1 + m2)%nat ltac:(lia)). specialize (Y (m1 + m2)%nat ltac:(lia)). congruence.
Qed.
Definition by_hand : node :=
  ATry [AIfNotNull [("x", ACellGet "c" [])] [ALog [ARef "x"] (Some "debug")] (Some [AError "none" (Some (VInt (-7)))])]
       (Some [VStr "none"; VInt (-7)]).
Example by_hand_plain : plain_ints by_hand.
Proof.
  intros v W. unfold by_hand in *.
  repeat match goal with
         | H : _ \/ _ |- _ => destruct H as [H|H]
         | H : False |- _ => destruct H
         | H : _ = ?c, W : within _ ?c |- _ => subst c
         | W : within _ _ |- _ => inversion W; subst; clear W; cbn [parts In map snd app opt_list] in *
         end.
Qed.
Example by_hand_read : read demo 20 (write demo by_hand) = Ok by_hand. Proof. vm_compute. reflexivity. Qed.

(** ** C46 *)
(** What the reader accepts is well-formed: names are identifiers, the blocks that must have an expression have one, the
    code of an error is negative, the members of "cond" have no "else" of their own, and so on for every kind of node. *)
Theorem C46_accepted E n v a : read E n v = Ok a -> well_formed a.
Proof. apply read_wf. Qed.
(** ... and so is a document: a fold engine has a zero and a merge and no other engine has, the names of cells, pools
    and functions are identifiers, nothing is both shared and rolled back. *)
Theorem C46_accepted_document E n fresh v c : read_doc E n fresh v = Ok c -> well_formed_doc c.
Proof. apply doc_wf. Qed.
(** A tree with plain integers is accepted in some form exactly when it is well-formed. *)
Theorem C46_exactly E a : base64_inverse E -> plain_ints a -> ((exists n v, read E n v = Ok a) <-> well_formed a).
Proof.
  intros B T. split; [intros (n & v & H); eapply C46_accepted; eauto|]. intros W.
  destruct (C45_every_tree E a B W T) as [m X]. exists m, (write E a). apply X. lia.
Qed.
Example by_hand_well_formed : well_formed by_hand. Proof. exact (C46_accepted _ _ _ _ by_hand_read). Qed.
Example loop_well_formed : well_formed loop_tree. Proof. exact (C46_accepted _ _ _ _ loop_read). Qed.
(** Defective trees are never the result: an empty block, a name with a digit in front, a non-negative code. *)
Example refused n v : read demo n v <> Ok (ADo []) /\ read demo n v <> Ok (ARef "1x") /\ read demo n v <> Ok (AError "e" (Some (VInt 0))).
Proof.
  repeat split; intros H; apply C46_accepted in H; specialize (H _ (within_here _)); cbn [shape] in H.
  - now destruct H.
  - apply symbol_iff in H. discriminate.
  - destruct H as (z & Eq & L). injection Eq as <-. lia.
Qed.
Print Assumptions C45_every_tree.
Print Assumptions C45_every_document.
Print Assumptions C45_different.
Print Assumptions C46_accepted.
Print Assumptions C46_accepted_document.
Print Assumptions C46_exactly.
