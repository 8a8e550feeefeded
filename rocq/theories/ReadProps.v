(** Reading and writing documents (C45, C46). *)
From Verif Require Import Base PyNum ScopeModel ReadModel ReadSpec ReadProofs ReadProofs2 ReadProofs3 ReadProofs4 ReadProofs5.
Open Scope string_scope.
Open Scope list_scope.
Open Scope Z_scope.

(** ** C45 *)
(** A tree that was read, and whose integers are plain, is read again from the JSON that it prints. The depth of the
    reader only has to be large enough. *)
Theorem C45_expression_partial E n v a : base64_inverse E -> read E n v = Ok a -> plain_ints a ->
  exists m0, forall m, (m0 <= m)%nat -> read E m (write E a) = Ok a.
Proof. intros B H T. exact (read_back E B n v a H T). Qed.
(** So is a whole document, if the data of its cells are in it; the name it was given is kept. *)
Theorem C45_document_partial E n fresh v c : base64_inverse E -> read_doc E n fresh v = Ok c -> plain_doc c ->
  exists m0, forall m fresh', (m0 <= m)%nat -> read_doc E m fresh' (write_doc E c) = Ok c.
Proof. intros B H T. destruct (doc_back E B n fresh v c H T) as [m0 X]. exists m0. intros m f' L. now apply X. Qed.
(** The marks of positions change nothing. *)
Theorem C45_marks E n v : read E n (strip v) = read E n v.
Proof. apply read_strip. Qed.
Theorem C45_document_marks E n fresh d : (forall v, assoc "@" d = Some v -> exists s, v = VStr s) ->
  read_doc E n fresh (strip (VDict d)) = read_doc E n fresh (VDict d).
Proof. apply doc_strip. Qed.
(** Two trees that print the same JSON are the same. *)
Theorem C45_injective E n n' v v' a b : base64_inverse E -> read E n v = Ok a -> read E n' v' = Ok b ->
  plain_ints a -> plain_ints b -> write E a = write E b -> a = b.
Proof.
  intros B Ha Hb Ta Tb W. destruct (read_back E B n v a Ha Ta) as [m1 X]. destruct (read_back E B n' v' b Hb Tb) as [m2 Y].
  specialize (X (m1 + m2)%nat ltac:(lia)). specialize (Y (m1 + m2)%nat ltac:(lia)). congruence.
Qed.

(** An instance: base 64 by reversal of the marks around the text, and int() of a few texts. *)
Definition demo : outside := Outside
  (fun s => if String.eqb s "3" then Some 3 else if String.eqb s "99999999999" then Some 99999999999 else None)
  (fun s => match s with String _ r => Ok r | EmptyString => Raise (PyErr "binascii.Error") end)
  (fun s => String (Ascii.ascii_of_nat 61) s)
  (fun _ _ => VInt 7).
Example demo_inverse : base64_inverse demo. Proof. intros s. reflexivity. Qed.
Definition loop_json : val :=
  VDict [("@", VStr "line 1");
         ("for", VDict [("i", VInt 0); ("@", VStr "line 2")]);
         ("while", VDict [("<", VArr [VStr "i"; VStr "x.size.3"])]);
         ("step", VDict [("i", VDict [("+", VArr [VStr "i"; VInt 1])])]);
         ("do", VDict [("cast", VDict [("cell", VStr "c"); ("path", VArr [VArr [VStr "f"]])]);
                       ("cases", VArr [VDict [("as", VStr "int"); ("named", VStr "j");
                                              ("do", VDict [("a.map", VArr [VStr "j"; VDict [("fcn", VStr "u.f")]])])];
                                       VDict [("as", VStr "null"); ("named", VStr "j"); ("do", VArr [VNull; VFlt (f_of_Z 2)])]])])].
Definition loop_tree : node :=
  AFor [("i", AInt (VInt 0))] (ACall "<" [ARef "i"; AAttrGet (ARef "x") [AStr "size"; AInt (VInt 3)]])
       [("i", ACall "+" [ARef "i"; AInt (VInt 1)])]
       [ACast (ACellGet "c" [AStr "f"])
              [(VStr "int", "j", [ACall "a.map" [ARef "j"; AFcnRef "u.f"]]); (VStr "null", "j", [ANull; ADouble (f_of_Z 2)])] false].
Example loop_read : read demo 20 loop_json = Ok loop_tree. Proof. vm_compute. reflexivity. Qed.
Example loop_written : read demo 20 (write demo loop_tree) = Ok loop_tree /\ write demo loop_tree <> strip loop_json.
Proof. split; [vm_compute; reflexivity|discriminate]. Qed.
Definition engine_json : val :=
  VDict [("@", VStr "line 1"); ("input", VStr "int"); ("output", VStr "int"); ("method", VStr "fold"); ("zero", VInt 0);
         ("begin", VArr []); ("action", VDict [("+", VArr [VStr "input"; VDict [("cell", VStr "c")]])]);
         ("merge", VArr [VDict [("+", VArr [VStr "tallyOne"; VStr "tallyTwo"])]]);
         ("cells", VDict [("c", VDict [("@", VStr "line 9"); ("type", VStr "int"); ("init", VInt 4); ("shared", VBool true)])]);
         ("pools", VDict [("p", VDict [("type", VDict [("type", VStr "array"); ("items", VStr "int")])])]);
         ("fcns", VDict [("g", VDict [("params", VArr [VDict [("x", VStr "int")]]); ("ret", VStr "int"); ("do", VStr "x")])]);
         ("version", VInt 3); ("metadata", VDict [("by", VStr "them")])].
Example engine_back : exists c, read_doc demo 20 "Engine_1" engine_json = Ok c /\ co_name c = "Engine_1" /\ plain_doc c /\
  read_doc demo 20 "Engine_2" (write_doc demo c) = Ok c.
Proof.
  eexists. split; [vm_compute; reflexivity|]. split; [reflexivity|]. split; [|vm_compute; reflexivity]. split.
  - cbn. intros a I v W.
    repeat match goal with
           | H : _ \/ _ |- _ => destruct H as [H|H]
           | H : False |- _ => destruct H
           | H : _ = a |- _ => subst a
           | W : within _ _ |- _ => inversion W; subst; clear W; cbn in *
           | H : _ = ?c |- _ => is_var c; subst c
           end; discriminate.
  - cbn. intros k x [H|[]]. injection H as <- <-. reflexivity.
Qed.

(** Where it fails: a boolean is accepted as an integer, and printed as a boolean. *)
Theorem C45_bool_refuted : exists n v a, read demo n v = Ok a /\ read demo n (write demo a) <> Ok a.
Proof. exists 5%nat, (VDict [("int", VBool true)]), (AInt (VBool true)). split; [reflexivity|discriminate]. Qed.
(** An index in a dotted name is not checked, and comes back as a long. *)
Theorem C45_index_refuted : exists n v a, read demo n v = Ok a /\ read demo n (write demo a) <> Ok a.
Proof.
  exists 5%nat, (VStr "x.99999999999"), (AAttrGet (ARef "x") [AInt (VInt 99999999999)]).
  split; [vm_compute; reflexivity|]. vm_compute. intros H. discriminate H.
Qed.
(** A cell with a "source" is printed with the data that were fetched, and the text does not read back. *)
Theorem C45_source_refuted : exists v c, read_doc demo 9 "e" v = Ok c /\ forall m fresh, read_doc demo m fresh (write_doc demo c) <> Ok c.
Proof.
  exists (VDict [("input", VStr "int"); ("output", VStr "int"); ("action", VStr "input");
                 ("cells", VDict [("c", VDict [("type", VStr "int"); ("init", VStr "data.json"); ("source", VStr "json")])])]).
  eexists. split; [vm_compute; reflexivity|]. intros [|m] fresh; vm_compute; discriminate.
Qed.

(** ** C46 *)
(** An exception of the reader is a PFASyntaxException, or the JSON has one of the listed defects. *)
Theorem C46_expression_partial E v : exists n0, forall n e, (n0 <= n)%nat -> read E n v = Raise e ->
  e = PyErr "PFASyntaxException" \/ exists d, occurs (VDict d) v /\ culprit E d.
Proof. exists (size v). intros n e L H. exact (read_err E n v e L H). Qed.
Theorem C46_document_partial E v : exists n0, forall n fresh e, (n0 <= n)%nat -> read_doc E n fresh v = Raise e ->
  e = PyErr "PFASyntaxException" \/ (exists d, occurs (VDict d) v /\ culprit E d) \/ bad_document E v.
Proof.
  exists (size v). intros n fresh e L H. destruct v as [| | | | | | |d];
    try (right; right; left; intros [? ?]; discriminate).
  destruct (doc_err E n d L fresh e H) as [[->|X]|X]; auto.
Qed.
(** JSON without any of the defects. *)
Example clean_case : exists n0, forall n e, (n0 <= n)%nat -> read demo n (VDict [("while", VBool true); ("until", VInt 3)]) = Raise e ->
  e = PyErr "PFASyntaxException".
Proof.
  destruct (C46_expression_partial demo (VDict [("while", VBool true); ("until", VInt 3)])) as [n0 X]. exists n0. intros n e L H.
  destruct (X n e L H) as [->|(d & O & C)]; [reflexivity|]. exfalso.
  assert (d = [("while", VBool true); ("until", VInt 3)]) as ->.
  { inversion O; subst; auto. match goal with X : In _ _, Y : occurs _ _ |- _ =>
      cbn [In] in X; destruct X as [Eq|[Eq|[]]]; injection Eq as <- <-; inversion Y end. }
  unfold culprit, value_at in C. cbn [In] in C.
  repeat match goal with
         | H : _ \/ _ |- _ => destruct H as [H|H]
         | H : exists _, _ |- _ => destruct H as [? H]
         | H : _ /\ _ |- _ => destruct H
         | H : False |- _ => destruct H
         end; congruence.
Qed.

(** Each defect does escape as something else. *)
Theorem C46_refuted :
  (forall n, exists v, read demo (S (S n)) v = Raise (PyErr "UnboundLocalError")) /\
  (exists v, read demo 9 v = Raise (PyErr "TypeError")) /\
  (exists v, read demo 9 v = Raise (PyErr "AttributeError")) /\
  (exists v, read demo 9 v = Raise (PyErr "binascii.Error")) /\
  (exists v, read demo 9 v = Raise (PyErr "OverflowError")).
Proof.
  repeat split.
  - intros n. exists (VDict [("del", VInt 1)]). reflexivity.
  - exists (VDict [("foreach", VStr "not a name"); ("in", VStr "xs"); ("do", VStr "x")]). reflexivity.
  - exists (VDict [("cond", VArr [VInt 1])]). reflexivity.
  - exists (VDict [("base64", VStr "")]). reflexivity.
  - exists (VDict [("double", VInt (2 ^ 1024))]). vm_compute. reflexivity.
Qed.
Theorem C46_nested_refuted :
  (exists v, read demo 9 v = Raise (PyErr "UnboundLocalError") /\ exists e k, v = VDict [("cast", e); ("cases", VArr [k])]) /\
  (exists v, read demo 9 v = Raise (PyErr "UnboundLocalError") /\ exists r b p, v = VDict [("params", VArr [p]); ("ret", r); ("do", b)]).
Proof.
  split.
  - exists (VDict [("cast", VInt 1); ("cases", VArr [VInt 1])]). split; [reflexivity|eauto].
  - exists (VDict [("params", VArr [VInt 1]); ("ret", VStr "int"); ("do", VInt 1)]). split; [reflexivity|eauto].
Qed.
Theorem C46_document_refuted :
  (exists v, read_doc demo 9 "e" v = Raise (PyErr "AttributeError")) /\
  (exists v, read_doc demo 9 "e" (VDict [("cells", v)]) = Raise (PyErr "UnboundLocalError")) /\
  (exists v, read_doc demo 9 "e" (VDict [("pools", VDict [("p", v)])]) = Raise (PyErr "UnboundLocalError")) /\
  (exists v, read_doc demo 9 "e" (VDict [("pools", VDict [("p", v)])]) = Raise (PyErr "TypeError")) /\
  (exists v, read_doc demo 9 "e" (VDict [("fcns", v)]) = Raise (PyErr "UnboundLocalError")).
Proof.
  repeat split.
  - exists VNull. reflexivity.
  - exists (VInt 3). reflexivity.
  - exists (VInt 3). reflexivity.
  - exists (VDict [("type", VStr "int"); ("source", VStr "json")]). reflexivity.
  - exists VNull. reflexivity.
Qed.
Print Assumptions C45_expression_partial.
Print Assumptions C45_document_partial.
Print Assumptions C45_marks.
Print Assumptions C45_document_marks.
Print Assumptions C45_injective.
Print Assumptions C45_bool_refuted.
Print Assumptions C45_index_refuted.
Print Assumptions C45_source_refuted.
Print Assumptions C46_expression_partial.
Print Assumptions C46_document_partial.
Print Assumptions C46_refuted.
Print Assumptions C46_nested_refuted.
Print Assumptions C46_document_refuted.
