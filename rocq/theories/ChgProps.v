(** C103: replacing in pfainspector ("json change"). *)
From Verif Require Import Base PyNum ScopeModel ToolsModel ToolsSpec ToolsProofs ToolsProofs2 ToolsProofs3 InspModel InspSpec InspProofs InspProofs2 InspProofs3 ToolsProps ChgModel ChgSpec ChgProofs ChgProofs2 ChgProofs3.
Open Scope string_scope.
Open Scope list_scope.
Open Scope Z_scope.

Lemma started doc at_ node : tree doc -> part doc at_ node -> reach doc at_ node /\ extaction doc at_ = Ok node /\ tree node.
Proof.
  intros T P. pose proof (part_reach _ _ _ T P) as Rr. split; [exact Rr|]. split; [apply extaction_get, reach_get, Rr|]. clear Rr. induction P as [v|d k y p x Hk H IH|l n y p x Hn H IH]; [exact T| |]; apply IH.
  - apply tree_dict in T. destruct T as [_ T]. rewrite Forall_forall in T. apply (T _ Hk).
  - apply tree_arr in T. rewrite Forall_forall in T. apply T. eapply nth_error_In, Hn.
Qed.
Lemma stored doc at_ node w : reach doc at_ node -> match at_ with [] => w | _ => match assigned doc at_ w with Ok d => d | Raise _ => doc end end = write doc at_ w.
Proof. intros Rr. destruct at_ as [|i q]; [inversion Rr; reflexivity|]. now rewrite (assigned_write _ _ _ _ Rr ltac:(discriminate)). Qed.
Lemma upward_refl (R : val -> val -> Prop) : (forall x, R x x) -> forall v, upward R v v.
Proof.
  intros H. induction v as [d F|l F|v Hd Hl] using val_ind2.
  - apply up_dict with d; [|apply H]. induction F; constructor; auto.
  - apply up_arr with l; [|apply H]. induction F; constructor; auto.
  - apply up_leaf; auto.
Qed.
Lemma within_refl (R : val -> val -> Prop) : (forall x, R x x) -> forall v, within R v v.
Proof.
  intros H v. destruct v as [| | | | | |l|l]; cbn; try reflexivity; eexists; (split; [reflexivity|]).
  - induction l; constructor; auto. apply upward_refl, H.
  - induction l; constructor; auto. split; [reflexivity | apply upward_refl, H].
Qed.

(** Whatever is answered: parts of the node stay, or, where the pattern matches after the parts inside were changed, become the replacement; the node itself and everything outside stay. *)
Theorem C103_change : forall doc at_ node c p r answers doc', tree doc -> part doc at_ node -> sound r -> pattern c = Ok p -> change_command doc at_ c r answers = (None, doc') ->
  exists w, within (maybe p r) node w /\ get doc' at_ = Ok w /\ forall q, apart at_ q -> plain q -> get doc' q = get doc q.
Proof.
  intros doc at_ node c p r answers doc' T P S Ep C. destruct (started _ _ _ T P) as (Rr & Ex & Tn). unfold change_command in C. rewrite Ex, Ep in C. cbn [rbind] in C.
  assert (Kept : doc' = doc -> exists w, within (maybe p r) node w /\ get doc' at_ = Ok w /\ forall q, apart at_ q -> plain q -> get doc' q = get doc q).
  { intros ->. exists node. split; [apply within_refl; intros x; left; reflexivity|]. split; [apply reach_get, Rr | reflexivity]. }
  destruct (replacement r) as [q|] eqn:Er; cbn [rbind] in C; [|discriminate]. destruct (through (visit p q) node [] (node, Asking answers)) as [[n m]|] eqn:E; [|discriminate].
  destruct (goes_root (visit p q) (fun _ => True) (maybe p r) (visit_maybe p r q S Er) node (Asking answers) _ Tn Logic.I E) as (w & m1 & Hw & _ & V).
  apply visit_whole in V. cbn in V. subst n. rewrite (stored _ _ _ w Rr) in C.
  destruct m; injection C as <-; try (apply Kept; reflexivity); exists w; (split; [exact Hw|]); (split; [apply reach_get; eapply reach_write; eassumption | intros; eapply get_write_apart; eassumption]).
Qed.
(** If only yes and all are answered, every part that matches is replaced (and the node, as it is then, does not match). *)
Theorem C103_all : forall doc at_ node c p r answers doc', tree doc -> part doc at_ node -> sound r -> pattern c = Ok p -> (forall a, In a answers -> a = Yes \/ a = All \/ a = Unclear) ->
  change_command doc at_ c r answers = (None, doc') -> exists w, within (surely p r) node w /\ ~ matches p w /\ get doc' at_ = Ok w.
Proof.
  intros doc at_ node c p r answers doc' T P S Ep A C. destruct (started _ _ _ T P) as (Rr & Ex & Tn). unfold change_command in C. rewrite Ex, Ep in C. cbn [rbind] in C.
  destruct (replacement r) as [q|] eqn:Er; cbn [rbind] in C; [|discriminate]. destruct (through (visit p q) node [] (node, Asking answers)) as [[n m]|] eqn:E; [|discriminate].
  destruct (goes_root (visit p q) eager (surely p r) (visit_surely p r q S Er) node (Asking answers) _ Tn A E) as (w & m1 & Hw & Hm & V).
  pose proof (visit_whole _ _ _ _ _ V) as Hn. cbn in Hn. subst n. rewrite (stored _ _ _ w Rr) in C. exists w. split; [exact Hw|].
  assert (G : getmatch p w = Ok None /\ m = m1).
  { unfold visit in V. cbn [fst snd get rbind] in V. destruct m1 as [l| | |]; try contradiction; (destruct (getmatch p w) as [[mt|]|]; cbn [rbind] in V; [|injection V as <-; auto|discriminate]);
    (destruct (replace q (m_groups mt)); cbn [rbind] in V; [|discriminate]); [|discriminate].
    destruct (reply l) as [[an l']|] eqn:Q; cbn [rbind fst snd] in V; [|discriminate]. destruct (reply_in _ _ _ Q) as (Q1 & Q2 & _). destruct (Hm an Q1) as [ -> |[ -> | -> ]]; [discriminate | discriminate | congruence]. }
  destruct G as [G ->]. split; [intros M; apply (getmatch_agrees p w _ G) in M; congruence|].
  destruct m1; try contradiction; injection C as <-; apply reach_get; eapply reach_write; eassumption.
Qed.
(** If neither yes nor all is answered, and whenever there is an error, the document stays as it was. *)
Theorem C103_kept : forall doc at_ node c r answers e doc', tree doc -> part doc at_ node -> change_command doc at_ c r answers = (e, doc') ->
  e <> None \/ (forall a, In a answers -> a <> Yes /\ a <> All) -> doc' = doc.
Proof.
  intros doc at_ node c r answers e doc' T P C H. destruct (started _ _ _ T P) as (Rr & Ex & Tn). unfold change_command in C. rewrite Ex in C. cbn [rbind] in C.
  destruct (pattern c) as [p|]; cbn [rbind] in C; [|injection C as <- <-; reflexivity]. destruct (replacement r) as [q|] eqn:Er; cbn [rbind] in C; [|injection C as <- <-; reflexivity].
  destruct (through (visit p q) node [] (node, Asking answers)) as [[n m]|] eqn:E; [|injection C as <- <-; reflexivity].
  destruct H as [H|H]; [destruct m; injection C as <- <-; congruence|].
  destruct (goes_root (visit p q) reluctant (fun x y => y = x) (visit_never p q) node (Asking answers) _ Tn H E) as (w & m1 & Hw & _ & V).
  apply visit_whole in V. cbn in V. subst n. apply within_eq in Hw. subst w. rewrite (stored _ _ _ node Rr), (write_same _ _ _ Rr) in C. destruct m; injection C as <- <-; reflexivity.
Qed.
(** "revert" after any number of yes and no takes everything back, unless the search had ended before it was asked for. *)
Theorem C103_revert : forall doc at_ c r l1 l2 doc', (forall a, In a l1 -> a = Yes \/ a = No \/ a = Unclear) -> change_command doc at_ c r (l1 ++ Revert :: l2) = (None, doc') ->
  doc' = doc \/ change_command doc at_ c r l1 = (None, doc').
Proof.
  intros doc at_ c r l1 l2 doc' A C. unfold change_command in *. destruct (extaction doc at_) as [node|]; cbn [rbind] in *; [|discriminate]. destruct (pattern c) as [p|]; cbn [rbind] in *; [|discriminate].
  destruct (replacement r) as [q|]; cbn [rbind] in *; [|discriminate]. destruct (through (visit p q) node [] (node, Asking (l1 ++ Revert :: l2))) as [[n m]|] eqn:E; [|discriminate].
  assert (Ah : ahead l2 (node, Asking (l1 ++ Revert :: l2)) (node, Asking l1)) by (split; [reflexivity|]; exists l1; auto).
  destruct (proj2 (back_through p q l2 node []) _ _ _ Ah E) as [H|([n' m'] & H & (H1 & l & _ & H2 & H3))]; cbn in *.
  - subst m. injection C as <-. left. reflexivity.
  - subst n' m m'. rewrite H. right. exact C.
Qed.

Definition engine : val := VDict [("input", VStr "double"); ("action", VArr [VDict [("+", VArr [VStr "input"; VInt 3])]; VDict [("-", VArr [VInt 5; VStr "input"])]])].
Definition sums : cmd := CObject [("+", CArray [CGroup [[CUnder]]; CGroup [[CUnder]]] false false)] false.
Definition swapped : cmd := CObject [("-", CArray [CGroup [[CNum (NI 2)]]; CGroup [[CNum (NI 1)]]] false false)] false.
Example C103_change_example : tree engine /\ part engine [] engine /\ sound swapped /\
  change_command engine [] sums swapped [Unclear; Yes] = (None, VDict [("input", VStr "double"); ("action", VArr [VDict [("-", VArr [VInt 3; VStr "input"])]; VDict [("-", VArr [VInt 5; VStr "input"])]])]) /\
  change_command engine [K "action"] (CRange None) (CWord "x") [Yes; Revert] = (None, engine) /\
  change_command engine [K "action"] (CRange None) (CWord "x") [Yes; Stop] = (None, VDict [("input", VStr "double"); ("action", VArr [VDict [("+", VArr [VStr "input"; VStr "x"])]; VDict [("-", VArr [VInt 5; VStr "input"])]])]) /\
  change_command engine [K "action"] (CRange None) (CWord "x") [All] = (None, VDict [("input", VStr "double"); ("action", VArr [VDict [("+", VArr [VStr "input"; VStr "x"])]; VDict [("-", VArr [VStr "x"; VStr "input"])]])]) /\
  change_command engine [K "action"] (CRange None) (CWord "x") [Yes] = (Some (PyErr "EOFError"), engine).
Proof.
  split; [cbn; repeat split; auto; repeat (constructor; cbn; [intuition discriminate|]); try constructor|]. split; [constructor|].
  split; [cbn; repeat split; try discriminate; repeat (constructor; cbn; [intuition discriminate|]); constructor|]. repeat split; vm_compute; reflexivity.
Qed.
(** With a replacement without groups and the answer all, the command ends without an error, unless the document, with all its parts replaced, matches itself. *)
Theorem C103_ends : forall doc c p r, tree doc -> sound c -> calm c -> pattern c = Ok p -> sound r -> constant r ->
  exists y w, filled [] r y /\ within (fun x z => (matches p x /\ z = y) \/ (~ matches p x /\ z = x)) doc w /\
    (~ matches p w -> change_command doc [] c r [All] = (None, w)) /\ (matches p w -> change_command doc [] c r [All] = (Some (PyErr "IndexError"), doc)).
Proof.
  intros doc c p r T S Cc Ep Sr Kr. destruct (constant_replacement r Kr Sr) as (q & y & Q & Y). exists y.
  assert (A : forall x, exists o, getmatch p x = Ok o).
  { unfold pattern in Ep. destruct (regex 1 c) as [[p' n]|] eqn:R; cbn in Ep; [|discriminate]. injection Ep as <-. exact (regex_answered c (or_introl S) Cc 1%nat p' n R). }
  set (f := fun x => match getmatch p x with Ok (Some _) => y | _ => x end).
  assert (Hf : forall x, (matches p x -> f x = y) /\ (~ matches p x -> f x = x)).
  { intros x. unfold f. destruct (A x) as [o E]. pose proof (getmatch_agrees p x o E) as Ag. rewrite E. split; intros M; destruct o; try reflexivity; [exfalso; apply Ag in M; congruence | exfalso; apply M, Ag; discriminate]. }
  destruct (C92_assigned_at p y doc f A T Hf) as (w & Hw & Hm & Hn). exists w. split; [eapply replacement_fills; [exact Sr | exact Q | apply Y]|].
  assert (Dec : forall x, (matches p x /\ f x = y) \/ (~ matches p x /\ f x = x)).
  { intros x. destruct (A x) as [o E]. pose proof (getmatch_agrees p x o E) as Ag. destruct o as [m|]; [left; split; [apply Ag; discriminate | apply Hf, Ag; discriminate] | right].
    assert (N : ~ matches p x) by (intros M; apply Ag in M; congruence). split; [exact N | apply Hf, N]. }
  assert (Up : forall v w, replaced f v w -> upward (fun x z => (matches p x /\ z = y) \/ (~ matches p x /\ z = x)) v w).
  { induction v as [d F|l F|v Hd Hl] using val_ind2; intros u U.
    - inversion U as [d' e H1 E1 E2| |? Hd]; subst; [|now destruct (Hd d)]. apply up_dict with e; [|apply Dec]. clear - F H1. induction H1 as [|kx ky d e [K1 K2] H1 IH]; constructor; inversion F; subst; [split; [exact K1 | auto] | auto].
    - inversion U as [|l' n H1 E1 E2|? ? Hl]; subst; [|now destruct (Hl l)]. apply up_arr with n; [|apply Dec]. clear - F H1. induction H1; constructor; inversion F; subst; auto.
    - inversion U; subst; [now destruct (Hd d) | now destruct (Hl l) | apply up_leaf; auto]. }
  split.
  { destruct doc as [| | | | | |l|d]; cbn in Hw |- *; auto; destruct Hw as (e & -> & F); exists e; (split; [reflexivity|]).
    - clear - F Up. induction F; constructor; auto.
    - clear - F Up. induction F as [|kx ky d e [K1 K2] F IH]; constructor; auto. }
  destruct (agrees_through p q y Y doc [] doc (Asking [All]) (or_intror eq_refl)) as (m & Rm & E). change (walk p y doc [] doc) with (assignedAt p doc y) in E.
  unfold change_command. cbn [extaction rbind]. rewrite Ep, Q. cbn [rbind]. rewrite E. split; intros M.
  - rewrite (Hn M). cbn. destruct Rm; subst; reflexivity.
  - rewrite (Hm M). reflexivity.
Qed.
Example C103_ends_example : sound (CRange None) /\ calm (CRange None) /\ sound (CArray [CWord "x"; CNum (NI 0)] false false) /\ constant (CArray [CWord "x"; CNum (NI 0)] false false) /\
  change_command engine [] (CRange None) (CArray [CWord "x"; CNum (NI 0)] false false) [All] =
  (None, VDict [("input", VStr "double"); ("action", VArr [VDict [("+", VArr [VStr "input"; VArr [VStr "x"; VInt 0]])]; VDict [("-", VArr [VArr [VStr "x"; VInt 0]; VStr "input"])]])]).
Proof. repeat split; vm_compute; reflexivity. Qed.
(** With a substitution in a group, and the group as the replacement, every text that it is for becomes the text that it gives. *)
Lemma upward_impl (R Q : val -> val -> Prop) : (forall x y, R x y -> Q x y) -> forall v w, upward R v w -> upward Q v w.
Proof.
  intros H. induction v as [d F|l F|v Hd Hl] using val_ind2; intros w U.
  - inversion U as [d' e y H1 H2 E1 E2| |? ? Hd]; subst; [|now destruct (Hd d)]. apply up_dict with e; [|apply H, H2]. clear - F H1.
    induction H1 as [|kx ky d e [K1 K2] H1 IH]; constructor; inversion F; subst; [split; [exact K1 | auto] | auto].
  - inversion U as [|l' n y H1 H2 E1 E2|? ? ? Hl]; subst; [|now destruct (Hl l)]. apply up_arr with n; [|apply H, H2]. clear - F H1. induction H1; constructor; inversion F; subst; auto.
  - inversion U; subst; [now destruct (Hd d) | now destruct (Hl l) | apply up_leaf; auto].
Qed.
Lemma within_impl (R Q : val -> val -> Prop) : (forall x y, R x y -> Q x y) -> forall v w, within R v w -> within Q v w.
Proof.
  intros H v w. destruct v as [| | | | | |l|d]; cbn; auto; intros (e & -> & F); exists e; (split; [reflexivity|]).
  - induction F; constructor; auto. eapply upward_impl; eassumption.
  - induction F as [|kx ky d e [K1 K2] F IH]; constructor; auto. split; [exact K1 | eapply upward_impl; eassumption].
Qed.
Theorem C103_substitution : forall doc at_ node f g answers doc', tree doc -> part doc at_ node -> (forall a, In a answers -> a = Yes \/ a = All \/ a = Unclear) ->
  change_command doc at_ (CGroup [[CRegex f (Some g)]]) (CGroup [[CNum (NI 1)]]) answers = (None, doc') ->
  exists w, within (fun x y => (exists s, x = VStr s /\ f s = true /\ y = VStr (g s)) \/ ((forall s, x = VStr s -> f s = false) /\ y = x)) node w /\ get doc' at_ = Ok w.
Proof.
  intros doc at_ node f g answers doc' T P A C.
  destruct (C103_all doc at_ node (CGroup [[CRegex f (Some g)]]) (PGroup "1" (PAnd [PRegEx f (Some g)])) (CGroup [[CNum (NI 1)]]) answers doc' T P) as (w & Hw & _ & G); [cbn; repeat split; discriminate | reflexivity | exact A | exact C|].
  exists w. split; [|exact G]. eapply within_impl; [|exact Hw]. intros x y [[N ->]|(M & m & Gm & Fl)].
  - right. split; [|reflexivity]. intros s ->. destruct (f s) eqn:E; [|reflexivity]. destruct N. cbn. split; [discriminate|]. split; [exists s; auto | exact Logic.I].
  - left. cbn in Gm. destruct x; try discriminate. destruct (f s) eqn:E; [|discriminate]. injection Gm as <-. cbn in Fl. injection Fl as <-. eauto.
Qed.
Example C103_substitution_example :
  change_command engine [] (CGroup [[CRegex (fun s => String.eqb s "input") (Some (fun s => String.append s "2"))]]) (CGroup [[CNum (NI 1)]]) [Yes; All] =
  (None, VDict [("input", VStr "double"); ("action", VArr [VDict [("+", VArr [VStr "input2"; VInt 3])]; VDict [("-", VArr [VInt 5; VStr "input2"])]])]).
Proof. vm_compute. reflexivity. Qed.
(** The node itself cannot be replaced: the command fails, and what was answered before is lost. *)
Theorem C103_whole_refuted : forall v c r p q m y, pattern c = Ok p -> replacement r = Ok q -> (forall d, v <> VDict d) -> (forall l, v <> VArr l) -> getmatch p v = Ok (Some m) -> replace q (m_groups m) = Ok y ->
  change_command v [] c r [Yes] = (Some (PyErr "IndexError"), v).
Proof.
  intros v c r p q m y Ep Eq Hd Hl G Y. unfold change_command. cbn [extaction rbind]. rewrite Ep, Eq. cbn [rbind].
  assert (E : through (visit p q) v [] (v, Asking [Yes]) = visit p q [] (v, Asking [Yes])) by (destruct v as [| | | | | |l|d]; try reflexivity; [now destruct (Hl l) | now destruct (Hd d)]).
  rewrite E. unfold visit. cbn [fst snd get rbind]. rewrite G. cbn [rbind]. rewrite Y. reflexivity.
Qed.
Example C103_whole_example : change_command engine [] (CGroup [[CRange None]; [CObject [("input", CUnder)] true]]) (CString "x") [Yes; Yes; Yes] = (Some (PyErr "IndexError"), engine) /\
  change_command (VInt 1) [] (CRange None) (CString "x") [Yes] = (Some (PyErr "IndexError"), VInt 1).
Proof. split; vm_compute; reflexivity. Qed.
(** A group before an & is not known in the replacement; the command fails. *)
Theorem C103_groups_refuted : exists v c r, tree v /\ sound c /\ sound r /\ (exists x, part v [K "x"] x /\ says c x) /\ (forall p, pattern c = Ok p -> In "1" (group_names p)) /\
  r = CGroup [[CNum (NI 1)]] /\ change_command v [] c r [Yes] = (Some (PyErr "InspectorError"), v).
Proof.
  exists (VDict [("x", VInt 5)]), (CGroup [[CGroup [[CUnder]]; CRange (Some (More, NI 3))]]), (CGroup [[CNum (NI 1)]]). split; [cbn; repeat constructor; intros []|].
  split; [cbn; repeat split; discriminate|]. split; [cbn; repeat split; discriminate|]. split.
  { exists (VInt 5). split; [econstructor; [left; reflexivity | constructor]|]. cbn. left. split; [left; repeat split|]. split; [exists (NI 5); repeat split | exact Logic.I]. }
  split; [intros p E; vm_compute in E; injection E as <-; vm_compute; auto|]. split; [reflexivity | vm_compute; reflexivity].
Qed.

Print Assumptions C103_change.
Print Assumptions C103_all.
Print Assumptions C103_kept.
Print Assumptions C103_revert.
Print Assumptions C103_ends.
Print Assumptions C103_substitution.
Print Assumptions C103_whole_refuted.
Print Assumptions C103_groups_refuted.
