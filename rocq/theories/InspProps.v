(** C102: searching and extracting in pfainspector. *)
From Coq Require Import FinFun.
From Verif Require Import Base PyNum ScopeModel ToolsModel ToolsSpec ToolsProofs ToolsProps InspModel InspSpec InspProofs InspProofs2 InspProofs3.
Open Scope string_scope.
Open Scope list_scope.
Open Scope Z_scope.

(** A search finds exactly the parts of the document that the pattern describes, each once, inner ones before outer ones. *)
Theorem C102_search : forall c p h out, tree h -> json h -> sound c -> pattern c = Ok p -> consumed (search p h) = Ok out ->
  forall i, In i (map fst out) <-> exists x, part h i x /\ says c x.
Proof.
  intros c p h out T J S E C i. unfold pattern in E. destruct (regex 1 c) as [[q n]|] eqn:R; cbn in E; [|discriminate]. injection E as <-.
  destruct (C92_search q h out T C) as [H _]. rewrite H. split; intros (x & P & M); exists x; (split; [exact P|]); apply (regex_exact c S 1%nat q n R x (json_part h i x P J)); exact M.
Qed.
(** Without a +- b in the pattern, a search ends without an error, in any document. *)
Theorem C102_ends : forall c p h, sound c -> calm c -> pattern c = Ok p -> exists out, consumed (search p h) = Ok out.
Proof.
  intros c p h S C E. unfold pattern in E. destruct (regex 1 c) as [[q n]|] eqn:R; cbn in E; [|discriminate]. injection E as <-.
  pose proof (regex_answered c (or_introl S) C 1%nat q n R) as A. unfold consumed, search. rewrite (yields_none q _ A). eauto.
Qed.
Definition doc : val := VDict [("input", VStr "double"); ("action", VArr [VDict [("+", VArr [VStr "input"; VInt 3])]; VInt 7; VDict [("x", VInt 3); ("y", VNull)]])].
Definition wanted : cmd := CGroup [[CRange (Some (More, NI 2)); CGroup [[CRange (Some (LessEq, NI 6))]]]; [CObject [("x", CUnder)] true]; [CArray [CWord "input"] false true]].
Example C102_search_example : tree doc /\ json doc /\ sound wanted /\
  (p <- pattern wanted ;; out <- consumed (search p doc) ;; Ok (map fst out)) = Ok [[K "action"; I 0; K "+"; I 1]; [K "action"; I 0; K "+"]; [K "action"; I 2; K "x"]; [K "action"; I 2]].
Proof.
  split; [cbn; repeat split; auto; repeat (constructor; cbn; [intuition discriminate|]); try constructor|]. split; [cbn; tauto|]. split.
  - cbn. repeat split; try discriminate. repeat (constructor; cbn; [intuition discriminate|]). constructor.
  - vm_compute. reflexivity.
Qed.
Example C102_ends_example : sound wanted /\ calm wanted.
Proof. split; [exact (proj1 (proj2 (proj2 C102_search_example))) | cbn; tauto]. Qed.
(** A pattern is refused only when it has an ellipsis at both ends of an array, or the key self in an object with an ellipsis. *)
Section Refusals.
Inductive holds_bad : cmd -> string -> Prop :=
| bad_array l : holds_bad (CArray l true true) "ParserError"
| bad_self l : In "self" (map fst l) -> holds_bad (CObject l true) "TypeError"
| in_object l e k c s : In (k, c) l -> holds_bad c s -> holds_bad (CObject l e) s
| in_array l b a c s : In c l -> holds_bad c s -> holds_bad (CArray l b a) s
| in_group l q c s : In q l -> In c q -> holds_bad c s -> holds_bad (CGroup l) s.
End Refusals.
Lemma each_raise : forall A B (f : nat -> A -> res (B * nat)) l n e, each f n l = Raise e -> exists a m, In a l /\ f m a = Raise e.
Proof.
  induction l as [|a l IH]; intros n e E; cbn in E; [discriminate|]. destruct (f n a) as [[b m]|x] eqn:F; cbn in E.
  - destruct (each f m l) as [[bs m']|x] eqn:L; cbn in E; [discriminate|]. injection E as <-. destruct (IH m x L) as (a' & m' & I & H). exists a', m'. split; [right; exact I | exact H].
  - injection E as <-. exists a, n. split; [left; reflexivity | exact F].
Qed.
Theorem C102_refused : forall c e, pattern c = Raise e -> exists s, e = PyErr s /\ holds_bad c s.
Proof.
  assert (R : forall c n e, regex n c = Raise e -> exists s, e = PyErr s /\ holds_bad c s).
  { apply (cmd_all (fun c => forall n e, regex n c = Raise e -> exists s, e = PyErr s /\ holds_bad c s)).
    - intros c L n e E. destruct c; try contradiction; discriminate.
    - intros l el F n e E. rewrite Forall_forall in F. cbn [regex] in E. change (each _ n l) with (each pair_regex n l) in E.
      destruct (each pair_regex n l) as [[ps m]|x] eqn:X; cbn [rbind fst snd] in E.
      + destruct el; [|discriminate]. destruct (has_key "self" (dict_of_pairs ps)) eqn:Hs; [|discriminate]. injection E as <-. exists "TypeError". split; [reflexivity|]. constructor.
        rewrite <- (pairs_keys l n ps m X).
        assert (Keys : forall (l d : list (string * pat)), has_key "self" (fold_left (fun d kv => dict_set (fst kv) (snd kv) d) l d) = true -> In "self" (map fst l) \/ has_key "self" d = true).
        { assert (Set1 : forall k (v : pat) d, has_key "self" (dict_set k v d) = true -> k = "self" \/ has_key "self" d = true).
          { intros k v. unfold has_key. induction d as [|[j u] d IH]; cbn [dict_set assoc].
            - destruct (String.eqb_spec "self" k); [auto | discriminate].
            - destruct (String.eqb_spec k j) as [->|D]; cbn [assoc]; destruct (String.eqb_spec "self" j); auto. }
          induction l0 as [|[k v] l0 IH]; intros d Hk; cbn in *; [auto|]. destruct (IH _ Hk) as [I|I]; [auto|]. destruct (Set1 k v d I); auto. }
        destruct (Keys ps [] Hs) as [I|I]; [exact I | discriminate I].
      + injection E as <-. destruct (each_raise _ _ _ _ _ _ X) as ([k c] & m & I & H). cbn in H. destruct (regex m c) as [[? ?]|y] eqn:Rc; cbn in H; [discriminate|]. injection H as <-.
        destruct (F (k, c) I m y Rc) as (s & -> & B). exists s. split; [reflexivity|]. eapply in_object; eassumption.
    - intros l b a F n e E. rewrite Forall_forall in F. cbn [regex] in E. destruct (b && a)%bool eqn:B.
      + injection E as <-. apply andb_prop in B. destruct B as [-> ->]. exists "ParserError". split; [reflexivity | constructor].
      + destruct (each regex n l) as [[ps m]|x] eqn:X; cbn in E; [discriminate|]. injection E as <-. destruct (each_raise _ _ _ _ _ _ X) as (c & m & I & H).
        destruct (F c I m x H) as (s & -> & Bd). exists s. split; [reflexivity|]. eapply in_array; eassumption.
    - intros l F n e E. rewrite Forall_forall in F. cbn [regex] in E. destruct (each (each regex) n l) as [[ps m]|x] eqn:X; cbn in E; [discriminate|]. injection E as <-.
      destruct (each_raise _ _ _ _ _ _ X) as (q & m & I & H). destruct (each_raise _ _ _ _ _ _ H) as (c & m2 & I2 & H2). specialize (F q I). rewrite Forall_forall in F.
      destruct (F c I2 m2 x H2) as (s & -> & Bd). exists s. split; [reflexivity|]. eapply in_group; eassumption. }
  intros c e E. unfold pattern in E. destruct (regex 1 c) as [[q n]|x] eqn:X; cbn in E; [discriminate|]. injection E as <-. apply (R c 1%nat x X).
Qed.
(** The groups of a pattern are named 1, 2, 3 ... in the order of their closing parentheses; no two have the same name. *)
Theorem C102_groups : forall c p, sound c -> pattern c = Ok p -> group_names p = map group_name (seq 1 (groups_in c)) /\ NoDup (group_names p).
Proof.
  intros c p S E. unfold pattern in E. destruct (regex 1 c) as [[q n]|] eqn:R; cbn in E; [|discriminate]. injection E as <-.
  destruct (groups_counted c 1%nat q n R) as [_ G]. rewrite (G S). split; [reflexivity|]. apply FinFun.Injective_map_NoDup; [exact group_name_inj | apply seq_NoDup].
Qed.
Example C102_groups_example : (p <- pattern wanted ;; Ok (group_names p)) = Ok ["1"; "2"] /\ (p <- pattern wanted ;; Ok (match p with PGroup g _ => g | _ => "" end)) = Ok "2".
Proof. split; vm_compute; reflexivity. Qed.
(** A range with a limit below has < and <= exchanged there: a < # takes a itself, a <= # does not. *)
Theorem C102_between_refuted : forall a s t b p v r, real a -> real b -> json v -> pattern (CBetween a s t b) = Ok p -> getmatch p v = Ok r ->
  (r <> None <-> exists m, number v m /\ stands a (if s then Less else LessEq) m /\ stands m (if t then LessEq else Less) b).
Proof.
  intros a s t b p v r Ra Rb J E G. injection E as <-. rewrite (C92_getmatch _ _ _ G). rewrite matches_and. cbn [s_every].
  rewrite (range_says (Some (reverse s, a)) v J Ra), (range_says (Some (upper t, b)) v J Rb). cbn [says].
  assert (Fun : forall m m', number v m -> number v m' -> m = m') by (intros m m'; destruct v; cbn; try contradiction; congruence).
  assert (Flip : forall m, num_cmp a m = match num_cmp m a with Some Lt => Some Gt | Some Gt => Some Lt | o => o end).
  { assert (FZ : forall f z, option_map CompOpp (f_cmp_Z f z) = match f_cmp_Z f z with Some Lt => Some Gt | Some Gt => Some Lt | o => o end) by (intros f z; destruct (f_cmp_Z f z) as [[]|]; reflexivity).
    intros m. destruct a as [x|f], m as [y|g]; cbn [num_cmp].
    - rewrite (Z.compare_antisym x y). destruct (x ?= y); reflexivity.
    - apply FZ.
    - rewrite FZ. destruct (f_cmp_Z f y) as [[]|]; reflexivity.
    - destruct f as [sf|[]| |[] mf ef], g as [sg|[]| |[] mg eg]; cbn; try reflexivity;
      rewrite ?(Z.compare_antisym ef eg); destruct (ef ?= eg); cbn; try reflexivity; change (Pos.compare_cont Eq ?x ?y) with (Pos.compare x y); rewrite ?(Pos.compare_antisym mf mg); destruct (Pos.compare mf mg); reflexivity. }
  split.
  - intros [_ ((m & N & S1) & (m' & N' & S2) & _)]. rewrite <- (Fun m m' N N') in S2. exists m. split; [exact N|]. split; [|destruct t; exact S2].
    destruct s; cbn in *; unfold num_lt, num_le, num_gt, num_ge in *; rewrite Flip; destruct (num_cmp m a) as [[]|]; congruence.
  - intros (m & N & S1 & S2). split; [discriminate|]. split; [|split; [exists m; split; [exact N | destruct t; exact S2] | exact Logic.I]]. exists m. split; [exact N|].
    destruct s; cbn in *; unfold num_lt, num_le, num_gt, num_ge in *; rewrite Flip in S1; destruct (num_cmp m a) as [[]|]; congruence.
Qed.
Example C102_between_example : exists p, pattern (CBetween (NI 1) true true (NI 5)) = Ok p /\ says (CBetween (NI 1) true true (NI 5)) (VInt 1) /\ getmatch p (VInt 1) = Ok None.
Proof. eexists. split; [reflexivity|]. split; [exists (NI 1); repeat split | reflexivity]. Qed.

(** name[a, 0, b] is the part at that place; errors are the inspector's, but for a number where there is an object. *)
Theorem C102_extract : forall v p, (forall x, extaction v p = Ok x <-> get v p = Ok x) /\
  (forall e, extaction v p = Raise e -> e = PyErr "InspectorError" \/ (e = PyErr "KeyError" /\ exists q i d r, p = q ++ I i :: r /\ get v q = Ok (VDict d))).
Proof. intros v p. split; [intros x; apply extaction_get | apply extaction_errors]. Qed.
Theorem C102_number_refuted : forall d i r, extaction (VDict d) (I i :: r) = Raise (PyErr "KeyError").
Proof. reflexivity. Qed.
(** Completion offers exactly the items that extraction finds there, and a comma exactly after those that have items themselves. *)
Theorem C102_complete : forall v p cs, tree v -> extcomplete v p = Ok cs ->
  (forall s b, In (s, b) cs -> exists x, extaction v (p ++ [s]) = Ok x /\ (b = true <-> (exists d, x = VDict d) \/ exists l, x = VArr l)) /\
  (forall s x, part v (p ++ [s]) x -> exists b, In (s, b) cs).
Proof.
  intros v p cs T E. split.
  - intros s b Hin. destruct (offered_next p v cs E s b Hin T) as (x & G & ->). exists x. split; [apply extaction_get, G|].
    destruct x; cbn; split; intros H; try discriminate H; try (destruct H as [[? H]|[? H]]; discriminate H); eauto.
  - intros s x Hp. exists (deep x). eapply all_offered; eassumption.
Qed.
Example C102_complete_example : extcomplete doc [K "action"] = Ok [(I 0, true); (I 1, false); (I 2, true)] /\ extaction doc [K "action"; I 0; K "+"; I 1] = Ok (VInt 3) /\ extaction doc [K "action"; I 9] = Raise (PyErr "InspectorError").
Proof. repeat split. Qed.
(** Nothing is offered, and an error raised, in an empty array. *)
Theorem C102_empty_refuted : extcomplete (VArr []) [] = Raise (PyErr "ValueError").
Proof. reflexivity. Qed.

Print Assumptions C102_search.
Print Assumptions C102_ends.
Print Assumptions C102_refused.
Print Assumptions C102_groups.
Print Assumptions C102_between_refuted.
Print Assumptions C102_extract.
Print Assumptions C102_number_refuted.
Print Assumptions C102_complete.
Print Assumptions C102_empty_refuted.
