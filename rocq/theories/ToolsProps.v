(** Property C92: patterns, searches and changes of PFA documents by index (titus.producer.tools). *)
From Coq Require Import Permutation Sorting.Sorted SpecFloat.
From Verif Require Import Base PyNum PyNumProofs ScopeModel MapModel MapSpec MapProofs ToolsModel ToolsSpec ToolsProofs ToolsProofs2 ToolsProofs3 ToolsProofs4.
Open Scope string_scope.
Open Scope list_scope.
Open Scope Z_scope.

Definition doc : val :=
  VDict [("input", VStr "int"); ("action", VArr [VDict [("+", VArr [VStr "input"; VInt 1])]; VDict [("@", VStr "line 3"); ("-", VArr [VStr "input"; VInt 1])]])].
Lemma doc_tree : tree doc.
Proof. cbn. repeat split; repeat constructor; cbn; intuition discriminate. Qed.

(** *** Patterns *)
(** getmatch finds a match exactly when the document matches. *)
Theorem C92_getmatch : forall p v r, getmatch p v = Ok r -> (r <> None <-> matches p v).
Proof. exact getmatch_agrees. Qed.
Example C92_getmatch_example :
  exists m, getmatch (PMin [("-", PList [PGroup "x" (PAny [Pstr]); PLT (NI 3)])]) (VDict [("@", VStr "line 3"); ("-", VArr [VStr "input"; VInt 1])]) = Ok (Some m) /\
    m_groups m = [("x", VStr "input")] /\ m_orig m = VDict [("-", VArr [VStr "input"; VInt 1])].
Proof. eexists. split; [reflexivity|]. split; reflexivity. Qed.
(** The match holds a copy of the document, up to marks "@"; without a substitution the modified copy is the same. *)
Theorem C92_copy : forall p v m, tree v -> getmatch p v = Ok (Some m) -> copy v (m_orig m) /\ (keeps_text p -> m_mod m = m_orig m).
Proof. intros p v m T H. split; [eapply getmatch_copies; eauto|]. intros Kt. eapply getmatch_kept; eauto. Qed.
(** A document matches itself. *)
Lemma json_all_d d : (fix all (d : list (string * val)) : Prop := match d with [] => True | kv :: d' => json (snd kv) /\ all d' end) d <-> Forall (fun kx => json (snd kx)) d.
Proof. induction d as [|kx d IH]; [split; auto|]. rewrite IH. split; [intros [? ?]; constructor; auto|intros H; inversion H; auto]. Qed.
Lemma json_all l : (fix all (l : list val) : Prop := match l with [] => True | x :: l' => json x /\ all l' end) l <-> Forall json l.
Proof. induction l as [|x l IH]; [split; auto|]. rewrite IH. split; [intros [? ?]; constructor; auto|intros H; inversion H; auto]. Qed.
Lemma num_self n : match n with NF f => isnan f = false | NI _ => True end -> num_eq n n = true.
Proof.
  unfold num_eq, num_cmp. destruct n as [z|f].
  - intros _. now rewrite Z.compare_refl.
  - destruct f as [s|s| |s m e]; cbn; try discriminate; intros _; destruct s; try reflexivity;
      unfold SFcompare; rewrite ?Z.compare_refl, ?Pos.compare_refl; try rewrite Pos.compare_cont_refl; reflexivity.
Qed.
Theorem C92_self : forall v, tree v -> json v -> matches (literal v) v.
Proof.
  induction v as [d F|l F|v Hd Hl] using val_ind2; intros T J.
  - apply tree_dict in T. destruct T as [N T]. cbn [json] in J. rewrite json_all_d in J. cbn [literal].
    change (exists e, VDict d = VDict e /\ (forall k, k <> "@" -> (In k (map fst (map (fun kv => (fst kv, literal (snd kv))) d)) <-> In k (map fst e))) /\ s_entries (map (fun kv => (fst kv, literal (snd kv))) d) e).
    exists d. split; [reflexivity|]. split; [intros k _; rewrite map_map; reflexivity|].
    rewrite Forall_forall in F, T, J.
    assert (A : forall d', incl d' d -> s_entries (map (fun kv => (fst kv, literal (snd kv))) d') d).
    { induction d' as [|[k x] d' IH]; intros Hi; cbn [map s_entries]; [exact Logic.I|]. split.
      - intros _. exists x. assert (In (k, x) d) by (apply Hi; now left). split; [now apply in_assoc|]. apply (F (k, x)); [assumption|apply (T (k, x)); assumption|apply (J (k, x)); assumption].
      - apply IH. intros y Hy. apply Hi. now right. }
    apply A. apply incl_refl.
  - apply tree_arr in T. cbn [json] in J. rewrite json_all in J. cbn [literal].
    change (exists w, VArr l = VArr w /\ s_items (map literal l) w). exists l. split; [reflexivity|].
    induction l as [|x l IH]; cbn [map s_items]; [exact Logic.I|]. inversion F; subst. inversion T; subst. inversion J; subst. split; [auto|]. apply IH; auto; discriminate.
  - destruct v; cbn in *; try reflexivity; try (now destruct J); try (now destruct (Hl l)); try (now destruct (Hd d)).
    + eexists. split; [reflexivity|]. now destruct b.
    + eexists. split; [reflexivity|]. now apply num_self.
    + eexists. split; [reflexivity|]. now apply num_self.
Qed.
Example C92_self_example : exists m, getmatch (literal doc) doc = Ok (Some m) /\ m_orig m <> doc.
Proof. eexists. split; [reflexivity|]. discriminate. Qed.
(** Every group of a match is (without a substitution) a copy of a part that the group's pattern matches, and the groups that
    the pattern must have are there. *)
Theorem C92_groups : forall p v m, tree v -> getmatch p v = Ok (Some m) ->
  (forall g x, In (g, x) (m_groups m) -> exists q i y, within p (PGroup g q) /\ part v i y /\ matches q y /\ (keeps_text q -> copy y x)) /\
  (forall g, binds p g -> In g (map fst (m_groups m))).
Proof. intros p v m T H. split; [exact (getmatch_from p v m T H)|exact (getmatch_bound p v m H)]. Qed.
Example C92_groups_example :
  exists m, getmatch (PList [PGroup "x" (PAny []); PMin [("-", PList [PGroup "y" (PAny [Pstr]); PGroup "z" (PGT (NI 0))])]]) (VArr [VInt 7; VDict [("-", VArr [VStr "input"; VInt 1])]]) = Ok (Some m) /\
    m_groups m = [("x", VInt 7); ("y", VStr "input"); ("z", VInt 1)].
Proof. eexists. split; reflexivity. Qed.
(** true is found where the document has 1, NaN is below any limit, and a literal in a Group is an error. *)
Theorem C92_patterns_refuted :
  (exists m, getmatch (PBool true) (VInt 1) = Ok (Some m)) /\
  (forall n, exists m, getmatch (PLT n) (VFlt S754_nan) = Ok (Some m)) /\
  (forall g s v, getmatch (PGroup g (PStr s)) v = Raise (PyErr "AttributeError")).
Proof.
  split; [eexists; reflexivity|]. split; [|reflexivity]. intros [z|f]; eexists; cbn [getmatch as_num]; unfold num_ge, num_cmp; [reflexivity|].
  destruct f as [s|s| |s m e]; reflexivity.
Qed.

(** *** Searching *)
(** A search yields every part that matches, once, inner parts first, and for each a copy of it. *)
Theorem C92_search : forall p h out, tree h -> consumed (search p h) = Ok out ->
  (forall i, In i (map fst out) <-> exists x, part h i x /\ matches p x) /\ StronglySorted before (map fst out) /\
  (forall i m, In (i, m) out -> exists x, part h i x /\ copy x (m_orig m) /\ (keeps_text p -> m_mod m = m_orig m)).
Proof.
  intros p h out T H. unfold consumed in H. destruct (snd (search p h)) as [e|] eqn:E; [discriminate|]. injection H as <-. unfold search in *.
  pose proof (yields_in p _ E) as Hin. pose proof (yields_total p _ E) as Ht.
  assert (Pl : forall i x, In (i, x) (places h []) <-> part h i x).
  { intros i x. rewrite places_in. split; [intros (q & -> & H); exact H|intros H; exists i; auto]. }
  split; [|split].
  - intros i. rewrite in_map_iff. split.
    + intros ([j m] & <- & Hj). apply Hin in Hj. destruct Hj as (x & Hx & G). exists x. split; [now apply Pl|]. apply (getmatch_agrees p x _ G). discriminate.
    + intros (x & Hx & M). apply Pl in Hx. destruct (Ht i x Hx) as [r Er]. pose proof (proj2 (getmatch_agrees p x r Er) M) as Nn. destruct r as [m|]; [|congruence].
      exists (i, m). split; [reflexivity|]. apply Hin. eauto.
  - apply yields_sorted, places_sorted, T.
  - intros i m Hi. apply Hin in Hi. destruct Hi as (x & Hx & G). apply Pl in Hx. exists x. split; [exact Hx|].
    apply C92_copy; [eapply part_tree; eauto|exact G].
Qed.
Example C92_search_example :
  option_map (map fst) (match consumed (search (PStr "input") doc) with Ok l => Some l | _ => None end) =
  Some [[K "action"; I 0; K "+"; I 0]; [K "action"; I 1; K "-"; I 0]].
Proof. reflexivity. Qed.
(** index gives the first of them; None only if there is none. *)
Theorem C92_first : forall p h r, tree h -> index p h = Ok r ->
  match r with
  | Some i => exists x, part h i x /\ matches p x /\ forall j y, part h j y -> before j i -> ~ matches p y
  | None => forall j y, part h j y -> ~ matches p y
  end.
Proof.
  intros p h r T H. unfold index, searchFirst in H. unfold search in H. pose proof (yields_first p (places h [])) as Y.
  assert (Pl : forall i x, In (i, x) (places h []) <-> part h i x).
  { intros i x. rewrite places_in. split; [intros (q & -> & Hq); exact Hq|intros Hq; exists i; auto]. }
  destruct (yields p (places h [])) as [[|[i m] out] [e|]]; cbn in H; try discriminate; injection H as <-; cbn.
  - intros j y Hy M. apply Pl in Hy. apply (getmatch_agrees p y _ (Y _ Hy)) in M. congruence.
  - destruct Y as (l1 & x & l2 & E & G & N). exists x. split; [apply Pl; rewrite E; apply in_elt|]. split; [apply (getmatch_agrees p x _ G); discriminate|].
    intros j y Hy B M. apply Pl in Hy. pose proof (places_sorted h T []) as Hs. rewrite E in Hs, Hy. apply in_app_iff in Hy. destruct Hy as [Hy|[[= <- <-]|Hy]].
    + apply (getmatch_agrees p y _ (N _ Hy)) in M. congruence.
    + eapply before_asym; eauto.
    + clear - Hs Hy B. induction l1 as [|u l1 IH]; cbn in Hs; inversion Hs; subst; [|auto]. rewrite Forall_forall in H2. eapply before_asym; [exact B|]. apply (H2 _ Hy).
  - destruct Y as (l1 & x & l2 & E & G & N). exists x. split; [apply Pl; rewrite E; apply in_elt|]. split; [apply (getmatch_agrees p x _ G); discriminate|].
    intros j y Hy B M. apply Pl in Hy. pose proof (places_sorted h T []) as Hs. rewrite E in Hs, Hy. apply in_app_iff in Hy. destruct Hy as [Hy|[[= <- <-]|Hy]].
    + apply (getmatch_agrees p y _ (N _ Hy)) in M. congruence.
    + eapply before_asym; eauto.
    + clear - Hs Hy B. induction l1 as [|u l1 IH]; cbn in Hs; inversion Hs; subst; [|auto]. rewrite Forall_forall in H2. eapply before_asym; [exact B|]. apply (H2 _ Hy).
Qed.
(** contains, count, findRef and findCopy agree with that. *)
Theorem C92_contains : forall p h, tree h ->
  (forall b, contains p h = Ok b -> (b = true <-> exists i x, part h i x /\ matches p x)) /\
  (forall n, count p h = Ok n -> exists is, indexes p h = Ok is /\ NoDup is /\ n = Z.of_nat (length is)) /\
  (forall x, findRef p h = Ok (Some x) -> exists i, index p h = Ok (Some i) /\ part h i x /\ matches p x) /\
  (forall y, findCopy p h = Ok (Some y) -> exists x, findRef p h = Ok (Some x) /\ copy x y).
Proof.
  intros p h T. split; [|split; [|split]].
  - intros b H. assert (Ei : exists r, index p h = Ok r /\ b = match r with Some _ => true | None => false end).
    { unfold contains in H. unfold index. destruct (searchFirst p h) as [[im|]|]; try discriminate; injection H as <-; eexists; split; reflexivity. }
    destruct Ei as (r & Er & ->). pose proof (C92_first p h r T Er) as F. destruct r as [i|].
    + split; [|reflexivity]. intros _. destruct F as (x & Hx & M & _). eauto.
    + split; [discriminate|]. intros (i & x & Hx & M). now destruct (F i x Hx).
  - intros n H. unfold count in H. unfold indexes. destruct (consumed (search p h)) as [out|] eqn:E; [|discriminate]. injection H as <-. cbn.
    eexists. split; [reflexivity|]. split; [|now rewrite map_length]. destruct (C92_search p h out T E) as (_ & Hs & _).
    clear - Hs. induction Hs as [|a l Hl IH Ha]; constructor; [|exact IH]. intros C. rewrite Forall_forall in Ha. eapply before_asym; apply Ha; exact C.
  - intros x H. unfold findRef in H. destruct (searchFirst p h) as [[[i m]|]|] eqn:E; try discriminate. cbn in H.
    assert (Ei : index p h = Ok (Some i)) by (unfold index; rewrite E; reflexivity). pose proof (C92_first p h _ T Ei) as (y & Hy & M & _).
    rewrite (reach_get _ _ _ (part_reach _ _ _ T Hy)) in H. injection H as <-. eauto.
  - intros y H. unfold findCopy in H. destruct (searchFirst p h) as [[[i m]|]|] eqn:E; try discriminate. injection H as <-.
    assert (Ei : exists x, part h i x /\ getmatch p x = Ok (Some m)).
    { unfold searchFirst, search in E. pose proof (yields_first p (places h [])) as Y. destruct (yields p (places h [])) as [[|[j m'] out] [e|]]; try discriminate; injection E as <- <-;
        destruct Y as (l1 & x & l2 & Ep & G & _); exists x; (split; [|exact G]); assert (Hin : In (j, x) (places h [])) by (rewrite Ep; apply in_elt);
        apply places_in in Hin; destruct Hin as (q & -> & Hq); exact Hq. }
    destruct Ei as (x & Hx & G). exists x. split; [|eapply getmatch_copies; [eapply part_tree; eauto|exact G]].
    unfold findRef. rewrite E. cbn. now rewrite (reach_get _ _ _ (part_reach _ _ _ T Hx)).
Qed.
Example C92_contains_example : contains (PList [PStr "input"; PAny [Pint]]) doc = Ok true /\ count (PNum (NI 1)) doc = Ok 2.
Proof. split; reflexivity. Qed.

(** *** Indexes *)
(** get reads the part; after an assignment it reads the new value there, what it read before elsewhere, and assigning the
    old part gives the old document back. *)
Theorem C92_assigned : forall v p x to, tree v -> part v p x -> get v p = Ok x /\
  (p <> [] -> exists w, assigned v p to = Ok w /\ get w p = Ok to /\ (forall q, apart p q -> plain q -> get w q = get v q) /\ assigned w p x = Ok v).
Proof.
  intros v p x to T H. apply (part_reach _ _ _ T) in H. split; [now apply reach_get|]. intros N. exists (write v p to).
  split; [eapply assigned_write; eauto|]. split; [apply reach_get; eapply reach_write; eauto|]. split; [intros; eapply get_write_apart; eauto|].
  rewrite (assigned_write _ _ _ _ (reach_write _ _ _ to H) N), (write_write _ _ _ _ _ H). now rewrite (write_same _ _ _ H).
Qed.
Example C92_assigned_example :
  exists w, assigned doc [K "action"; I 0; K "+"; I 1] (VInt 5) = Ok w /\ get w [K "action"; I 0; K "+"; I 1] = Ok (VInt 5) /\
    part doc [K "action"; I 0; K "+"; I 1] (VInt 1).
Proof.
  eexists. split; [reflexivity|]. split; [reflexivity|].
  eapply part_key; [right; left; reflexivity|]. eapply (part_item _ 0); [reflexivity|]. eapply part_key; [left; reflexivity|].
  eapply (part_item _ 1); [reflexivity|]. constructor.
Qed.
(** A new key is added to a dict; a key or item that is removed is gone, the rest is as before. *)
Theorem C92_new_key : forall v p d k to, tree v -> part v p (VDict d) -> ~ In k (map fst d) ->
  exists w, assigned v (p ++ [K k]) to = Ok w /\ get w p = Ok (VDict (d ++ [(k, to)])) /\ (forall q, apart p q -> plain q -> get w q = get v q).
Proof.
  intros v p d k to T H N. apply (part_reach _ _ _ T) in H. unfold assigned. rewrite (change_spec _ _ _ _ _ H). cbn [put rbind].
  assert (E : dict_set k to d = d ++ [(k, to)]).
  { clear - N. induction d as [|[j y] d IH]; [reflexivity|]. cbn in *. destruct (String.eqb_spec k j) as [->|Ne]; [exfalso; auto|]. now rewrite IH by tauto. }
  rewrite E. eexists. split; [reflexivity|]. split; [apply reach_get; eapply reach_write; eauto|]. intros; eapply get_write_apart; eauto.
Qed.
Theorem C92_removed_key : forall v p d k x, tree v -> part v p (VDict d) -> In (k, x) d ->
  exists w e, removed v (p ++ [K k]) = Ok w /\ get w p = Ok (VDict e) /\ (forall j y, In (j, y) e <-> j <> k /\ In (j, y) d) /\
    (forall q, apart p q -> plain q -> get w q = get v q).
Proof.
  intros v p d k x T H Hk. assert (N : NoDup (map fst d)) by (pose proof (part_tree _ _ _ H T) as Td; now apply tree_dict in Td).
  apply (part_reach _ _ _ T) in H. unfold removed. rewrite (change_spec _ _ _ _ _ H). cbn [del].
  rewrite (proj2 (has_key_in k d)) by (apply in_map_fst; eauto). cbn [rbind]. eexists _, (dict_del k d). split; [reflexivity|].
  split; [apply reach_get; eapply reach_write; eauto|]. split; [|intros; eapply get_write_apart; eauto].
  clear - N. intros j y. induction d as [|[i z] d IH]; cbn in *; [tauto|]. inversion N as [|? ? N1 N2]; subst. destruct (String.eqb_spec k i) as [->|Ne].
  - split; [intros Hj; split; [intros ->; apply N1, in_map_fst; eauto|auto]|]. intros [Nj [[= <- <-]|Hj]]; [congruence|exact Hj].
  - cbn. rewrite (IH N2). split; [intros [[= <- <-]|[? ?]]; split; auto|]. intros [Nj [Hj|Hj]]; auto.
Qed.
Theorem C92_removed_item : forall v p l1 x l2, tree v -> part v p (VArr (l1 ++ x :: l2)) ->
  exists w, removed v (p ++ [I (Z.of_nat (length l1))]) = Ok w /\ get w p = Ok (VArr (l1 ++ l2)) /\ (forall q, apart p q -> plain q -> get w q = get v q).
Proof.
  intros v p l1 x l2 T H. apply (part_reach _ _ _ T) in H. unfold removed. rewrite (change_spec _ _ _ _ _ H). cbn [del].
  rewrite (offset_nat _ _ x) by (rewrite nth_error_app2, Nat.sub_diag by lia; reflexivity). cbn [rbind].
  assert (E : del_nth (length l1) (l1 ++ x :: l2) = l1 ++ l2) by (clear; induction l1 as [|y l1 IH]; [reflexivity|cbn; now rewrite IH]).
  rewrite E. eexists. split; [reflexivity|]. split; [apply reach_get; eapply reach_write; eauto|]. intros; eapply get_write_apart; eauto.
Qed.
Example C92_removed_example :
  removed doc [K "action"; I 0] = Ok (VDict [("input", VStr "int"); ("action", VArr [VDict [("@", VStr "line 3"); ("-", VArr [VStr "input"; VInt 1])]])]) /\
  removed (VDict [("a", VInt 1); ("b", VInt 2)]) [K "a"] = Ok (VDict [("b", VInt 2)]).
Proof. split; reflexivity. Qed.

(** *** assignedAt *)
(** All parts that match are replaced, from the leaves upwards, a part being looked at after its own parts were replaced;
    if the whole document then matches, IndexError. *)
Theorem C92_assigned_at : forall p to v f, (forall x, exists r, getmatch p x = Ok r) -> tree v ->
  (forall x, (matches p x -> f x = to) /\ (~ matches p x -> f x = x)) ->
  exists w, inside f v w /\ (matches p w -> assignedAt p v to = Raise (PyErr "IndexError")) /\ (~ matches p w -> assignedAt p v to = Ok w).
Proof.
  intros p to v f Tp Tv Hf. destruct (walk_root p to f) with (v := v) as (w & Hw & Ew); auto.
  - intros x. split.
    + intros G. apply (proj2 (Hf x)). intros M. apply (getmatch_agrees p x _ G) in M. congruence.
    + intros m G. apply (proj1 (Hf x)). apply (getmatch_agrees p x _ G). discriminate.
  - exists w. split; [exact Hw|]. unfold test in Ew. cbn [get rbind] in Ew. destruct (Tp w) as [r Er]. rewrite Er in Ew. cbn [rbind] in Ew.
    pose proof (getmatch_agrees p w r Er) as A. split; intros M.
    + apply A in M. destruct r; [exact Ew|congruence].
    + destruct r as [m|]; [|exact Ew]. exfalso. apply M, A. discriminate.
Qed.
(** For a pattern that matches neither dicts nor lists: exactly the places that indexes finds change. *)
Lemma replaced_leaf f v w q x : (forall d, f (VDict d) = VDict d) -> (forall l, f (VArr l) = VArr l) -> tree v -> replaced f v w -> part v q x -> leaf x -> get w q = Ok (f x).
Proof.
  intros Fd Fl T R H L. revert w R. induction H as [v|d k y p x Hk H IH|l n y p x Hn H IH]; intros w R.
  - destruct L as [Ld Ll]. inversion R; subst; [now destruct (Ld d)|now destruct (Ll l)|reflexivity].
  - apply tree_dict in T. destruct T as [N T]. rewrite Forall_forall in T. inversion R as [d' e F2 E1 E2| |v' Hd Hl]; subst; [|now destruct (Hd d)].
    rewrite Fd. cbn [get item]. assert (Ey : exists z, assoc k e = Some z /\ replaced f y z).
    { clear - F2 Hk N. induction F2 as [|[j u] [j' u'] d e (Ej & Ru) F2 IH]; [destruct Hk|]. cbn in *. subst j'. inversion N; subst. destruct Hk as [[= -> ->]|Hk].
      - rewrite String.eqb_refl. eauto.
      - destruct (String.eqb_spec k j) as [->|Ne]; [exfalso; apply H1, in_map_fst; eauto|]. now apply IH. }
    destruct Ey as (z & -> & Rz). cbn [rbind]. apply IH; auto. apply (T _ Hk).
  - apply tree_arr in T. rewrite Forall_forall in T. inversion R as [|l' m F2 E1 E2|v' Hd Hl]; subst; [|now destruct (Hl l)].
    rewrite Fl. cbn [get]. assert (Ey : exists z, nth_error m n = Some z /\ replaced f y z).
    { clear - F2 Hn. revert n Hn. induction F2 as [|u u' l m Ru F2 IH]; intros [|n] Hn; try discriminate; [injection Hn as <-; exists u'; auto|]. apply IH. exact Hn. }
    destruct Ey as (z & Hz & Rz). rewrite (item_nat _ _ _ Hz). cbn [rbind]. apply IH; auto. apply T. eapply nth_error_In; eauto.
Qed.
Theorem C92_assigned_at_leaves : forall p to v, (forall x, exists r, getmatch p x = Ok r) -> tree v -> ~ leaf v ->
  (forall x, matches p x -> leaf x) ->
  exists w, assignedAt p v to = Ok w /\
    (forall q x, part v q x -> leaf x -> (matches p x -> get w q = Ok to) /\ (~ matches p x -> get w q = get v q)).
Proof.
  intros p to v Tp Tv Nl Hp.
  set (f := fun x => match getmatch p x with Ok (Some _) => to | _ => x end).
  assert (Hf : forall x, (matches p x -> f x = to) /\ (~ matches p x -> f x = x)).
  { intros x. unfold f. destruct (Tp x) as [r Er]. pose proof (getmatch_agrees p x r Er) as A. rewrite Er. split; intros M.
    - apply A in M. destruct r; congruence.
    - destruct r; [exfalso; apply M, A; discriminate|reflexivity]. }
  assert (Fd : forall d, f (VDict d) = VDict d) by (intros d; apply Hf; intros M; apply Hp in M; now destruct M as [M _], (M d)).
  assert (Fl : forall l, f (VArr l) = VArr l) by (intros l; apply Hf; intros M; apply Hp in M; now destruct M as [_ M], (M l)).
  destruct (C92_assigned_at p to v f Tp Tv Hf) as (w & Hw & _ & Ew).
  assert (Rw : replaced f v w /\ ~ matches p w).
  { destruct v; try (exfalso; apply Nl; split; discriminate).
    - destruct Hw as (m & -> & F2). rewrite <- (Fl m) at 1. split; [now constructor|]. intros M. apply Hp in M. now destruct M as [_ M], (M m).
    - destruct Hw as (e & -> & F2). rewrite <- (Fd e) at 1. split; [now constructor|]. intros M. apply Hp in M. now destruct M as [M _], (M e). }
  destruct Rw as [Rw Nw]. exists w. split; [auto|]. intros q x Hq L. pose proof (replaced_leaf f v w q x Fd Fl Tv Rw Hq L) as E. split; intros M.
  - now rewrite E, (proj1 (Hf x) M).
  - rewrite E, (proj2 (Hf x) M). symmetry. apply reach_get. now apply part_reach.
Qed.
Example C92_assigned_at_example :
  assignedAt (PStr "input") doc (VStr "x") =
  Ok (VDict [("input", VStr "int"); ("action", VArr [VDict [("+", VArr [VStr "x"; VInt 1])]; VDict [("@", VStr "line 3"); ("-", VArr [VStr "x"; VInt 1])]])]).
Proof. reflexivity. Qed.
(** In general other places than those that indexes finds can change, and a document that matches cannot be replaced. *)
Theorem C92_assigned_at_refuted :
  (exists p v to w, tree v /\ indexes p v = Ok [[K "a"; I 0]] /\ assigned v [K "a"; I 0] to = Ok w /\ assignedAt p v to <> Ok w) /\
  (exists p v to, tree v /\ matches p v /\ assignedAt p v to = Raise (PyErr "IndexError")).
Proof.
  split.
  - exists (POr [PNum (NI 1); PList [PNum (NI 2)]]), (VDict [("a", VArr [VInt 1])]), (VInt 2), (VDict [("a", VArr [VInt 2])]).
    split; [cbn; repeat split; repeat constructor; intros []|]. split; [reflexivity|]. split; [reflexivity|]. discriminate.
  - exists (PStr "int"), (VStr "int"), (VStr "double"). split; [exact Logic.I|]. split; reflexivity.
Qed.
(** Positions: from the front, or, if negative, from the end; anything else is an IndexError. *)
Theorem C92_positions : forall l1 x l2,
  get (VArr (l1 ++ x :: l2)) [I (Z.of_nat (length l1))] = Ok x /\ get (VArr (l1 ++ x :: l2)) [I (- Z.of_nat (S (length l2)))] = Ok x /\
  forall l i, Z.of_nat (length l) <= i \/ i < - Z.of_nat (length l) -> get (VArr l) [I i] = Raise (PyErr "IndexError").
Proof.
  intros l1 x l2. assert (L : length (l1 ++ x :: l2) = (length l1 + S (length l2))%nat) by (rewrite app_length; reflexivity).
  assert (N : nth_error (l1 ++ x :: l2) (length l1) = Some x) by (rewrite nth_error_app2, Nat.sub_diag by lia; reflexivity). split; [|split].
  - cbn [get item]. unfold offset. cbv zeta. rewrite L. destruct (Z.ltb_spec (Z.of_nat (length l1)) 0); [lia|].
    destruct (Z.leb_spec 0 (Z.of_nat (length l1))); [|lia]. destruct (Z.ltb_spec (Z.of_nat (length l1)) (Z.of_nat (length l1 + S (length l2)))); [|lia].
    cbn [andb]. rewrite Nat2Z.id, N. reflexivity.
  - cbn [get item]. unfold offset. cbv zeta. rewrite L. destruct (Z.ltb_spec (- Z.of_nat (S (length l2))) 0); [|lia].
    replace (- Z.of_nat (S (length l2)) + Z.of_nat (length l1 + S (length l2))) with (Z.of_nat (length l1)) by lia.
    destruct (Z.leb_spec 0 (Z.of_nat (length l1))); [|lia]. destruct (Z.ltb_spec (Z.of_nat (length l1)) (Z.of_nat (length l1 + S (length l2)))); [|lia].
    cbn [andb]. rewrite Nat2Z.id, N. reflexivity.
  - intros l i Hi. cbn [get item]. unfold offset. cbv zeta. destruct (Z.ltb_spec i 0).
    + destruct (Z.leb_spec 0 (i + Z.of_nat (length l))); [lia|]. reflexivity.
    + destruct (Z.leb_spec 0 i); [|lia]. destruct (Z.ltb_spec i (Z.of_nat (length l))); [lia|]. reflexivity.
Qed.
Example C92_positions_example : get (VArr [VInt 1; VInt 2; VInt 3]) [I (-1)] = Ok (VInt 3).
Proof. reflexivity. Qed.
Print Assumptions C92_getmatch.
Print Assumptions C92_copy.
Print Assumptions C92_self.
Print Assumptions C92_groups.
Print Assumptions C92_patterns_refuted.
Print Assumptions C92_search.
Print Assumptions C92_first.
Print Assumptions C92_contains.
Print Assumptions C92_assigned.
Print Assumptions C92_new_key.
Print Assumptions C92_removed_key.
Print Assumptions C92_removed_item.
Print Assumptions C92_assigned_at.
Print Assumptions C92_assigned_at_leaves.
Print Assumptions C92_assigned_at_refuted.
Print Assumptions C92_positions.
