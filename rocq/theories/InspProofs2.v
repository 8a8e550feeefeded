(** Proofs about extraction in pfainspector. *)
From Coq Require Import Lia DecimalString DecimalNat.
From Verif Require Import Base PyNum ScopeModel ToolsModel ToolsSpec ToolsProofs InspModel InspSpec InspProofs.
Open Scope string_scope.
Open Scope list_scope.
Open Scope Z_scope.

Lemma ext_item_ok : forall v i x, ext_item v i = Ok x <-> item v i = Ok x.
Proof. intros v i x. unfold ext_item. destruct (item v i) as [y|[| | | |e]]; try reflexivity. destruct i; match goal with |- context [if ?b then _ else _] => destruct b end; split; discriminate. Qed.
Lemma extaction_get : forall p v x, extaction v p = Ok x <-> get v p = Ok x.
Proof.
  induction p as [|i p IH]; intros v x; cbn; [reflexivity|].
  destruct (item v i) as [y|e] eqn:E.
  - rewrite (proj2 (ext_item_ok v i y) E). cbn. apply IH.
  - cbn. destruct (ext_item v i) as [y|e'] eqn:E2; [apply ext_item_ok in E2; congruence|]. cbn. split; discriminate.
Qed.
Lemma item_errors : forall v i e, item v i = Raise e -> e = PyErr "KeyError" \/ e = PyErr "IndexError" \/ e = PyErr "TypeError".
Proof.
  intros v i e. destruct v, i; cbn; try (intros [= <-]; auto; fail);
  repeat match goal with |- context [match ?x with _ => _ end] => destruct x end; intros [= <-]; auto.
Qed.
Lemma extaction_errors : forall p v e, extaction v p = Raise e ->
  e = PyErr "InspectorError" \/ (e = PyErr "KeyError" /\ exists q i d r, p = q ++ I i :: r /\ get v q = Ok (VDict d)).
Proof.
  induction p as [|i p IH]; intros v e; cbn; [discriminate|]. destruct (ext_item v i) as [x|e'] eqn:E; cbn.
  - intros H. destruct (IH x e H) as [K|(K & q & j & d & r & -> & G)]; [left; exact K|]. right. split; [exact K|]. exists (i :: q), j, d, r. split; [reflexivity|].
    cbn. apply ext_item_ok in E. rewrite E. exact G.
  - intros [= <-]. unfold ext_item in E. destruct (item v i) as [x|e2] eqn:Ei; [discriminate|].
    destruct v as [| | | | | |l|d], i as [kk|iz]; cbn in Ei;
    repeat match type of Ei with context [match ?x with _ => _ end] => destruct x end; try discriminate Ei; injection Ei as <-; cbn in E; injection E as <-; auto.
    right. split; [reflexivity|]. exists [], iz, d, p. split; reflexivity.
Qed.
Lemma numbered : forall l n s b, In (s, b) (number_items n l) <-> exists j x, nth_error l j = Some x /\ s = I (Z.of_nat (n + j)) /\ b = deep x.
Proof.
  induction l as [|y l IH]; intros n s b; cbn.
  - split; [contradiction|]. intros (j & x & E & _). destruct j; discriminate.
  - rewrite IH. split.
    + intros [[= <- <-]|(j & x & E & -> & ->)]; [exists 0%nat, y; rewrite Nat.add_0_r; auto|]. exists (S j), x. split; [exact E|]. rewrite Nat.add_succ_r. auto.
    + intros ([|j] & x & E & -> & ->); cbn in E.
      * left. injection E as <-. rewrite Nat.add_0_r. reflexivity.
      * right. exists j, x. rewrite Nat.add_succ_r. auto.
Qed.
Lemma offset_in : forall (l : list val) n x, nth_error l n = Some x -> offset l (Z.of_nat n) = Some n.
Proof.
  intros l n x E. assert (L : (n < length l)%nat) by (apply nth_error_Some; congruence). unfold offset.
  destruct (Z.ltb_spec (Z.of_nat n) 0); [lia|]. replace (0 <=? Z.of_nat n) with true by (symmetry; apply Z.leb_le; lia).
  replace (Z.of_nat n <? Z.of_nat (length l)) with true by (symmetry; apply Z.ltb_lt; lia). cbn. rewrite Nat2Z.id. reflexivity.
Qed.
Lemma offered_next : forall p v cs, extcomplete v p = Ok cs -> forall s b, In (s, b) cs -> tree v -> exists x, get v (p ++ [s]) = Ok x /\ b = deep x.
Proof.
  assert (Dict : forall (d : list (string * val)) k x, NoDup (map fst d) -> In (k, x) d -> assoc k d = Some x).
  { induction d as [|[j y] d IH]; intros k x N I; cbn in *; [contradiction|]. inversion N; subst. destruct I as [[= -> ->]|I]; [rewrite String.eqb_refl; reflexivity|].
    destruct (String.eqb_spec k j) as [->|D]; [exfalso; match goal with H : ~ In _ _ |- _ => apply H end; apply in_map_iff; exists (j, x); auto | apply IH; assumption]. }
  induction p as [|[k|i] p IH]; intros v cs E s b Hin T; cbn [app get].
  - cbn in E. destruct v as [| | | | | |l|d]; try (injection E as <-; contradiction).
    + destruct l as [|x0 l]; [discriminate|]. injection E as <-. apply (numbered (x0 :: l) 0 s b) in Hin. destruct Hin as (j & x & Ej & -> & ->).
      exists x. split; [|reflexivity]. rewrite Nat.add_0_l. cbn [item]. rewrite (offset_in _ _ _ Ej), Ej. reflexivity.
    + injection E as <-. apply in_map_iff in Hin. destruct Hin as ([k x] & [= <- <-] & Hin). exists x. split; [|reflexivity]. cbn [item fst].
      rewrite (Dict d k x (proj1 T) Hin). reflexivity.
  - cbn in E. destruct v as [| | | | | | |d]; try (injection E as <-; contradiction). destruct (assoc k d) as [x|] eqn:A; [|injection E as <-; contradiction].
    cbn [item]. rewrite A. cbn [rbind]. apply (IH x cs E s b Hin). apply tree_dict in T. destruct T as [_ T]. rewrite Forall_forall in T.
    clear - A T. induction d as [|[j y] d IHd]; cbn in *; [discriminate|]. destruct (String.eqb k j); [injection A as <-; apply (T (j, y)); left; reflexivity | apply IHd; [exact A | intros z I; apply T; right; exact I]].
  - cbn in E. destruct v as [| | | | | |l|]; try (injection E as <-; contradiction). destruct (i <? Z.of_nat (length l)); [|injection E as <-; contradiction].
    cbn [item]. destruct (offset l i) as [n|]; [|discriminate]. destruct (nth_error l n) as [x|] eqn:N; [|discriminate]. cbn [rbind]. apply (IH x cs E s b Hin).
    apply nth_error_In in N. cbn in T. clear - N T. induction l as [|y l IHl]; [contradiction|]. destruct N as [->|N]; [apply T | apply IHl; [exact N | apply T]].
Qed.
Lemma assoc_some : forall A k (d : list (string * A)) x, assoc k d = Some x -> In (k, x) d.
Proof. induction d as [|[j y] d IH]; cbn; intros x E; [discriminate|]. destruct (String.eqb_spec k j) as [->|D]; [injection E as <-; left; reflexivity | right; apply IH, E]. Qed.
(** what extraction reaches without going into texts or counting from the end is offered *)
Lemma all_offered : forall p v cs, extcomplete v p = Ok cs -> forall s x, part v (p ++ [s]) x -> tree v -> In (s, deep x) cs.
Proof.
  assert (Dict : forall (d : list (string * val)) k x, NoDup (map fst d) -> In (k, x) d -> assoc k d = Some x).
  { induction d as [|[j y] d IH]; intros k x N I; cbn in *; [contradiction|]. inversion N; subst. destruct I as [[= -> ->]|I]; [rewrite String.eqb_refl; reflexivity|].
    destruct (String.eqb_spec k j) as [->|D]; [exfalso; match goal with H : ~ In _ _ |- _ => apply H end; apply in_map_iff; exists (j, x); auto | apply IH; assumption]. }
  induction p as [|i p IH]; intros v cs E s x Hp T; cbn [app] in Hp.
  - inversion Hp as [|d k y q z I0 P0|l n y q z N0 P0]; subst; cbn in E.
    + injection E as <-. inversion P0; subst. apply in_map_iff. exists (k, x). auto.
    + destruct l as [|x0 l]; [destruct n; discriminate|]. injection E as <-. inversion P0; subst. apply (numbered (x0 :: l) 0). exists n, x. auto.
  - inversion Hp as [|d k y q z I0 P0|l n y q z N0 P0]; subst; cbn in E.
    + apply tree_dict in T. destruct T as [N T]. rewrite Forall_forall in T. rewrite (Dict d k y N I0) in E. apply (IH y cs E s x P0). apply (T (k, y) I0).
    + rewrite (offset_in _ _ _ N0), N0 in E. assert (L : (n < length l)%nat) by (apply nth_error_Some; congruence).
      replace (Z.of_nat n <? Z.of_nat (length l)) with true in E by (symmetry; apply Z.ltb_lt; lia). apply (IH y cs E s x P0).
      apply nth_error_In in N0. cbn in T. clear - N0 T. induction l as [|z l IHl]; [contradiction|]. destruct N0 as [->|N]; [apply T | apply IHl; [apply T | exact N]].
Qed.
Lemma json_part : forall v p x, part v p x -> json v -> json x.
Proof.
  induction 1 as [v|d k y p x I P IH|l n y p x N P IH]; intros J; [exact J| |].
  - apply IH. cbn in J. clear - J I. induction d as [|[j z] d IHd]; [contradiction|]. destruct I as [[= -> ->]|I]; [apply J | apply IHd; [exact I | apply J]].
  - apply IH. apply json_items in J. rewrite Forall_forall in J. apply J. eapply nth_error_In, N.
Qed.

(** names of the groups of a pattern, those inside before those around them *)
Section Names.
Variable f : pat -> list string.
Fixpoint names_of_list (l : list pat) : list string := match l with [] => [] | p :: l' => f p ++ names_of_list l' end.
Fixpoint names_of_dict (l : list (string * pat)) : list string := match l with [] => [] | (_, p) :: l' => f p ++ names_of_dict l' end.
End Names.
Fixpoint group_names (p : pat) : list string :=
  match p with
  | PGroup g q => group_names q ++ [g]
  | PDict d | PMin d => names_of_dict group_names d
  | PList l | PStart l | PEnd l | POr l | PAnd l => names_of_list group_names l
  | _ => []
  end.
Fixpoint groups_in (c : cmd) : nat :=
  match c with
  | CObject l _ => fold_right (fun kc n => (groups_in (snd kc) + n)%nat) 0%nat l
  | CArray l _ _ => fold_right (fun c n => (groups_in c + n)%nat) 0%nat l
  | CGroup l => S (fold_right (fun q n => (fold_right (fun c n => groups_in c + n) 0 q + n)%nat) 0%nat l)
  | _ => 0%nat
  end.
Definition numbered_from (n k : nat) : list string := map group_name (seq n k).
Lemma numbered_app : forall n a b, numbered_from n a ++ numbered_from (n + a) b = numbered_from n (a + b).
Proof. intros n a b. unfold numbered_from. rewrite seq_app, map_app. reflexivity. Qed.
Definition counts (c : cmd) : Prop := forall n p n', regex n c = Ok (p, n') -> n' = (n + groups_in c)%nat /\ (sound c -> group_names p = numbered_from n (groups_in c)).
Lemma counts_list : forall l, Forall counts l -> forall n ps n', each regex n l = Ok (ps, n') -> n' = (n + fold_right (fun c n => groups_in c + n) 0 l)%nat /\
  (all_of sound l -> names_of_list group_names ps = numbered_from n (fold_right (fun c n => (groups_in c + n)%nat) 0%nat l)).
Proof.
  induction 1 as [|c l H F IH]; intros n ps n' E.
  - injection E as <- <-. cbn. split; [lia | reflexivity].
  - apply each_cons in E. destruct E as (p & n1 & ps' & E1 & E2 & ->). destruct (H n p n1 E1) as [-> K1]. destruct (IH _ ps' n' E2) as [-> K2]. cbn. split; [lia|].
    intros [S1 S2]. rewrite (K1 S1), (K2 S2). apply numbered_app.
Qed.
Lemma names_ands : forall qs, names_of_list group_names (map PAnd qs) = concat (map (names_of_list group_names) qs).
Proof. induction qs as [|q qs IH]; cbn; [reflexivity | rewrite IH; reflexivity]. Qed.
Lemma counts_chains : forall l, Forall (Forall counts) l -> forall n ps n', each (each regex) n l = Ok (ps, n') ->
  n' = (n + fold_right (fun q n => fold_right (fun c n => groups_in c + n) 0 q + n) 0 l)%nat /\
  (all_chains sound l -> concat (map (names_of_list group_names) ps) = numbered_from n (fold_right (fun q n => (fold_right (fun c n => groups_in c + n) 0 q + n)%nat) 0%nat l)).
Proof.
  induction 1 as [|c l H F IH]; intros n ps n' E.
  - injection E as <- <-. cbn. split; [lia | reflexivity].
  - apply each_cons in E. destruct E as (p & n1 & ps' & E1 & E2 & ->). destruct (counts_list c H n p n1 E1) as [-> K1]. destruct (IH _ ps' n' E2) as [-> K2]. cbn. split; [lia|].
    intros (_ & S1 & S2). rewrite (K1 S1), (K2 S2). apply numbered_app.
Qed.
Lemma counts_pairs : forall l, Forall (fun kc => counts (snd kc)) l -> forall n ps n', each pair_regex n l = Ok (ps, n') -> n' = (n + fold_right (fun kc n => groups_in (snd kc) + n) 0 l)%nat /\
  (all_pairs sound l -> names_of_dict group_names ps = numbered_from n (fold_right (fun kc n => (groups_in (snd kc) + n)%nat) 0%nat l)).
Proof.
  induction 1 as [|[k c] l H F IH]; intros n ps n' E.
  - injection E as <- <-. cbn. split; [lia | reflexivity].
  - apply each_cons in E. destruct E as ([k' p] & n1 & ps' & E1 & E2 & ->). cbn in E1. destruct (regex n c) as [[q n2]|] eqn:Er; cbn in E1; [|discriminate]. injection E1 as <- <- <-.
    cbn [snd] in H. destruct (H n q n2 Er) as [-> K1]. destruct (IH _ ps' n' E2) as [-> K2]. cbn. split; [lia|].
    intros [S1 S2]. rewrite (K1 S1), (K2 S2). apply numbered_app.
Qed.
Lemma groups_counted : forall c, counts c.
Proof.
  apply cmd_all.
  - intros c L n p n' E. destruct c as [s|s|x| |f g| | |s|a s t b|x e|]; try contradiction; cbn [regex] in E; injection E as <- <-; (split; [cbn; lia|]); intros S; try reflexivity.
    + destruct (String.eqb s "null"); [reflexivity|]. destruct (String.eqb s "true"); [reflexivity|]. destruct (String.eqb s "false"); reflexivity.
    + destruct s as [[[] x]|]; reflexivity.
    + destruct S.
  - intros l e F n p n' E. cbn [regex] in E. change (each _ n l) with (each pair_regex n l) in E. destruct (each pair_regex n l) as [[ps n2]|] eqn:Ee; cbn [rbind fst snd] in E; [|discriminate].
    destruct (counts_pairs l F n ps n2 Ee) as [-> K]. split; [destruct e; [destruct (has_key _ _); [discriminate|]|]; injection E as <- <-; reflexivity|].
    intros [N S]. unfold dict_of_pairs in E. rewrite dict_of_nodup in E by (cbn; rewrite (pairs_keys l n ps _ Ee); exact N). cbn [app] in E. specialize (K S). clear S.
    destruct e; [destruct (has_key _ _); [discriminate|]|]; injection E as <-; exact K.
  - intros l b a F n p n' E. cbn [regex] in E. destruct (b && a)%bool; [discriminate|]. destruct (each regex n l) as [[ps n2]|] eqn:Ee; cbn [rbind fst snd] in E; [|discriminate].
    destruct (counts_list l F n ps n2 Ee) as [-> K]. injection E as <- <-. split; [reflexivity|]. intros S. specialize (K S). destruct b, a; exact K.
  - intros l F n p n' E. cbn [regex] in E. destruct (each (each regex) n l) as [[ps n2]|] eqn:Ee; cbn [rbind fst snd] in E; [|discriminate].
    destruct (counts_chains l F n ps n2 Ee) as [-> K]. injection E as <- <-. split; [cbn; lia|]. intros S. specialize (K S). clear S.
    match goal with |- group_names (PGroup ?g ?q) = _ => change (group_names q ++ [g] = numbered_from n (groups_in (CGroup l))) end.
    match goal with |- group_names ?q ++ _ = _ => replace (group_names q) with (concat (map (names_of_list group_names) ps)) end.
    2: { destruct ps as [|q [|q2 qs]]; [reflexivity | cbn; rewrite app_nil_r; reflexivity | symmetry; exact (names_ands (q :: q2 :: qs))]. }
    rewrite K. unfold numbered_from. cbn [groups_in]. rewrite seq_S, map_app. reflexivity.
Qed.
Lemma group_name_inj : forall a b, group_name a = group_name b -> a = b.
Proof.
  intros a b E. unfold group_name in E. apply (f_equal NilEmpty.uint_of_string) in E. rewrite !NilEmpty.usu in E. injection E as E. apply Unsigned.to_uint_inj, E.
Qed.
