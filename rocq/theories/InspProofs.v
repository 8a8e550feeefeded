(** Proofs about the search patterns of pfainspector. *)
From Verif Require Import Base PyNum ScopeModel ToolsModel ToolsSpec ToolsProofs InspModel InspSpec.
Open Scope string_scope.
Open Scope list_scope.

Section Ind.
Variable P : cmd -> Prop.
Hypothesis HLeaf : forall c, match c with CObject _ _ | CArray _ _ _ | CGroup _ => False | _ => True end -> P c.
Hypothesis HObject : forall l e, Forall (fun kc => P (snd kc)) l -> P (CObject l e).
Hypothesis HArray : forall l b a, Forall P l -> P (CArray l b a).
Hypothesis HGroup : forall l, Forall (Forall P) l -> P (CGroup l).
Fixpoint cmd_all (c : cmd) : P c :=
  let list := fix go l : Forall P l := match l with [] => Forall_nil P | a :: l' => Forall_cons a (cmd_all a) (go l') end in
  match c with
  | CObject l e => HObject l e ((fix go l : Forall (fun kc => P (snd kc)) l := match l with [] => Forall_nil _ | a :: l' => Forall_cons a (cmd_all (snd a)) (go l') end) l)
  | CArray l b a => HArray l b a (list l)
  | CGroup l => HGroup l ((fix go l : Forall (Forall P) l := match l with [] => Forall_nil _ | a :: l' => Forall_cons a (list a) (go l') end) l)
  | c => HLeaf c Logic.I
  end.
End Ind.

Lemma ordered : forall a b, real a -> real b -> exists o, num_cmp a b = Some o.
Proof.
  assert (F : forall f z, isnan f = false -> exists o, f_cmp_Z f z = Some o) by (intros [s|[]| |s m e] z N; unfold f_cmp_Z; cbn [isnan] in *; try discriminate; repeat match goal with |- context [if ?b then _ else _] => destruct b end; eauto).
  intros [x|f] [y|g] A B; cbn in *; eauto.
  - destruct (F g x B) as [o ->]. cbn. eauto.
  - destruct f as [s|[]| |s m e], g as [s'|[]| |s' m' e']; cbn in *; try discriminate; eauto;
    repeat match goal with |- context [if ?b then _ else _] => destruct b | |- context [match ?x with _ => _ end] => destruct x end; eauto.
Qed.
Lemma json_real : forall v m, json v -> number v m -> real m.
Proof. intros [] m J N; cbn in *; try contradiction; subst; cbn; auto. Qed.
Lemma range_says : forall s v, json v -> sound (CRange s) -> (matches (range s) v <-> says (CRange s) v).
Proof.
  intros [[s n]|] v J R; cbn in R.
  - assert (K : forall m, number v m -> exists o, num_cmp m n = Some o) by (intros m N; apply ordered; [eapply json_real; eassumption | exact R]).
    destruct s; cbn; split; intros (m & N & E); exists m; (split; [exact N|]); destruct (K m N) as [[] E2];
    unfold num_lt, num_le, num_gt, num_ge in *; rewrite E2 in *; congruence.
  - cbn. split.
    + intros [E|(t & I & T)]; [discriminate|]. destruct v; cbn; destruct t; cbn in T; try discriminate; cbn in I; intuition discriminate || eauto.
    + intros [m N]. right. destruct v; cbn in N; try contradiction; [exists Pint | exists Pint | exists Pfloat]; cbn; auto.
Qed.

Definition exact (c : cmd) : Prop := sound c -> forall n p n', regex n c = Ok (p, n') -> forall v, json v -> (matches p v <-> says c v).

Lemma each_cons : forall A B (f : nat -> A -> res (B * nat)) n a l ps n', each f n (a :: l) = Ok (ps, n') ->
  exists p n1 ps', f n a = Ok (p, n1) /\ each f n1 l = Ok (ps', n') /\ ps = p :: ps'.
Proof.
  intros A B f n a l ps n' E. cbn in E. destruct (f n a) as [[p n1]|]; cbn in E; [|discriminate]. destruct (each f n1 l) as [[ps' n2]|] eqn:E2; cbn in E; [|discriminate].
  injection E as <- <-. eauto 8.
Qed.
Lemma items_says : forall l, Forall exact l -> all_of sound l -> forall n ps n', each regex n l = Ok (ps, n') -> forall w, Forall json w -> (s_items ps w <-> say_items says l w).
Proof.
  induction 1 as [|c l H F IH]; intros S n ps n' E w J.
  - injection E as <- <-. destruct w; reflexivity.
  - destruct S as [S1 S2]. apply each_cons in E. destruct E as (p & n1 & ps' & E1 & E2 & ->). destruct w as [|x w]; cbn; [reflexivity|].
    inversion J; subst. rewrite (H S1 n p n1 E1 x) by assumption. rewrite (IH S2 n1 ps' n' E2 w) by assumption. reflexivity.
Qed.
Lemma every_says : forall l, Forall exact l -> all_of sound l -> forall n ps n', each regex n l = Ok (ps, n') -> forall v, json v -> (s_every v ps <-> say_all says l v).
Proof.
  induction 1 as [|c l H F IH]; intros S n ps n' E v J.
  - injection E as <- <-. reflexivity.
  - destruct S as [S1 S2]. apply each_cons in E. destruct E as (p & n1 & ps' & E1 & E2 & ->). cbn.
    rewrite (H S1 n p n1 E1 v J), (IH S2 n1 ps' n' E2 v J). reflexivity.
Qed.
Lemma each_length : forall A B (f : nat -> A -> res (B * nat)) l n ps n', each f n l = Ok (ps, n') -> length ps = length l.
Proof.
  induction l as [|a l IH]; intros n ps n' E; [injection E as <- <-; reflexivity|]. apply each_cons in E. destruct E as (p & n1 & ps' & E1 & E2 & ->). cbn. f_equal. eapply IH, E2.
Qed.
Lemma some_says : forall l, Forall (Forall exact) l -> all_chains sound l -> forall n ps n', each (each regex) n l = Ok (ps, n') -> forall v, json v ->
  (s_some v (map PAnd ps) <-> say_some says l v).
Proof.
  induction 1 as [|c l H F IH]; intros S n ps n' E v J.
  - injection E as <- <-. reflexivity.
  - destruct S as (S0 & S1 & S2). apply each_cons in E. destruct E as (p & n1 & ps' & E1 & E2 & ->). cbn [map s_some say_some].
    rewrite (IH S2 n1 ps' n' E2 v J). rewrite matches_and. rewrite (every_says c H S1 n p n1 E1 v J).
    pose proof (each_length _ _ _ _ _ _ _ E1) as L. assert (p <> []) by (intros ->; destruct c; [congruence | discriminate]). tauto.
Qed.
Lemma dict_set_fresh : forall A k (v : A) d, ~ In k (map fst d) -> dict_set k v d = d ++ [(k, v)].
Proof.
  induction d as [|[j u] d IH]; intros N; cbn in *; [reflexivity|]. destruct (String.eqb_spec k j) as [->|D]; [destruct N; auto|]. rewrite IH; auto.
Qed.
Lemma dict_of_nodup : forall A (l d : list (string * A)), NoDup (map fst (d ++ l)) -> fold_left (fun d kv => dict_set (fst kv) (snd kv) d) l d = d ++ l.
Proof.
  induction l as [|[k v] l IH]; intros d N; cbn; [rewrite app_nil_r; reflexivity|].
  rewrite map_app in N. cbn in N. rewrite dict_set_fresh by (apply NoDup_remove in N; destruct N as [_ N]; intros I; apply N; apply in_or_app; left; exact I).
  rewrite IH; rewrite <- app_assoc; [reflexivity|]. rewrite map_app. exact N.
Qed.
Definition pair_regex := fun n (kc : string * cmd) => match kc with (k, c) => r <- regex n c ;; Ok ((k, fst r), snd r) end.
Lemma pairs_keys : forall l n ps n', each pair_regex n l = Ok (ps, n') -> map fst ps = map fst l.
Proof.
  induction l as [|[k c] l IH]; intros n ps n' E; [injection E as <- <-; reflexivity|]. apply each_cons in E. destruct E as ([k' p] & n1 & ps' & E1 & E2 & ->).
  cbn in E1. destruct (regex n c) as [[q n2]|]; cbn in E1; [|discriminate]. injection E1 as <- <- <-. cbn. f_equal. eapply IH, E2.
Qed.
Lemma entries_says : forall l, Forall (fun kc => exact (snd kc)) l -> all_pairs sound l -> forall n ps n', each pair_regex n l = Ok (ps, n') ->
  forall d, (forall k x, assoc k d = Some x -> json x) -> (s_entries ps d <-> say_entries says l d).
Proof.
  induction 1 as [|[k c] l H F IH]; intros S n ps n' E d J.
  - injection E as <- <-. reflexivity.
  - destruct S as [S1 S2]. apply each_cons in E. destruct E as ([k' p] & n1 & ps' & E1 & E2 & ->).
    cbn in E1. destruct (regex n c) as [[q n2]|] eqn:Er; cbn in E1; [|discriminate]. injection E1 as <- <- <-. cbn [s_entries say_entries].
    rewrite (IH S2 n2 ps' n' E2 d J). cbn [snd] in H. specialize (H S1 n q n2 Er).
    split; intros [A B]; (split; [|exact B]); intros N; destruct (A N) as (x & Ex & M); exists x; (split; [exact Ex|]); apply (H x (J k x Ex)); exact M.
Qed.
Lemma json_assoc : forall d, json (VDict d) -> forall k x, assoc k d = Some x -> json x.
Proof.
  intros d J k x. cbn in J. induction d as [|[j y] d IH]; cbn; [discriminate|]. destruct J as [J1 J2]. destruct (String.eqb k j); [intros [= <-]; exact J1 | apply IH, J2].
Qed.
Lemma json_items : forall l, json (VArr l) -> Forall json l.
Proof. intros l J. cbn in J. induction l as [|x l IH]; constructor; [apply J | apply IH, J]. Qed.
Lemma assoc_in : forall A k (d : list (string * A)) x, assoc k d = Some x -> In k (map fst d).
Proof. induction d as [|[j y] d IH]; cbn; intros x E; [discriminate|]. destruct (String.eqb_spec k j); [left; auto | right; eapply IH, E]. Qed.
Lemma entries_in : forall l d k, say_entries says l d -> k <> "@" -> In k (map fst l) -> In k (map fst d).
Proof.
  induction l as [|[j c] l IH]; intros d k H N I; cbn in *; [contradiction|]. destruct H as [H1 H2]. destruct I as [->|I]; [|apply IH; auto].
  destruct (H1 N) as (x & E & _). eapply assoc_in, E.
Qed.

Theorem regex_exact : forall c, exact c.
Proof.
  apply cmd_all.
  - intros c L S n p n' E v J. destruct c as [s|s|x| |f g| | |s|a s t b|x e|]; try contradiction; cbn [regex] in E; try (injection E as <- <-).
    + cbn [says]. destruct (String.eqb s "null"); [reflexivity|]. destruct (String.eqb s "true"); [reflexivity|]. destruct (String.eqb s "false"); reflexivity.
    + reflexivity.
    + reflexivity.
    + cbn [matches says]. split; [intros _; exact Logic.I | intros _; left; reflexivity].
    + reflexivity.
    + apply range_says; assumption.
    + reflexivity.
  - intros l e F S n p n' E v J. destruct S as [N S]. cbn [regex] in E. change (each _ n l) with (each pair_regex n l) in E.
    destruct (each pair_regex n l) as [[ps n2]|] eqn:Ee; cbn [rbind fst snd] in E; [|discriminate].
    pose proof (pairs_keys l n ps n2 Ee) as Ks.
    unfold dict_of_pairs in E. rewrite dict_of_nodup in E by (cbn; rewrite Ks; exact N). cbn [app] in E.
    cbn [says]. destruct e.
    + destruct (has_key "self" ps); [discriminate|]. injection E as <- <-. change (matches (PMin ps) v) with (exists e, v = VDict e /\ s_entries ps e).
      split; intros (d & -> & H).
      * exists d. split; [reflexivity|]. split; [|discriminate]. apply (entries_says l F S n ps n2 Ee d (json_assoc d J)), H.
      * exists d. split; [reflexivity|]. apply (entries_says l F S n ps n2 Ee d (json_assoc d J)), H.
    + injection E as <- <-. change (matches (PDict ps) v) with (exists e, v = VDict e /\ (forall k, k <> "@" -> (In k (map fst ps) <-> In k (map fst e))) /\ s_entries ps e).
      split.
      * intros (d & -> & K & H). exists d. split; [reflexivity|]. split; [apply (entries_says l F S n ps n2 Ee d (json_assoc d J)), H|].
        intros _ k Nk I. rewrite <- Ks. apply K; assumption.
      * intros (d & -> & H & K). exists d. split; [reflexivity|]. split; [|apply (entries_says l F S n ps n2 Ee d (json_assoc d J)), H].
        intros k Nk. rewrite Ks. split; [apply (entries_in l d k H Nk) | apply K; auto].
  - intros l b a F S n p n' E v J. cbn [regex sound] in *. destruct (b && a)%bool eqn:B; [discriminate|].
    destruct (each regex n l) as [[ps n2]|] eqn:Ee; cbn [rbind fst snd] in E; [|discriminate]. injection E as <- <-. cbn [says].
    assert (K : forall w1 w w2, v = VArr (w1 ++ w ++ w2) -> (s_items ps w <-> say_items says l w)).
    { intros w1 w w2 ->. apply (items_says l F S n ps n2 Ee). apply json_items in J. apply Forall_app in J. destruct J as [_ J]. apply Forall_app in J. apply J. }
    destruct b, a; try discriminate B.
    + change (matches (PEnd ps) v) with (exists r w, v = VArr (r ++ w) /\ s_items ps w). split.
      * intros (r & w & -> & H). exists r, w, []. rewrite app_nil_r. split; [reflexivity|]. split; [apply (K r w []); [rewrite app_nil_r; reflexivity | exact H]|]. split; [discriminate | reflexivity].
      * intros (w1 & w & w2 & -> & H & _ & H2). rewrite (H2 eq_refl) in *. rewrite app_nil_r in *. exists w1, w. split; [reflexivity|]. apply (K w1 w []); [rewrite app_nil_r; reflexivity | exact H].
    + change (matches (PStart ps) v) with (exists w r, v = VArr (w ++ r) /\ s_items ps w). split.
      * intros (w & r & -> & H). exists [], w, r. split; [reflexivity|]. split; [apply (K [] w r); [reflexivity | exact H]|]. split; [reflexivity | discriminate].
      * intros (w1 & w & w2 & -> & H & H1 & _). rewrite (H1 eq_refl) in *. exists w, w2. split; [reflexivity|]. apply (K [] w w2); [reflexivity | exact H].
    + change (matches (PList ps) v) with (exists w, v = VArr w /\ s_items ps w). split.
      * intros (w & -> & H). exists [], w, []. rewrite app_nil_r. split; [reflexivity|]. split; [apply (K [] w []); [rewrite app_nil_r; reflexivity | exact H]|]. split; reflexivity.
      * intros (w1 & w & w2 & -> & H & H1 & H2). rewrite (H1 eq_refl), (H2 eq_refl) in *. rewrite app_nil_r in *. exists w. split; [reflexivity|]. apply (K [] w []); [rewrite app_nil_r; reflexivity | exact H].
  - intros l F S n p n' E v J. cbn [regex sound says] in *.
    destruct (each (each regex) n l) as [[ps n2]|] eqn:Ee; cbn [rbind fst snd] in E; [|discriminate]. injection E as <- <-.
    pose proof (some_says l F S n ps n2 Ee v J) as K. change (matches (PGroup _ ?q) v) with (matches q v).
    destruct ps as [|q [|q2 qs]]; [cbn [matches]; cbn in K; exact K | | rewrite matches_or; exact K].
    cbn [map s_some] in K. rewrite <- K. tauto.
Qed.
