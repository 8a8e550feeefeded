(** Type declarations in any order (C43). *)
From Verif Require Import Base PyNum ScopeModel TypeModel TypeSpec TypeProofs DeclModel DeclSpec DeclProofs DeclProofs2.
Open Scope string_scope.
Open Scope list_scope.

Section C43.
  Variable loads : string -> desc.
  Lemma inv_start N texts : fit N -> inv loads N texts ([], N).
  Proof.
    intros _. split; [constructor|]. split; [intros x []|]. split; [intros x []|]. cbn [fst snd map flat_map]. rewrite app_nil_r. split; [reflexivity|]. split; [exact I|].
    intros T _. split; [intros x t []|]. now rewrite app_nil_r.
  Qed.

  (** The parser stops after at most one round more than there are declarations. *)
  Theorem C43_terminates N texts : fit N -> exists r, parse loads (S (length texts)) N texts = Some r.
  Proof.
    intros F. pose proof (resolve_spec loads N F (S (length texts)) texts None ([], N) (inv_start N texts F)) as R.
    unfold parse. destruct (resolve loads (S (length texts)) texts None ([], N)) as [r|]; [eauto|]. destruct R. cbn. lia.
  Qed.

  (** It succeeds exactly when there is an order in which every name is defined, once, before it is used: the order in which
      the declarations are given does not matter, nor how often one is repeated. *)
  Theorem C43_succeeds N texts fuel : fit N -> (length texts < fuel)%nat ->
    (exists s, parse loads fuel N texts = Some (Ok s)) <-> resolvable loads (map fst (nm_types N)) texts.
  Proof.
    intros F L. pose proof (resolve_spec loads N F fuel texts None ([], N) (inv_start N texts F) L) as R. unfold parse.
    destruct (resolve loads fuel texts None ([], N)) as [[s|e]|]; [| |contradiction].
    - split; [|eauto]. intros _. destruct R as ((Nd & Ui & Sn & _ & Sc & _) & All). split; [intros x Hx; auto|].
      exists (map fst (fst s)). split; [exact Nd|]. split; [|exact Sc]. intros x. split; auto.
    - split; [intros [s X]; discriminate|contradiction].
  Qed.

  (** What it finds: the type that each text means, where the names stand for the types known before and those that the
      texts declare. *)
  Theorem C43_meaning N texts fuel found N' : fit N -> (length texts < fuel)%nat -> parse loads fuel N texts = Some (Ok (found, N')) ->
    fit N' /\
    (forall x, In x texts -> assoc x found = Some (means (reading (nm_types N')) (loads x))) /\
    (forall n t, assoc n (nm_types N') = Some t <-> assoc n (nm_types N) = Some t \/ exists x, In x texts /\ In (n, t) (declared (loads x))) /\
    (forall n fs, assoc n (nm_defs N') = Some fs <-> assoc n (nm_defs N) = Some fs \/
       exists x, In x texts /\ In (n, fs) (records (reading (nm_types N')) (loads x))).
  Proof.
    intros F L E. pose proof (resolve_spec loads N F fuel texts None ([], N) (inv_start N texts F) L) as R. unfold parse in E. rewrite E in R.
    destruct R as [Iv All]. pose proof (inv_wellnamed loads N F texts _ Iv) as W. pose proof (inv_reserved loads N F texts _ Iv) as IR. destruct Iv as (Nd & Ui & Sn & Et & Sc & M). cbn [fst snd] in *.
    assert (Rd : agrees (reading (nm_types N')) (nm_types N')) by (intros n t H; unfold reading; now rewrite H).
    destruct (M _ Rd) as [Mf Md]. pose proof (scoped_defined _ _ Sc) as [Ud Dk]. destruct F as (Ut & Us & Fr & Fd & Fn).
    assert (UT : NoDup (map fst (nm_types N'))).
    { rewrite Et, map_app, declared_all. apply NoDup_app. split; [exact Ut|]. split; [exact Ud|]. intros n X Y. now apply (Dk n). }
    assert (UD : NoDup (map fst (nm_defs N'))).
    { rewrite Md, map_app. apply NoDup_app. split; [exact Us|]. split.
      - rewrite map_fst_flat. rewrite defined_flat in Ud. revert Ud. apply NoDup_flat_incl; [intros; now apply records_NoDup|intros x y _; apply records_declared].
      - intros n X Y. apply (Dk n); [|now apply Fd]. rewrite map_fst_flat in Y. apply in_flat_map in Y as (x & Hx & Y). rewrite defined_flat. apply in_flat_map. exists x. split; [exact Hx|]. now apply records_declared in Y. }
    assert (AI : forall A (l : list (string * A)) n a, NoDup (map fst l) -> assoc n l = Some a <-> In (n, a) l).
    { intros A l n a U. split; [apply assoc_In|]. intros H. now apply assoc_In_NoDup. }
    split; [|split; [|split]].
    - split; [exact UT|]. split; [exact UD|]. split; [exact IR|]. split.
      + intros n. rewrite Md. generalize (reading (nm_types N')). intros T. rewrite Et, !map_app, !in_app_iff. intros [X|X]; [left; now apply Fd|]. right. rewrite map_fst_flat in X. rewrite map_fst_flat. apply in_flat_map in X as (x & Hx & X). apply in_flat_map. exists x. split; [exact Hx|].
        rewrite declared_defined. now apply records_declared in X.
      + intros n t H. specialize (W n t H). destruct t; cbn in W; try discriminate; injection W as ->; eauto.
    - intros x Hx. apply All, in_keys_assoc in Hx as [t Ht]. rewrite Ht. f_equal. apply Mf. now apply assoc_In.
    - intros n t. rewrite (AI _ _ _ _ UT), (AI _ _ _ _ Ut), Et, in_app_iff, in_flat_map. split; (intros [X|(x & Hx & X)]; [now left|right; exists x; auto]).
    - intros n fs. rewrite (AI _ _ _ _ UD), (AI _ _ _ _ Us), Md, in_app_iff, in_flat_map. split; (intros [X|(x & Hx & X)]; [now left|right; exists x; auto]).
  Qed.

  (** So the order does not matter: the same declarations in another order, or repeated, give the same types. *)
  Lemma means_ext T T' d : (forall n, T n = T' n) -> means T d = means T' d.
  Proof.
    intros H. induction d as [s|d IH|d IH|ds IH|n fs IH|n s|n k] using desc_rect2; cbn [means]; try congruence.
    - now rewrite H.
    - f_equal. induction IH as [|d ds Hd _ IHl]; [reflexivity|]. cbn [map]. congruence.
  Qed.
  Lemma records_ext T T' d : (forall n, T n = T' n) -> records T d = records T' d.
  Proof.
    intros H. induction d as [s|d IH|d IH|ds IH|n fs IH|n s|n k] using desc_rect2; cbn [records]; auto.
    - induction IH as [|d ds Hd _ IHl]; [reflexivity|]. cbn [flat_map]. congruence.
    - f_equal.
      + induction fs as [|[p d] fs IHl]; [reflexivity|]. inversion IH; subst. cbn [flat_map snd] in *. now rewrite H2, IHl.
      + do 2 f_equal. clear IH. induction fs as [|p fs IHl]; [reflexivity|]. cbn [map]. now rewrite IHl, (means_ext T T' (snd p) H).
  Qed.
  Theorem C43_order N texts texts' fuel fuel' found N' :
    fit N -> (forall x, In x texts <-> In x texts') -> (length texts < fuel)%nat -> (length texts' < fuel')%nat ->
    parse loads fuel N texts = Some (Ok (found, N')) ->
    exists found2 N2, parse loads fuel' N texts' = Some (Ok (found2, N2)) /\
      (forall x, In x texts -> assoc x found2 = assoc x found) /\
      (forall n, assoc n (nm_types N2) = assoc n (nm_types N')) /\ (forall n, assoc n (nm_defs N2) = assoc n (nm_defs N')).
  Proof.
    intros F Same L L' E.
    assert (Rs : resolvable loads (map fst (nm_types N)) texts') by (assert (R : resolvable loads (map fst (nm_types N)) texts) by (apply (C43_succeeds N texts fuel F L); eauto);
      destruct R as (Sn & q & Nq & Qi & Sc); split; [intros x Hx; apply Sn, Same, Hx|exists q; split; [exact Nq|split; [intros x; rewrite Qi; apply Same|exact Sc]]]).
    apply (C43_succeeds N texts' fuel' F L') in Rs as [[found2 N2] E2]. exists found2, N2. split; [exact E2|].
    destruct (C43_meaning N texts fuel found N' F L E) as (_ & Mx & Mt & Md). destruct (C43_meaning N texts' fuel' found2 N2 F L' E2) as (_ & Mx2 & Mt2 & Md2).
    assert (Ext : forall A (a b : option A), (forall t, a = Some t <-> b = Some t) -> a = b).
    { intros A a b H. destruct a as [t|]; [symmetry; now apply H|]. destruct b as [t|]; [now apply H|reflexivity]. }
    assert (Et : forall n, assoc n (nm_types N2) = assoc n (nm_types N')).
    { intros n. apply Ext. intros t. rewrite Mt, Mt2. split; (intros [X|(x & Hx & X)]; [now left|right; exists x; split; [now apply Same|exact X]]). }
    assert (Er : forall n, reading (nm_types N2) n = reading (nm_types N') n) by (intros n; unfold reading; now rewrite Et).
    split; [|split; [exact Et|]].
    - intros x Hx. rewrite (Mx x Hx), (Mx2 x (proj1 (Same x) Hx)). f_equal. now apply means_ext.
    - intros n. apply Ext. intros t. rewrite Md, Md2. split; (intros [X|(x & Hx & X)]; [now left|right; exists x; split; [now apply Same|]]).
      + now rewrite (records_ext _ _ _ Er) in X.
      + now rewrite (records_ext _ _ _ Er).
  Qed.
End C43.

(** *** A case: three declarations that use each other, one of them recursive, and a repeated one, in two orders. *)
Definition no_names : names := Names [] [].
Lemma no_names_fit : fit no_names.
Proof. split; [constructor|]. split; [constructor|]. split; [intros n []|]. split; [intros n []|intros n t []]. Qed.
Definition demo_loads (x : string) : desc :=
  if String.eqb x "1" then DArray (DName "B")
  else if String.eqb x "2" then DRecord "B" [(("a", None), DUnion [DName "null"; DName "A"]); (("e", None), DEnum "E" ["x"; "y"])]
  else if String.eqb x "3" then DRecord "A" [(("next", Some VNull), DUnion [DName "null"; DName "A"]); (("f", None), DFixed "F" 4)]
  else if String.eqb x "4" then DMap (DUnion [DName "F"; DName "E"; DName "string"])
  else DName x.
Definition demo_result (r : option (res (table * names))) : Prop :=
  match r with
  | Some (Ok (found, N)) =>
      assoc "1" found = Some (TArray (TRecord "B")) /\ assoc "4" found = Some (TMap (TUnion [TFixed "F" 4; TEnum "E" ["x"; "y"]; TString])) /\
      assoc "B" found = Some (TRecord "B") /\ fields_of (nm_defs N) "A" = [Field "next" (TUnion [TNull; TRecord "A"]) (Some VNull) None; Field "f" (TFixed "F" 4) None None]
  | _ => False
  end.
Example C43_example :
  fit no_names /\ demo_result (parse demo_loads 7 no_names ["1"; "2"; "3"; "4"; "B"; "2"]) /\ demo_result (parse demo_loads 6 no_names ["3"; "2"; "1"; "B"; "4"]) /\
  resolvable demo_loads [] ["1"; "2"; "3"; "4"; "B"; "2"].
Proof.
  split; [exact no_names_fit|]. split; [vm_compute; auto|]. split; [vm_compute; auto|].
  apply (C43_succeeds demo_loads no_names _ 7 no_names_fit); [cbn; lia|]. eexists. vm_compute. reflexivity.
Qed.
(** and declarations that refer to each other, in two texts, have no such order *)
Definition cyclic_loads (x : string) : desc :=
  if String.eqb x "1" then DRecord "A" [(("b", None), DName "B")] else DRecord "B" [(("a", None), DUnion [DName "null"; DName "A"])].
Example C43_example_fails : ~ resolvable cyclic_loads [] ["1"; "2"].
Proof. intros H. apply (C43_succeeds cyclic_loads no_names _ 3 no_names_fit) in H as [s H]; [vm_compute in H; discriminate|cbn; lia]. Qed.

(** *** AvroTypeBuilder with a memo *)
(** [removeDuplicateNames] leaves each name defined at most once. *)
Section Memo.
  Variable same : desc -> desc -> bool.
  (** new names are unknown before, distinct, and known afterwards *)
  Definition fresh (m : memo) (l : list string) (m' : memo) : Prop :=
    NoDup l /\ (forall n, In n l -> ~ In n (map fst m)) /\ forall n, In n (map fst m') <-> In n (map fst m) \/ In n l.
  Lemma fresh_nil m : fresh m [] m.
  Proof. split; [constructor|]. split; [intros n []|]. intros n. cbn. tauto. Qed.
  Lemma fresh_app m l m1 l' m2 : fresh m l m1 -> fresh m1 l' m2 -> fresh m (l ++ l') m2.
  Proof.
    intros (U & D & M) (U' & D' & M'). split; [|split].
    - apply NoDup_app. split; [exact U|]. split; [exact U'|]. intros n X Y. apply (D' n Y), M. now right.
    - intros n X. apply in_app_iff in X as [X|X]; [auto|]. intros Y. apply (D' n X), M. now left.
    - intros n. rewrite M', M, in_app_iff. tauto.
  Qed.
  Lemma fresh_one m n d l m' : ~ In n (map fst m) -> fresh (m ++ [(n, d)]) l m' -> fresh m (n :: l) m'.
  Proof.
    intros H (U & D & M). assert (K : forall x, In x (map fst (m ++ [(n, d)])) <-> In x (map fst m) \/ n = x) by (intros x; rewrite map_app, in_app_iff; cbn; tauto).
    split; [|split].
    - constructor; [|exact U]. intros X. apply (D n X), K. now right.
    - intros x [<-|X]; [exact H|]. intros Y. apply (D x X), K. now left.
    - intros x. rewrite M, K. cbn. tauto.
  Qed.
  Lemma dedupe_fresh d : forall m d' m', dedupe same d m = Ok (d', m') -> fresh m (defined (events d')) m'.
  Proof.
    induction d as [s|d IH|d IH|ds IH|n fs IH|n s|n k] using desc_rect2; intros m d' m' H; cbn [dedupe] in H.
    - injection H as <- <-. cbn [events]. destruct (prim_of s); apply fresh_nil.
    - destruct (dedupe same d m) as [[x m1]|] eqn:E; cbn [rbind fst snd] in H; [|discriminate]. injection H as <- <-. cbn [events]. eapply IH; eassumption.
    - destruct (dedupe same d m) as [[x m1]|] eqn:E; cbn [rbind fst snd] in H; [|discriminate]. injection H as <- <-. cbn [events]. eapply IH; eassumption.
    - match type of H with rbind ?q _ = _ => destruct q as [[xs m1]|] eqn:E end; cbn [rbind fst snd] in H; [|discriminate]. injection H as <- <-. cbn [events]. rewrite defined_flat.
      revert m xs E. induction IH as [|d ds Hd _ IHl]; intros m xs E; cbn [seq] in E; [injection E as <- <-; apply fresh_nil|].
      destruct (dedupe same d m) as [[x m2]|] eqn:E1; cbn [rbind fst snd] in E; [|discriminate]. destruct (seq (dedupe same) ds m2) as [[ys m3]|] eqn:E2; cbn [rbind fst snd] in E; [|discriminate]. injection E as <- <-.
      cbn [flat_map]. eapply fresh_app; [eapply Hd; eassumption|apply IHl; exact E2].
    - unfold once in H. destruct (assoc n m) as [d0|] eqn:En.
      + destruct (same d0 (DRecord n fs)); [|discriminate]. injection H as <- <-. cbn [events]. destruct (prim_of n); apply fresh_nil.
      + apply assoc_None in En. match type of H with rbind ?q _ = _ => destruct q as [[ys m1]|] eqn:E end; cbn [rbind fst snd] in H; [|discriminate]. injection H as <- <-.
        cbn [events]. cbn [defined flat_map app]. apply (fresh_one m n (DRecord n fs)); [exact En|]. fold (defined (flat_map (fun p => events (snd p)) ys)). rewrite defined_flat.
        clear En. revert ys E. generalize (m ++ [(n, DRecord n fs)]). induction fs as [|[p d] fs IHl]; intros m0 ys E; cbn [seq] in E; [injection E as <- <-; apply fresh_nil|].
        inversion IH; subst. cbn [fst snd] in *. destruct (dedupe same d m0) as [[x m2]|] eqn:E1; cbn [rbind fst snd] in E; [|discriminate].
        match type of E with rbind ?q _ = _ => destruct q as [[zs m3]|] eqn:E2 end; cbn [rbind fst snd] in E; [|discriminate]. injection E as <- <-.
        cbn [flat_map snd]. eapply fresh_app; [eapply H1; eassumption|]. apply IHl; [assumption|exact E2].
    - unfold once in H. destruct (assoc n m) as [d0|] eqn:En.
      + destruct (same d0 _); [|discriminate]. injection H as <- <-. cbn [events]. destruct (prim_of n); apply fresh_nil.
      + injection H as <- <-. apply assoc_None in En. cbn [events defined flat_map app]. eapply fresh_one; [exact En|apply fresh_nil].
    - unfold once in H. destruct (assoc n m) as [d0|] eqn:En.
      + destruct (same d0 _); [|discriminate]. injection H as <- <-. cbn [events]. destruct (prim_of n); apply fresh_nil.
      + injection H as <- <-. apply assoc_None in En. cbn [events defined flat_map app]. eapply fresh_one; [exact En|apply fresh_nil].
  Qed.
  Theorem C43_memo_once ds ds' m : dedupe_all same ds [] = Ok (ds', m) -> NoDup (defined (flat_map events ds')).
  Proof.
    intros H. rewrite defined_flat. cut (fresh [] (flat_map (fun d => defined (events d)) ds') m); [intros (U & _); exact U|].
    unfold dedupe_all in H. revert ds' H. generalize (@nil (string * desc)). induction ds as [|d ds IH]; intros m0 ds' H; cbn [seq] in H; [injection H as <- <-; apply fresh_nil|].
    destruct (dedupe same d m0) as [[x m1]|] eqn:E1; cbn [rbind fst snd] in H; [|discriminate]. destruct (seq (dedupe same) ds m1) as [[ys m2]|] eqn:E2; cbn [rbind fst snd] in H; [|discriminate]. injection H as <- <-.
    cbn [flat_map]. eapply fresh_app; [eapply dedupe_fresh; exact E1|apply IH; exact E2].
  Qed.
End Memo.
(** But then the order does matter: a record that contains another can be resolved when it comes first, and not when the
    inner one comes first, because each then refers to the other. *)
Definition inner : desc := DRecord "B" [(("a", None), DUnion [DName "null"; DName "A"])].
Definition outer : desc := DRecord "A" [(("b", None), inner)].
Definition same_demo (a b : desc) : bool :=
  match a, b with DRecord n _, DRecord m _ => String.eqb n m | _, _ => false end.   (* enough for this case *)
Definition after (ds : list desc) (x : string) : desc := if String.eqb x "1" then nth 0 ds (DName x) else if String.eqb x "2" then nth 1 ds (DName x) else DName x.
Theorem C43_memo_refuted :
  exists one m1 two m2, dedupe_all same_demo [outer; inner] [] = Ok (one, m1) /\ dedupe_all same_demo [inner; outer] [] = Ok (two, m2) /\
    resolvable (after one) [] ["1"; "2"] /\ ~ resolvable (after two) [] ["1"; "2"].
Proof.
  do 4 eexists. split; [vm_compute; reflexivity|]. split; [vm_compute; reflexivity|]. split.
  - apply (C43_succeeds _ no_names _ 3 no_names_fit); [cbn; lia|]. eexists. vm_compute. reflexivity.
  - intros H. apply (C43_succeeds _ no_names _ 3 no_names_fit) in H as [s H]; [vm_compute in H; discriminate|cbn; lia].
Qed.
Example C43_example_memo : exists ds m, dedupe_all same_demo [outer; inner; DArray inner] [] = Ok (ds, m) /\ ds = [outer; DName "B"; DArray (DName "B")].
Proof. do 2 eexists. split; vm_compute; reflexivity. Qed.
(** Without a memo a declaration that is repeated inside another text cannot be resolved, in any order. *)
Theorem C43_repeated_refuted : ~ resolvable (after [outer; inner]) [] ["1"; "2"] /\ ~ resolvable (after [inner; outer]) [] ["1"; "2"].
Proof. split; (intros H; apply (C43_succeeds _ no_names _ 3 no_names_fit) in H as [s H]; [vm_compute in H; discriminate|cbn; lia]). Qed.
Print Assumptions C43_terminates.
Print Assumptions C43_succeeds.
Print Assumptions C43_meaning.
Print Assumptions C43_order.
Print Assumptions C43_memo_once.
Print Assumptions C43_memo_refuted.
Print Assumptions C43_repeated_refuted.
