(** Line numbers. *)
From Verif Require Import Base PyNum ScopeModel ScopeProofs ChainModel PexModel PexSpec PexProofs.
Open Scope string_scope.
Open Scope list_scope.

(** the same outcome, but for notes *)
Definition alike (a b : res val) : Prop := match a, b with Ok x, Ok y => strip x = strip y | Raise e, Raise e' => e = e' | _, _ => False end.
Lemma alike_refl a : alike a a. Proof. now destruct a. Qed.
Lemma alike_bind a b f g : alike a b -> (forall x y, a = Ok x -> b = Ok y -> strip x = strip y -> alike (f x) (g y)) -> alike (rbind a f) (rbind b g).
Proof. destruct a as [x|x], b as [y|y]; cbn; intros H K; try contradiction; auto. Qed.
Definition pairs_alike (d d' : list (string * val)) : Prop := Forall2 (fun a b => fst a = fst b /\ strip (snd a) = strip (snd b)) d d'.
Lemma sd_alike d d' : pairs_alike d d' -> sd d = sd d'.
Proof. induction 1 as [|[k x] [k' y] d d' [E1 E2] _ IH]; [reflexivity|]. cbn [fst snd] in *. subst k'. cbn [sd flat_map fst snd]. fold (sd d) (sd d'). now rewrite E2, IH. Qed.
Lemma set_alike k x y d d' : strip x = strip y -> pairs_alike d d' -> pairs_alike (dict_set k x d) (dict_set k y d').
Proof.
  intros E. induction 1 as [|[a u] [b w] d d' [E1 E2] H IH]; cbn [dict_set]; [repeat constructor; auto|]. cbn [fst snd] in *. subst b. destruct (String.eqb k a); constructor; cbn; auto.
Qed.
Lemma literal_subs st st' e : st_subs st = st_subs st' -> literal st e = literal st' e.
Proof.
  intros Q. induction e as [| | | | | | | |n l IH| | | | | |n l IH| |] using pex_ind2; try reflexivity; cbn [literal].
  - now rewrite Q.
  - match goal with |- rbind (?g l []) _ = rbind (?h l []) _ => enough (E : forall out, g l out = h l out) by now rewrite E end.
    induction l as [|[k x] l IHl]; intros out; [reflexivity|]. inversion IH as [|? ? Ix Il]; subst. cbn [snd] in Ix. specialize (IHl Il). rewrite Q in IHl |- *. rewrite Ix.
    match goal with |- rbind ?g _ = _ => destruct g as [kk|]; [|reflexivity] end. cbn [rbind]. destruct (literal st' x); [|reflexivity]. cbn [rbind]. apply IHl.
  - match goal with |- rbind (?g l) _ = rbind (?h l) _ => enough (E : g l = h l) by now rewrite E end.
    induction l as [|x l IHl]; [reflexivity|]. inversion IH as [|? ? Ix Il]; subst. rewrite Ix. destruct (literal st' x); [|reflexivity]. cbn [rbind]. now rewrite (IHl Il).
Qed.
Lemma literal_lines s c p i b b' e : literal (State s c p b i) e = literal (State s c p b' i) e.
Proof. now apply literal_subs. Qed.

(** a document that is no text literal *)
Definition no_text (j : val) : Prop := forall x, j <> VDict [("string", x)].
Definition direct (e : pex) : bool := match e with PNum _ _ | PStr _ _ | PName _ _ | PDict _ _ | PList _ _ => true | _ => false end.
Lemma form_no_text st n k x d : (k <> "string" \/ d <> []) -> no_text (form st n ((k, x) :: d)).
Proof. intros H y E. unfold form in E. destruct (st_lines st); [discriminate|]. injection E as -> _ ->. now destruct H. Qed.
Lemma special_string s : lower_special s = "string" -> s = "String" \/ s = "string".
Proof.
  unfold lower_special. destruct (memb s special_forms) eqn:M; [|auto]. apply memb_in in M.
  assert (F : forallb (fun t => implb (String.eqb (lower t) "string") (String.eqb t "String")) special_forms = true) by (vm_compute; reflexivity).
  rewrite forallb_forall in F. specialize (F s M). intros E. rewrite E in F. cbn in F. left. now apply String.eqb_eq.
Qed.
Lemma call_string s : call_name s = "string" -> s = "String" \/ s = "string".
Proof.
  unfold call_name. destruct (assoc (lower_special s) core_library) as [f|] eqn:A; [|apply special_string]. apply assoc_In in A. intros ->.
  exfalso. cbn in A. repeat (destruct A as [A|A]; [discriminate A|]). exact A.
Qed.
Lemma kwds_first st k d0 : forall d, fold_kwds st k d0 = Ok d -> forall a x r, d0 = (a, x) :: r -> exists y q, d = (a, y) :: q /\ (length r <= length q)%nat.
Proof.
  revert d0. induction k as [|[b e] k IH]; intros d0 d H a x r E0; cbn [fold_kwds] in H; [injection H as <-; subst; eauto|].
  destruct (expression st e) as [j|]; [|discriminate]. cbn [rbind] in H. subst d0. cbn [dict_set] in H. destruct (String.eqb (lower_special b) a).
  - destruct (IH _ _ H _ _ _ eq_refl) as (y & q & -> & L). eauto.
  - destruct (IH _ _ H _ _ _ eq_refl) as (y & q & -> & L). exists y, q. split; [reflexivity|]. enough (G : (length r <= length (dict_set (lower_special b) j r))%nat) by lia.
    clear. induction r as [|[c z] r IH]; cbn; [lia|]. destruct (String.eqb _ c); cbn; lia.
Qed.
Lemma bool_no_text st n op l : op <> "string" -> forall out j, no_text out -> fold_bool st n op l out = Ok j -> no_text j.
Proof.
  intros N. induction l as [|x l IH]; intros out j H E; cbn [fold_bool] in E; [now injection E as <-|]. destruct (expression st x); [|discriminate]. cbn [rbind] in E. eapply IH; [|exact E]. apply form_no_text. auto.
Qed.
Lemma cmp_no_text st n l : forall last out j, no_text out -> fold_cmp st n l last out = Ok j -> no_text j.
Proof.
  induction l as [|[o x] l IH]; intros last out j H E; cbn [fold_cmp] in E; [now injection E as <-|]. destruct (expression st x); [|discriminate]. cbn [rbind] in E. destruct (cmp_name o); [|discriminate]. cbn [rbind] in E.
  eapply IH; [|exact E]. apply form_no_text. left. discriminate.
Qed.
Lemma path_no_text st e : forall path j, unfold st e path = Ok j -> no_text j.
Proof.
  assert (B : forall n x path j, based st n x path = Ok j -> no_text j).
  { intros n [x|x] path j E; [|discriminate]. cbn in E. injection E as <-. apply form_no_text. now right. }
  induction e using pex_ind2; intros path j E; try (eapply B; exact E).
  - unfold unfold in E. cbn [both snd] in E. unfold based_name in E. destruct (memb _ _); [injection E as <-; apply form_no_text; now right|]. destruct (memb _ _); [injection E as <-; apply form_no_text; now right|]. eapply B; exact E.
  - eapply IHe. exact E.
  - unfold unfold in E. cbn [both snd] in E. destruct (st_index st); [|discriminate]. cbn [snd] in E. destruct (fst (both st e2)); [|discriminate]. eapply IHe1. exact E.
  - discriminate E.
Qed.
Lemma shape st e j : expression st e = Ok j -> string_call e = false -> direct e = false -> no_text j.
Proof.
  destruct e; intros E S D; try discriminate.
  - rewrite ex_bool in E. destruct l as [|x [|y l]]; try discriminate. destruct (expression st x); [|discriminate]. cbn [rbind] in E. destruct (expression st y); [|discriminate]. cbn [rbind] in E.
    eapply bool_no_text; [|  |exact E]; [destruct both_of; discriminate|]. apply form_no_text. left. destruct both_of; discriminate.
  - rewrite ex_bin in E. destruct (bin_name op) as [o|] eqn:Eo; [|discriminate]. cbn [rbind] in E. destruct (expression st e1); [|discriminate]. cbn [rbind] in E. destruct (expression st e2); [|discriminate]. injection E as <-.
    apply form_no_text. left. destruct op; try discriminate; injection Eo as <-; discriminate.
  - rewrite ex_un in E. destruct (un_name op) as [o|] eqn:Eo; [|discriminate]. cbn [rbind] in E. destruct (expression st e); [|discriminate]. injection E as <-.
    apply form_no_text. left. destruct op; try discriminate; injection Eo as <-; discriminate.
  - rewrite ex_if in E. destruct (expression st e1); [|discriminate]. cbn [rbind] in E. destruct (expression st e2); [|discriminate]. cbn [rbind] in E. destruct (expression st e3); [|discriminate]. injection E as <-. apply form_no_text. now right.
  - rewrite ex_cmp in E. destruct r as [|[o c] r]; [discriminate|]. destruct (expression st c); [|discriminate]. cbn [rbind] in E. destruct (cmp_name o) as [f|] eqn:Eo; [|discriminate]. cbn [rbind] in E. destruct (expression st e); [|discriminate]. cbn [rbind] in E.
    eapply cmp_no_text; [|exact E]. apply form_no_text. left. destruct o; try discriminate; injection Eo as <-; discriminate.
  - rewrite ex_call in E. destruct (unfold_name e) as [s|] eqn:Es; [|discriminate]. cbn [rbind] in E. destruct (rmapM (expression st) args); [|discriminate]. cbn [rbind] in E. destruct (fold_kwds st kwds _) as [d|] eqn:Ek; [|discriminate]. injection E as <-.
    destruct (kwds_first _ _ _ _ Ek _ _ _ eq_refl) as (y & q & -> & _). apply form_no_text. left. intros C. apply call_string in C.
    assert (Dd : dotted e = Some s). { clear - Es. revert s Es. induction e; intros t Es; cbn in *; try discriminate; [now injection Es as ->|]. destruct (unfold_name e) as [u|]; [|discriminate]. injection Es as <-. now rewrite (IHe u eq_refl). }
    cbn in S. rewrite Dd in S. destruct C as [-> | ->]; discriminate S.
  - exact (path_no_text st e _ j E).
  - unfold expression in E. cbn [both fst] in E. destruct (st_index st); [|discriminate]. cbn [fst] in E. destruct (fst (both st e2)); [|discriminate]. exact (path_no_text st e1 _ j E).
  - rewrite ex_tuple in E. destruct (rmapM _ l); [|discriminate]. injection E as <-. intros x C. discriminate C.
Qed.

Lemma un_sub st n x i p : unfold st (PSub n x i) p = if st_index st then (j <- expression st i ;; unfold st x (j :: p)) else endless.
Proof. unfold unfold at 1. cbn [both]. now destruct (st_index st). Qed.
Lemma ex_sub st n x i : expression st (PSub n x i) = unfold st (PSub n x i) [].
Proof. unfold unfold, expression. cbn [both]. now destruct (st_index st). Qed.
Lemma if_alike (b : bool) x y z : alike x y -> alike (if b then x else z) (if b then y else z).
Proof. destruct b; [auto|]. intros _. apply alike_refl. Qed.
Section Lines.
  Variable subs : list (string * val).
  Variable cells pools : list string.
  Variable index : bool.
  Notation st b := (State subs cells pools b index).
  Lemma direct_lines e : direct e = true -> expression (st true) e = expression (st false) e.
  Proof. destruct e; intros D; try discriminate; try reflexivity; exact (literal_lines subs cells pools index true false _). Qed.
  Lemma form_alike n d d' : pairs_alike d d' -> strip (form (st true) n d) = strip (form (st false) n d').
  Proof. intros H. rewrite !strip_form. now rewrite (sd_alike _ _ H). Qed.
  Notation ok e := (alike (expression (st true) e) (expression (st false) e)).
  Lemma list_alike l : Forall (fun e => ok e) l -> match rmapM (expression (st true)) l, rmapM (expression (st false)) l with
    | Ok a, Ok b => map strip a = map strip b | Raise e, Raise e' => e = e' | _, _ => False end.
  Proof.
    induction 1 as [|x l H _ IH]; [reflexivity|]. cbn [rmapM]. destruct (expression (st true) x), (expression (st false) x); cbn in H; try contradiction; cbn [rbind]; [|exact H].
    destruct (rmapM (expression (st true)) l), (rmapM (expression (st false)) l); cbn in IH; try contradiction; cbn [rbind]; [|exact IH]. cbn. now rewrite H, IH.
  Qed.
  Lemma nsc_each l : (fix go (l : list pex) : Prop := match l with [] => True | x :: l' => no_string_calls x /\ go l' end) l <-> Forall no_string_calls l.
  Proof. induction l as [|x l IH]; [split; constructor|]. rewrite IH. split; [intros [? ?]; now constructor|intros H; inversion H; auto]. Qed.
  Lemma nsc_pairs {A} (l : list (A * pex)) : (fix go (l : list (A * pex)) : Prop := match l with [] => True | (_, x) :: l' => no_string_calls x /\ go l' end) l <-> Forall (fun ax => no_string_calls (snd ax)) l.
  Proof. induction l as [|[a x] l IH]; [split; constructor|]. rewrite IH. split; [intros [? ?]; now constructor|intros H; inversion H; auto]. Qed.
  Lemma both_impl (P Q : pex -> Prop) l : Forall (fun e => Q e -> P e) l -> Forall Q l -> Forall P l.
  Proof. induction 1; intros F; inversion F; constructor; auto. Qed.
  Lemma both_impl2 {A} (P Q : pex -> Prop) (l : list (A * pex)) : Forall (fun e => Q (snd e) -> P (snd e)) l -> Forall (fun e => Q (snd e)) l -> Forall (fun e => P (snd e)) l.
  Proof. induction 1; intros F; inversion F; constructor; auto. Qed.
  Definition path_ok (e : pex) : Prop := forall p p', map strip p = map strip p' -> alike (unfold (st true) e p) (unfold (st false) e p').
  Lemma arr_alike n k a b : map strip a = map strip b -> strip (form (st true) n [(k, VArr a)]) = strip (form (st false) n [(k, VArr b)]).
  Proof. intros H. apply form_alike. constructor; [|constructor]. split; [reflexivity|]. cbn [snd]. now rewrite !strip_arr, H. Qed.
  Theorem lines e : no_string_calls e -> ok e /\ path_ok e.
  Proof.
    assert (B : forall e, (match e with PName _ _ | PAttr _ _ _ | PSub _ _ _ | PSlice _ _ => False | _ => True end) -> ok e -> ok e /\ path_ok e).
    { intros e0 N H. split; [exact H|]. intros p p' Hp. rewrite !un_other by auto. unfold based. apply alike_bind; [exact H|]. intros x y _ _ E. apply form_alike. repeat constructor; auto. cbn [snd]. now rewrite !strip_arr, Hp. }
    induction e using pex_ind2; intros NS.
    - apply B; [exact I|reflexivity].
    - apply B; [exact I|reflexivity].
    - apply B; [exact I|reflexivity].
    - split; [apply alike_refl|]. intros p p' Hp. unfold unfold. cbn [both snd]. unfold based_name. cbn [st_cells st_pools st_subs]. destruct (memb s cells); [apply form_alike; repeat constructor; auto; cbn [snd]; now rewrite !strip_arr, Hp|].
      destruct (memb s pools); [apply form_alike; repeat constructor; auto; cbn [snd]; now rewrite !strip_arr, Hp|]. apply form_alike; repeat constructor; auto; cbn [snd]; now rewrite !strip_arr, Hp.
    - apply B; [exact I|]. cbn [no_string_calls] in NS. rewrite nsc_each in NS. assert (F : Forall (fun e => ok e) l) by (eapply both_impl; [|exact NS]; eapply Forall_impl; [|exact H]; intros x Hx Nx; now apply Hx).
      rewrite !ex_bool. destruct l as [|x [|y rest]]; try reflexivity. inversion F as [|? ? F1 F']; inversion F' as [|? ? F2 Fr]; subst. apply alike_bind; [exact F1|]. intros x1 x2 _ _ Ex. apply alike_bind; [exact F2|]. intros y1 y2 _ _ Ey.
      assert (O : strip (form (st true) n [(if a then "&&" else "||", VArr [x1; y1])]) = strip (form (st false) n [(if a then "&&" else "||", VArr [x2; y2])])) by (apply arr_alike; cbn; now rewrite Ex, Ey).
      revert O. generalize (form (st true) n [(if a then "&&" else "||", VArr [x1; y1])]) (form (st false) n [(if a then "&&" else "||", VArr [x2; y2])]). clear - Fr.
      induction Fr as [|z rest Hz _ IH]; intros o1 o2 O; [exact O|]. cbn [fold_bool]. apply alike_bind; [exact Hz|]. intros z1 z2 _ _ Ez. apply IH. apply arr_alike. cbn [map]. now rewrite O, Ez.
    - apply B; [exact I|]. destruct NS as [N1 N2]. destruct (IHe1 N1) as [H1 _], (IHe2 N2) as [H2 _]. rewrite !ex_bin. destruct (bin_name o); [|reflexivity]. cbn [rbind]. apply alike_bind; [exact H1|]. intros x1 x2 _ _ Ex. apply alike_bind; [exact H2|]. intros y1 y2 _ _ Ey.
      apply arr_alike. cbn [map]. now rewrite Ex, Ey.
    - apply B; [exact I|]. destruct (IHe NS) as [H1 _]. rewrite !ex_un. destruct (un_name o); [|reflexivity]. cbn [rbind]. apply alike_bind; [exact H1|]. intros x1 x2 _ _ Ex. apply form_alike. repeat constructor; auto.
    - apply B; [exact I|]. destruct NS as (N1 & N2 & N3). destruct (IHe1 N1) as [H1 _], (IHe2 N2) as [H2 _], (IHe3 N3) as [H3 _]. rewrite !ex_if. apply alike_bind; [exact H1|]. intros x1 x2 _ _ Ex. apply alike_bind; [exact H2|]. intros y1 y2 _ _ Ey.
      apply alike_bind; [exact H3|]. intros z1 z2 _ _ Ez. apply form_alike. repeat constructor; auto.
    - apply B; [exact I|]. rewrite direct_lines by reflexivity. apply alike_refl.
    - apply B; [exact I|]. destruct NS as [N1 N2]. rewrite nsc_pairs in N2. destruct (IHe N1) as [H1 _].
      assert (F : Forall (fun ox : cmpop * pex => ok (snd ox)) r) by (eapply (both_impl2 (fun e => ok e)); [|exact N2]; eapply Forall_impl; [|exact H]; intros x Hx Nx; now apply Hx).
      rewrite !ex_cmp. destruct r as [|[op c] r]; [reflexivity|]. inversion F as [|? ? Fc Fr]; subst. cbn [snd] in Fc. apply alike_bind; [exact Fc|]. intros x1 x2 _ _ Ex. destruct (cmp_name op) as [f|]; [|reflexivity]. cbn [rbind].
      apply alike_bind; [exact H1|]. intros y1 y2 _ _ Ey.
      assert (O : strip (form (st true) n [(f, VArr [y1; x1])]) = strip (form (st false) n [(f, VArr [y2; x2])])) by (apply arr_alike; cbn [map]; now rewrite Ex, Ey).
      enough (G : forall o1 o2 x1 x2, strip x1 = strip x2 -> strip o1 = strip o2 -> alike (fold_cmp (st true) n r x1 o1) (fold_cmp (st false) n r x2 o2)) by (apply G; [exact Ex|exact O]). clear - Fr.
      induction Fr as [|[op z] rest Hz _ IH]; intros o1 o2 x1 x2 Ex O; [exact O|]. cbn [fold_cmp snd] in *. apply alike_bind; [exact Hz|]. intros z1 z2 _ _ Ez. destruct (cmp_name op) as [f|]; [|reflexivity]. cbn [rbind].
      apply IH; [exact Ez|]. apply arr_alike. cbn [map]. rewrite O. f_equal. f_equal. apply arr_alike. cbn [map]. now rewrite Ex, Ez.
    - apply B; [exact I|]. destruct NS as (N0 & N1 & N2). rewrite nsc_each in N1. rewrite nsc_pairs in N2.
      assert (F : Forall (fun e => ok e) args) by (eapply both_impl; [|exact N1]; eapply Forall_impl; [|exact H]; intros x Hx Nx; now apply Hx).
      assert (F2 : Forall (fun ox : string * pex => ok (snd ox)) kwds) by (eapply (both_impl2 (fun e => ok e)); [|exact N2]; eapply Forall_impl; [|exact H0]; intros x Hx Nx; now apply Hx).
      rewrite !ex_call. destruct (unfold_name e) as [s|]; [|reflexivity]. cbn [rbind]. pose proof (list_alike args F) as L.
      destruct (rmapM (expression (st true)) args) as [l1|] eqn:E1, (rmapM (expression (st false)) args) as [l2|] eqn:E2; try contradiction; cbn [rbind]; [|exact L].
      assert (U : strip (unwrap (call_name s) (one_arg l1)) = strip (unwrap (call_name s) (one_arg l2))).
      { assert (Ls : length l1 = length args) by (apply rmapM_ok_length in E1; auto). destruct args as [|x [|y args]].
        - destruct l1; [|discriminate]. destruct l2; [|discriminate]. reflexivity.
        - destruct l1 as [|j1 [|? ?]]; try discriminate. destruct l2 as [|j2 [|? ?]]; try discriminate. cbn in L. injection L as L. cbn [one_arg]. cbn [rmapM] in E1, E2.
          destruct (expression (st true) x) as [k1|] eqn:X1; [|discriminate]. destruct (expression (st false) x) as [k2|] eqn:X2; [|discriminate]. cbn in E1, E2. injection E1 as ->. injection E2 as ->.
          destruct (direct x) eqn:D; [rewrite (direct_lines x D), X2 in X1; injection X1 as ->; reflexivity|].
          assert (T1 := shape _ _ _ X1 N0 D). assert (T2 := shape _ _ _ X2 N0 D).
          assert (NU : forall j, no_text j -> unwrap (call_name s) j = j).
          { intros j Hj. unfold unwrap. destruct (memb (call_name s) text_forms); [|reflexivity]. destruct j as [| | | | | | |d]; try reflexivity. destruct d as [|[k y] [|? ?]]; try reflexivity. destruct (String.eqb_spec k "string") as [->|]; [|reflexivity]. now destruct (Hj y). }
          rewrite !NU by auto. exact L.
        - destruct l1 as [|j1 [|k1 l1]]; try discriminate. destruct l2 as [|j2 [|k2 l2]]; try discriminate. cbn [one_arg].
          assert (NU : forall l, unwrap (call_name s) (VArr l) = VArr l) by (intros l; unfold unwrap; now destruct (memb _ _)). rewrite !NU, !strip_arr. now rewrite L. }
      assert (O : pairs_alike [(call_name s, unwrap (call_name s) (one_arg l1))] [(call_name s, unwrap (call_name s) (one_arg l2))]) by (repeat constructor; auto).
      revert O. generalize [(call_name s, unwrap (call_name s) (one_arg l1))] [(call_name s, unwrap (call_name s) (one_arg l2))]. clear - F2.
      enough (G : forall o1 o2, pairs_alike o1 o2 -> match fold_kwds (st true) kwds o1, fold_kwds (st false) kwds o2 with Ok a, Ok b => pairs_alike a b | Raise e, Raise e' => e = e' | _, _ => False end).
      { intros o1 o2 O. specialize (G o1 o2 O). destruct (fold_kwds (st true) kwds o1), (fold_kwds (st false) kwds o2); cbn [rbind alike]; auto. now apply form_alike. }
      induction F2 as [|[k z] rest Hz _ IH]; intros o1 o2 O; [exact O|]. cbn [fold_kwds snd] in *. destruct (expression (st true) z), (expression (st false) z); cbn in Hz; try contradiction; cbn [rbind]; [|exact Hz]. apply IH. now apply set_alike.
    - destruct (IHe NS) as [_ P]. assert (PP : path_ok (PAttr n e a)) by (intros p p' Hp; apply (P (VDict [("string", VStr a)] :: p) (VDict [("string", VStr a)] :: p')); cbn [map]; now rewrite Hp).
      split; [|exact PP]. apply (PP [] []). reflexivity.
    - destruct NS as [N1 N2]. destruct (IHe1 N1) as [_ P1], (IHe2 N2) as [H2 _]. assert (PP : path_ok (PSub n e1 e2)).
      { intros p p' Hp. rewrite !un_sub. cbn [st_index]. apply if_alike. apply alike_bind; [exact H2|]. intros x y _ _ E. apply P1. cbn [map]. now rewrite E, Hp. }
      split; [|exact PP]. rewrite !ex_sub. exact (PP [] [] eq_refl).
    - split; [reflexivity|]. intros p p' _. reflexivity.
    - apply B; [exact I|]. rewrite direct_lines by reflexivity. apply alike_refl.
    - apply B; [exact I|]. cbn [no_string_calls] in NS. rewrite nsc_each in NS. assert (F : Forall (fun e => ok e) l) by (eapply both_impl; [|exact NS]; eapply Forall_impl; [|exact H]; intros x Hx Nx; now apply Hx).
      rewrite !ex_tuple. pose proof (list_alike l F) as L. destruct (rmapM (expression (st true)) l), (rmapM (expression (st false)) l); cbn in L |- *; try contradiction; auto. fold (map strip). change (strip (VArr a) = strip (VArr a0)). now rewrite !strip_arr, L.
    - apply B; [exact I|reflexivity].
  Qed.
End Lines.
