(** Proofs about ConcModel: one abstract lock protocol, followed by cells and by pool items. *)
From Verif Require Import Base ScopeModel ConcModel ConcSpec.
Open Scope string_scope.
Open Scope list_scope.

(** ** Sequences of updates *)
Definition base (o : option val) (init : val) : val := match o with Some v => v | None => init end.
Lemma serial_length v fs ws : serial v fs ws -> length fs = length ws.
Proof. induction 1; cbn; congruence. Qed.
Lemma serial_snoc v fs ws f w :
  serial v fs ws -> yields (f (last ws v)) w -> serial v (fs ++ [f]) (ws ++ [w]).
Proof.
  induction 1 as [v|v g x fs ws Hy Hs IH]; intros H.
  - cbn in *. econstructor; [exact H|constructor].
  - cbn [app]. econstructor; [exact Hy|]. apply IH. destruct ws; [exact H|].
    cbn [last] in H |- *. clear - H. revert v0 H. induction ws; intros; [exact H|]. apply (IHws a). exact H.
Qed.
Lemma item_after_last v ws : item_after (Some v) ws = Some (last ws v).
Proof.
  unfold item_after. induction ws as [|w ws IH] using rev_ind; [reflexivity|].
  rewrite rev_app_distr, last_last. reflexivity.
Qed.
Lemma item_after_snoc o ws w : item_after o (ws ++ [w]) = Some w.
Proof. unfold item_after. now rewrite rev_app_distr. Qed.
Lemma item_serial_snoc o us ws init f w :
  item_serial o us ws -> yields (f (base (item_after o ws) init)) w ->
  item_serial o (us ++ [(init, f)]) (ws ++ [w]).
Proof.
  unfold item_serial. destruct o as [v|].
  - rewrite item_after_last, map_app. intros; now apply serial_snoc.
  - destruct us as [|[i0 f0] us].
    + intros -> H. cbn in *. econstructor; [exact H|constructor].
    + cbn [app map snd]. intros Hs H. rewrite map_app.
      pose proof (serial_length _ _ _ Hs) as L. destruct ws as [|x ws]; [discriminate|].
      change (f0 :: map snd us ++ map snd [(init, f)]) with ((f0 :: map snd us) ++ [f]).
      apply serial_snoc; [exact Hs|].
      enough (E : item_after None (x :: ws) = Some (last (x :: ws) i0)) by (rewrite E in H; exact H).
      rewrite <- item_after_last. unfold item_after. cbn. destruct (rev ws); reflexivity.
Qed.

(** ** The abstract protocol *)
Inductive phase :=
| Idle
| Pre (init : val) (f : val -> comp)
| PreI (init : val) (f : val -> comp)
| PreR (f : val -> comp)
| Comp (m : comp)
| Res
| Rel (w : val).
Inductive alabel := ANone | AStart (init : val) (f : val -> comp) | ADone (w : val).
Definition conf := (option nat * option val)%type.
(** thread i, in phase a, with the lock and value as given, does something about the resource *)
Inductive astep (i : nat) : phase -> conf -> alabel -> phase -> conf -> Prop :=
| as_other o v : astep i Idle (o, v) ANone Idle (o, v)
| as_start v init f : astep i Idle (None, v) (AStart init f) (Pre init f) (Some i, v)
| as_pre o v init f : astep i (Pre init f) (o, v) ANone (Pre init f) (o, v)
| as_there o v init f : astep i (Pre init f) (o, Some v) ANone (PreR f) (o, Some v)
| as_absent o init f : astep i (Pre init f) (o, None) ANone (PreI init f) (o, None)
| as_init o v init f : astep i (PreI init f) (o, v) ANone (PreR f) (o, Some init)
| as_read' o v f : astep i (PreR f) (o, Some v) ANone (Comp (f v)) (o, Some v)
| as_read o v init f : astep i (Pre init f) (o, Some v) ANone (Comp (f v)) (o, Some v)
| as_comp o v m m' : (forall w, yields m' w -> yields m w) -> astep i (Comp m) (o, v) ANone (Comp m') (o, v)
| as_write o v w : astep i (Comp (CRet w)) (o, v) ANone Res (o, Some w)
| as_res o w : astep i Res (o, Some w) ANone (Rel w) (o, Some w)
| as_rel o v w : astep i (Rel w) (o, v) (ADone w) Idle (None, v).

Definition ainv (o0 : option val) (us : list (val * (val -> comp))) (rs : list val) (ph : nat -> phase) (c : conf) : Prop :=
  (forall i, ph i <> Idle -> fst c = Some i) /\
  match fst c with
  | None => item_serial o0 us rs /\ snd c = item_after o0 rs
  | Some i => exists us' init f, us = us' ++ [(init, f)] /\ item_serial o0 us' rs /\
      let b := base (item_after o0 rs) init in
      match ph i with
      | Idle => False
      | Pre init' f' => init' = init /\ f' = f /\ (snd c = item_after o0 rs \/ snd c = Some b)
      | PreI init' f' => init' = init /\ f' = f /\ item_after o0 rs = None
      | PreR f' => f' = f /\ snd c = Some b
      | Comp m => snd c = Some b /\ forall w, yields m w -> yields (f b) w
      | Res => exists w, snd c = Some w /\ yields (f b) w
      | Rel w => snd c = Some w /\ yields (f b) w
      end
  end.
Definition ups (l : alabel) := match l with AStart init f => [(init, f)] | _ => [] end.
Definition rss (l : alabel) := match l with ADone w => [w] | _ => [] end.
Definition pset (ph : nat -> phase) i a : nat -> phase := fun j => if Nat.eqb j i then a else ph j.

Lemma ainv_step o0 us rs ph c i l a' c' :
  ainv o0 us rs ph c -> astep i (ph i) c l a' c' -> ainv o0 (us ++ ups l) (rs ++ rss l) (pset ph i a') c'.
Proof.
  intros [Hm Hi] H.
  assert (Hme : forall j, ph j <> Idle -> j <> i -> ph i <> Idle -> False).
  { intros j Hj n Hpi. apply Hm in Hj. apply Hm in Hpi. congruence. }
  assert (Own : ph i <> Idle -> fst c = Some i) by (intros; now apply Hm).
  assert (Hsame : forall a', ph i <> Idle -> forall j, pset ph i a' j <> Idle -> fst c = Some j).
  { intros a Hpi j. unfold pset. destruct (Nat.eqb_spec j i); [subst; intros _; now apply Own|].
    intros Hj. exfalso; eauto. }
  remember (ph i) as a eqn:Ha.
  destruct H; cbn [fst snd] in *; cbn [ups rss]; rewrite ?app_nil_r;
    try (assert (Ho : o = Some i) by (apply Own; discriminate); subst o);
    try (destruct Hi as (us' & init' & f' & -> & Hs & Hp); rewrite <- Ha in Hp).
  - split; [intros j; unfold pset; destruct (Nat.eqb_spec j i); [subst; congruence|auto]|].
    cbn [fst snd]. destruct o as [j|]; [|exact Hi].
    destruct Hi as (us' & init & f & E1 & E2 & Hp). exists us', init, f. split; [exact E1|]. split; [exact E2|].
    unfold pset. destruct (Nat.eqb_spec j i); [subst j; rewrite <- Ha in Hp; destruct Hp|exact Hp].
  - destruct Hi as [Hs ->]. split.
    + intros j. unfold pset. destruct (Nat.eqb_spec j i); [now subst|]. intros Hj. apply Hm in Hj. discriminate Hj.
    + cbn [fst snd]. exists us, init, f. split; [reflexivity|]. split; [exact Hs|].
      unfold pset. rewrite Nat.eqb_refl. auto.
  - split; [cbn; apply Hsame; discriminate|]. cbn [fst snd]. exists us', init', f'. repeat (split; [easy|]).
    unfold pset. rewrite Nat.eqb_refl. exact Hp.
  - split; [cbn; apply Hsame; discriminate|]. cbn [fst snd]. exists us', init', f'. repeat (split; [easy|]).
    unfold pset. rewrite Nat.eqb_refl. destruct Hp as (<- & <- & E).
    assert (E2 : Some v = Some (base (item_after o0 rs) init)) by (destruct E as [<-|E]; [reflexivity|exact E]).
    auto.
  - split; [cbn; apply Hsame; discriminate|]. cbn [fst snd]. exists us', init', f'. repeat (split; [easy|]).
    unfold pset. rewrite Nat.eqb_refl. destruct Hp as (<- & <- & [E|E]); [|discriminate E].
    auto.
  - split; [cbn; apply Hsame; discriminate|]. cbn [fst snd]. exists us', init', f'. repeat (split; [easy|]).
    unfold pset. rewrite Nat.eqb_refl. destruct Hp as (<- & <- & E).
    split; [easy|]. now rewrite E.
  - split; [cbn; apply Hsame; discriminate|]. cbn [fst snd]. exists us', init', f'. repeat (split; [easy|]).
    unfold pset. rewrite Nat.eqb_refl. destruct Hp as (<- & [= ->]). auto.
  - split; [cbn; apply Hsame; discriminate|]. cbn [fst snd]. exists us', init', f'. repeat (split; [easy|]).
    unfold pset. rewrite Nat.eqb_refl. destruct Hp as (<- & <- & E).
    assert (E2 : Some v = Some (base (item_after o0 rs) init)) by (destruct E as [<-|E]; [reflexivity|exact E]).
    split; [exact E2|]. injection E2 as <-. auto.
  - split; [cbn; apply Hsame; discriminate|]. cbn [fst snd]. exists us', init', f'. repeat (split; [easy|]).
    unfold pset. rewrite Nat.eqb_refl. destruct Hp as [Hv Hy]. auto.
  - split; [cbn; apply Hsame; discriminate|]. cbn [fst snd]. exists us', init', f'. repeat (split; [easy|]).
    unfold pset. rewrite Nat.eqb_refl. destruct Hp as [Hv Hy]. exists w. split; [easy|]. apply Hy. constructor.
  - split; [cbn; apply Hsame; discriminate|]. cbn [fst snd]. exists us', init', f'. repeat (split; [easy|]).
    unfold pset. rewrite Nat.eqb_refl. destruct Hp as (w' & [= <-] & Hy). auto.
  - split; [|cbn [fst snd]; destruct Hp as [-> Hy]; split;
             [now apply item_serial_snoc|symmetry; apply item_after_snoc]].
    cbn [fst]. intros j. unfold pset. destruct (Nat.eqb_spec j i); [now intros []|]. intros Hj. exfalso.
    assert (Hpi : Rel w <> Idle) by discriminate. eauto.
Qed.
Lemma ainv_ext o0 us rs ph ph' c : (forall i, ph' i = ph i) -> ainv o0 us rs ph c -> ainv o0 us rs ph' c.
Proof.
  intros E [Hm Hi]. split; [intros i; rewrite E; apply Hm|].
  destruct (fst c) as [i|]; [|exact Hi]. now rewrite E.
Qed.
Lemma ainv_start o : ainv o [] [] (fun _ => Idle) (None, o).
Proof. split; [intros i H; now destruct H|]. cbn. destruct o; split; try reflexivity; constructor. Qed.

(** ** Steps *)
Lemma step_others i s l s' j : step i s = Some (l, s') -> j <> i -> threads s' j = threads s j.
Proof.
  intros H Hj. unfold step in H.
  repeat match type of H with context [match ?x with _ => _ end] => destruct x end; try discriminate H;
    injection H as <- <-; cbn; unfold nset; destruct (Nat.eqb_spec j i); congruence.
Qed.
Lemma fset_eq {A} (f : string -> A) k a : fset f k a k = a.
Proof. unfold fset. now rewrite String.eqb_refl. Qed.
Lemma fset_ne {A} (f : string -> A) k a x : x <> k -> fset f k a x = f x.
Proof. unfold fset. destruct (String.eqb_spec x k); congruence. Qed.
Lemma fset2_eq {A} (f : string -> string -> A) k h a : fset2 f k h a k h = a.
Proof. unfold fset2. now rewrite !fset_eq. Qed.
Lemma fset2_ne {A} (f : string -> string -> A) k h a x y : (x, y) <> (k, h) -> fset2 f k h a x y = f x y.
Proof.
  intros H. unfold fset2. destruct (String.eqb_spec x k) as [->|].
  - rewrite fset_eq. apply fset_ne. congruence.
  - now rewrite fset_ne.
Qed.
Lemma execution_last s t s' (P : list label -> shared -> Prop) :
  P [] s -> (forall t s1 i l s2, execution s t s1 -> P t s1 -> step i s1 = Some (l, s2) -> P (t ++ [l]) s2) ->
  execution s t s' -> P t s'.
Proof. intros H0 HS H. induction H; eauto. Qed.

Lemma cell_updates_app c t t' : cell_updates c (t ++ t') = cell_updates c t ++ cell_updates c t'.
Proof. induction t as [|[] t IH]; cbn; auto. destruct (String.eqb c0 c); cbn; now rewrite IH. Qed.
Lemma cell_results_app c t t' : cell_results c (t ++ t') = cell_results c t ++ cell_results c t'.
Proof. induction t as [|[] t IH]; cbn; auto. destruct (String.eqb c0 c); cbn; now rewrite IH. Qed.
Lemma item_updates_app p h t t' : item_updates p h (t ++ t') = item_updates p h t ++ item_updates p h t'.
Proof. induction t as [|[] t IH]; cbn; auto. destruct (_ && _)%bool; cbn; now rewrite IH. Qed.
Lemma item_results_app p h t t' : item_results p h (t ++ t') = item_results p h t ++ item_results p h t'.
Proof. induction t as [|[] t IH]; cbn; auto. destruct (_ && _)%bool; cbn; now rewrite IH. Qed.

(** *** Cells *)
Definition cphase (c : string) (t : thread) : phase :=
  match t with
  | TCRead d f _ => if String.eqb d c then Pre VNull f else Idle
  | TCComp d m _ => if String.eqb d c then Comp m else Idle
  | TCRes d _ => if String.eqb d c then Res else Idle
  | TCRel d w _ => if String.eqb d c then Rel w else Idle
  | _ => Idle
  end.
Definition clabel (c : string) (l : label) : alabel :=
  match l with
  | CellStart _ d f => if String.eqb d c then AStart VNull f else ANone
  | CellDone _ d v => if String.eqb d c then ADone v else ANone
  | _ => ANone
  end.
Definition cconf (c : string) (s : shared) : conf := (c_lock s c, Some (c_val s c)).

Lemma goto_at i t s : threads (goto i t s) i = t.
Proof. cbn. unfold nset. now rewrite Nat.eqb_refl. Qed.
Ltac eqs := repeat match goal with
  | |- context [String.eqb ?a ?b] => destruct (String.eqb_spec a b); subst
  end.
Lemma cell_step c i s l s' :
  step i s = Some (l, s') -> (forall e, l <> CellFail i c e) ->
  astep i (cphase c (threads s i)) (cconf c s) (clabel c l) (cphase c (threads s' i)) (cconf c s').
Proof.
  intros H Hf. unfold step in H. unfold cconf.
  destruct (threads s i) as [[]| | | | | | | | | | | |] eqn:Ht; cbn [cphase] in *;
  repeat match type of H with context [match ?x with _ => _ end] => destruct x eqn:? end; try discriminate H;
    injection H as <- <-; rewrite goto_at; cbn [cphase clabel goto put_c lock_c put_p lock_l lock_i c_lock c_val];
    unfold fset; rewrite ?(String.eqb_sym c);
    eqs; try congruence; try match goal with E : c_lock _ _ = None |- _ => rewrite E end; try (econstructor; fail);
    try (exfalso; eapply Hf; reflexivity).
  all: match goal with
       | |- context [p_val ?s ?p ?h] => apply as_comp; intros w Hw; now apply y_item with (p_val s p h)
       | |- context [c_val ?s ?c] => apply as_comp; intros w Hw; now apply y_cell with (c_val s c)
       end.
Qed.

(** *** Pool items *)
Definition iphase (p h : string) (t : thread) : phase :=
  let mine q g := (String.eqb q p && String.eqb g h)%bool in
  match t with
  | TPUnl q g init f _ | TPTest q g init f _ => if mine q g then Pre init f else Idle
  | TPInit q g init f _ => if mine q g then PreI init f else Idle
  | TPRead q g f _ => if mine q g then PreR f else Idle
  | TPComp q g m _ => if mine q g then Comp m else Idle
  | TPRes q g _ => if mine q g then Res else Idle
  | TPRel q g w _ => if mine q g then Rel w else Idle
  | _ => Idle
  end.
Definition ilabel (p h : string) (l : label) : alabel :=
  match l with
  | ItemStart _ q g init f => if (String.eqb q p && String.eqb g h)%bool then AStart init f else ANone
  | ItemDone _ q g v => if (String.eqb q p && String.eqb g h)%bool then ADone v else ANone
  | _ => ANone
  end.
Definition iconf (p h : string) (s : shared) : conf := (i_lock s p h, p_val s p h).
Lemma mine_spec q p g h : ((String.eqb q p && String.eqb g h)%bool = true /\ (p, h) = (q, g)) \/
  ((String.eqb q p && String.eqb g h)%bool = false /\ (p, h) <> (q, g)).
Proof. destruct (String.eqb_spec q p), (String.eqb_spec g h); cbn; subst; auto; right; split; congruence. Qed.
Lemma item_step p h i s l s' :
  step i s = Some (l, s') -> (forall e, l <> ItemFail i p h e) -> l <> ItemDel i p h ->
  astep i (iphase p h (threads s i)) (iconf p h s) (ilabel p h l) (iphase p h (threads s' i)) (iconf p h s').
Proof.
  intros H Hf Hd. unfold step in H. unfold iconf.
  destruct (threads s i) as [[]| | | | | | | | | | | |] eqn:Ht; cbn [iphase] in *;
  repeat match type of H with context [match ?x with _ => _ end] => destruct x eqn:? end; try discriminate H;
    injection H as <- <-; rewrite goto_at; cbn [iphase ilabel goto put_c lock_c put_p lock_l lock_i i_lock p_val];
  repeat match goal with
  | |- context [(String.eqb ?q p && String.eqb ?g h)%bool] =>
      destruct (mine_spec q p g h) as [[-> [= -> ->]]|[-> Hne]]
  | |- context [fset2 ?f ?k ?g ?a ?k ?g] => rewrite (fset2_eq f k g a)
  | Hn : (?p, ?h) <> (?k, ?g) |- context [fset2 ?f ?k ?g ?a ?p ?h] => rewrite (fset2_ne f k g a p h Hn)
  end;
  repeat match goal with E : i_lock _ _ _ = _ |- _ => rewrite E | E : p_val _ _ _ = _ |- _ => rewrite E end;
  try (econstructor; fail);
    try (exfalso; eapply Hf; reflexivity).
  - rewrite fset2_ne by congruence. constructor.
  - apply as_comp. intros w Hw. now apply y_cell with (c_val s c).
  - apply as_comp. intros w Hw. now apply y_item with (p_val s p1 h1).
Qed.

(** ** Executions *)
Lemma cell_failed_app c t t' : ~ cell_failed c (t ++ t') -> ~ cell_failed c t /\ ~ cell_failed c t'.
Proof. intros H; split; intros (i & e & Hin); apply H; exists i, e; apply in_or_app; auto. Qed.
Lemma item_failed_app p h t t' : ~ item_failed p h (t ++ t') -> ~ item_failed p h t /\ ~ item_failed p h t'.
Proof. intros H; split; intros (i & e & Hin); apply H; exists i, e; apply in_or_app; auto. Qed.
Lemma item_deleted_app p h t t' : ~ item_deleted p h (t ++ t') -> ~ item_deleted p h t /\ ~ item_deleted p h t'.
Proof. intros H; split; intros (i & Hin); apply H; exists i; apply in_or_app; auto. Qed.

Lemma cell_inv s0 t s c :
  start s0 -> execution s0 t s -> ~ cell_failed c t ->
  ainv (Some (c_val s0 c)) (map (pair VNull) (cell_updates c t)) (cell_results c t)
       (fun i => cphase c (threads s i)) (cconf c s).
Proof.
  intros (Ht & Hc & _ & _) H. induction H as [|t s i l s' He IH Hs]; intros Hf.
  - unfold cconf. rewrite Hc. apply ainv_ext with (fun _ => Idle); [|apply ainv_start].
    intros i. destruct (Ht i) as [p ->]. reflexivity.
  - apply cell_failed_app in Hf as [Hf Hl].
    assert (Hstep := cell_step c i s l s' Hs). specialize (Hstep ltac:(intros e ->; apply Hl; exists i, e; now left)).
    pose proof (ainv_step _ _ _ _ _ i _ _ _ (IH Hf) Hstep) as HI.
    rewrite cell_updates_app, cell_results_app, map_app.
    replace (map (pair VNull) (cell_updates c [l])) with (ups (clabel c l))
      by (destruct l; cbn; try reflexivity; destruct (String.eqb _ _); reflexivity).
    replace (cell_results c [l]) with (rss (clabel c l))
      by (destruct l; cbn; try reflexivity; destruct (String.eqb _ _); reflexivity).
    eapply ainv_ext; [|exact HI]. intros j. unfold pset. destruct (Nat.eqb_spec j i); [now subst|].
    now rewrite (step_others i s l s').
Qed.
Lemma item_inv s0 t s p h :
  start s0 -> execution s0 t s -> ~ item_failed p h t -> ~ item_deleted p h t ->
  ainv (p_val s0 p h) (item_updates p h t) (item_results p h t)
       (fun i => iphase p h (threads s i)) (iconf p h s).
Proof.
  intros (Ht & _ & _ & Hc) H. induction H as [|t s i l s' He IH Hs]; intros Hf Hd.
  - unfold iconf. rewrite Hc. apply ainv_ext with (fun _ => Idle); [|apply ainv_start].
    intros i. destruct (Ht i) as [q ->]. reflexivity.
  - apply item_failed_app in Hf as [Hf Hl]. apply item_deleted_app in Hd as [Hd Hl'].
    assert (Hstep := item_step p h i s l s' Hs).
    specialize (Hstep ltac:(intros e ->; apply Hl; exists i, e; now left) ltac:(intros ->; apply Hl'; exists i; now left)).
    pose proof (ainv_step _ _ _ _ _ i _ _ _ (IH Hf Hd) Hstep) as HI.
    rewrite item_updates_app, item_results_app.
    replace (item_updates p h [l]) with (ups (ilabel p h l))
      by (destruct l; cbn; try reflexivity; destruct (_ && _)%bool; reflexivity).
    replace (item_results p h [l]) with (rss (ilabel p h l))
      by (destruct l; cbn; try reflexivity; destruct (_ && _)%bool; reflexivity).
    eapply ainv_ext; [|exact HI]. intros j. unfold pset. destruct (Nat.eqb_spec j i); [now subst|].
    now rewrite (step_others i s l s').
Qed.
Lemma map_snd_pair {A B} (a : A) (l : list B) : map snd (map (pair a) l) = l.
Proof. induction l; cbn; congruence. Qed.
Lemma quiet_idle c s : cell_quiet c s <-> forall i, cphase c (threads s i) = Idle.
Proof.
  split; intros H i; specialize (H i); revert H; destruct (threads s i) as [[]| | | | | | | | | | | |]; cbn; auto; eqs; auto;
    try congruence; discriminate.
Qed.
Lemma item_quiet_idle p h s : item_quiet p h s <-> forall i, iphase p h (threads s i) = Idle.
Proof.
  split; intros H i; specialize (H i); revert H; destruct (threads s i) as [[]| | | | | | | | | | | |]; cbn; auto;
  match goal with |- context [(String.eqb ?q p && String.eqb ?g h)%bool] =>
      destruct (mine_spec q p g h) as [[-> E]|[-> E]] end; try congruence.
Qed.
Lemma cell_serial s0 t s c :
  start s0 -> execution s0 t s -> ~ cell_failed c t -> cell_quiet c s ->
  serial (c_val s0 c) (cell_updates c t) (cell_results c t) /\ c_val s c = last (cell_results c t) (c_val s0 c).
Proof.
  intros Hs He Hf Hq. rewrite quiet_idle in Hq. destruct (cell_inv s0 t s c Hs He Hf) as [_ HI].
  unfold cconf in HI. cbn [fst snd] in HI. destruct (c_lock s c) as [i|].
  - destruct HI as (us & init & f & _ & _ & HI). rewrite Hq in HI. destruct HI.
  - destruct HI as [HI Hv]. cbn in HI. rewrite map_snd_pair in HI. rewrite item_after_last in Hv. split; congruence.
Qed.
Lemma pool_serial s0 t s p h :
  start s0 -> execution s0 t s -> ~ item_failed p h t -> ~ item_deleted p h t -> item_quiet p h s ->
  item_serial (p_val s0 p h) (item_updates p h t) (item_results p h t) /\
  p_val s p h = item_after (p_val s0 p h) (item_results p h t).
Proof.
  intros Hs He Hf Hd Hq. rewrite item_quiet_idle in Hq. destruct (item_inv s0 t s p h Hs He Hf Hd) as [_ HI].
  unfold iconf in HI. cbn [fst snd] in HI. destruct (i_lock s p h) as [i|].
  - destruct HI as (us & init & f & _ & _ & HI). rewrite Hq in HI. destruct HI.
  - exact HI.
Qed.

(** ** No deadlock *)
Definition no_failure (t : list label) : Prop :=
  (forall c, ~ cell_failed c t) /\ (forall p h, ~ item_failed p h t).
Definition enabled (s : shared) (i : nat) : Prop := exists l s', step i s = Some (l, s').
(** who holds a lock: [o] its state, [b] whether thread i is one that must release it *)
Inductive own_step (i : nat) : option nat -> bool -> option nat -> bool -> Prop :=
| own_same o b : own_step i o b o b
| own_take : own_step i None false (Some i) true
| own_drop o : own_step i o true None false.
Lemma own_inv i (o o' : option nat) (busy busy' : nat -> bool) :
  (forall j, o = Some j <-> busy j = true) -> (forall j, j <> i -> busy' j = busy j) ->
  own_step i o (busy i) o' (busy' i) -> forall j, o' = Some j <-> busy' j = true.
Proof.
  intros H Hb Hs j. destruct (Nat.eq_dec j i) as [->|Hj].
  - specialize (H i). remember (busy i) as b; remember (busy' i) as b'. destruct Hs; [exact H|tauto|split; discriminate].
  - rewrite Hb by exact Hj. pose proof (H i) as Hi. remember (busy i) as b; remember (busy' i) as b'.
    destruct Hs; [apply H| |].
    + rewrite <- H. split; congruence.
    + rewrite <- H. assert (o = Some i) by tauto. split; congruence.
Qed.
Definition ll_busy (p : string) (t : thread) : bool :=
  match t with TPLock q _ _ _ _ | TPUnl q _ _ _ _ => String.eqb q p | _ => false end.
Definition busy (a : phase) : bool := match a with Idle => false | _ => true end.
Lemma locklock_step p i s l s' : step i s = Some (l, s') ->
  own_step i (p_locklock s p) (ll_busy p (threads s i)) (p_locklock s' p) (ll_busy p (threads s' i)).
Proof.
  intros H. unfold step in H.
  destruct (threads s i) as [[]| | | | | | | | | | | |] eqn:Hi;
    repeat match type of H with context [match ?x with _ => _ end] => destruct x eqn:? end; try discriminate H;
    injection H as <- <-; rewrite goto_at; cbn; unfold fset; rewrite ?(String.eqb_sym p); eqs;
    try match goal with E : _ = None |- _ => rewrite E end; constructor.
Qed.
Lemma item_own_step p h i s l s' : step i s = Some (l, s') -> (forall e, l <> ItemFail i p h e) ->
  own_step i (i_lock s p h) (busy (iphase p h (threads s i))) (i_lock s' p h) (busy (iphase p h (threads s' i))).
Proof.
  intros H Hf. unfold step in H.
  destruct (threads s i) as [[]| | | | | | | | | | | |] eqn:Hi; cbn [iphase] in *;
    repeat match type of H with context [match ?x with _ => _ end] => destruct x eqn:? end; try discriminate H;
    injection H as <- <-; rewrite goto_at; cbn [iphase goto put_c lock_c put_p lock_l lock_i i_lock];
  repeat match goal with
  | |- context [(String.eqb ?q p && String.eqb ?g h)%bool] =>
      destruct (mine_spec q p g h) as [[-> [= -> ->]]|[-> Hne]]
  | |- context [fset2 ?f ?k ?g ?a ?k ?g] => rewrite (fset2_eq f k g a)
  | Hn : (?p, ?h) <> (?k, ?g) |- context [fset2 ?f ?k ?g ?a ?p ?h] => rewrite (fset2_ne f k g a p h Hn)
  end; cbn [busy]; try match goal with E : i_lock _ _ _ = None |- _ => rewrite E end; try constructor;
  exfalso; eapply Hf; reflexivity.
Qed.
Lemma locklock_owner s0 t s p :
  start s0 -> execution s0 t s -> forall i, p_locklock s p = Some i <-> ll_busy p (threads s i) = true.
Proof.
  intros (Ht & _ & Hl & _) H. induction H as [|t s i l s' He IH Hs].
  - intros j. destruct (Ht j) as [q ->]. rewrite Hl. cbn. split; discriminate.
  - eapply (own_inv i _ _ (fun j => ll_busy p (threads s j)) (fun j => ll_busy p (threads s' j)));
      [exact IH| |now apply locklock_step with l]. intros j Hj. now rewrite (step_others i s l s').
Qed.
Lemma item_owner s0 t s p h :
  start s0 -> execution s0 t s -> ~ item_failed p h t ->
  forall i, i_lock s p h = Some i <-> busy (iphase p h (threads s i)) = true.
Proof.
  intros (Ht & _ & _ & Hl) H. induction H as [|t s i l s' He IH Hs]; intros Hf.
  - intros j. destruct (Ht j) as [q ->]. rewrite Hl. cbn. split; discriminate.
  - apply item_failed_app in Hf as [Hf Hfl].
    eapply (own_inv i _ _ (fun j => busy (iphase p h (threads s j))) (fun j => busy (iphase p h (threads s' j))));
      [exact (IH Hf)| |apply item_own_step with l; [exact Hs|]].
    + intros j Hj. now rewrite (step_others i s l s').
    + intros e ->. apply Hfl. exists i, e. now left.
Qed.
Lemma cell_busy_enabled s c i : cphase c (threads s i) <> Idle -> enabled s i.
Proof.
  intros H. unfold enabled, step. destruct (threads s i) as [[]| | | | | | | | | | | |]; cbn in H; try congruence; eauto.
  destruct m; eauto.
Qed.
Lemma item_busy_enabled s p h i : busy (iphase p h (threads s i)) = true -> enabled s i.
Proof.
  intros H. unfold enabled, step. destruct (threads s i) as [[]| | | | | | | | | | | |]; cbn in H; try congruence; eauto.
  - destruct (p_val s p0 h0); eauto.
  - destruct (p_val s p0 h0); eauto.
  - destruct m; eauto.
  - destruct (p_val s p0 h0); eauto.
Qed.
Lemma progress s0 t s j :
  start s0 -> execution s0 t s -> no_failure t -> threads s j <> TRun PEnd -> exists i, enabled s i.
Proof.
  intros H0 He [Hc Hp] Hj.
  assert (Item : forall p h i, i_lock s p h = Some i -> exists i, enabled s i).
  { intros p h i Hl. exists i. apply item_busy_enabled with p h. now apply (item_owner s0 t s p h). }
  assert (LL : forall p h init f k i, threads s i = TPLock p h init f k -> exists i, enabled s i).
  { intros p h init f k i Hi. destruct (i_lock s p h) as [i'|] eqn:El; [now apply (Item p h i')|].
    exists i. unfold enabled, step. rewrite Hi, El. eauto. }
  destruct (threads s j) as [[]| | | | | | | | | | | |] eqn:Ej; try congruence; eauto;
    try (exists j; unfold enabled, step; rewrite Ej; eauto; fail);
    try (exists j; unfold enabled, step; rewrite Ej; destruct (p_val s p h); eauto; fail);
    try (exists j; unfold enabled, step; rewrite Ej; destruct m; eauto; fail).
  - destruct (c_lock s c) as [i|] eqn:El.
    + exists i. apply cell_busy_enabled with c. destruct (cell_inv s0 t s c H0 He (Hc c)) as [_ HI].
      unfold cconf in HI. cbn [fst snd] in HI. rewrite El in HI. destruct HI as (us & init & g & _ & _ & HI).
      intros E. rewrite E in HI. exact HI.
    + exists j. unfold enabled, step. rewrite Ej, El. eauto.
  - destruct (p_locklock s p) as [i|] eqn:El.
    + apply (locklock_owner s0 t s p H0 He) in El. destruct (threads s i) eqn:Ei; cbn in El; try discriminate El; eauto.
      exists i. unfold enabled, step. rewrite Ei. eauto.
    + exists j. unfold enabled, step. rewrite Ej, El. eauto.
Qed.

(** ** Threads that only update one cell *)
Definition updating (c : string) (rest : list (val -> val)) (t : thread) : Prop :=
  t = TRun (update_all c rest) \/
  (exists g, t = TCRead c (fun v => CRet (g v)) (fun _ => update_all c rest)) \/
  (exists v, t = TCComp c (CRet v) (fun _ => update_all c rest)) \/
  t = TCRes c (fun _ => update_all c rest) \/
  (exists v, t = TCRel c v (fun _ => update_all c rest)).
Definition as_update (x : nat * (val -> val)) : val -> comp := fun v => CRet (snd x v).
Lemma part_app {A} i (m m' : list (nat * A)) : part i (m ++ m') = part i m ++ part i m'.
Proof. unfold part. now rewrite filter_app, map_app. Qed.
Lemma part_one {A} i j (a : A) : part i [(j, a)] = if Nat.eqb j i then [a] else [].
Proof. unfold part. cbn. destruct (Nat.eqb j i); reflexivity. Qed.

Lemma updaters_inv s0 t s c (gs : nat -> list (val -> val)) :
  (forall i, threads s0 i = TRun (update_all c (gs i))) -> execution s0 t s ->
  ~ cell_failed c t /\
  exists m, (forall i, exists rest, part i m ++ rest = gs i /\ updating c rest (threads s i)) /\
            cell_updates c t = map as_update m.
Proof.
  intros H0 H. induction H as [|t s i l s' He (IHf & m & IH & Hm) Hs].
  - split; [intros (i & e & [])|]. exists []. split; [|reflexivity].
    intros i. exists (gs i). split; [reflexivity|]. left. apply H0.
  - destruct (IH i) as (rest & Er & Hu).
    assert (Hcases : (clabel c l = ANone /\ (forall e, l <> CellFail i c e) /\ updating c rest (threads s' i) /\ cell_updates c [l] = [])
              \/ (exists g rest', rest = g :: rest' /\ l = CellStart i c (fun v => CRet (g v)) /\
                                 updating c rest' (threads s' i))
              \/ (exists v, l = CellDone i c v /\ updating c rest (threads s' i))).
    { unfold step in Hs. destruct Hu as [E|[[g E]|[[v E]|[E|[v E]]]]]; rewrite E in Hs.
      - destruct rest as [|g rest]; cbn [update_all] in Hs; [discriminate|].
        destruct (c_lock s c); [discriminate|]. injection Hs as <- <-. right; left. exists g, rest.
        rewrite goto_at. split; [easy|]. split; [easy|]. right; left. eauto.
      - injection Hs as <- <-. left. rewrite goto_at. repeat (split; [easy|]). split; [|easy]. right; right; left. eauto.
      - injection Hs as <- <-. left. rewrite goto_at. repeat (split; [easy|]). split; [|easy]. right; right; right; left. eauto.
      - injection Hs as <- <-. left. rewrite goto_at. repeat (split; [easy|]). split; [|easy]. right; right; right; right. eauto.
      - injection Hs as <- <-. right; right. exists v. rewrite goto_at. split; [easy|]. left. eauto. }
    assert (Hoth : forall j, j <> i -> threads s' j = threads s j) by (intros; now apply (step_others i s l s')).
    rewrite cell_updates_app.
    destruct Hcases as [(_ & Hl & Hu' & ->)|[(g & rest' & -> & -> & Hu')|(v & -> & Hu')]].
    + split.
      { intros (j & e & Hin). apply in_app_or in Hin as [Hin|[->|[]]]; [apply IHf; now exists j, e|].
        unfold step in Hs. destruct Hu as [E|[[g E]|[[v E]|[E|[v E]]]]]; rewrite E in Hs; try discriminate Hs.
        destruct rest; cbn in Hs; [discriminate|]. destruct (c_lock s c); discriminate. }
      exists m. rewrite app_nil_r. split; [|exact Hm]. intros j. destruct (Nat.eq_dec j i) as [->|Hj]; [eauto|].
      rewrite Hoth by exact Hj. apply IH.
    + split.
      { intros (j & e & Hin). apply in_app_or in Hin as [Hin|[Hin|[]]]; [apply IHf; now exists j, e|discriminate]. }
      exists (m ++ [(i, g)]). rewrite map_app. cbn [cell_updates]. rewrite String.eqb_refl.
      split; [|rewrite Hm; reflexivity].
      intros j. rewrite part_app, part_one. destruct (Nat.eqb_spec i j) as [<-|Hj].
      * exists rest'. split; [rewrite <- app_assoc; exact Er|exact Hu'].
      * rewrite app_nil_r, Hoth by auto. apply IH.
    + split.
      { intros (j & e & Hin). apply in_app_or in Hin as [Hin|[Hin|[]]]; [apply IHf; now exists j, e|discriminate]. }
      exists m. cbn [cell_updates]. rewrite app_nil_r. split; [|exact Hm].
      intros j. destruct (Nat.eq_dec j i) as [->|Hj]; [eauto|]. rewrite Hoth by exact Hj. apply IH.
Qed.
Lemma serial_fold v m ws :
  serial v (map as_update m) ws -> last ws v = fold_left (fun x g => g x) (map snd m) v.
Proof.
  remember (map as_update m) as fs eqn:E. intros H. revert m E.
  induction H as [v|v f w fs ws Hy Hs IH]; intros m E.
  - destruct m; [reflexivity|discriminate].
  - destruct m as [|[i g] m]; [discriminate|]. cbn in E. injection E as -> E. inversion Hy; subst.
    cbn [map snd fold_left]. rewrite <- (IH m eq_refl). destruct ws; [reflexivity|]. cbn [last].
    clear. revert v0. induction ws; intros; [reflexivity|]. apply IHws.
Qed.
Lemma finished_quiet s c : finished s -> cell_quiet c s.
Proof. intros H i. now rewrite H. Qed.
