(** Expressions are worth what the Python code is worth. *)
From Verif Require Import Base PyNum ScopeModel ScopeProofs ChainModel PexModel PexSpec PexProofs.
Open Scope string_scope.
Open Scope list_scope.

Section Values.
  Variable V : Type.
  Variable lit : val -> V.
  Variable text : string -> V.
  Variable fn : string -> list V -> option V.
  Variable get : V -> V -> option V.
  Variable truth : V -> option bool.
  Variable of_bool : bool -> V.
  Variable cellv poolv : string -> option V.
  Hypothesis TB : forall b, truth (of_bool b) = Some b.
  Variable st : state.
  Notation meaning := (meaning V lit text fn get truth of_bool cellv poolv).
  Notation python := (python V lit text fn get truth of_bool cellv poolv st).
  Notation every := (every V truth of_bool).
  Notation any := (any V truth of_bool).
  Notation choose := (choose V truth).
  Notation apply := (apply V fn).
  Notation item := (item V get).
  Notation ex := (expression st).
  Variable env : string -> option V.
  Notation mean := (fun j => meaning env (strip j)).

  (** worth the same, where the first is worth anything *)
  Definition le (a b : option V) : Prop := forall v, a = Some v -> b = Some v.
  Lemma le_refl a : le a a. Proof. easy. Qed.
  Lemma le_none b : le None b. Proof. easy. Qed.
  Lemma every_le l l' : Forall2 le l l' -> le (every l) (every l').
  Proof.
    induction 1 as [|a b l l' H _ IH]; [apply le_refl|]. intros v. cbn. destruct a as [x|]; [|discriminate]. rewrite (H x eq_refl). destruct (truth x) as [[|]|]; auto.
  Qed.
  Lemma any_le l l' : Forall2 le l l' -> le (any l) (any l').
  Proof.
    induction 1 as [|a b l l' H _ IH]; [apply le_refl|]. intros v. cbn. destruct a as [x|]; [|discriminate]. rewrite (H x eq_refl). destruct (truth x) as [[|]|]; auto.
  Qed.
  Lemma choose_le t t' b b' o o' : le t t' -> le b b' -> le o o' -> le (choose t b o) (choose t' b' o').
  Proof. intros H1 H2 H3 v. unfold PexSpec.choose. destruct t as [x|]; [|discriminate]. rewrite (H1 x eq_refl). destruct (truth x) as [[|]|]; auto. Qed.
  Lemma all_some_le l l' : Forall2 le l l' -> forall vs, all_some V l = Some vs -> all_some V l' = Some vs.
  Proof.
    induction 1 as [|a b l l' H _ IH]; [auto|]. intros vs. cbn. destruct a as [x|]; [|discriminate]. rewrite (H x eq_refl). destruct (all_some V l) as [r|]; [|discriminate]. now rewrite (IH r eq_refl).
  Qed.
  Lemma apply_le f l l' : Forall2 le l l' -> le (apply f l) (apply f l').
  Proof. intros H v. unfold PexSpec.apply. destruct (all_some V l) as [vs|] eqn:E; [|discriminate]. now rewrite (all_some_le _ _ H vs E). Qed.
  Lemma item_le a a' b b' : le a a' -> le b b' -> le (item a b) (item a' b').
  Proof. intros H1 H2 v. unfold PexSpec.item. destruct a as [x|]; [|discriminate]. destruct b as [y|]; [|discriminate]. now rewrite (H1 x eq_refl), (H2 y eq_refl). Qed.
  Lemma items_le l : forall a a', le a a' -> le (fold_left item l a) (fold_left item l a').
  Proof. induction l as [|x l IH]; intros a a' H; [exact H|]. cbn. apply IH. apply item_le; [exact H|apply le_refl]. Qed.
  (** two at a time from the left, or all in turn *)
  Lemma every_left l : forall a, every (a :: l) = match l with [] => every [a] | b :: l' => every (every [a; b] :: l') end.
  Proof.
    intros a. destruct l as [|b l]; [reflexivity|]. cbn. destruct a as [x|]; [|reflexivity]. destruct (truth x) as [[|]|]; try reflexivity.
    - destruct b as [y|]; [|reflexivity]. destruct (truth y) as [[|]|]; cbn; rewrite ?TB; reflexivity.
    - cbn. now rewrite TB.
  Qed.
  Lemma any_left l : forall a, any (a :: l) = match l with [] => any [a] | b :: l' => any (any [a; b] :: l') end.
  Proof.
    intros a. destruct l as [|b l]; [reflexivity|]. cbn. destruct a as [x|]; [|reflexivity]. destruct (truth x) as [[|]|]; try reflexivity.
    - cbn. now rewrite TB.
    - destruct b as [y|]; [|reflexivity]. destruct (truth y) as [[|]|]; cbn; rewrite ?TB; reflexivity.
  Qed.
  Lemma every_bool a v : every a = Some v -> exists b, v = of_bool b.
  Proof. induction a as [|[x|] a IH]; cbn; intros H; try discriminate; [injection H as <-; eauto|]. destruct (truth x) as [[|]|]; auto; [injection H as <-; eauto|discriminate]. Qed.
  Lemma any_bool a v : any a = Some v -> exists b, v = of_bool b.
  Proof. induction a as [|[x|] a IH]; cbn; intros H; try discriminate; [injection H as <-; eauto|]. destruct (truth x) as [[|]|]; auto; [injection H as <-; eauto|discriminate]. Qed.

  (** *** the parts of documents *)
  Lemma m_call f l : existsb (String.eqb f) forms = false -> meaning env (VDict [(f, VArr l)]) = apply f (map (meaning env) l).
  Proof. intros H. destruct (no_form f H) as (_ & E1 & E2 & E3). cbn [PexSpec.meaning]. rewrite E1, E2, E3, H. reflexivity. Qed.
  Lemma m_call1 f x v : existsb (String.eqb f) forms = false -> meaning env x = Some v -> meaning env (VDict [(f, x)]) = fn f [v].
  Proof.
    intros H Hx. destruct (no_form f H) as (_ & E1 & E2 & E3). cbn [PexSpec.meaning]. rewrite E1, E2, E3, H.
    transitivity (apply f [meaning env x]); [destruct x; try discriminate Hx; reflexivity|]. unfold PexSpec.apply. cbn [PexSpec.all_some]. now rewrite Hx.
  Qed.
  Lemma s_call n f l : existsb (String.eqb f) forms = false -> strip (form st n [(f, VArr l)]) = VDict [(f, VArr (map strip l))].
  Proof. intros H. destruct (no_form f H) as (E & _). rewrite strip_form. cbn [sd flat_map fst snd]. now rewrite E. Qed.
  Lemma s_call1 n f x : existsb (String.eqb f) forms = false -> strip (form st n [(f, x)]) = VDict [(f, strip x)].
  Proof. intros H. destruct (no_form f H) as (E & _). rewrite strip_form. cbn [sd flat_map fst snd]. now rewrite E. Qed.
  Lemma m_two n f a b : existsb (String.eqb f) forms = false -> mean (form st n [(f, VArr [a; b])]) = apply f [mean a; mean b].
  Proof. intros H. cbn beta. rewrite s_call by auto. now rewrite m_call. Qed.
  Lemma m_and n a b : mean (form st n [("&&", VArr [a; b])]) = every [mean a; mean b].
  Proof. cbn beta. rewrite strip_form. reflexivity. Qed.
  Lemma m_or n a b : mean (form st n [("||", VArr [a; b])]) = any [mean a; mean b].
  Proof. cbn beta. rewrite strip_form. reflexivity. Qed.
  Lemma m_if n a b c : mean (form st n [("if", a); ("then", b); ("else", c)]) = choose (mean a) (mean b) (mean c).
  Proof. cbn beta. rewrite strip_form. change (sd [("if", a); ("then", b); ("else", c)]) with [("if", strip a); ("then", strip b); ("else", strip c)]. destruct (strip b); reflexivity. Qed.
  Lemma m_attr n a l : mean (form st n [("attr", a); ("path", VArr l)]) = fold_left item (map mean l) (mean a).
  Proof. cbn beta. rewrite strip_form. cbn [sd flat_map fst snd String.eqb app strip]. cbn [PexSpec.meaning]. cbn. f_equal. rewrite <- map_map. reflexivity. Qed.
  Lemma m_cell n c l : mean (form st n [("cell", VStr c); ("path", VArr l)]) = fold_left item (map mean l) (cellv c).
  Proof. cbn beta. rewrite strip_form. cbn. f_equal. rewrite <- map_map. reflexivity. Qed.
  Lemma m_pool n c l : mean (form st n [("pool", VStr c); ("path", VArr l)]) = fold_left item (map mean l) (poolv c).
  Proof. cbn beta. rewrite strip_form. cbn. f_equal. rewrite <- map_map. reflexivity. Qed.

  (** *** the branches *)
  Definition good (e : pex) : Prop := fits st e -> exists j, ex e = Ok j /\ le (python env e) (mean j).
  Definition base_fits (e : pex) : Prop := match e with PName _ _ => True | _ => fits st e end.
  Definition good_path (e : pex) : Prop := base_fits e -> forall path, exists j, unfold st e path = Ok j /\ le (fold_left item (map mean path) (python env e)) (mean j).
  Lemma fits_each l : (fix go (l : list pex) : Prop := match l with [] => True | x :: l' => fits st x /\ go l' end) l <-> Forall (fits st) l.
  Proof. induction l as [|x l IH]; [split; constructor|]. rewrite IH. split; [intros [? ?]; now constructor|intros H; inversion H; auto]. Qed.
  Lemma good_bool n op (w : list (option V) -> option V) : (forall a b, mean (form st n [(op, VArr [a; b])]) = w [mean a; mean b]) ->
    (forall l l', Forall2 le l l' -> le (w l) (w l')) -> (forall l a b, w (a :: b :: l) = w (w [a; b] :: l)) -> (forall a b, w [w [a; b]] = w [a; b]) ->
    forall rest, Forall good rest -> Forall (fits st) rest -> forall out (xs : list (option V)), le (w xs) (mean out) -> (exists a b, xs = [w [a; b]]) ->
    exists j, fold_bool st n op rest out = Ok j /\ le (w (xs ++ map (python env) rest)) (mean j).
  Proof.
    intros M L A W. induction rest as [|y rest IH]; intros G F out xs Ho Hx; cbn [fold_bool].
    - exists out. rewrite app_nil_r. auto.
    - inversion G as [|? ? Gy Gr]; inversion F as [|? ? Fy Fr]; subst. destruct (Gy Fy) as (jy & -> & Hy). cbn [rbind].
      destruct Hx as (a & b & ->). destruct (IH Gr Fr (form st n [(op, VArr [out; jy])]) [w [w [a; b]; python env y]]) as (j & E & Hj).
      + rewrite M, W. rewrite W in Ho. apply L. repeat constructor; auto.
      + eauto.
      + exists j. split; [exact E|]. cbn [map app] in *. rewrite A. exact Hj.
  Qed.

  Lemma every_pair a b : every [every [a; b]] = every [a; b].
  Proof. exact (eq_sym (every_left [b] a)). Qed.
  Lemma any_pair a b : any [any [a; b]] = any [a; b].
  Proof. exact (eq_sym (any_left [b] a)). Qed.
  Lemma python_each l : (fix go (l : list pex) := match l with [] => [] | x :: l' => python env x :: go l' end) l = map (python env) l.
  Proof. reflexivity. Qed.
  Lemma case_bool n a l : Forall good l -> good (PBool n a l).
  Proof.
    intros G [L F]. rewrite fits_each in F. destruct l as [|x [|y rest]]; cbn in L; try lia. inversion G as [|? ? Gx G']; inversion G' as [|? ? Gy Gr]; inversion F as [|? ? Fx F']; inversion F' as [|? ? Fy Fr]; subst.
    destruct (Gx Fx) as (jx & Ex & Hx). destruct (Gy Fy) as (jy & Ey & Hy). rewrite ex_bool, Ex. cbn [rbind]. rewrite Ey. cbn [rbind]. cbn [PexSpec.python]. rewrite python_each. destruct a.
    - destruct (good_bool n "&&" every (m_and n) every_le (fun l a b => every_left (b :: l) a) every_pair rest Gr Fr (form st n [("&&", VArr [jx; jy])]) [every [python env x; python env y]]) as (j & E & H); [|eauto|].
      + rewrite every_pair, m_and. apply every_le. repeat constructor; auto.
      + exists j. split; [exact E|]. cbn [map]. rewrite every_left. exact H.
    - destruct (good_bool n "||" any (m_or n) any_le (fun l a b => any_left (b :: l) a) any_pair rest Gr Fr (form st n [("||", VArr [jx; jy])]) [any [python env x; python env y]]) as (j & E & H); [|eauto|].
      + rewrite any_pair, m_or. apply any_le. repeat constructor; auto.
      + exists j. split; [exact E|]. cbn [map]. rewrite any_left. exact H.
  Qed.

  Fixpoint links (x : option V) (r : list (cmpop * pex)) : list (option V) :=
    match r with [] => [] | (op, y) :: r' => two V fn (cmp_function op) x (python env y) :: links (python env y) r' end.
  Definition joined (l : list (option V)) : option V := match l with [x] => x | xs => every xs end.
  Lemma python_cmp n l r : python env (PCompare n l r) = joined (links (python env l) r).
  Proof.
    cbn [PexSpec.python]. unfold joined. match goal with |- match ?g _ _ with _ => _ end = _ => enough (E : forall r x, g x r = links x r) by (rewrite E; destruct (links (python env l) r) as [|? [|? ?]]; reflexivity) end.
    clear. induction r as [|[op y] r IH]; intros x; [reflexivity|]. cbn. now rewrite IH.
  Qed.
  Definition fit_cmp (r : list (cmpop * pex)) : Prop := Forall (fun ox => cmp_function (fst ox) <> None /\ fits st (snd ox)) r.
  Lemma fits_cmp r : (fix go (r : list (cmpop * pex)) : Prop := match r with [] => True | (op, x) :: r' => (cmp_function op <> None /\ fits st x) /\ go r' end) r <-> fit_cmp r.
  Proof. unfold fit_cmp. induction r as [|[o x] r IH]; [split; constructor|]. rewrite IH. split; [intros [? ?]; now constructor|intros H; inversion H; auto]. Qed.
  (** from the second comparison on *)
  Lemma good_cmp n : forall r, Forall (fun ox => good (snd ox)) r -> fit_cmp r -> forall last plast out (xs : list (option V)), le plast (mean last) -> le (every xs) (mean out) -> (exists a b, xs = [every [a; b]]) ->
    exists j, fold_cmp st n r last out = Ok j /\ le (every (xs ++ links plast r)) (mean j).
  Proof.
    induction r as [|[op c] r IH]; intros G F last plast out xs Hl Ho Hx; cbn [fold_cmp links].
    - exists out. rewrite app_nil_r. auto.
    - inversion G as [|? ? Gc Gr]; inversion F as [|? ? [Fo Fc] Fr]; subst. cbn [fst snd] in *. destruct (Gc Fc) as (jc & -> & Hc). cbn [rbind].
      destruct (cmp_function op) as [f|] eqn:Ef; [|now destruct Fo]. destruct (cmp_names op f Ef) as [-> Nf]. cbn [rbind].
      destruct Hx as (a & b & ->).
      destruct (IH Gr Fr jc (python env c) (form st n [("&&", VArr [out; form st n [(f, VArr [last; jc])]])]) [every [every [a; b]; two V fn (Some f) plast (python env c)]]) as (j & E & Hj); auto.
      + rewrite every_pair, m_and, m_two by auto. rewrite every_pair in Ho. apply every_le. constructor; [exact Ho|]. constructor; [|constructor]. cbn [two]. apply apply_le. repeat constructor; auto.
      + eauto.
      + exists j. split; [exact E|]. cbn [app] in *. rewrite every_left. exact Hj.
  Qed.
  Lemma case_cmp n l r : good l -> Forall (fun ox => good (snd ox)) r -> good (PCompare n l r).
  Proof.
    intros Gl G [Nr [Fl F]]. rewrite fits_cmp in F. destruct r as [|[op c] r]; [easy|]. inversion G as [|? ? Gc Gr]; inversion F as [|? ? [Fo Fc] Fr]; subst. cbn [fst snd] in *.
    destruct (Gc Fc) as (jc & Ec & Hc). destruct (Gl Fl) as (jl & El & Hl). rewrite ex_cmp, Ec. cbn [rbind].
    destruct (cmp_function op) as [f|] eqn:Ef; [|now destruct Fo]. destruct (cmp_names op f Ef) as [-> Nf]. cbn [rbind]. rewrite El. cbn [rbind]. rewrite python_cmp. cbn [links]. rewrite Ef.
    assert (H1 : le (two V fn (Some f) (python env l) (python env c)) (mean (form st n [(f, VArr [jl; jc])]))) by (rewrite m_two by auto; cbn [two]; apply apply_le; repeat constructor; auto).
    destruct r as [|[op2 c2] r]; [exists (form st n [(f, VArr [jl; jc])]); split; [reflexivity|exact H1]|].
    inversion Gr as [|? ? Gc2 Gr2]; inversion Fr as [|? ? [Fo2 Fc2] Fr2]; subst. cbn [fst snd] in *. cbn [fold_cmp links joined].
    destruct (Gc2 Fc2) as (jc2 & -> & Hc2). cbn [rbind]. destruct (cmp_function op2) as [f2|] eqn:Ef2; [|now destruct Fo2]. destruct (cmp_names op2 f2 Ef2) as [-> Nf2]. cbn [rbind].
    destruct (good_cmp n r Gr2 Fr2 jc2 (python env c2) (form st n [("&&", VArr [form st n [(f, VArr [jl; jc])]; form st n [(f2, VArr [jc; jc2])]])])
      [every [two V fn (Some f) (python env l) (python env c); two V fn (Some f2) (python env c) (python env c2)]]) as (j & E & Hj); auto.
    - rewrite every_pair, m_and. apply every_le. constructor; [exact H1|]. constructor; [|constructor]. rewrite m_two by auto. cbn [two]. apply apply_le. repeat constructor; auto.
    - eauto.
    - exists j. split; [exact E|]. rewrite every_left. exact Hj.
  Qed.
  Lemma good_list l : Forall good l -> Forall (fits st) l -> exists js, rmapM ex l = Ok js /\ Forall2 le (map (python env) l) (map mean js).
  Proof.
    induction 1 as [|x l G _ IH]; intros F; [exists []; split; [reflexivity|constructor]|]. inversion F as [|? ? Fx Fl]; subst. destruct (G Fx) as (j & E & H). destruct (IH Fl) as (js & Es & Hs).
    exists (j :: js). cbn [rmapM]. rewrite E, Es. split; [reflexivity|]. cbn [map]. now constructor.
  Qed.
  Lemma case_call n f args kwds : Forall good args -> good (PCall n f args kwds).
  Proof.
    intros G [(s & Es & Cs) [-> F]]. rewrite fits_each in F. destruct (call_function s) as [g|] eqn:Eg; [|easy]. destruct (call_function_name s g Eg) as [Hn Ng].
    destruct (good_list args G F) as (js & Ej & Hj). rewrite ex_call, (dotted_name _ _ Es). cbn [rbind]. rewrite Ej. cbn [rbind fold_kwds]. rewrite Hn, no_unwrap by auto. clear Hn. eexists. split; [reflexivity|].
    cbn [PexSpec.python]. rewrite Es, Eg, python_each. intros v Hv. unfold one_arg.
    assert (D : (exists j, js = [j]) \/ match js with [x] => x | _ => VArr js end = VArr js) by (destruct js as [|j [|? ?]]; eauto).
    destruct D as [[j ->]| ->].
    - inversion Hj as [|a ? l ? Ha Hr Ea]; subst. inversion Hr; subst. rewrite <- Ea in Hv. cbn beta. rewrite s_call1 by auto. unfold PexSpec.apply in Hv. cbn in Hv. destruct a as [w|]; [|discriminate].
      rewrite (m_call1 g (strip j) w); auto.
    - cbn beta. rewrite s_call, m_call, map_map by auto. revert v Hv. apply apply_le. exact Hj.
  Qed.
  Theorem value e : good e /\ good_path e.
  Proof.
    assert (B : forall e, (match e with PName _ _ | PAttr _ _ _ | PSub _ _ _ | PSlice _ _ => False | _ => True end) -> good e -> good_path e).
    { intros e0 N G F path. assert (F' : fits st e0) by (destruct e0; auto; destruct N). destruct (G F') as (j & E & H). rewrite un_other by auto. unfold based. rewrite E. cbn [rbind]. eexists. split; [reflexivity|].
      rewrite m_attr. now apply items_le. }
    induction e using pex_ind2.
    - assert (G : good (PNum n v)); [|split; [exact G|now apply B]]. intros F. exists v. split; [reflexivity|]. cbn in F. destruct v; try destruct F; apply le_refl.
    - assert (G : good (PStr n s)); [|split; [exact G|now apply B]]. intros _. eexists. split; [reflexivity|]. apply le_refl.
    - assert (G : good (PConst n v)) by (intros []). split; [exact G|now apply B].
    - assert (N : le (match assoc s (st_subs st) with Some j => meaning env (strip j) | None => env s end) (mean (match assoc s (st_subs st) with Some v => v | None => VStr s end))) by (destruct (assoc s (st_subs st)); apply le_refl).
      split.
      + intros [F1 F2]. eexists. split; [reflexivity|]. cbn [PexSpec.python]. unfold name_value. rewrite F1, F2. exact N.
      + intros _ path. cbn [PexSpec.python]. unfold name_value, unfold. cbn [both snd]. unfold based_name.
        destruct (memb s (st_cells st)); [eexists; split; [reflexivity|]; rewrite m_cell; apply le_refl|].
        destruct (memb s (st_pools st)); [eexists; split; [reflexivity|]; rewrite m_pool; apply le_refl|].
        eexists. split; [reflexivity|]. rewrite m_attr. now apply items_le.
    - assert (G : good (PBool n a l)); [|split; [exact G|now apply B]]. apply case_bool. apply Forall_forall. intros x Hx. rewrite Forall_forall in H. now apply H.
    - destruct IHe1 as [G1 _], IHe2 as [G2 _]. assert (G : good (PBin n o e1 e2)); [|split; [exact G|now apply B]]. intros (Fo & F1 & F2).
      destruct (G1 F1) as (j1 & E1 & H1). destruct (G2 F2) as (j2 & E2 & H2). destruct (bin_function o) as [f|] eqn:Ef; [|easy]. destruct (bin_names o f Ef) as [Eo Nf].
      rewrite ex_bin, Eo. cbn [rbind]. rewrite E1. cbn [rbind]. rewrite E2. eexists. split; [reflexivity|]. cbn [PexSpec.python]. rewrite Ef. rewrite m_two by auto. cbn [two]. apply apply_le. repeat constructor; auto.
    - destruct IHe as [G1 _]. assert (G : good (PUn n o e)); [|split; [exact G|now apply B]]. intros (Fo & F1). destruct (G1 F1) as (j1 & E1 & H1). destruct (un_function o) as [f|] eqn:Ef; [|easy].
      destruct (un_names o f Ef) as [Eo Nf]. rewrite ex_un, Eo. cbn [rbind]. rewrite E1. eexists. split; [reflexivity|]. cbn [PexSpec.python]. rewrite Ef. cbn beta. rewrite s_call1 by auto. intros v Hv.
      unfold PexSpec.apply in Hv. cbn in Hv. destruct (python env e) as [w|]; [|discriminate]. rewrite (m_call1 f (strip j1) w); auto.
    - destruct IHe1 as [G1 _], IHe2 as [G2 _], IHe3 as [G3 _]. assert (G : good (PIf n e1 e2 e3)); [|split; [exact G|now apply B]]. intros (F1 & F2 & F3).
      destruct (G1 F1) as (j1 & E1 & H1). destruct (G2 F2) as (j2 & E2 & H2). destruct (G3 F3) as (j3 & E3 & H3). rewrite ex_if, E1. cbn [rbind]. rewrite E2. cbn [rbind]. rewrite E3.
      eexists. split; [reflexivity|]. rewrite m_if. cbn [PexSpec.python]. now apply choose_le.
    - assert (G : good (PDict n l)) by (intros []). split; [exact G|now apply B].
    - destruct IHe as [G1 _]. assert (G : good (PCompare n e r)); [|split; [exact G|now apply B]]. apply case_cmp; [exact G1|]. apply Forall_forall. intros x Hx. rewrite Forall_forall in H. now apply H.
    - assert (G : good (PCall n e args kwds)); [|split; [exact G|now apply B]]. apply case_call. apply Forall_forall. intros x Hx. rewrite Forall_forall in H. now apply H.
    - destruct IHe as [_ G]. assert (GP : good_path (PAttr n e a)).
      { intros F path. change (unfold st (PAttr n e a) path) with (unfold st e (VDict [("string", VStr a)] :: path)). destruct (G F (VDict [("string", VStr a)] :: path)) as (j & E & H). exists j. split; [exact E|exact H]. }
      split; [|exact GP]. intros F. destruct (GP F []) as (j & E & H). exists j. split; [exact E|exact H].
    - destruct IHe1 as [_ G1], IHe2 as [G2 _]. assert (GP : good_path (PSub n e1 e2)).
      { intros (I & F1 & F2) path. destruct (G2 F2) as (j2 & E2 & H2). unfold unfold. cbn [both snd]. rewrite I. cbn [snd]. fold (ex e2). rewrite E2. cbn [rbind]. fold (unfold st e1).
        destruct (G1 F1 (j2 :: path)) as (j & E & H). exists j. split; [exact E|]. intros v Hv. apply H. cbn [map fold_left PexSpec.python] in *. revert v Hv. apply items_le. apply item_le; [apply le_refl|exact H2]. }
      split; [|exact GP]. intros F. destruct (GP F []) as (j & E & H). exists j. split; [|exact H]. rewrite <- E. destruct F as (I & _). unfold expression, unfold. cbn [both fst snd]. now rewrite I.
    - split; [intros []|intros []].
    - assert (G : good (PList n l)) by (intros []). split; [exact G|now apply B].
    - assert (G : good (PTuple n l)) by (intros []). split; [exact G|now apply B].
    - assert (G : good (POther n)) by (intros []). split; [exact G|now apply B].
  Qed.
End Values.
