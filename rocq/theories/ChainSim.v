(** The rewritten code of one step does in the chain what the code does in its own engine. *)
From Verif Require Import Base ScopeModel ScopeProofs CoreModel EngineModel CoreFuel CoreInd CoreInv ChainModel ChainSpec.
Open Scope string_scope.
Open Scope list_scope.
Open Scope Z_scope.

Lemma frame_let_assoc x bs f : ~ In x (map fst bs) -> assoc x (frame_let bs f) = assoc x f.
Proof.
  revert f. induction bs as [|[y v] bs IH]; intros f H; cbn [frame_let]; [reflexivity|]. cbn [map fst In] in H.
  rewrite IH by tauto. apply assoc_set_neq. intros ->. tauto.
Qed.
Lemma frame_let_agree x bs f g : assoc x f = assoc x g -> assoc x (frame_let bs f) = assoc x (frame_let bs g).
Proof.
  revert f g. induction bs as [|[y v] bs IH]; intros f g H; cbn [frame_let]; [exact H|]. apply IH.
  destruct (String.eqb_spec x y) as [->|N]; [now rewrite !assoc_set_eq|]. now rewrite !assoc_set_neq.
Qed.
Lemma zip_keys {A} ks (vs : list A) x : In x (map fst (zip_dict ks vs)) -> In x ks.
Proof. revert vs. induction ks as [|k ks IH]; intros [|v vs]; cbn; auto; try tauto. intros [->|H]; eauto. Qed.

Inductive kind := Root | Act.
Section Sim.
  Variables (E E' : env) (C : ctx).
  Variables (own given known fn : string -> bool) (vals : string -> val) (pad : list frame) (f0 : frame).
  Variable Rest : st -> st -> Prop.
  Variable pre : list val -> Prop.
  Variable N : nat.
  Hypothesis Hown : forall x, own x = true -> given x = false.
  Hypothesis Hdollar : forall j, given (dollar j) = false.
  Definition okn (x : string) : Prop := own x = true \/ exists j, x = dollar j.
  Hypothesis Hpad : forall f, In f pad -> f = [].
  Hypothesis L_lib : e_lib E' = e_lib E.
  Hypothesis L_ref : e_libref E' = e_libref E.
  Hypothesis L_params : e_libparams E' = e_libparams E.
  Hypothesis L_decode : e_decode E' = e_decode E.
  Hypothesis L_tyname : e_tyname E' = e_tyname E.
  Hypothesis L_pack : e_pack E' = e_pack E.
  Hypothesis L_unpack : e_unpack E' = e_unpack E.
  Hypothesis L_message : e_message E' = e_message E.
  Hypothesis PL : plain_lib E.
  Hypothesis Hfn : forall f, fn f = true ->
    (exists ps body, assoc f (e_fcns E) = Some (ps, body) /\ assoc (c_fcn C f) (e_fcns E') = Some (ps, map (ren C no_refs) body)
                     /\ fit_fcn own given known fn (ps, body) = true)
    \/ (assoc f (e_fcns E) = None /\ c_fcn C f = f /\ assoc f (e_fcns E') = None).
  Hypothesis Hemit_free : assoc "emit" (e_fcns E) = None.
  Hypothesis Hcell_inj : forall c c2, c_cell C c = c_cell C c2 -> c = c2.
  Hypothesis Hpool_inj : forall c c2, c_pool C c = c_pool C c2 -> c = c2.
  Hypothesis Hcell_given : forall c x, given x = true -> c_cell C c <> x.
  Hypothesis pre_closed : forall l t, pre (l ++ t) -> pre l.
  Hypothesis rest_scopes : forall s s' a b, Rest s s' -> Rest (set_scopes a s) (set_scopes b s').
  Hypothesis rest_cell : forall s s' a c y, Rest s s' -> Rest (set_cells a s) (set_cells (dict_set (c_cell C c) y (s_cells s')) s').
  Hypothesis rest_pool : forall s s' a c y, Rest s s' -> Rest (set_pools a s) (set_pools (dict_set (c_pool C c) y (s_pools s')) s').
  Hypothesis rest_trace : forall s s' f g, Rest s s' -> Rest (add_trace f s) (add_trace g s').
  Hypothesis rest_log : forall s s' l, Rest s s' -> Rest (add_log l s) (add_log l s').

  Definition free (f : frame) : Prop := forall x, given x = true -> assoc x f = None.
  Definition srel (k : kind) (d : nat) (ss ss' : scopes) : Prop :=
    exists top t t', ss = top ++ t /\ ss' = top ++ t' /\ length top = d /\ Forall free top /\
      match k with
      | Root => top <> [] /\ t = [] /\ t' = []
      | Act => exists F f', t = [F] /\ t' = f' :: pad /\ (forall x, okn x -> assoc x F = assoc x f')
               /\ (forall x, given x = true -> known x = true -> assoc x F = Some (vals x))
               /\ (forall x, own x = false -> assoc x f' = assoc x f0)
      end.
  Record R (k : kind) (d : nat) (s s' : st) : Prop := MkR {
    R_sc : srel k d (s_scopes s) (s_scopes s');
    R_cells : forall c, opt_rel cell_like (assoc c (s_cells s)) (assoc (c_cell C c) (s_cells s'));
    R_pools : forall p, opt_rel pool_like (assoc p (s_pools s)) (assoc (c_pool C p) (s_pools s'));
    R_vars : forall x, given x = true -> known x = true -> exists c, assoc x (s_cells s') = Some c /\ c_value c = vals x;
    R_time : no_limit s /\ no_limit s';
    R_rest : Rest s s' }.

  (** what emitting a value does in the chain *)
  Definition emit_code (n : nat) (v : val) : EM val :=
    match c_emit C with
    | None => _ <== modify (add_trace "emit") ;; _ <== modify (add_emitted v) ;; ret VNull
    | Some g => _ <== modify (add_trace g) ;; call_user E' (eval E' n) g [v]
    end.
  Hypothesis Hemit_def : fn "emit" = true -> match c_emit C with None => assoc "emit" (e_fcns E') = None | Some g => has_key g (e_fcns E') = true end.
  Hypothesis Hemit : fn "emit" = true -> forall k d n s s' v, (N <= n)%nat -> R k d s s' -> pre (s_emitted s ++ [v]) ->
    exists s2', emit_code n v s' = Done (Ok VNull) s2' /\ R k d (add_emitted v (add_trace "emit" s)) s2'.

  Definition rrel {A A'} (Q : A -> A' -> Prop) (r : res A) (r' : res A') : Prop :=
    match r, r' with Ok a, Ok a' => Q a a' | Raise e, Raise e' => e = e' | _, _ => False end.
  Definition G (s s2 : st) : Prop := exists t, s_emitted s2 = s_emitted s ++ t.
  Lemma G_refl s : G s s.
  Proof. exists []. now rewrite app_nil_r. Qed.
  Lemma G_closed : closed G.
  Proof.
    constructor; intros; try apply G_refl; try exact (G_refl s).
    - destruct H as [t1 H1], H0 as [t2 H2]. exists (t1 ++ t2). rewrite H2, H1. now rewrite app_assoc.
    - exact H.
    - exact H.
    - exists [v]. reflexivity.
  Qed.
  Notation gr := (pres G).
  Definition sim {A A'} (k : kind) (d : nat) (Q : A -> A' -> Prop) (m : EM A) (m' : EM A') : Prop :=
    forall s s' r s2, R k d s s' -> m s = Done r s2 -> pre (s_emitted s2) ->
      exists r' s2', m' s' = Done r' s2' /\ rrel Q r r' /\ R k d s2 s2'.

  Lemma sim_pure {A A'} k d (Q : A -> A' -> Prop) (f : st -> res A) (f' : st -> res A') :
    (forall s s', R k d s s' -> rrel Q (f s) (f' s')) -> sim k d Q (fun s => Done (f s) s) (fun s => Done (f' s) s).
  Proof. intros H s s' r s2 HR [= <- <-] _. exists (f' s'), s'. split; [reflexivity|]. split; auto. Qed.
  Lemma sim_ret {A A'} k d (Q : A -> A' -> Prop) a a' : Q a a' -> sim k d Q (ret a) (ret a').
  Proof. intros H. apply (sim_pure k d Q (fun _ => Ok a) (fun _ => Ok a')). auto. Qed.
  Lemma sim_raise {A A'} k d (Q : A -> A' -> Prop) e : sim k d Q (raise e) (raise e).
  Proof. apply (sim_pure k d Q (fun _ => Raise e) (fun _ => Raise e)). intros. reflexivity. Qed.
  Lemma sim_fuel {A A'} k d (Q : A -> A' -> Prop) m : sim k d Q out_of_fuel m.
  Proof. intros s s' r s2 HR H. discriminate. Qed.
  Lemma sim_blocked {A A'} k d (Q : A -> A' -> Prop) m : sim k d Q blocked m.
  Proof. intros s s' r s2 HR H. discriminate. Qed.
  Lemma sim_lift {A A'} k d (Q : A -> A' -> Prop) r r' : rrel Q r r' -> sim k d Q (lift r) (lift r').
  Proof. intros H. apply (sim_pure k d Q (fun _ => r) (fun _ => r')). auto. Qed.
  Lemma sim_lift_eq {A} k d (r : res A) : sim k d eq (lift r) (lift r).
  Proof. apply sim_lift. destruct r; reflexivity. Qed.
  Lemma sim_bind {A A' B B'} k d (Q : A -> A' -> Prop) (Q2 : B -> B' -> Prop) m m' f f' :
    sim k d Q m m' -> (forall a a', Q a a' -> sim k d Q2 (f a) (f' a')) -> (forall a, gr (f a)) ->
    sim k d Q2 (bind m f) (bind m' f').
  Proof.
    intros Hm Hf Hg s s' r s2 HR H Hp. unfold bind in H. destruct (m s) as [[a|e] s1| |] eqn:Em; try discriminate.
    - destruct (Hg _ _ _ _ H) as [t2 T2].
      destruct (Hm s s' _ _ HR Em) as (r' & s1' & E1 & Q1 & R1); [rewrite T2 in Hp; eapply pre_closed; eauto|].
      destruct r' as [a'|e']; [|contradiction]. cbn [rrel] in Q1.
      destruct (Hf _ _ Q1 _ _ _ _ R1 H Hp) as (r2 & s2' & E2 & Q2' & R2). exists r2, s2'. unfold bind. rewrite E1. auto.
    - injection H as <- <-. destruct (Hm s s' _ _ HR Em Hp) as (r' & s1' & E1 & Q1 & R1).
      destruct r' as [a'|e']; [contradiction|]. cbn [rrel] in Q1. subst e'.
      exists (Raise e), s1'. unfold bind. rewrite E1. split; [reflexivity|]. split; auto. reflexivity.
  Qed.
  Lemma sim_bind_ret {A A' B B'} k d (Q : A -> A' -> Prop) (Q2 : B -> B' -> Prop) m m' (f : A -> B) (f' : A' -> B') :
    sim k d Q m m' -> (forall a a', Q a a' -> Q2 (f a) (f' a')) ->
    sim k d Q2 (bind m (fun a => ret (f a))) (bind m' (fun a => ret (f' a))).
  Proof. intros Hm Hf. eapply sim_bind; [exact Hm| |]; [intros; apply sim_ret; auto|]. intros a. apply (pres_ret G G_closed). Qed.
  Lemma sim_attempt {A A'} k d (Q : A -> A' -> Prop) m m' : sim k d Q m m' -> sim k d (rrel Q) (attempt m) (attempt m').
  Proof.
    intros Hm s s' r s2 HR H Hp. unfold attempt in H. destruct (m s) as [x s1| |] eqn:Em; try discriminate. injection H as <- <-.
    destruct (Hm s s' _ _ HR Em Hp) as (r' & s1' & E1 & Q1 & R1). exists (Ok r'), s1'. unfold attempt. rewrite E1.
    split; [reflexivity|]. split; auto.
  Qed.
  Lemma sim_mapE {A A' B B'} k d (P : A -> A' -> Prop) (Q : B -> B' -> Prop) f f' l l' :
    Forall2 P l l' -> (forall a a', P a a' -> sim k d Q (f a) (f' a')) -> (forall a, gr (f a)) ->
    sim k d (Forall2 Q) (mapE f l) (mapE f' l').
  Proof.
    intros H Hf Hg. induction H as [|a a' l l' Pa Hl IH]; cbn [mapE]; [apply sim_ret; constructor|].
    eapply sim_bind; [apply Hf; eauto| |].
    - intros b b' Qb. apply (sim_bind_ret k d (Forall2 Q)); [exact IH|]. intros; now constructor.
    - intros b. apply (pres_bind G G_closed); [now apply (pres_mapE G G_closed)|]. intros. apply (pres_ret G G_closed).
  Qed.

  (** *** states *)
  Lemma no_limit_scopes ss s : no_limit s -> no_limit (set_scopes ss s).
  Proof. auto. Qed.
  Lemma R_set_scopes k d k2 d2 s s' a b : R k d s s' -> srel k2 d2 a b -> R k2 d2 (set_scopes a s) (set_scopes b s').
  Proof. intros [H1 H2 H3 H4 H5 H6] H. constructor; auto. Qed.
  Lemma sim_trace k d f g : sim k d eq (modify (add_trace f)) (modify (add_trace g)).
  Proof.
    intros s s' r s2 [H1 H2 H3 H4 H5 H6] [= <- <-] _. exists (Ok tt), (add_trace g s'). split; [reflexivity|]. split; [reflexivity|].
    constructor; auto.
  Qed.
  Lemma sim_log k d l : sim k d eq (modify (add_log l)) (modify (add_log l)).
  Proof.
    intros s s' r s2 [H1 H2 H3 H4 H5 H6] [= <- <-] _. exists (Ok tt), (add_log l s'). split; [reflexivity|]. split; [reflexivity|].
    constructor; auto.
  Qed.
  Lemma sim_time k d : sim k d eq (check_time E) (check_time E').
  Proof.
    intros s s' r s2 HR H _. destruct (R_time _ _ _ _ HR) as [(t & T & Tl) (t' & T' & Tl')].
    unfold check_time in H. rewrite T in H. rewrite (proj2 (Z.leb_le t 0) Tl) in H. injection H as <- <-.
    exists (Ok tt), s'. unfold check_time. rewrite T', (proj2 (Z.leb_le t' 0) Tl'). split; [reflexivity|]. split; [reflexivity|auto].
  Qed.

  (** *** scopes *)
  Lemma free_nil : free [].
  Proof. intros x _. reflexivity. Qed.
  Lemma free_let bs f : (forall x, In x (map fst bs) -> own x = true) -> free f -> free (frame_let bs f).
  Proof.
    intros H Hf x Hx. rewrite frame_let_assoc; [now apply Hf|]. intros I. apply H in I. rewrite (Hown x I) in Hx. discriminate.
  Qed.
  Lemma free_let2 bs f : (forall x, In x (map fst bs) -> given x = false) -> free f -> free (frame_let bs f).
  Proof. intros H Hf x Hx. rewrite frame_let_assoc; [now apply Hf|]. intros I. rewrite (H x I) in Hx. discriminate. Qed.
  Lemma scope_get_top x top t : (exists f, In f top /\ assoc x f <> None) ->
    forall t', scope_get x (top ++ t) = scope_get x (top ++ t').
  Proof.
    induction top as [|f top IH]; intros (g & I & A) t'; [contradiction|]. cbn. destruct I as [->|I].
    - destruct (assoc x g); congruence.
    - destruct (assoc x f); [reflexivity|]. apply IH. eauto.
  Qed.
  Lemma scope_get_skip x top t : (forall f, In f top -> assoc x f = None) -> scope_get x (top ++ t) = scope_get x t.
  Proof. induction top as [|f top IH]; intros H; cbn; [reflexivity|]. rewrite (H f) by (now left). apply IH. intros g I. apply H. now right. Qed.
  Lemma scope_get_same x top t t' : scope_get x t = scope_get x t' -> scope_get x (top ++ t) = scope_get x (top ++ t').
  Proof. intros H. induction top as [|f top IH]; cbn; [exact H|]. destruct (assoc x f); [reflexivity|exact IH]. Qed.
  Lemma scope_get_pad x : scope_get x pad = Raise (PyErr "RuntimeError").
  Proof.
    assert (H : forall l, (forall f : frame, In f l -> f = []) -> scope_get x l = Raise (PyErr "RuntimeError")).
    { induction l as [|f l IH]; intros Hl; cbn; [reflexivity|]. rewrite (Hl f) by (now left). cbn. apply IH. intros g I. apply Hl. now right. }
    apply H, Hpad.
  Qed.
  Lemma get_own k d ss ss' x : srel k d ss ss' -> okn x -> scope_get x ss = scope_get x ss'.
  Proof.
    intros (top & t & t' & -> & -> & _ & _ & K) Ho. apply scope_get_same. destruct k.
    - destruct K as (_ & -> & ->). reflexivity.
    - destruct K as (F & f' & -> & -> & A & _). cbn. rewrite (A x Ho). destruct (assoc x f'); [reflexivity|]. now rewrite scope_get_pad.
  Qed.
  Lemma get_given d ss ss' x : srel Act d ss ss' -> given x = true -> known x = true -> scope_get x ss = Ok (vals x).
  Proof.
    intros (top & t & t' & -> & -> & _ & Fr & K) Hg Hk. destruct K as (F & f' & -> & -> & _ & V & _).
    rewrite scope_get_skip; [cbn; now rewrite (V x Hg Hk)|]. intros f I. rewrite Forall_forall in Fr. now apply Fr.
  Qed.
  Lemma srel_let k d ss ss' bs : srel k d ss ss' -> (forall x, In x (map fst bs) -> own x = true) ->
    srel k d (scope_let bs ss) (scope_let bs ss').
  Proof.
    intros (top & t & t' & -> & -> & L & Fr & K) Hb. destruct top as [|f top].
    - destruct k; [destruct K as (X & _); congruence|]. destruct K as (F & f' & -> & -> & A & V & U). cbn.
      exists [], [frame_let bs F], (frame_let bs f' :: pad). repeat split; auto.
      exists (frame_let bs F), (frame_let bs f'). repeat split; auto.
      + intros x Hx. apply frame_let_agree. auto.
      + intros x Hg Hk. rewrite frame_let_assoc; [now apply V|]. intros I. apply Hb in I. rewrite (Hown x I) in Hg. discriminate.
      + intros x Hx. rewrite frame_let_assoc; [now apply U|]. intros I. apply Hb in I. congruence.
    - cbn. exists (frame_let bs f :: top), t, t'. inversion_clear Fr. repeat split; auto.
      + constructor; [now apply free_let|auto].
      + destruct k; [|exact K]. destruct K as (_ & -> & ->). repeat split; auto. discriminate.
  Qed.

  (** set: [go] of scope_set *)
  Fixpoint set_go (rec : scopes -> res unit * scopes) (todo : list (string * val)) (f : frame) (rest : scopes) : res unit * scopes :=
    match todo with
    | [] => (Ok tt, f :: rest)
    | (x, v) :: todo' =>
        if has_key x f then set_go rec todo' (dict_set x v f) rest
        else match rec rest with
             | (Ok _, rest') => set_go rec todo' f rest'
             | (Raise e, rest') => (Raise e, f :: rest')
             end
    end.
  Lemma scope_set_S d bs f rest : scope_set (S d) bs (f :: rest) = set_go (scope_set d bs) bs f rest.
  Proof.
    cbn [scope_set].
    enough (H : forall todo f rest, (fix go (todo : list (string * val)) (f : frame) (rest : scopes) : res unit * scopes :=
             match todo with
             | [] => (Ok tt, f :: rest)
             | (x, v) :: todo' =>
                 if has_key x f then go todo' (dict_set x v f) rest
                 else match scope_set d bs rest with
                      | (Ok _, rest') => go todo' f rest'
                      | (Raise e, rest') => (Raise e, f :: rest')
                      end
             end) todo f rest = set_go (scope_set d bs) todo f rest) by apply H.
    induction todo as [|[x v] todo IH]; intros g r; cbn [set_go]; [reflexivity|].
    destruct (has_key x g); [apply IH|]. destruct (scope_set d bs r) as [[u|e] rest']; [apply IH|reflexivity].
  Qed.
  (** a set that finds nothing *)
  Lemma scope_set_pad d bs : bs <> [] -> scope_set d bs pad = (Raise (PyErr "RuntimeError"), pad).
  Proof.
    intros Hb. assert (H : forall l, (forall f : frame, In f l -> f = []) -> forall d, scope_set d bs l = (Raise (PyErr "RuntimeError"), l)).
    { induction l as [|f l IH]; intros Hl n; [destruct n; reflexivity|]. destruct n as [|n]; [reflexivity|].
      rewrite scope_set_S. rewrite (Hl f) by (now left). destruct bs as [|[x v] bs0] eqn:B; [congruence|]. rewrite <- B in *.
      cbn [set_go has_key assoc]. unfold has_key. cbn [assoc].
      enough (X : set_go (scope_set n bs) bs [] l = (Raise (PyErr "RuntimeError"), [] :: l)) by exact X.
      rewrite B at 2. cbn [set_go has_key assoc]. unfold has_key. cbn [assoc]. rewrite IH; [reflexivity|]. intros g I. apply Hl. now right. }
    apply H, Hpad.
  Qed.
  Definition set_rel (k : kind) (d : nat) (p p' : res unit * scopes) : Prop := fst p = fst p' /\ srel k d (snd p) (snd p').
  Lemma set_root bs : (forall x, In x (map fst bs) -> own x = true) ->
    forall n ss, Forall free ss -> Forall free (snd (scope_set n bs ss)) /\ length (snd (scope_set n bs ss)) = length ss.
  Proof.
    intros Hb. induction n as [|n IH]; intros ss Fr; [auto|]. destruct ss as [|f ss]; [auto|]. rewrite scope_set_S.
    inversion_clear Fr as [|? ? Ff Fs].
    assert (Hgo : forall todo, (forall x, In x (map fst todo) -> own x = true) -> forall g r, free g -> Forall free r ->
      Forall free (snd (set_go (scope_set n bs) todo g r)) /\ length (snd (set_go (scope_set n bs) todo g r)) = S (length r)).
    { induction todo as [|[x v] todo IHt]; intros Ht g r Fg Fr; cbn [set_go]; [cbn; auto|].
      assert (Ht' : forall y, In y (map fst todo) -> own y = true) by (intros y I; apply Ht; now right).
      destruct (has_key x g).
      - apply IHt; auto. intros y Hy. rewrite assoc_set_neq; [now apply Fg|]. intros ->. rewrite Hown in Hy; [discriminate|]. apply Ht. now left.
      - destruct (IH r Fr) as [I1 I2]. destruct (scope_set n bs r) as [[u|e] r']; cbn [snd] in *.
        + rewrite <- I2. apply IHt; auto.
        + split; [constructor; auto|]. cbn. now rewrite I2. }
    cbn [length]. now apply Hgo.
  Qed.
  Lemma set_act d bs : (forall x, In x (map fst bs) -> own x = true) ->
    forall n n' ss ss', srel Act d ss ss' -> (length ss <= n)%nat -> (length ss' <= n')%nat ->
    set_rel Act d (scope_set n bs ss) (scope_set n' bs ss').
  Proof.
    intros Hb. induction d as [|d IH]; intros n n' ss ss' HS Ln Ln'.
    - destruct HS as (top & t & t' & -> & -> & L & Fr & K). destruct top; [|discriminate]. cbn [app] in *.
      destruct K as (F & f' & -> & -> & A & V & U).
      destruct n as [|n]; [cbn in Ln; lia|]. destruct n' as [|n']; [cbn in Ln'; lia|]. rewrite !scope_set_S.
      assert (Hgo : forall todo, (forall x, In x (map fst todo) -> own x = true) -> todo <> [] -> bs <> [] -> forall F f',
        (forall x, okn x -> assoc x F = assoc x f') -> (forall x, given x = true -> known x = true -> assoc x F = Some (vals x)) ->
        (forall x, own x = false -> assoc x f' = assoc x f0) ->
        set_rel Act 0 (set_go (scope_set n bs) todo F []) (set_go (scope_set n' bs) todo f' pad)).
      { induction todo as [|[x v] todo IHt]; intros Ht N1 N2 F1 f1 A1 V1 U1; [congruence|]. cbn [set_go].
        assert (Hk : has_key x F1 = has_key x f1) by (unfold has_key; rewrite A1; [reflexivity|left; apply Ht; now left]).
        rewrite <- Hk. destruct (has_key x F1).
        - assert (A2 : forall y, okn y -> assoc y (dict_set x v F1) = assoc y (dict_set x v f1)).
          { intros y Hy. destruct (String.eqb_spec y x) as [->|Ne]; [now rewrite !assoc_set_eq|]. rewrite !assoc_set_neq by auto. auto. }
          assert (V2 : forall y, given y = true -> known y = true -> assoc y (dict_set x v F1) = Some (vals y)).
          { intros y Hg Hk2. rewrite assoc_set_neq; [auto|]. intros ->. rewrite Hown in Hg; [discriminate|]. apply Ht. now left. }
          assert (U2 : forall y, own y = false -> assoc y (dict_set x v f1) = assoc y f0).
          { intros y Hy. rewrite assoc_set_neq; [auto|]. intros ->. rewrite Ht in Hy; [discriminate|]. now left. }
          destruct todo as [|b todo]; cbn [set_go].
          + split; [reflexivity|]. exists [], [dict_set x v F1], (dict_set x v f1 :: pad). repeat split; auto.
            exists (dict_set x v F1), (dict_set x v f1). auto.
          + apply IHt; auto; [|discriminate]. intros y I. apply Ht. now right.
        - rewrite scope_set_pad by auto. assert (X : scope_set n bs [] = (Raise (PyErr "RuntimeError"), [])) by (destruct n; reflexivity).
          rewrite X. split; [reflexivity|]. exists [], [F1], (f1 :: pad). repeat split; auto. exists F1, f1. auto. }
      assert (Hn : bs = [] \/ bs <> []) by (destruct bs; [now left|right; discriminate]). destruct Hn as [->|Hn]; [|apply Hgo; auto].
      cbn [set_go]; split; [reflexivity|]; exists [], [F], (f' :: pad); repeat split; auto; exists F, f'; auto.
    - destruct HS as (top & t & t' & -> & -> & L & Fr & K). destruct top as [|f top]; [discriminate|]. cbn [app] in *. injection L as L.
      destruct n as [|n]; [cbn in Ln; lia|]. destruct n' as [|n']; [cbn in Ln'; lia|]. rewrite !scope_set_S. cbn [length] in *.
      inversion_clear Fr as [|? ? Ff Ft].
      assert (HS : srel Act d (top ++ t) (top ++ t')) by (exists top, t, t'; auto).
      assert (Hgo : forall todo, (forall x, In x (map fst todo) -> own x = true) -> forall g ss ss', free g ->
        srel Act d ss ss' -> (length ss <= n)%nat -> (length ss' <= n')%nat ->
        set_rel Act (S d) (set_go (scope_set n bs) todo g ss) (set_go (scope_set n' bs) todo g ss')).
      { assert (Up : forall g ss ss', free g -> srel Act d ss ss' -> srel Act (S d) (g :: ss) (g :: ss')).
        { intros g ss ss' Fg (top1 & t1 & t1' & -> & -> & L1 & Fr1 & K1). exists (g :: top1), t1, t1'. repeat split; auto. cbn. now rewrite L1. }
        assert (Ln2 : forall ss ss', srel Act d ss ss' -> length ss = (d + 1)%nat /\ length ss' = (d + S (length pad))%nat).
        { intros ss ss' (top1 & t1 & t1' & -> & -> & L1 & Fr1 & F1 & f1 & -> & -> & _). rewrite !app_length. cbn [length]. lia. }
        induction todo as [|[x v] todo IHt]; intros Ht g ss ss' Fg HS' Lss Lss'; cbn [set_go].
        - split; [reflexivity|]. now apply Up.
        - assert (Ht' : forall y, In y (map fst todo) -> own y = true) by (intros y I; apply Ht; now right).
          destruct (has_key x g).
          + apply IHt; auto. intros y Hy. rewrite assoc_set_neq; [now apply Fg|]. intros ->. rewrite Hown in Hy; [discriminate|]. apply Ht. now left.
          + destruct (IH n n' ss ss' HS' Lss Lss') as [I1 I2].
            destruct (scope_set n bs ss) as [r1 ss1], (scope_set n' bs ss') as [r1' ss1']. cbn [fst snd] in *. subst r1'.
            destruct (Ln2 _ _ HS'), (Ln2 _ _ I2). destruct r1 as [u|e].
            * apply IHt; auto; lia.
            * split; [reflexivity|]. now apply Up. }
      apply Hgo; auto; lia.
  Qed.
  Lemma sim_let k d bs : (forall x, In x (map fst bs) -> own x = true) -> sim k d eq (let_vars bs) (let_vars bs).
  Proof.
    intros Hb s s' r s2 HR [= <- <-] _. exists (Ok tt). eexists. split; [reflexivity|]. split; [reflexivity|].
    eapply R_set_scopes; [exact HR|]. apply srel_let; auto. exact (R_sc _ _ _ _ HR).
  Qed.
  Lemma sim_set k d bs : (forall x, In x (map fst bs) -> own x = true) -> sim k d eq (set_vars_m bs) (set_vars_m bs).
  Proof.
    intros Hb s s' r s2 HR H _. unfold set_vars_m in *. pose proof (R_sc _ _ _ _ HR) as HS.
    assert (X : set_rel k d (set_vars bs (s_scopes s)) (set_vars bs (s_scopes s'))).
    { unfold set_vars. destruct k.
      - destruct HS as (top & t & t' & S1 & S2 & L & Fr & Tn & -> & ->). rewrite app_nil_r in *. rewrite S1, S2.
        split; [reflexivity|]. destruct (set_root bs Hb (length top) top Fr) as [I1 I2].
        exists (snd (scope_set (length top) bs top)), [], []. rewrite app_nil_r. repeat split; auto; [congruence|].
        intros X. rewrite X in I2. destruct top; [congruence|discriminate].
      - apply set_act; auto. }
    destruct (set_vars bs (s_scopes s)) as [r1 ss1], (set_vars bs (s_scopes s')) as [r1' ss1']. destruct X as [X1 X2]. cbn [fst snd] in *. subst r1'.
    injection H as <- <-. exists r1, (set_scopes ss1' s'). split; [reflexivity|]. split; [destruct r1; reflexivity|].
    eapply R_set_scopes; eauto.
  Qed.
  Lemma sim_get k d x : okn x -> sim k d eq (fun s => Done (scope_get x (s_scopes s)) s) (fun s => Done (scope_get x (s_scopes s)) s).
  Proof.
    intros Ho. apply sim_pure. intros s s' HR. rewrite (get_own _ _ _ _ _ (R_sc _ _ _ _ HR) Ho). destruct (scope_get _ _); reflexivity.
  Qed.
  Definition fr_rel {A A'} (Q : A -> A' -> Prop) (n : nat) (p : A * list frame) (p' : A' * list frame) : Prop :=
    Q (fst p) (fst p') /\ snd p = snd p' /\ length (snd p) = n /\ Forall free (snd p).
  Lemma sim_frames {A A'} k d (Q : A -> A' -> Prop) fs m m' : Forall free fs ->
    sim k (length fs + d) Q m m' -> sim k d (fr_rel Q (length fs)) (in_frames fs m) (in_frames fs m').
  Proof.
    intros Ff Hm s s' r s2 HR H Hp. unfold in_frames in H.
    assert (Hd : k = Root -> (0 < d)%nat).
    { intros ->. destruct (R_sc _ _ _ _ HR) as (top & _ & _ & _ & _ & <- & _ & T & _). destruct top; [congruence|cbn; lia]. }
    destruct (m (set_scopes (fs ++ s_scopes s) s)) as [x s1| |] eqn:Em; try discriminate. injection H as <- <-.
    assert (HR1 : R k (length fs + d) (set_scopes (fs ++ s_scopes s) s) (set_scopes (fs ++ s_scopes s') s')).
    { eapply R_set_scopes; [exact HR|]. destruct (R_sc _ _ _ _ HR) as (top & t & t' & -> & -> & L & Fr & K).
      exists (fs ++ top), t, t'. rewrite <- !app_assoc. repeat split; auto; [rewrite app_length; lia|now apply Forall_app|].
      destruct k; [|exact K]. destruct K as (T & -> & ->). repeat split; auto. intros X. apply app_eq_nil in X. tauto. }
    destruct (Hm _ _ _ _ HR1 Em Hp) as (r' & s1' & E1 & Q1 & R1). exists (match r' with Ok a => Ok (a, firstn (length fs) (s_scopes s1')) | Raise e => Raise e end).
    eexists. unfold in_frames. rewrite E1. split; [reflexivity|].
    destruct (R_sc _ _ _ _ R1) as (top & t & t' & S1 & S2 & L & Fr & K).
    assert (Hsplit : top = firstn (length fs) top ++ skipn (length fs) top) by (symmetry; apply firstn_skipn).
    assert (Lf : length (firstn (length fs) top) = length fs) by (rewrite firstn_length; lia).
    assert (F1 : forall u : scopes, firstn (length fs) (top ++ u) = firstn (length fs) top).
    { intros u. rewrite firstn_app. replace (length fs - length top)%nat with 0%nat by lia. cbn. apply app_nil_r. }
    assert (K1 : forall u : scopes, skipn (length fs) (top ++ u) = skipn (length fs) top ++ u).
    { intros u. rewrite skipn_app. replace (length fs - length top)%nat with 0%nat by lia. reflexivity. }
    assert (FF : Forall free (firstn (length fs) top) /\ Forall free (skipn (length fs) top)).
    { rewrite Hsplit in Fr. now apply Forall_app in Fr. }
    split.
    - destruct x as [a|e], r' as [a'|e']; cbn [rrel] in *; try contradiction; [|exact Q1].
      split; [exact Q1|]. cbn [snd]. rewrite S1, S2, !F1. repeat split; auto. apply FF.
    - eapply R_set_scopes; [exact R1|]. rewrite S1, S2, !K1. exists (skipn (length fs) top), t, t'.
      repeat split; auto; [rewrite skipn_length; lia|apply FF|]. destruct k; [|exact K]. destruct K as (T & -> & ->). repeat split; auto.
      intros X. apply (f_equal (@length _)) in X. rewrite skipn_length in X. cbn in X. specialize (Hd eq_refl). lia.
  Qed.
  Lemma sim_frame {A A'} k d (Q : A -> A' -> Prop) f m m' : free f -> sim k (S d) Q m m' -> sim k d Q (in_frame f m) (in_frame f m').
  Proof.
    intros Ff Hm. unfold in_frame. apply (sim_bind_ret k d (fr_rel Q 1)).
    - apply (sim_frames k d Q [f]); auto.
    - intros [a fa] [a' fa'] (X & _). exact X.
  Qed.
  (** a function body in its own scopes *)
  Lemma sim_root {A A'} k d (Q : A -> A' -> Prop) fs m m' : Forall free fs -> fs <> [] ->
    sim Root (length fs) Q m m' -> sim k d Q (in_root fs m) (in_root fs m').
  Proof.
    intros Ff Fn Hm s s' r s2 HR H Hp. unfold in_root in H.
    destruct (m (set_scopes fs s)) as [x s1| |] eqn:Em; try discriminate. injection H as <- <-.
    assert (HR1 : R Root (length fs) (set_scopes fs s) (set_scopes fs s')).
    { eapply R_set_scopes; [exact HR|]. exists fs, [], []. rewrite app_nil_r. repeat split; auto. }
    destruct (Hm _ _ _ _ HR1 Em Hp) as (r' & s1' & E1 & Q1 & R1). exists r', (set_scopes (s_scopes s') s1').
    unfold in_root. rewrite E1. split; [reflexivity|]. split; [exact Q1|]. eapply R_set_scopes; [exact R1|]. exact (R_sc _ _ _ _ HR).
  Qed.

  (** *** cells and pools *)
  Lemma sim_get_cell k d c : sim k d cell_like (get_cell c) (get_cell (c_cell C c)).
  Proof.
    intros s s' r s2 HR H _. unfold get_cell in *. pose proof (R_cells _ _ _ _ HR c) as X.
    destruct (assoc c (s_cells s)) as [x|], (assoc (c_cell C c) (s_cells s')) as [y|]; cbn [opt_rel] in X; try contradiction; injection H as <- <-.
    - exists (Ok y), s'. auto.
    - eexists (Raise _), s'. split; [reflexivity|]. split; [reflexivity|auto].
  Qed.
  Lemma sim_get_pool k d c : sim k d pool_like (get_pool c) (get_pool (c_pool C c)).
  Proof.
    intros s s' r s2 HR H _. unfold get_pool in *. pose proof (R_pools _ _ _ _ HR c) as X.
    destruct (assoc c (s_pools s)) as [x|], (assoc (c_pool C c) (s_pools s')) as [y|]; cbn [opt_rel] in X; try contradiction; injection H as <- <-.
    - exists (Ok y), s'. auto.
    - eexists (Raise _), s'. split; [reflexivity|]. split; [reflexivity|auto].
  Qed.
  Lemma sim_upd_cell k d c f f' : (forall x y, cell_like x y -> cell_like (f x) (f' y)) ->
    sim k d eq (upd_cell c f) (upd_cell (c_cell C c) f').
  Proof.
    intros Hf s s' r s2 HR H _. unfold upd_cell in *. pose proof (R_cells _ _ _ _ HR c) as X.
    destruct (assoc c (s_cells s)) as [x|], (assoc (c_cell C c) (s_cells s')) as [y|]; cbn [opt_rel] in X; try contradiction; injection H as <- <-.
    - eexists (Ok tt), _. split; [reflexivity|]. split; [reflexivity|]. destruct HR as [H1 H2 H3 H4 H5 H6]. constructor; auto.
      + intros c2. cbn [s_cells set_cells]. destruct (String.eqb_spec c2 c) as [->|Ne].
        * rewrite !assoc_set_eq. cbn [opt_rel]. auto.
        * rewrite !assoc_set_neq; auto.
      + intros z Hg Hk. cbn [s_cells set_cells]. rewrite assoc_set_neq; [now apply H4|]. intros ->. exact (Hcell_given c _ Hg eq_refl).
    - eexists (Raise _), s'. split; [reflexivity|]. split; [reflexivity|auto].
  Qed.
  Lemma sim_upd_pool k d c f f' : (forall x y, pool_like x y -> pool_like (f x) (f' y)) ->
    sim k d eq (upd_pool c f) (upd_pool (c_pool C c) f').
  Proof.
    intros Hf s s' r s2 HR H _. unfold upd_pool in *. pose proof (R_pools _ _ _ _ HR c) as X.
    destruct (assoc c (s_pools s)) as [x|], (assoc (c_pool C c) (s_pools s')) as [y|]; cbn [opt_rel] in X; try contradiction; injection H as <- <-.
    - eexists (Ok tt), _. split; [reflexivity|]. split; [reflexivity|]. destruct HR as [H1 H2 H3 H4 H5 H6]. constructor; auto.
      intros c2. cbn [s_pools set_pools]. destruct (String.eqb_spec c2 c) as [->|Ne].
      + rewrite !assoc_set_eq. cbn [opt_rel]. auto.
      + rewrite !assoc_set_neq; auto.
    - eexists (Raise _), s'. split; [reflexivity|]. split; [reflexivity|auto].
  Qed.
  Lemma put_like v x y : cell_like x y -> cell_like (cell_put v x) (cell_put v y).
  Proof. intros (A & B & D & F). repeat split; auto. Qed.
  Lemma lock_like b x y : cell_like x y -> cell_like (cell_lock b x) (cell_lock b y).
  Proof. intros (A & B & D & F). repeat split; auto. Qed.
  Ltac gro := repeat first
    [ apply (pres_ret G G_closed) | apply (pres_raise G G_closed) | apply (pres_lift G G_closed) | apply (pres_pure G G_closed)
    | apply (pres_fuel G) | apply (pres_blocked G)
    | apply (pres_let G G_closed) | apply (pres_set G G_closed) | apply (pres_trace G G_closed) | apply (pres_emit G G_closed)
    | apply (pres_log G G_closed) | apply (pres_get_cell G G_closed) | apply (pres_get_pool G G_closed)
    | apply (pres_cell_put G G_closed) | apply (pres_cell_lock G G_closed) | apply (pres_time G G_closed)
    | match goal with
      | |- pres G (upd_pool ?p (fun x => pool_put (dict_set ?h ?v (p_value x)) x)) => apply (pres_pool_put G G_closed p (fun x => dict_set h v (p_value x)))
      | |- pres G (upd_pool ?p (fun x => pool_locks (remove_lock ?h (p_locks x)) x)) => apply (pres_pool_locks G G_closed p (fun x => remove_lock h (p_locks x)))
      | |- pres G (upd_pool ?p (pool_locks ?l)) => apply (pres_pool_locks G G_closed p (fun _ => l))
      end
    | apply (pres_frames G G_closed) | apply (pres_frame G G_closed) | apply (pres_root G G_closed) | apply (pres_attempt G G_closed)
    | assumption
    | match goal with H : forall v, pres G (_ v) |- _ => apply H end
    | match goal with H : forall f v, pres G (_ f v) |- _ => apply H end
    | apply (pres_update_path G G_closed); intros ? | apply (pres_cell_update G G_closed); intros ?
    | apply (pres_pool_update G G_closed); intros ?  | apply (pres_pool_body G G_closed); intros ?
    | apply (pres_mapE G G_closed); intros ?
    | apply (pres_bind G G_closed); [|intros ?] ].

  Lemma sim_update_path k d leaf leaf' obj p a m : (forall o, sim k d eq (leaf o) (leaf' o)) -> (forall o, gr (leaf o)) ->
    sim k d eq (update_path leaf obj p a m) (update_path leaf' obj p a m).
  Proof.
    intros Hl Hg. revert obj. induction p as [|x p IH]; intros obj; cbn [update_path]; auto.
    destruct obj; try apply sim_raise.
    - destruct x; try apply sim_raise. cbn zeta. destruct (_ || _)%bool; [apply sim_raise|].
      destruct (_ <=? _); [now apply sim_ret|]. apply (sim_bind_ret k d eq); [apply IH|]. intros v v' <-. reflexivity.
    - destruct x; try (destruct p; [now apply sim_ret|apply sim_raise]).
      destruct (assoc s d0).
      + apply (sim_bind_ret k d eq); [apply IH|]. intros w w' <-. reflexivity.
      + destruct p; [now apply sim_ret|apply sim_raise].
  Qed.
  Lemma sim_cell_update k d c u u' : (forall v, sim k d eq (u v) (u' v)) -> (forall v, gr (u v)) ->
    sim k d eq (cell_update c u) (cell_update (c_cell C c) u').
  Proof.
    intros Hu Hg. unfold cell_update. eapply sim_bind; [apply sim_get_cell| |].
    - intros x y (A & B & D & F). rewrite <- A, <- B, <- F. destruct (c_shared x).
      + destruct (c_locked x); [apply sim_blocked|]. eapply sim_bind; [apply sim_upd_cell; intros; now apply lock_like| |intros; gro].
        intros _ _ _. eapply sim_bind; [apply Hu| |intros; gro]. intros v v' <-.
        eapply sim_bind; [apply sim_upd_cell; intros; now apply put_like| |intros; gro]. intros _ _ _.
        eapply sim_bind; [apply sim_upd_cell; intros; now apply lock_like| |intros; gro]. intros _ _ _. now apply sim_ret.
      + eapply sim_bind; [apply Hu| |intros; gro]. intros v v' <-.
        eapply sim_bind; [apply sim_upd_cell; intros; now apply put_like| |intros; gro]. intros _ _ _. now apply sim_ret.
    - intros x. destruct (c_shared x); [destruct (c_locked x)|]; gro.
  Qed.
  Lemma sim_pool_body k d p h u u' i : (forall v, sim k d eq (u v) (u' v)) -> (forall v, gr (u v)) ->
    sim k d eq (pool_update_body p h u i) (pool_update_body (c_pool C p) h u' i).
  Proof.
    intros Hu Hg. unfold pool_update_body.
    assert (Hput : forall v x y, pool_like x y -> pool_like (pool_put (dict_set h v (p_value x)) x) (pool_put (dict_set h v (p_value y)) y)).
    { intros v x y (A & B & D & F & I). repeat split; cbn; auto. now rewrite A. }
    eapply sim_bind; [apply sim_get_pool| |].
    - intros x y (A & B & D & F & I). rewrite <- A. eapply (sim_bind k d eq).
      + destruct (has_key h (p_value x)); [now apply sim_ret|]. apply sim_upd_pool. apply Hput.
      + intros _ _ _. eapply sim_bind; [apply sim_get_pool| |intros; gro]. intros x1 y1 (A1 & _). rewrite <- A1.
        eapply sim_bind; [apply Hu| |intros; gro]. intros v v' <-.
        eapply sim_bind; [apply sim_upd_pool; apply Hput| |intros; gro]. intros _ _ _. now apply sim_ret.
      + intros; gro.
    - intros x. apply (pres_bind G G_closed); [destruct (has_key h (p_value x)); gro|]. intros; gro.
  Qed.
  Lemma sim_pool_update k d p h u u' i : (forall v, sim k d eq (u v) (u' v)) -> (forall v, gr (u v)) ->
    sim k d eq (pool_update p h u i) (pool_update (c_pool C p) h u' i).
  Proof.
    intros Hu Hg. unfold pool_update. eapply sim_bind; [apply sim_get_pool| |].
    - intros x y (A & B & D & F & I). rewrite <- B, <- F, <- I. destruct (p_shared x); [|now apply sim_pool_body].
      destruct (p_locklock x); [apply sim_blocked|]. destruct (existsb _ _); [apply sim_blocked|].
      eapply sim_bind; [apply sim_upd_pool| |].
      + intros x1 y1 (A1 & B1 & D1 & F1 & I1). repeat split; auto.
      + intros _ _ _. eapply sim_bind; [now apply sim_pool_body| |intros; gro]. intros v v' <-.
        eapply sim_bind; [apply sim_upd_pool| |intros; gro].
        * intros x1 y1 (A1 & B1 & D1 & F1 & I1). repeat split; cbn; auto. now rewrite I1.
        * intros _ _ _. now apply sim_ret.
      + intros; gro.
    - intros x. destruct (p_shared x); [destruct (p_locklock x); [|destruct (existsb _ _)]|]; gro.
  Qed.

  (** *** evaluation *)
  Definition rb (b : bool) : string -> bool := if b then given else no_refs.
  Definition valid (b : bool) (k : kind) : Prop := b = true -> k = Act.
  Notation rn b := (ren C (rb b)).
  Notation rna b := (ren_arg C (rb b)).
  Notation fits b := (fit own given known fn b).
  Notation fitsa b := (fit_arg own given known fn b).
  Definition qarg (b : bool) (a a' : aval) : Prop :=
    match a, a' with
    | AV v, AV w => v = w
    | AF x, AF y => fitsa b x = true /\ y = rna b x
    | _, _ => False
    end.
  Lemma sim_weaken {A A'} k d (Q Q2 : A -> A' -> Prop) m m' : (forall a a', Q a a' -> Q2 a a') -> sim k d Q m m' -> sim k d Q2 m m'.
  Proof.
    intros H Hm s s' r s2 HR Em Hp. destruct (Hm _ _ _ _ HR Em Hp) as (r' & s2' & X1 & X2 & X3). exists r', s2'. split; [exact X1|]. split; [|exact X3].
    destruct r, r'; cbn [rrel] in *; auto.
  Qed.
  Lemma Forall2_eq {A} (l l' : list A) : Forall2 eq l l' -> l = l'.
  Proof. induction 1; congruence. Qed.
  Lemma Forall2_map {A B} (P : A -> B -> Prop) (f : A -> B) l : (forall x, In x l -> P x (f x)) -> Forall2 P l (map f l).
  Proof. induction l as [|x l IH]; intros H; cbn; constructor; [apply H; now left|]. apply IH. intros y I. apply H. now right. Qed.
  Lemma forallb_in {A} (f : A -> bool) l x : forallb f l = true -> In x l -> f x = true.
  Proof. rewrite forallb_forall. auto. Qed.
  Lemma qarg_same b avs avs' : Forall2 (qarg b) avs avs' -> Forall2 same_values avs avs'.
  Proof. induction 1 as [|x y l l' H _ IH]; constructor; auto. destruct x, y; cbn in *; tauto. Qed.
  Lemma qarg_plain b avs avs' : Forall2 (qarg b) avs avs' -> map plain avs = map plain avs'.
  Proof. induction 1 as [|x y l l' H _ IH]; cbn; [reflexivity|]. rewrite IH. destruct x, y; cbn in *; try tauto; subst; reflexivity. Qed.

  Section Step.
    Variables (n n' : nat).
    Hypothesis Hn : (n <= n')%nat.
    Hypothesis HN : (N <= n')%nat.
    Variables (ev : expr -> EM val) (app : arg -> list val -> EM val).
    Notation ev' := (eval E' n').
    Notation app' := (apply E' n').
    Hypothesis Hev : forall b k d e, valid b k -> fits b e = true -> sim k d eq (ev e) (ev' (rn b e)).
    Hypothesis Happ : forall b k d a vs, valid b k -> fitsa b a = true -> sim k d eq (app a vs) (app' (rna b a) vs).
    Hypothesis gev : forall e, gr (ev e).
    Hypothesis gapp : forall a vs, gr (app a vs).
    Ltac grw := repeat first
      [ apply (pres_run G G_closed ev gev) | apply (pres_named G G_closed ev gev) | apply (pres_arg G G_closed ev gev)
      | apply (pres_args G G_closed ev gev) | apply (pres_evs G G_closed ev gev) | apply (pres_lib G G_closed E ev app gev gapp)
      | apply (pres_call_user G G_closed E ev gev) | apply (pres_leaf G G_closed E app gapp) | apply (pres_while G G_closed E ev gev)
      | apply (pres_until G G_closed E ev gev) | apply (pres_for G G_closed E ev gev) | apply (pres_each G G_closed E ev gev)
      | apply (pres_cast G G_closed E ev gev) | apply (pres_handle G G_closed) | apply gev | apply gapp
      | apply (pres_conds G G_closed ev gev) | apply (pres_or_else G G_closed); intros ?
      | progress gro ].

    Lemma sim_evs b k d es : valid b k -> forallb (fits b) es = true -> sim k d eq (mapE ev es) (mapE ev' (map (rn b) es)).
    Proof.
      intros V H. eapply sim_weaken; [apply Forall2_eq|]. eapply (sim_mapE k d (fun e e' => fits b e = true /\ e' = rn b e)).
      - apply Forall2_map. intros e I. split; [now apply (forallb_in _ _ _ H)|reflexivity].
      - intros e e' [F ->]. now apply Hev.
      - exact gev.
    Qed.
    Lemma sim_run b k d es : valid b k -> forallb (fits b) es = true -> sim k d eq (run ev es) (run ev' (map (rn b) es)).
    Proof. intros V H. apply (sim_bind_ret k d eq); [now apply sim_evs|]. intros l l' <-. reflexivity. Qed.
    Lemma sim_pairs {K} b k d (bs : list (K * expr)) : valid b k -> forallb (fun x => fits b (snd x)) bs = true ->
      sim k d eq (mapE (fun x => v <== ev (snd x) ;; ret (fst x, v)) bs) (mapE (fun x => v <== ev' (snd x) ;; ret (fst x, v)) (map (fun x => (fst x, rn b (snd x))) bs)).
    Proof.
      intros V H. eapply sim_weaken; [apply Forall2_eq|]. eapply (sim_mapE k d (fun x x' => fits b (snd x) = true /\ x' = (fst x, rn b (snd x)))).
      - apply Forall2_map. intros x I. split; [exact (forallb_in _ _ _ H I)|reflexivity].
      - intros x x' [F ->]. cbn [fst snd]. apply (sim_bind_ret k d eq); [now apply Hev|]. intros v v' <-. reflexivity.
      - intros x. grw.
    Qed.
    Lemma sim_named b k d bs : valid b k -> forallb (fun x => fits b (snd x)) bs = true ->
      sim k d eq (ev_named ev bs) (ev_named ev' (map (fun x => (fst x, rn b (snd x))) bs)).
    Proof. apply sim_pairs. Qed.
    Lemma sim_arg b k d a : valid b k -> fitsa b a = true -> sim k d (qarg b) (ev_arg ev a) (ev_arg ev' (rna b a)).
    Proof.
      intros V H. destruct a; cbn [ren_arg ev_arg].
      - apply (sim_bind_ret k d eq); [now apply Hev|]. intros v v' <-. reflexivity.
      - apply sim_ret. split; [exact H|reflexivity].
      - apply sim_ret. split; [exact H|reflexivity].
      - apply sim_ret. split; [exact H|reflexivity].
    Qed.
    Lemma sim_args b k d l : valid b k -> forallb (fitsa b) l = true -> sim k d (Forall2 (qarg b)) (mapE (ev_arg ev) l) (mapE (ev_arg ev') (map (rna b) l)).
    Proof.
      intros V H. eapply (sim_mapE k d (fun e e' => fitsa b e = true /\ e' = rna b e)).
      - apply Forall2_map. intros e I. split; [now apply (forallb_in _ _ _ H)|reflexivity].
      - intros e e' [F ->]. now apply sim_arg.
      - intros a. grw.
    Qed.
    Lemma nth_qarg b avs avs' i : Forall2 (qarg b) avs avs' -> opt_rel (qarg b) (nth_error avs i) (nth_error avs' i).
    Proof. intros H. revert i. induction H; intros [|i]; cbn; auto. Qed.
    Lemma sim_lib b k d lz args args' p : valid b k -> forallb (fitsa b) lz = true -> Forall2 (qarg b) args args' -> quiet p ->
      sim k d eq (run_lib E ev app lz args p) (run_lib E' ev' app' (map (rna b) lz) args' p).
    Proof.
      intros V Hl Ha Hq. induction Hq as [v|e|i vs f Hf IH|i f Hf IH|p Hp IH]; cbn [run_lib].
      - now apply sim_ret.
      - apply sim_raise.
      - pose proof (nth_qarg b args args' i Ha) as X. destruct (nth_error args i) as [[v|a]|], (nth_error args' i) as [[v'|a']|]; cbn in X; try tauto; try apply sim_raise.
        destruct X as [X ->]. eapply sim_bind; [apply sim_attempt; now apply Happ| |intros; grw].
        intros r r' Hr. assert (r = r') as <- by (destruct r, r'; cbn in Hr; try tauto; subst; reflexivity). apply IH.
      - rewrite nth_error_map. destruct (nth_error lz i) as [a|] eqn:Ei; cbn [option_map]; [|apply sim_raise].
        assert (Fa : fitsa b a = true) by (apply (forallb_in _ _ _ Hl); eapply nth_error_In; eauto).
        destruct a; cbn [ren_arg]; try apply sim_raise. eapply sim_bind; [apply sim_attempt; now apply Hev| |intros; grw].
        intros r r' Hr. assert (r = r') as <- by (destruct r, r'; cbn in Hr; try tauto; subst; reflexivity). apply IH.
      - eapply sim_bind; [apply sim_time| |intros; grw]. intros _ _ _. exact IH.
    Qed.
    Lemma free_params ps (vs : list val) : forallb own ps = true -> free (frame_let (zip_dict ps vs) []).
    Proof. intros H. apply free_let; [|apply free_nil]. intros x I. apply zip_keys in I. exact (forallb_in _ _ _ H I). Qed.
    Lemma sim_body k d ps body vs : fit_fcn own given known fn (ps, body) = true ->
      sim k d eq (in_frame (frame_let (zip_dict ps vs) []) (run ev body)) (in_frame (frame_let (zip_dict ps vs) []) (run ev' (map (ren C no_refs) body))).
    Proof.
      intros H. apply andb_prop in H. destruct H as [H1 H2]. apply sim_frame; [now apply free_params|]. apply (sim_run false); [discriminate|exact H2].
    Qed.
    Lemma sim_call_user k d f vs ps body : assoc f (e_fcns E) = Some (ps, body) ->
      assoc (c_fcn C f) (e_fcns E') = Some (ps, map (ren C no_refs) body) -> fit_fcn own given known fn (ps, body) = true ->
      sim k d eq (call_user E ev f vs) (call_user E' ev' (c_fcn C f) vs).
    Proof.
      intros A A' H. unfold call_user. rewrite A, A'. apply andb_prop in H. destruct H as [H1 H2].
      apply sim_root; [|discriminate|apply (sim_run false); [discriminate|exact H2]].
      constructor; [now apply free_params|]. constructor; [apply free_nil|constructor].
    Qed.
    Lemma sim_leaf b k d t t' old : valid b k -> qarg b t t' -> sim k d eq (update_leaf E app t old) (update_leaf E' app' t' old).
    Proof.
      intros V H. destruct t as [v|a], t' as [v'|a']; cbn [qarg] in H; try contradiction.
      - subst. now apply sim_ret.
      - destruct H as [H ->]. destruct a; cbn [update_leaf ren_arg].
        + exact (Happ b k d _ [old] V H).
        + exact (Happ b k d _ [old] V H).
        + pose proof (Happ b k d _ [old] V H) as X. cbn [ren_arg] in X. cbn [fit_arg] in H.
          destruct (Hfn f H) as [(ps & body & A & A' & _)|(A & A0 & A')].
          * rewrite A, A'. exact X.
          * rewrite A0, A, A'. apply sim_raise.
        + exact (Happ b k d _ [old] V H).
    Qed.
    Lemma sim_conds b k d its els els' keep : valid b k -> forallb (fun it => fits b (fst it) && forallb (fits b) (snd it))%bool its = true ->
      sim k d eq els els' -> gr els ->
      sim k d eq (conds ev its els keep) (conds ev' (map (fun it => (rn b (fst it), map (rn b) (snd it))) its) els' keep).
    Proof.
      intros V H He Ge. induction its as [|[p t] its IH]; cbn [conds map fst snd]; [exact He|]. cbn [forallb fst snd] in H.
      apply andb_prop in H. destruct H as [H H3]. apply andb_prop in H. destruct H as [H1 H2].
      eapply sim_bind; [apply sim_frame; [apply free_nil|now apply Hev]| |].
      - intros x x' <-. destruct (truthy x); [|auto].
        apply (sim_bind_ret k d eq); [apply sim_frame; [apply free_nil|now apply sim_run]|]. intros v v' <-. reflexivity.
      - intros x. destruct (truthy x); grw.
    Qed.
    Lemma nth_free fs i : Forall free fs -> free (nth i fs []).
    Proof. intros H. revert i. induction H; intros [|i]; cbn; auto; apply free_nil. Qed.
    Ltac fr := repeat first [apply free_nil | assumption | apply nth_free; assumption | constructor].
    Lemma sim_while b k d p body : valid b k -> fits b p = true -> forallb (fits b) body = true ->
      forall m m' pf bf, (m <= m')%nat -> free pf -> free bf ->
      sim k d eq (while_loop E ev m p body pf bf) (while_loop E' ev' m' (rn b p) (map (rn b) body) pf bf).
    Proof.
      intros V Hp Hb. induction m as [|m IH]; intros m' pf bf Hm Fp Fb; cbn [while_loop]; [apply sim_fuel|].
      destruct m' as [|m']; [lia|]. cbn [while_loop].
      eapply sim_bind; [apply sim_frames; [fr|now apply Hev]| |].
      - intros [x fs] [x' fs'] (X1 & X2 & X3 & X4). cbn [fst snd] in *. subst x' fs'. cbn zeta. destruct (truthy x); [|now apply sim_ret].
        eapply sim_bind; [apply sim_time| |intros; grw]. intros _ _ _.
        eapply sim_bind; [apply sim_frames; [fr|now apply sim_run]| |intros; grw].
        intros [y gs] [y' gs'] (Y1 & Y2 & Y3 & Y4). cbn [fst snd] in *. subst y' gs'. apply IH; [lia|fr|fr].
      - intros [x fs]. cbn zeta. destruct (truthy x); grw.
    Qed.
    Lemma sim_until b k d p body : valid b k -> fits b p = true -> forallb (fits b) body = true ->
      forall m m' pf bf, (m <= m')%nat -> free pf -> free bf ->
      sim k d eq (until_loop E ev m body p pf bf) (until_loop E' ev' m' (map (rn b) body) (rn b p) pf bf).
    Proof.
      intros V Hp Hb. induction m as [|m IH]; intros m' pf bf Hm Fp Fb; cbn [until_loop]; [apply sim_fuel|].
      destruct m' as [|m']; [lia|]. cbn [until_loop].
      eapply sim_bind; [apply sim_time| |].
      - intros _ _ _. eapply sim_bind; [apply sim_frames; [fr|now apply sim_run]| |].
        + intros [y gs] [y' gs'] (Y1 & Y2 & Y3 & Y4). cbn [fst snd] in *. subst y' gs'. cbn zeta.
          eapply sim_bind; [apply sim_frames; [fr|now apply Hev]| |].
          * intros [x fs] [x' fs'] (X1 & X2 & X3 & X4). cbn [fst snd] in *. subst x' fs'. destruct (truthy x); [now apply sim_ret|]. apply IH; [lia|fr|fr].
          * intros [x fs]. destruct (truthy x); grw.
        + intros r. cbn zeta. apply (pres_bind G G_closed); [grw|]. intros [x fs]. destruct (truthy x); grw.
      - intros _. apply (pres_bind G G_closed); [grw|]. intros r. cbn zeta. apply (pres_bind G G_closed); [grw|]. intros [x fs]. destruct (truthy x); grw.
    Qed.
    Lemma own_named b bs : forallb (fun x : string * expr => own (fst x) && fits b (snd x))%bool bs = true ->
      forallb (fun x => fits b (snd x)) bs = true /\ (forall x, In x (map fst bs) -> own x = true).
    Proof.
      induction bs as [|[x e] bs IH]; cbn [forallb map fst snd]; intros H; [split; [reflexivity|intros ? []]|].
      apply andb_prop in H. destruct H as [H H2]. apply andb_prop in H. destruct H as [H0 H1]. destruct (IH H2) as [I1 I2].
      split; [now rewrite H1|]. intros y [<-|I]; auto.
    Qed.
    (** the names of what ev_named gives *)
    Lemma named_keys bs : forall s r s2, ev_named ev bs s = Done (Ok r) s2 -> map fst r = map fst bs.
    Proof.
      unfold ev_named. induction bs as [|[x e] bs IH]; intros s r s2 H; cbn [mapE] in H.
      - injection H as <- <-. reflexivity.
      - unfold bind in H. destruct (ev _ s) as [[v|]s1| |]; try discriminate. unfold ret in H at 1.
        destruct (mapE _ bs s1) as [[l|]s3| |] eqn:Em; try discriminate. injection H as <- <-. cbn. f_equal. eapply IH; eauto.
    Qed.
    Lemma sim_named_then {B} b k d bs (f f' : list (string * val) -> EM B) : valid b k ->
      forallb (fun x : string * expr => own (fst x) && fits b (snd x))%bool bs = true ->
      (forall vs, (forall x, In x (map fst vs) -> own x = true) -> sim k d eq (f vs) (f' vs)) -> (forall vs, gr (f vs)) ->
      sim k d eq (vs <== ev_named ev bs ;; f vs) (vs <== ev_named ev' (map (fun x => (fst x, rn b (snd x))) bs) ;; f' vs).
    Proof.
      intros V H Hf Gf. destruct (own_named _ _ H) as [H1 H2].
      apply (sim_bind k d (fun vs vs' => vs = vs' /\ forall x, In x (map fst vs) -> own x = true)); [|intros vs vs' [<- X]; now apply Hf|exact Gf].
      intros s s' r s2 HR Em Hp. destruct (sim_named b k d bs V H1 s s' r s2 HR Em Hp) as (r' & s2' & X1 & X2 & X3). exists r', s2'. split; [exact X1|]. split; [|exact X3].
      destruct r as [l|e], r' as [l'|e']; cbn [rrel] in *; auto. split; [exact X2|]. rewrite (named_keys _ _ _ _ Em). exact H2.
    Qed.
    Lemma sim_for b k d p upd body : valid b k -> fits b p = true ->
      forallb (fun x : string * expr => own (fst x) && fits b (snd x))%bool upd = true -> forallb (fits b) body = true ->
      forall m m' pf bf lf, (m <= m')%nat -> free pf -> free bf -> free lf ->
      sim k d eq (for_loop E ev m p upd body pf bf lf)
        (for_loop E' ev' m' (rn b p) (map (fun x => (fst x, rn b (snd x))) upd) (map (rn b) body) pf bf lf).
    Proof.
      intros V Hp Hu Hb. induction m as [|m IH]; intros m' pf bf lf Hm Fp Fb Fl; cbn [for_loop]; [apply sim_fuel|].
      destruct m' as [|m']; [lia|]. cbn [for_loop].
      eapply sim_bind; [apply sim_frames; [fr|now apply Hev]| |].
      - intros [x fs] [x' fs'] (X1 & X2 & X3 & X4). cbn [fst snd] in *. subst x' fs'. cbn zeta. destruct (truthy x); [|now apply sim_ret].
        eapply sim_bind; [apply sim_time| |].
        + intros _ _ _. eapply sim_bind; [apply sim_frames; [fr|now apply sim_run]| |].
          * intros [y gs] [y' gs'] (Y1 & Y2 & Y3 & Y4). cbn [fst snd] in *. subst y' gs'. cbn zeta.
            eapply sim_bind; [apply sim_frames; [fr|]| |].
            -- apply (sim_named_then b); auto; [intros; now apply sim_set|]. intros; grw.
            -- intros [z hs] [z' hs'] (Z1 & Z2 & Z3 & Z4). cbn [fst snd] in *. subst hs'. apply IH; [lia|fr|fr|fr].
            -- intros; grw.
          * intros r. cbn zeta. grw.
        + intros _. apply (pres_bind G G_closed); [grw|]. intros r. cbn zeta. grw.
      - intros [x fs]. cbn zeta. destruct (truthy x); [|grw]. apply (pres_bind G G_closed); [grw|]. intros _.
        apply (pres_bind G G_closed); [grw|]. intros r. cbn zeta. grw.
    Qed.
    Lemma sim_each b k d body : valid b k -> forallb (fits b) body = true ->
      forall items bf lf, (forall bs, In bs items -> forall x, In x (map fst bs) -> own x = true) -> free bf -> free lf ->
      sim k d eq (each_loop E ev items body bf lf) (each_loop E' ev' items (map (rn b) body) bf lf).
    Proof.
      intros V Hb. induction items as [|bs items IH]; intros bf lf Hi Fb Fl; cbn [each_loop]; [now apply sim_ret|].
      eapply sim_bind; [apply sim_time| |intros; grw]. intros _ _ _.
      eapply sim_bind; [apply sim_frames|..].
      - constructor; [fr|]. constructor; [|constructor]. apply free_let; [|exact Fl]. apply Hi. now left.
      - now apply sim_run.
      - intros [y gs] [y' gs'] (Y1 & Y2 & Y3 & Y4). cbn [fst snd] in *. subst y' gs'. apply IH; [|fr|fr]. intros b0 I. apply Hi. now right.
      - intros; grw.
    Qed.
    Lemma sim_cast b k d fu pa v cases : valid b k ->
      forallb (fun c : string * string * list expr => own (fst (fst c)) && forallb (fits b) (snd c))%bool cases = true ->
      sim k d eq (cast_cases E ev fu pa v cases) (cast_cases E' ev' fu pa v (map (fun c => (fst c, map (rn b) (snd c))) cases)).
    Proof.
      intros V. induction cases as [|[[name ty] body] cases IH]; cbn [forallb map fst snd cast_cases]; intros H; [now apply sim_ret|].
      apply andb_prop in H. destruct H as [H H2]. apply andb_prop in H. destruct H as [H0 H1]. rewrite L_tyname, L_decode.
      destruct (cast_value _ _ _) as [w|]; [|auto]. destruct (e_decode E ty w) as [c|x].
      - apply (sim_bind_ret k d eq); [|intros o o' <-; reflexivity]. apply sim_frame; [|now apply sim_run].
        apply (free_let [(name, c)] []); [|apply free_nil]. intros y [<-|[]]. exact H0.
      - destruct x; try apply sim_raise; auto. destruct (String.eqb kind0 "TypeError"); [auto|apply sim_raise].
    Qed.
    Lemma sim_or_else b k d el : valid b k -> match el with Some es => forallb (fits b) es | None => true end = true ->
      sim k d eq (or_else el (run ev)) (or_else (option_map (map (rn b)) el) (run ev')).
    Proof. intros V H. destruct el; cbn [or_else option_map]; [now apply sim_run|now apply sim_ret]. Qed.
    Lemma sim_handle k d flt e : sim k d eq (handle E flt e) (handle E' flt e).
    Proof.
      unfold handle. destruct flt as [l|]; [|now apply sim_ret].
      assert (X : in_filter E' e l = in_filter E e l) by (unfold in_filter; now rewrite L_message). rewrite X.
      destruct (in_filter E e l) as [[|]|]; [now apply sim_ret|apply sim_raise|apply sim_raise].
    Qed.
    Lemma sim_emit k d v : fn "emit" = true -> sim k d eq (_ <== modify (add_trace "emit") ;; _ <== modify (add_emitted v) ;; ret VNull) (emit_code n' v).
    Proof.
      intros He s s' r s2 HR H Hp. unfold bind, modify, ret in H. injection H as <- <-. destruct (Hemit He k d n' s s' v HN HR) as (s2' & X1 & X2).
      - exact Hp.
      - exists (Ok VNull), s2'. split; [exact X1|]. split; [reflexivity|exact X2].
    Qed.

    Ltac bools := repeat match goal with H : (_ && _)%bool = true |- _ => apply andb_prop in H; destruct H end.
    Lemma sim_one b k d a : valid b k -> fitsa b a = true ->
      sim k d (fun l l' => exists x x', l = [x] /\ l' = [x'] /\ plain x = plain x') (mapE (ev_arg ev) [a]) (mapE (ev_arg ev') [rna b a]).
    Proof.
      intros V H. cbn [mapE]. eapply sim_bind; [apply (sim_arg b k d a V H)| |intros; grw].
      intros x x' Q. apply (sim_ret k d _ [x] [x']). exists x, x'. repeat split.
      destruct x, x'; cbn in *; try tauto.
    Qed.
    Lemma ren_call refs f args : ren C refs (ECall f args) =
      match c_emit C with
      | Some g => if String.eqb f "emit" then ECall g (map (ren_arg C refs) args) else ECall (c_fcn C f) (map (ren_arg C refs) args)
      | None => ECall (c_fcn C f) (map (ren_arg C refs) args)
      end.
    Proof. reflexivity. Qed.
    Lemma sim_call b k d f args : valid b k -> fits b (ECall f args) = true ->
      sim k d eq (step E n ev app (ECall f args)) (step E' n' ev' app' (rn b (ECall f args))).
    Proof.
      intros V H. cbn [fit] in H. apply andb_prop in H. destruct H as [H Ha]. apply andb_prop in H. destruct H as [Hf Hl].
      destruct (String.eqb_spec f "emit") as [->|Ne].
      - cbn [negb orb] in Hl. apply Nat.eqb_eq in Hl. destruct args as [|a [|]]; try discriminate.
        cbn [forallb] in Ha. apply andb_prop in Ha. destruct Ha as [Ha _].
        pose proof (fun v => sim_emit k d v Hf) as SE. unfold emit_code in SE.
        assert (X : rn b (ECall "emit" [a]) = ECall (match c_emit C with Some g => g | None => c_fcn C "emit" end) [rna b a])
          by (rewrite ren_call; destruct (c_emit C); reflexivity).
        rewrite X. clear X. cbn [step]. rewrite Hemit_free. rewrite (String.eqb_refl "emit"). destruct (c_emit C) as [g|] eqn:Cg.
        + pose proof (Hemit_def Hf) as Hd. unfold has_key in Hd. cbn [step]. destruct (assoc g (e_fcns E')) as [p|] eqn:Eg; [|discriminate].
          eapply sim_bind; [apply (sim_one b k d a V Ha)| |intros; grw]. intros l l' (x & x' & -> & -> & P). cbn [map]. rewrite P. apply SE.
        + destruct (Hfn "emit" Hf) as [(ps & body & A & _)|(A & A0 & A')]; [congruence|]. rewrite A0. cbn [step]. rewrite A'. rewrite (String.eqb_refl "emit").
          eapply sim_bind; [apply (sim_one b k d a V Ha)| |intros; grw]. intros l l' (x & x' & -> & -> & P). rewrite P. apply SE.
      - assert (X : rn b (ECall f args) = ECall (c_fcn C f) (map (rna b) args)).
        { rewrite ren_call. destruct (c_emit C); [|reflexivity]. now rewrite (proj2 (String.eqb_neq f "emit") Ne). }
        rewrite X. clear X. cbn [step]. destruct (Hfn f Hf) as [(ps & body & A & A' & Fb)|(A & A0 & A')].
        + rewrite A, A'. eapply sim_bind; [apply (sim_args b k d args V Ha)| |intros; grw]. intros avs avs' Q.
          eapply sim_bind; [apply sim_trace| |intros; grw]. intros _ _ _. rewrite (qarg_plain b _ _ Q). eapply sim_call_user; eauto.
        + rewrite A0, A, A'. rewrite (proj2 (String.eqb_neq f "emit") Ne), L_lib. destruct (e_lib E f) as [[g|p]|] eqn:El; [| |apply sim_raise].
          * eapply sim_bind; [apply (sim_args b k d args V Ha)| |intros; grw]. intros avs avs' Q.
            eapply sim_bind; [apply sim_trace| |intros; grw]. intros _ _ _.
            rewrite (pl_blind E PL f g El avs avs' (qarg_same _ _ _ Q)).
            apply (sim_lib b k d [] avs avs'); auto. eapply pl_quiet; eauto.
          * eapply sim_bind; [apply sim_trace| |intros; grw]. intros _ _ _.
            apply (sim_lib b k d args [] []); auto. eapply pl_quiet_lazy; eauto.
    Qed.
    Ltac one V := first
      [ now apply sim_ret | apply sim_raise | apply sim_lift_eq
      | (apply Hev; [exact V|assumption]) | (apply sim_run; [exact V|assumption]) | (apply sim_evs; [exact V|assumption])
      | (apply sim_or_else; [exact V|assumption]) | apply sim_handle ].

    Theorem sim_step b k d e : valid b k -> fits b e = true -> sim k d eq (step E n ev app e) (step E' n' ev' app' (rn b e)).
    Proof.
      intros V H. destruct e.
      - now apply sim_ret.
      - cbn [ren step]. unfold rb. cbn [fit] in H. destruct b; cbn [andb] in H.
        + destruct (given x) eqn:Gx.
          * cbn [step mapE]. intros s s' r s2 HR Em Hp. injection Em as <- <-. destruct (R_vars _ _ _ _ HR x Gx H) as (c & Ac & Vc).
            rewrite (V eq_refl) in HR. exists (Ok (vals x)), s'. split; [|split].
            -- unfold bind, get_cell. rewrite Ac. unfold ret, lift. cbn [get_path]. now rewrite Vc.
            -- rewrite (get_given _ _ _ _ (R_sc _ _ _ _ HR) Gx H). reflexivity.
            -- rewrite (V eq_refl). exact HR.
          * cbn [step]. apply sim_get. now left.
        + unfold no_refs. cbn [step]. apply sim_get. now left.
      - now apply sim_call.
      - discriminate.
      - cbn [fit ren step] in *. apply (sim_bind_ret k d eq); [now apply sim_named|]. intros l l' <-. reflexivity.
      - cbn [fit ren step] in *. apply (sim_bind_ret k d eq); [one V|]. intros l l' <-. reflexivity.
      - cbn [fit ren step] in *. one V.
      - cbn [fit ren step] in *. apply (sim_named_then b); auto; [|intros; grw]. intros vs Ho.
        eapply sim_bind; [now apply sim_let| |intros; grw]. intros _ _ _. now apply sim_ret.
      - cbn [fit ren step] in *. apply (sim_named_then b); auto; [|intros; grw]. intros vs Ho.
        eapply sim_bind; [now apply sim_set| |intros; grw]. intros _ _ _. now apply sim_ret.
      - cbn [fit ren step] in *. bools. eapply sim_bind; [one V| |intros; grw]. intros v v' <-.
        eapply sim_bind; [one V| |intros; grw]. intros ks ks' <-. one V.
      - cbn [fit ren step] in *. bools. eapply sim_bind; [one V| |intros; grw]. intros v v' <-.
        eapply sim_bind; [one V| |intros; grw]. intros ks ks' <-.
        eapply sim_bind; [apply (sim_arg b); eauto| |intros; grw]. intros t t' Q.
        apply sim_update_path; [intros o; now apply (sim_leaf b)|intros; grw].
      - cbn [fit ren step] in *. eapply sim_bind; [apply sim_get_cell| |intros; grw]. intros x x' (X & _).
        eapply sim_bind; [one V| |intros; grw]. intros ks ks' <-. rewrite X. one V.
      - cbn [fit ren step] in *. bools. eapply sim_bind; [one V| |intros; grw]. intros ks ks' <-.
        eapply sim_bind; [apply (sim_arg b); eauto| |intros; grw]. intros t t' Q.
        eapply sim_bind; [apply sim_trace| |intros; grw]. intros _ _ _.
        apply sim_cell_update; [|intros; grw]. intros v. apply sim_update_path; [intros o; now apply (sim_leaf b)|intros; grw].
      - cbn [fit ren step] in *. eapply sim_bind; [apply sim_get_pool| |intros; grw]. intros _ _ _.
        eapply sim_bind; [one V| |intros; grw]. intros ks ks' <-.
        eapply sim_bind; [apply sim_get_pool| |intros; grw]. intros x x' (X & _). rewrite X. one V.
      - cbn [fit ren step] in *. bools. eapply sim_bind; [one V| |].
        + intros ks ks' <-. eapply sim_bind; [apply (sim_arg b); eauto| |].
          * intros t t' Q. eapply sim_bind; [one V| |].
            -- intros i i' <-. eapply sim_bind; [apply sim_trace| |].
               ++ intros _ _ _. destruct ks as [|[] ks]; try apply sim_raise.
                  apply sim_pool_update; [|intros; grw]. intros v. apply sim_update_path; [intros o; now apply (sim_leaf b)|intros; grw].
               ++ intros _. destruct ks as [|[] ks]; grw.
            -- intros i. apply (pres_bind G G_closed); [grw|]. intros _. destruct ks as [|[] ks]; grw.
          * intros t. apply (pres_bind G G_closed); [grw|]. intros i. apply (pres_bind G G_closed); [grw|]. intros _. destruct ks as [|[] ks]; grw.
        + intros ks. apply (pres_bind G G_closed); [grw|]. intros t. apply (pres_bind G G_closed); [grw|]. intros i.
          apply (pres_bind G G_closed); [grw|]. intros _. destruct ks as [|[] ks]; grw.
      - discriminate.
      - cbn [fit ren step] in *. bools. destruct e0 as [el|]; cbn [option_map].
        + apply (sim_conds b k d [(e, t)]); auto; [cbn; now rewrite H, H1| |grw]. apply sim_frame; [apply free_nil|one V].
        + apply (sim_conds b k d [(e, t)]); auto; [cbn; now rewrite H, H1|now apply sim_ret|grw].
      - cbn [fit ren step] in *. bools. destruct e as [el|]; cbn [option_map].
        + apply sim_conds; auto; [|grw]. apply sim_frame; [apply free_nil|one V].
        + apply sim_conds; auto; [now apply sim_ret|grw].
      - cbn [fit ren step] in *. bools. apply sim_while; auto; apply free_nil.
      - cbn [fit ren step] in *. bools. apply sim_until; auto; apply free_nil.
      - cbn [fit ren step] in *. bools. eapply sim_bind; [apply sim_frames; [fr|]| |intros; grw].
        + apply (sim_named_then b); auto; [intros; now apply sim_let|intros; grw].
        + intros [x fs] [x' fs'] (X1 & X2 & X3 & X4). cbn [fst snd] in *. subst fs'. apply sim_for; auto; fr.
      - cbn [fit ren step] in *. bools. eapply sim_bind; [one V| |].
        + intros v v' <-. destruct v; try apply sim_raise. apply sim_each; auto; [|apply free_nil|apply free_nil].
          intros bs I. apply in_map_iff in I. destruct I as (y & <- & _). intros z [<-|[]]. assumption.
        + intros v. destruct v; grw.
      - cbn [fit ren step] in *. bools. eapply sim_bind; [one V| |].
        + intros w w' <-. destruct w; try apply sim_raise. apply sim_each; auto; [|apply free_nil|apply free_nil].
          intros bs I. apply in_map_iff in I. destruct I as (y & <- & _). intros z [<-|[<-|[]]]; assumption.
        + intros w. destruct w; grw.
      - cbn [fit ren step] in *. bools. eapply sim_bind; [one V| |intros; grw]. intros v v' <-. now apply sim_cast.
      - cbn [fit ren step] in *. destruct wrap as [tag|]; [|one V]. apply (sim_bind_ret k d eq); [one V|]. intros v v' <-. reflexivity.
      - cbn [fit ren step] in *. bools.
        assert (Hb : forallb (fun x : string * string * expr => fits b (snd x)) bs = true /\ forall x, In x bs -> own (fst (fst x)) = true).
        { split; [|intros x I; match goal with H : forallb _ bs = true |- _ => pose proof (forallb_in _ _ _ H I) as X end; cbn beta in X; now apply andb_prop in X].
          apply forallb_forall. intros x I. match goal with H : forallb _ bs = true |- _ => pose proof (forallb_in _ _ _ H I) as X end. cbn beta in X. now apply andb_prop in X. }
        destruct Hb as [Hb1 Hb2].
        apply (sim_bind k d (fun vs vs' => vs = vs' /\ forall x, In x vs -> own (fst (fst x)) = true)).
        + intros s s' r s2 HR Em Hp. destruct (sim_pairs b k d bs V Hb1 s s' r s2 HR Em Hp) as (r' & s2' & X1 & X2 & X3).
          exists r', s2'. split; [exact X1|]. split; [|exact X3]. destruct r as [l|x], r' as [l'|x']; cbn [rrel] in *; auto. split; [exact X2|].
          clear - Em Hb2. revert s s2 l Em Hb2. induction bs as [|y ys IH]; intros s s2 l Em Hb2; cbn [mapE] in Em.
          * injection Em as <- <-. intros x [].
          * unfold bind in Em. destruct (ev (snd y) s) as [[v|]s1| |]; try discriminate. unfold ret in Em at 1.
            destruct (mapE _ ys s1) as [[l2|]s3| |] eqn:E2; try discriminate. injection Em as <- <-.
            intros x [<-|I]; [cbn; apply Hb2; now left|]. eapply IH; [exact E2|intros; apply Hb2; now right|exact I].
        + intros vs vs' [<- Ho]. destruct (forallb _ vs).
          * eapply (sim_bind k d eq); [apply sim_frame; [|one V]| |intros; grw].
            -- apply free_let; [|apply free_nil]. intros x I. rewrite map_map in I. apply in_map_iff in I. destruct I as (y & <- & I). cbn. now apply Ho.
            -- intros v v' <-. destruct e; now apply sim_ret.
          * one V.
        + intros vs. destruct (forallb _ vs); grw.
      - cbn [fit ren step] in *. rewrite !map_map. cbn [fst snd]. rewrite L_pack.
        eapply sim_bind; [| |intros; grw]; [|intros vs vs' <-; one V].
        assert (X : map (fun x : string * expr => rn b (snd x)) es = map (rn b) (map snd es)) by (now rewrite map_map).
        rewrite X. apply sim_evs; auto. rewrite forallb_forall in *. intros x I. apply in_map_iff in I. destruct I as (y & <- & I). now apply H.
      - cbn [fit ren step] in *. bools. rewrite L_unpack. eapply sim_bind; [one V| |].
        + intros v v' <-. destruct (e_unpack E fmt v) as [bs|] eqn:Eu; [|one V].
          eapply (sim_bind k d eq); [apply sim_frame; [|one V]| |intros; grw].
          * apply free_let; [|apply free_nil]. intros x I. apply (pl_unpack E PL _ _ _ Eu) in I. apply in_map_iff in I. destruct I as (y & <- & I).
            match goal with H : forallb _ fmt = true |- _ => exact (forallb_in _ _ _ H I) end.
          * intros w w' <-. destruct el; now apply sim_ret.
        + intros v. destruct (e_unpack E fmt v); grw.
      - cbn [fit ren step] in *. now apply sim_ret.
      - cbn [fit ren step] in *. apply sim_raise.
      - cbn [fit ren step] in *. eapply sim_bind; [apply sim_attempt; one V| |].
        + intros r r' Q. destruct r, r'; cbn [rrel] in Q; try contradiction; subst; [now apply sim_ret|one V].
        + intros r. destruct r; grw.
      - cbn [fit ren step] in *. eapply sim_bind; [one V| |intros; grw]. intros vs vs' <-.
        eapply sim_bind; [apply sim_log| |intros; grw]. intros _ _ _. now apply sim_ret.
    Qed.
    Definition fill_args (w : expr -> EM val) (fills : list (string * arg)) : nat -> list string -> EM (list aval) :=
      fix args (j : nat) (ps : list string) : EM (list aval) :=
      match ps with
      | [] => ret []
      | p :: ps' =>
          match assoc p fills with
          | Some a => v <== ev_arg w a ;; vs <== args j ps' ;; ret (v :: vs)
          | None => v <== (fun s => Done (scope_get (dollar j) (s_scopes s)) s) ;; vs <== args (S j) ps' ;; ret (AV v :: vs)
          end
      end.
    Lemma fill_cons w fills j p ps : fill_args w fills j (p :: ps) =
          match assoc p fills with
          | Some a => v <== ev_arg w a ;; vs <== fill_args w fills j ps ;; ret (v :: vs)
          | None => v <== (fun s => Done (scope_get (dollar j) (s_scopes s)) s) ;; vs <== fill_args w fills (S j) ps ;; ret (AV v :: vs)
          end.
    Proof. reflexivity. Qed.
    Lemma gr_fill fills j ps : gr (fill_args ev fills j ps).
    Proof.
      revert j. induction ps as [|p ps IH]; intros j; [apply (pres_ret G G_closed)|]; rewrite fill_cons. destruct (assoc p fills).
      - apply (pres_bind G G_closed); [grw|]. intros v. apply (pres_bind G G_closed); [apply IH|]. intros; grw.
      - apply (pres_bind G G_closed); [grw|]. intros v. apply (pres_bind G G_closed); [apply IH|]. intros; grw.
    Qed.
    Lemma assoc_fills b p fills : assoc p (map (fun x : string * arg => (fst x, rna b (snd x))) fills) = option_map (rna b) (assoc p fills).
    Proof. induction fills as [|[q a] l IH]; cbn; [reflexivity|]. destruct (String.eqb p q); [reflexivity|exact IH]. Qed.
    Lemma assoc_snd {A} (P : A -> bool) p (l : list (string * A)) a : forallb (fun x => P (snd x)) l = true -> assoc p l = Some a -> P a = true.
    Proof.
      induction l as [|[q x] l IH]; cbn; [discriminate|]. intros H. apply andb_prop in H. destruct H as [H1 H2].
      destruct (String.eqb p q); [intros [= <-]; exact H1|now apply IH].
    Qed.
    Lemma sim_fill b k d fills j ps : valid b k -> forallb (fun x => fitsa b (snd x)) fills = true ->
      sim k d (Forall2 (qarg b)) (fill_args ev fills j ps) (fill_args ev' (map (fun x => (fst x, rna b (snd x))) fills) j ps).
    Proof.
      intros V H. revert j. induction ps as [|p ps IH]; intros j; [apply (sim_ret k d _ [] []); constructor|].
      rewrite !fill_cons, assoc_fills. destruct (assoc p fills) as [a|] eqn:Ea; cbn [option_map].
      - eapply sim_bind; [apply (sim_arg b); [exact V|exact (assoc_snd _ _ _ _ H Ea)]| |].
        + intros v v' Q. eapply sim_bind; [apply IH| |intros; grw]. intros l l' Ql. apply sim_ret. now constructor.
        + intros v. apply (pres_bind G G_closed); [apply gr_fill|intros; grw].
      - eapply (sim_bind k d eq); [apply sim_get; right; eauto| |].
        + intros v v' <-. eapply sim_bind; [apply IH| |intros; grw]. intros l l' Ql. apply sim_ret. constructor; [reflexivity|exact Ql].
        + intros v. apply (pres_bind G G_closed); [apply gr_fill|intros; grw].
    Qed.
    Lemma own_dollars i m x : In x (dollars i m) -> given x = false.
    Proof. revert i. induction m as [|m IH]; intros i; cbn; [tauto|]. intros [<-|I]; [apply Hdollar|eauto]. Qed.
    Lemma vals_qarg b vs : Forall2 (qarg b) (map AV vs) (map AV vs).
    Proof. induction vs; cbn; constructor; auto. reflexivity. Qed.
    Theorem sim_step_app b k d a vs : valid b k -> fitsa b a = true -> sim k d eq (step_app E ev app a vs) (step_app E' ev' app' (rna b a) vs).
    Proof.
      intros V H. destruct a as [e|ps body|f|f fills]; cbn [fit_arg ren_arg step_app] in *.
      - apply sim_raise.
      - now apply sim_body.
      - eapply sim_bind; [apply sim_trace| |].
        + intros _ _ _. destruct (Hfn f H) as [(ps & body & A & A' & Fb)|(A & A0 & A')].
          * rewrite A, A'. now apply sim_body.
          * rewrite A0, A, A', L_ref. apply (sim_lib b k d [] _ _); auto; [apply vals_qarg|]. apply (pl_quietref E PL).
        + intros _. destruct (assoc f (e_fcns E)) as [[ps body]|]; grw.
      - apply andb_prop in H. destruct H as [Hf H].
        change (sim k d eq
          (in_frame (frame_let (zip_dict (dollars 0 (length vs)) vs) [])
             (avs <== fill_args ev fills 0 (match assoc f (e_fcns E) with Some (ps, _) => ps | None => e_libparams E f end) ;;
              _ <== modify (add_trace f) ;;
              in_frame [] (match assoc f (e_fcns E) with
                           | Some (ps, body) => in_frame (frame_let (zip_dict ps (map plain avs)) []) (run ev body)
                           | None => run_lib E ev app [] avs (e_libref E f avs)
                           end)))
          (in_frame (frame_let (zip_dict (dollars 0 (length vs)) vs) [])
             (avs <== fill_args ev' (map (fun x => (fst x, rna b (snd x))) fills) 0
                        (match assoc (c_fcn C f) (e_fcns E') with Some (ps, _) => ps | None => e_libparams E' (c_fcn C f) end) ;;
              _ <== modify (add_trace (c_fcn C f)) ;;
              in_frame [] (match assoc (c_fcn C f) (e_fcns E') with
                           | Some (ps, body) => in_frame (frame_let (zip_dict ps (map plain avs)) []) (run ev' body)
                           | None => run_lib E' ev' app' [] avs (e_libref E' (c_fcn C f) avs)
                           end)))).
        assert (Y : forall avs : list aval, gr (_ <== modify (add_trace f) ;;
              in_frame [] (match assoc f (e_fcns E) with
                           | Some (ps, body) => in_frame (frame_let (zip_dict ps (map plain avs)) []) (run ev body)
                           | None => run_lib E ev app [] avs (e_libref E f avs)
                           end))).
        { intros avs. apply (pres_bind G G_closed); [grw|]. intros _. destruct (assoc f (e_fcns E)) as [[ps body]|]; grw. }
        apply sim_frame; [apply free_let2; [|apply free_nil]; intros x I; apply zip_keys in I; now apply own_dollars in I|].
        destruct (Hfn f Hf) as [(ps & body & A & A' & Fb)|(A & A0 & A')].
        + eapply sim_bind; [rewrite A, A'; apply (sim_fill b); auto| |exact Y]. intros avs avs' Q.
          eapply sim_bind; [apply sim_trace| |]; [|intros _; rewrite A; grw].
          intros _ _ _. rewrite A, A'. apply sim_frame; [apply free_nil|]. rewrite <- (qarg_plain b _ _ Q). now apply sim_body.
        + eapply sim_bind; [rewrite A0, A, A', L_params; apply (sim_fill b); auto| |exact Y]. intros avs avs' Q.
          eapply sim_bind; [apply sim_trace| |]; [|intros _; rewrite A; grw].
          intros _ _ _. rewrite A0, A, A', L_ref. apply sim_frame; [apply free_nil|].
          rewrite (pl_blindref E PL f _ _ (qarg_same _ _ _ Q)). apply (sim_lib b k (S (S d)) [] _ _); auto. apply (pl_quietref E PL).
    Qed.
  End Step.

  (** with enough fuel for the code that is called on emitting, more than the code itself needs *)
  Theorem sim_eval n : (forall b k d e, valid b k -> fits b e = true -> sim k d eq (eval E n e) (eval E' (n + N) (rn b e))) /\
    (forall b k d a vs, valid b k -> fitsa b a = true -> sim k d eq (apply E n a vs) (apply E' (n + N) (rna b a) vs)).
  Proof.
    induction n as [|n [IH1 IH2]].
    - split; intros; apply sim_fuel.
    - destruct (pres_eval G G_closed E n) as [G1 G2]. split; intros; cbn [eval apply Nat.add].
      + apply sim_step; auto; lia.
      + apply sim_step_app; auto; lia.
  Qed.
  Theorem sim_exec n b k d es : valid b k -> forallb (fits b) es = true -> sim k d eq (run (eval E n) es) (run (eval E' (n + N)) (map (rn b) es)).
  Proof.
    intros V H. apply sim_run; auto; [apply sim_eval|]. apply (pres_eval G G_closed E n).
  Qed.
End Sim.
