(** From matching to the types of the parameters and of the result. *)
From Verif Require Import Base Effects ScopeModel TypeModel TypeSpec TypeProofs TypeProofs2 TypeProps VersionModel SigModel SigSpec SigProofs.
From Coq Require Import Permutation Lia.
Open Scope string_scope.
Open Scope list_scope.
Open Scope nat_scope.

Lemma tys_eqb_eq : forall xs ys, tys_eqb xs ys = true -> xs = ys.
Proof.
  induction xs as [|x xs IH]; intros [|y ys] H; cbn [tys_eqb] in H; try discriminate; [reflexivity|].
  apply andb_prop in H as [H1 H2]. apply ty_eqb_eq in H1. apply IH in H2. congruence.
Qed.
Lemma fcn_eqb_eq f g : fcn_eqb f g = true -> f = g.
Proof.
  unfold fcn_eqb. intros H. apply andb_prop in H as [H1 H2]. apply tys_eqb_eq in H1. apply ty_eqb_eq in H2. destruct f, g. cbn in *. congruence.
Qed.
Lemma vals_of_spec cs ts : vals_of cs = Some ts -> cs = map PVal ts.
Proof.
  revert ts. induction cs as [|c cs IH]; intros ts H; cbn in H; [injection H as <-; reflexivity|].
  destruct c as [t|]; [|discriminate]. destruct (vals_of cs) as [ts'|] eqn:E; unfold vals_of in E; rewrite E in H; [|discriminate]. injection H as <-. cbn. f_equal. now apply IH.
Qed.
Lemma vals_of_some t cs : In (PVal t) cs -> match vals_of cs with Some ts => In t ts | None => True end.
Proof.
  intros H. destruct (vals_of cs) as [ts|] eqn:E; [|exact I]. apply vals_of_spec in E. subst. apply in_map_iff in H as (x & Hx & H). congruence.
Qed.
Lemma fcns_of_spec cs fs : fcns_of cs = Some fs -> cs = map (fun f => PFcn (fst f) (snd f)) fs.
Proof.
  revert fs. induction cs as [|c cs IH]; intros fs H; cbn in H; [injection H as <-; reflexivity|].
  destruct c as [|ps r]; [discriminate|]. destruct (fcns_of cs) as [fs'|] eqn:E; unfold fcns_of in E; rewrite E in H; [|discriminate]. injection H as <-. cbn. f_equal. now apply IH.
Qed.
Lemma filter_all {A} (f : A -> bool) l : (forall x, In x l -> f x = true) -> filter f l = l.
Proof. induction l as [|x l IH]; intros H; [reflexivity|]. cbn. rewrite (H x (or_introl eq_refl)). f_equal. apply IH. intros. apply H. now right. Qed.

Section Resolve.
  Variable D : defs.
  Variable sizes : string -> nat.
  Variable symbols : string -> list string.
  Hypothesis DOC : document D sizes symbols.
  Notation docp := (doc_ptype sizes symbols).
  Notation doct := (doc_type sizes symbols).

  Lemma doc_good ts : Forall doct ts -> good_candidates ts.
  Proof using.
    intros H. rewrite Forall_forall in H. split.
    - intros c [Hc _]. destruct (H c Hc) as (A & B & _). now split.
    - assert (Q : forall t x, In t (filter (fun t => negb (is_exc t)) ts) -> In x (parts t) -> exists t, doct t /\ In x (parts t)).
      { intros t x Ht Hx. apply filter_In in Ht as [Ht _]. exists t. split; [now apply H|exact Hx]. }
      split; intros n s r H1 H2; apply in_flat_map in H1 as (t1 & A1 & B1); apply in_flat_map in H2 as (t2 & A2 & B2);
        destruct (Q _ _ A1 B1) as (u1 & (_ & _ & F1 & E1) & P1); destruct (Q _ _ A2 B2) as (u2 & (_ & _ & F2 & E2) & P2).
      + now rewrite (F1 _ _ P1), (F2 _ _ P2).
      + now rewrite (E1 _ _ P1), (E2 _ _ P2).
  Qed.
  Lemma broadest_ptype_covers ms t : (forall a, In a ms -> docp a /\ a <> PVal TExc) -> broadest_ptype D fcn_eqb ms = Ok t ->
    wfp t /\ forall a, In a ms -> covers D t a.
  Proof using DOC.
    intros Hm H. unfold broadest_ptype in H. rewrite filter_all in H.
    2:{ intros a Ha. destruct (Hm a Ha) as [_ N]. destruct a as [u|]; [destruct u; congruence || reflexivity|reflexivity]. }
    destruct (vals_of ms) as [ts|] eqn:E.
    - apply vals_of_spec in E. subst ms. destruct (broadestType D ts) as [t'|e] eqn:Eb; [|discriminate]. injection H as <-.
      assert (Ft : Forall doct ts).
      { apply Forall_forall. intros u Hu. destruct (Hm (PVal u)) as [Hd N]; [now apply in_map|]. apply docp_inv; [exact Hd|congruence]. }
      destruct (C12_accepts_all D ts t' (proj1 DOC) (doc_good ts Ft) Eb) as (Wt & Ut & Ha). split; [now split|].
      intros a Hin. apply in_map_iff in Hin as (u & <- & Hu). cbn [covers]. apply Ha. split; [exact Hu|].
      intros ->. destruct (Hm (PVal TExc)); [now apply in_map|congruence].
    - destruct (fcns_of ms) as [fs|] eqn:Ef; [|discriminate]. apply fcns_of_spec in Ef. subst ms. destruct fs as [|f fs]; [discriminate|].
      destruct (forallb (fcn_eqb f) fs) eqn:Ea; [|discriminate]. injection H as <-. split; [exact I|]. rewrite forallb_forall in Ea.
      intros a Hin. destruct Hin as [<-|Hin]; [cbn; now split|]. apply in_map_iff in Hin as (g & <- & Hg). apply Ea, fcn_eqb_eq in Hg. subst. cbn. now split.
  Qed.
  Lemma determine_all_spec ld asg : determine_all D ld = Ok asg -> forall l,
    match assoc l ld with None => assoc l asg = None | Some d => exists t, determine D d = Ok t /\ assoc l asg = Some t end.
  Proof using.
    revert asg. induction ld as [|[k d] ld IH]; intros asg H l; cbn [determine_all] in H; [injection H as <-; reflexivity|].
    destruct (determine D d) as [t|e] eqn:Ed; [|discriminate]. cbn [rbind] in H. destruct (determine_all D ld) as [rest|e] eqn:Er; [|discriminate].
    injection H as <-. cbn [assoc]. destruct (String.eqb l k); [eauto|now apply IH].
  Qed.
  Lemma determine_broadest d t : determine D d = Ok t -> broadest_ptype D fcn_eqb (members d) = Ok t.
  Proof using.
    unfold determine. destruct (broadest_ptype D fcn_eqb (members d)) as [o|]; [|discriminate]. cbn [rbind].
    destruct (expectedFields d) as [ss|]; [|tauto]. destruct o as [u|]; [|discriminate]. destruct u; try discriminate. destruct (list_eq_dec _ _ _); [tauto|discriminate].
  Qed.
  (** the labels that occur stand for something that covers all of their members *)
  Definition solves (asg : list (string * ptype)) (ld : labels) : Prop :=
    forall l d, assoc l ld = Some d -> exists t, assoc l asg = Some t /\ wfp t /\ forall a, In a (members d) -> covers D t a.
  Lemma determine_all_solves ld asg : Inv sizes symbols ld -> determine_all D ld = Ok asg -> solves asg ld.
  Proof using DOC.
    intros I0 H l d Hl. pose proof (determine_all_spec ld asg H l) as Q. rewrite Hl in Q. destruct Q as (t & Ht & Ha). exists t. split; [exact Ha|].
    apply broadest_ptype_covers; [|now apply determine_broadest]. intros a Hin. eapply I0; eassumption.
  Qed.
  Notation stands := (stands D false).
  Lemma solves_stands asg ld r l a : solves asg ld -> Wld ld r l a -> stands (fun l => assoc l asg) r l a.
  Proof using. intros S0 (d & Hd & Ha). destruct (S0 l d Hd) as (t & A & B & C). exists t. split; [exact A|]. split; [exact B|]. cbn [andb]. auto. Qed.

  Lemma fits_acc a b : wf a -> wf b -> (accepts D D a b = true <-> fits all_names a b).
  Proof using DOC. intros. apply accepts_fits; auto. apply DOC. Qed.
  Lemma plain_wf p t : plain p t -> wf t /\ uniq t.
  Proof using. now destruct 1. Qed.
  Lemma uniq_array t : uniq (TArray t) <-> uniq t.
  Proof using. reflexivity. Qed.
  Lemma assign_spec asg i E : forall p s a, docp a -> matches D i (stands (fun l => assoc l asg)) E s false p a ->
    exists t, assign p a asg = Ok t /\ param_type (fun l => assoc l asg) p a t /\ wfp t /\ covers D t a.
  Proof using DOC.
    assert (Num : forall p t, plain p t -> forall s u, matches D i (stands (fun l => assoc l asg)) E s false p (PVal u) ->
      param_type (fun l => assoc l asg) p (PVal u) (PVal t) /\ wfp (PVal t) /\ covers D (PVal t) (PVal u)).
    { intros p t Hp s u Hm. split; [now constructor|]. split; [now apply (plain_wf p)|]. cbn [covers].
      assert (Wu : wf u /\ fits all_names t u).
      { inversion Hm; subst; no_plain.
        - match goal with H : plain p u |- _ => inversion H; subst end; inversion Hp; subst; (split; [exact I|now apply fit_prim]).
        - match goal with H : plain p ?u0 |- _ => assert (u0 = t) by (inversion H; subst; inversion Hp; reflexivity) end. subst.
          split; [match goal with H : widens _ _ |- _ => destruct H; exact I end|now apply fit_num]. }
      apply fits_acc; [now apply (plain_wf p)| |]; apply Wu. }
    assert (Same : forall t, docp (PVal t) -> t <> TExc -> wfp (PVal t) /\ covers D (PVal t) (PVal t)).
    { intros t Hd N. apply docp_inv in Hd; [|exact N]. destruct Hd as (A & B & _). split; [now split|]. cbn [covers]. apply C10_refl; [apply DOC|exact A]. }
    induction p using pat_induct; intros s' a Ha Hm.
    1-8: destruct a as [u|ps q]; [|inversion Hm];
       match goal with |- exists t, assign ?p _ _ = _ /\ _ => 
         let t := match p with QNull => constr:(TNull) | QBoolean => constr:(TBool) | QInt => constr:(TInt) | QLong => constr:(TLong)
                  | QFloat => constr:(TFloat) | QDouble => constr:(TDouble) | QBytes => constr:(TBytes) | QString => constr:(TString) end in
         exists (PVal t); split; [|apply (Num p t ltac:(constructor) s' u Hm)] end;
       inversion Hm; subst; match goal with H : plain _ _ |- _ => inversion H; subst end;
       try match goal with H : widens _ _ |- _ => inversion H; subst end; reflexivity.
    - inv_match Hm. match goal with Q : matches _ _ _ _ s' false p (PVal t) |- _ => rename Q into Q0 end.
      assert (Ht : docp (PVal t)) by (apply docp_doc, doc_array, docp_inv; [exact Ha|discriminate]).
      destruct (IHp s' (PVal t) Ht Q0) as (t' & A & B & C & Hc). destruct t' as [t'|]; [|destruct Hc].
      exists (PVal (TArray t')). cbn [assign]. rewrite A. split; [reflexivity|]. split; [now apply pt_array|]. split; [exact C|].
      cbn [covers] in *. assert (Wt : wf t) by (apply docp_inv in Ha; [apply Ha|discriminate]). apply fits_acc in Hc; [|apply C|exact Wt]. apply fits_acc; [apply C|exact Wt|now apply fit_array].
    - inv_match Hm. match goal with Q : matches _ _ _ _ s' false p (PVal t) |- _ => rename Q into Q0 end.
      assert (Ht : docp (PVal t)) by (apply docp_doc, doc_map, docp_inv; [exact Ha|discriminate]).
      destruct (IHp s' (PVal t) Ht Q0) as (t' & A & B & C & Hc). destruct t' as [t'|]; [|destruct Hc].
      exists (PVal (TMap t')). cbn [assign]. rewrite A. split; [reflexivity|]. split; [now apply pt_map|]. split; [exact C|].
      cbn [covers] in *. assert (Wt : wf t) by (apply docp_inv in Ha; [apply Ha|discriminate]). apply fits_acc in Hc; [|apply C|exact Wt]. apply fits_acc; [apply C|exact Wt|now apply fit_map].
    - assert (Q : exists t, a = PVal t /\ t <> TExc) by (inv_match Hm; eexists; (split; [reflexivity|discriminate || assumption])).
      destruct Q as (t & -> & N). exists (PVal t). split; [destruct t; try reflexivity; congruence|]. split; [apply pt_union|now apply Same].
    - assert (Q : exists n k, a = PVal (TFixed n k)) by (inv_match Hm; eauto). destruct Q as (n & k & ->). eexists. split; [reflexivity|]. split; [apply pt_fixed|apply Same; [exact Ha|discriminate]].
    - assert (Q : exists n k, a = PVal (TEnum n k)) by (inv_match Hm; eauto). destruct Q as (n & k & ->). eexists. split; [reflexivity|]. split; [apply pt_enum|apply Same; [exact Ha|discriminate]].
    - assert (Q : exists n, a = PVal (TRecord n)) by (inv_match Hm; eauto). destruct Q as (n & ->). eexists. split; [reflexivity|]. split; [apply pt_record|apply Same; [exact Ha|discriminate]].
    - inv_match Hm. eexists. split; [reflexivity|]. split; [apply pt_fcn|]. split; [exact I|]. cbn. now split.
    - assert (Q : stands (fun l => assoc l asg) false l a) by (inv_match Hm; assumption). destruct Q as (t & A & B & C). exists t.
      split; [destruct a as [[]|]; cbn [assign]; unfold assigned; now rewrite A|]. split; [now apply pt_wild|now split].
    - assert (Q : stands (fun l => assoc l asg) false l a) by (inv_match Hm; assumption). destruct Q as (t & A & B & C). exists t.
      split; [destruct a as [[]|]; cbn [assign]; unfold assigned; now rewrite A|]. split; [now apply pt_wild_record|now split].
    - assert (Q : stands (fun l => assoc l asg) false l a) by (inv_match Hm; assumption). destruct Q as (t & A & B & C). exists t.
      split; [destruct a as [[]|]; cbn [assign]; unfold assigned; now rewrite A|]. split; [now apply pt_wild_enum|now split].
    - assert (Q : stands (fun l => assoc l asg) false l a) by (inv_match Hm; assumption). destruct Q as (t & A & B & C). exists t.
      split; [destruct a as [[]|]; cbn [assign]; unfold assigned; now rewrite A|]. split; [now apply pt_wild_fixed|now split].
    - assert (Q : stands (fun l => assoc l asg) false l a) by (inv_match Hm; assumption). destruct Q as (t & A & B & C). exists t.
      split; [destruct a as [[]|]; cbn [assign]; unfold assigned; now rewrite A|]. split; [now apply pt_enum_fields|now split].
  Qed.

  Fixpoint ret_union (asg : list (string * ptype)) (qs : list pat) : res (list ty) :=
    match qs with [] => Ok [] | q :: qs' => t <- assign_ret q asg ;; t' <- must_avro t ;; ts <- ret_union asg qs' ;; Ok (t' :: ts) end.
  Lemma assign_ret_union asg qs : assign_ret (QUnion qs) asg = (ts <- ret_union asg qs ;; u <- make_union ts ;; Ok (PVal u)).
  Proof using.
    cbn [assign_ret]. f_equal. induction qs as [|q qs IH]; [reflexivity|]. cbn [ret_union]. now rewrite IH.
  Qed.
  Lemma assign_ret_spec asg : forall p t, assign_ret p asg = Ok t -> return_type (fun l => assoc l asg) p t.
  Proof using.
    assert (As : forall l t, assigned asg l = Ok t -> assoc l asg = Some t) by (intros l t; unfold assigned; destruct (assoc l asg); congruence).
    induction p using pat_induct; intros t H0; try (cbn in H0; injection H0 as <-; apply rt_plain; constructor).
    - cbn [assign_ret] in H0. destruct (assign_ret p asg) as [[t1|]|] eqn:E; try discriminate. cbn in H0. injection H0 as <-. now apply rt_array, IHp.
    - cbn [assign_ret] in H0. destruct (assign_ret p asg) as [[t1|]|] eqn:E; try discriminate. cbn in H0. injection H0 as <-. now apply rt_map, IHp.
    - rewrite assign_ret_union in H0. destruct (ret_union asg qs) as [ts|] eqn:E; [|discriminate]. cbn [rbind] in H0.
      assert (F : Forall2 (fun q t => return_type (fun l => assoc l asg) q (PVal t)) qs ts).
      { clear H0. revert ts E. induction qs as [|q qs IH]; intros ts E; cbn [ret_union] in E; [injection E as <-; constructor|].
        inversion H as [|? ? Hq Hqs]; subst. destruct (assign_ret q asg) as [[t1|]|] eqn:E1; try discriminate. cbn [rbind must_avro] in E.
        destruct (ret_union asg qs) as [ts'|] eqn:E2; [|discriminate]. injection E as <-. constructor; [now apply Hq|now apply IH]. }
      unfold make_union in H0. destruct (negb _); [discriminate|]. destruct (mem _ _); [discriminate|]. injection H0 as <-. now apply rt_union.
    - destruct o; [|discriminate]. cbn in H0. injection H0 as <-. apply rt_fixed.
    - destruct o; [|discriminate]. cbn in H0. injection H0 as <-. apply rt_enum.
    - destruct o; [|discriminate]. cbn in H0. injection H0 as <-. apply rt_record.
    - discriminate.
    - apply rt_wild. now apply As.
    - apply rt_wild_record. now apply As.
    - apply rt_wild_enum. now apply As.
    - apply rt_wild_fixed. now apply As.
    - apply rt_enum_fields. now apply As.
  Qed.

  Lemma Inv_nil : Inv sizes symbols [].
  Proof using. intros l d a H. discriminate. Qed.
  Lemma check_all_spec ps args ld' : length ps = length args -> Forall docp args -> check_all D ps args [] = (Ok true, ld') ->
    Inv sizes symbols ld' /\ Forall2 (fun p a => matches D false (Wld ld') noE false false p a) ps args.
  Proof using DOC.
    intros Hl Ha H.
    assert (G : gives sizes symbols (check_all D ps args) (fun ld => Forall (fun pa => matches D false (Wld ld) noE false false (fst pa) (snd pa)) (combine ps args))).
    { unfold check_all. apply (gives_all sizes symbols (fun pa => check D (fst pa) (snd pa) false false) (fun pa ld => matches D false (Wld ld) noE false false (fst pa) (snd pa))).
      - intros [p a] Hin. apply (check_sound D sizes symbols DOC). rewrite Forall_forall in Ha. apply Ha. now apply in_combine_r in Hin.
      - intros pa _. apply Mt_up. }
    destruct (G _ _ _ Inv_nil H) as (_ & I1 & T). split; [exact I1|]. specialize (T eq_refl). clear -T Hl. revert args Hl T.
    induction ps as [|p ps IH]; intros [|a args] Hl T; try discriminate; constructor.
    - cbn in T. now inversion T.
    - apply IH; [now injection Hl|]. cbn in T. now inversion T.
  Qed.
  Lemma assign_all_spec asg E ps args : Forall docp args -> Forall2 (fun p a => matches D false (stands (fun l => assoc l asg)) E false false p a) ps args ->
    exists ts, assign_all ps args asg = Ok ts /\ length ts = length args /\
    Forall (fun pat_ => let '(p, (a, u)) := pat_ in param_type (fun l => assoc l asg) p a u /\ wfp u /\ covers D u a) (combine ps (combine args ts)).
  Proof using DOC.
    intros Hd F. revert Hd. induction F as [|p a ps args Hm F IH]; intros Hd; [exists []; cbn; auto|].
    inversion Hd as [|? ? Ha Hds]; subst. destruct (assign_spec asg false E p false a Ha Hm) as (t & A & B). destruct (IH Hds) as (ts & A' & L' & B').
    exists (t :: ts). cbn [assign_all]. rewrite A. cbn [rbind]. rewrite A'. split; [reflexivity|]. split; [cbn; now f_equal|]. cbn [combine]. now constructor.
  Qed.
  Lemma sig_accepts_sound s args v ts t : Forall docp args -> sig_accepts D s args v = Ok (Some (ts, t)) ->
    (current (s_life s) v || deprecated (s_life s) v)%bool = true /\ length (s_params s) = length args /\
    exists sigma, good_call D false sigma s args ts t.
  Proof using DOC.
    intros Hd H. unfold sig_accepts in H. destruct (current (s_life s) v || deprecated (s_life s) v)%bool; [|discriminate]. split; [reflexivity|].
    destruct (Nat.eqb_spec (length (s_params s)) (length args)) as [El|]; [|discriminate]. cbn [negb] in H. split; [exact El|].
    destruct (check_all D (map snd (s_params s)) args []) as [[[]|e] ld] eqn:Ec; try discriminate.
    destruct (resolve D s args ld) as [r|e] eqn:Er; [|destruct e; try discriminate; destruct (String.eqb _ _); discriminate]. injection H as ->.
    unfold resolve in Er. destruct (determine_all D ld) as [asg|] eqn:Ed; [|discriminate]. cbn [rbind] in Er.
    apply check_all_spec in Ec; [|now rewrite map_length|exact Hd]. destruct Ec as [I1 F]. pose proof (determine_all_solves ld asg I1 Ed) as Sv.
    exists (fun l => assoc l asg).
    assert (F' : Forall2 (fun p a => matches D false (stands (fun l => assoc l asg)) (fun _ _ => False) false false p a) (map snd (s_params s)) args).
    { eapply Forall2_in_impl; [|exact F]. intros p a _. apply matches_impl; [tauto| |unfold noE; tauto]. intros r l a0. now apply solves_stands. }
    destruct (assign_all_spec asg _ _ _ Hd F') as (ts' & A & Lt & Ft). rewrite A in Er. cbn [rbind] in Er.
    destruct (assign_ret (s_ret s) asg) as [r|] eqn:Ert; [|discriminate]. injection Er as <- <-.
    split; [eapply Forall2_in_impl; [|exact F']; intros p a _; apply matches_impl; tauto|]. split; [exact Lt|]. split; [exact Ft|]. now apply assign_ret_spec.
  Qed.
  (** a raised error comes from finding the common type or from the return type; never from [assign] *)
  Lemma sig_accepts_raise s args v e : Forall docp args -> sig_accepts D s args v = Raise e ->
    (exists ld, check_all D (map snd (s_params s)) args [] = (Raise e, ld)) \/
    (exists ld, check_all D (map snd (s_params s)) args [] = (Ok true, ld) /\
       (determine_all D ld = Raise e \/ exists asg, determine_all D ld = Ok asg /\ assign_ret (s_ret s) asg = Raise e)).
  Proof using DOC.
    intros Hd H. unfold sig_accepts in H. destruct (current (s_life s) v || deprecated (s_life s) v)%bool; [|discriminate].
    destruct (Nat.eqb_spec (length (s_params s)) (length args)) as [El|]; [|discriminate]. cbn [negb] in H.
    destruct (check_all D (map snd (s_params s)) args []) as [[[]|e0] ld] eqn:Ec; try discriminate; [|left; exists ld; congruence].
    right. exists ld. split; [reflexivity|]. unfold resolve in H. destruct (determine_all D ld) as [asg|e1] eqn:Ed.
    - right. exists asg. split; [reflexivity|]. cbn [rbind] in H.
      apply check_all_spec in Ec; [|now rewrite map_length|exact Hd]. destruct Ec as [I1 F]. pose proof (determine_all_solves ld asg I1 Ed) as Sv.
      assert (F' : Forall2 (fun p a => matches D false (stands (fun l => assoc l asg)) (fun _ _ => False) false false p a) (map snd (s_params s)) args).
      { eapply Forall2_in_impl; [|exact F]. intros p a _. apply matches_impl; [tauto| |unfold noE; tauto]. intros r l a0. now apply solves_stands. }
      destruct (assign_all_spec asg _ _ _ Hd F') as (ts' & A & _). rewrite A in H. cbn [rbind] in H.
      destruct (assign_ret (s_ret s) asg) as [r|e1]; [discriminate|]. cbn [rbind] in H. destruct e1; try congruence. destruct (String.eqb _ _); congruence.
    - left. cbn [rbind] in H. destruct e1; try congruence. destruct (String.eqb _ _); congruence.
  Qed.
End Resolve.
