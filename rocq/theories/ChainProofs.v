(** A chained engine does what its engines do one after the other. *)
From Verif Require Import Base ScopeModel ScopeProofs CoreModel EngineModel CoreFuel CoreInd CoreInv ChainModel ChainSpec ChainNames ChainSim.
From Verif Require EngineProofs.
Open Scope string_scope.
Open Scope list_scope.
Open Scope Z_scope.

(** *** What a step leaves alone *)
(** names of the [k] steps from step [i] on *)
Definition mine (i k : nat) (x : string) : Prop := exists j nm y, (i <= j < i + k)%nat /\ x = (label j nm ++ y)%string.
Record keeps (i k : nat) (s s2 : st) : Prop := {
  k_cells : forall c, ~ mine i k c -> assoc c (s_cells s2) = assoc c (s_cells s);
  k_pools : forall c, ~ mine i k c -> assoc c (s_pools s2) = assoc c (s_pools s);
  k_started : s_started s2 = s_started s;
  k_finished : s_finished s2 = s_finished s }.
Lemma keeps_refl i k s : keeps i k s s.
Proof. split; auto. Qed.
Lemma keeps_trans i k a b c : keeps i k a b -> keeps i k b c -> keeps i k a c.
Proof. intros [A1 A2 A3 A4] [B1 B2 B3 B4]. split; intros; try congruence; rewrite ?B1, ?B2 by auto; auto. Qed.
Lemma keeps_more i k i' k' a b : (i' <= i)%nat -> (i + k <= i' + k')%nat -> keeps i k a b -> keeps i' k' a b.
Proof.
  intros H1 H2 [A1 A2 A3 A4].
  split; auto; intros c N; [apply A1|apply A2]; intros (j & nm & y & Hj & E); apply N; exists j, nm, y; split; auto; lia.
Qed.
Lemma mine_label i k j nm x : ~ (i <= j < i + k)%nat -> ~ mine i k (label j nm ++ x).
Proof. intros H (j' & nm' & y & Hj & E). apply label_index in E. subst. tauto. Qed.
Lemma mine_given i k x : In x engine_names -> ~ mine i k x.
Proof. intros H (j & nm & y & _ & E). apply (label_given j nm y x); [exact H|]. now symmetry. Qed.

Lemma holds_keeps j k i p s a b : ~ (j <= i < j + k)%nat -> keeps j k a b -> holds i p s a -> holds i p s b.
Proof.
  intros N K [H1 H2]. split; intros c.
  - rewrite (k_cells _ _ _ _ K) by (now apply mine_label). apply H1.
  - rewrite (k_pools _ _ _ _ K) by (now apply mine_label). apply H2.
Qed.
Lemma holds_all_keeps j k i ps ss a b : (j + k <= i)%nat -> keeps j k a b -> holds_all i ps ss a -> holds_all i ps ss b.
Proof.
  revert i ss. induction ps as [|p ps IH]; intros i [|s ss]; cbn; auto. intros Hj K [H1 H2]. split.
  - eapply (holds_keeps j k); [lia|exact K|exact H1].
  - apply (IH (S i)); [lia|exact K|exact H2].
Qed.
Lemma holds_eq i p s s2 a b : s_cells s2 = s_cells s -> s_pools s2 = s_pools s -> s_cells b = s_cells a -> s_pools b = s_pools a ->
  holds i p s a -> holds i p s2 b.
Proof. intros E1 E2 E3 E4 [H1 H2]. split; intros c; rewrite ?E1, ?E2, ?E3, ?E4; auto. Qed.

Lemma plain_with L fcns : plain_lib L -> plain_lib (with_fcns L fcns).
Proof. intros [H1 H2 H3 H4 H5 H6]. split; auto. Qed.
Lemma res_eq {A} (r r' : res A) : rrel eq r r' -> r = r'.
Proof. destruct r, r'; cbn; try tauto; congruence. Qed.

Section Steps.
  Variable L : env.
  Hypothesis PL : plain_lib L.
  Variable fcns : list (string * (list string * list expr)).
  Notation E' := (with_fcns L fcns).
  Notation En p := (with_fcns L (f_fcns p)).

  (** the functions of a step are found in the chain *)
  Definition found (i : nat) (p : pfa) (next : option string) : Prop :=
    forall f ps body, In (f, (ps, body)) (f_fcns p) ->
      assoc (prefix_def i (f_name p) f) fcns = Some (ps, map (ren (ctx_of i p next) no_refs) body).

  Section One.
    Variables (i : nat) (p : pfa) (next : option string).
    Notation C := (ctx_of i p next).
    Variables (own given known fn : string -> bool) (vals : string -> val) (pad : list frame) (f0 : frame).
    Variable Rest : st -> st -> Prop.
    Variable pre : list val -> Prop.
    Variable N : nat.
    Hypothesis Hown : forall x, own x = true -> given x = false.
    Hypothesis Hdollar : forall j, given (dollar j) = false.
    Hypothesis Hpad : forall f, In f pad -> f = [].
    Hypothesis Hgiven : forall x, given x = true -> In x engine_names.
    Hypothesis Hdict : dicts p.
    Hypothesis Hfound : found i p next.
    Variable code : list expr.
    Hypothesis Hmov : movable own given known fn (f_fcns p) code.
    Hypothesis pre_closed : forall l t, pre (l ++ t) -> pre l.
    Hypothesis rest_scopes : forall s s' a b, Rest s s' -> Rest (set_scopes a s) (set_scopes b s').
    Hypothesis rest_cell : forall s s' a c y, Rest s s' -> Rest (set_cells a s) (set_cells (dict_set (prefix_cell i (f_name p) c) y (s_cells s')) s').
    Hypothesis rest_pool : forall s s' a c y, Rest s s' -> Rest (set_pools a s) (set_pools (dict_set (prefix_pool i (f_name p) c) y (s_pools s')) s').
    Hypothesis rest_trace : forall s s' f g, Rest s s' -> Rest (add_trace f s) (add_trace g s').
    Hypothesis rest_log : forall s s' l, Rest s s' -> Rest (add_log l s) (add_log l s').
    Notation RR := (R C own given known vals pad f0 Rest).
    Hypothesis Hemit_def : fn "emit" = true -> match c_emit C with None => True | Some g => has_key g (e_fcns E') = true end.
    Hypothesis Hemit : fn "emit" = true -> forall k d n s s' v, (N <= n)%nat -> RR k d s s' -> pre (s_emitted s ++ [v]) ->
      exists s2', emit_code E' C n v s' = Done (Ok VNull) s2' /\ RR k d (add_emitted v (add_trace "emit" s)) s2'.
    Lemma found_fn f : fn f = true ->
      (exists ps body, assoc f (e_fcns (En p)) = Some (ps, body) /\ assoc (c_fcn C f) (e_fcns E') = Some (ps, map (ren C no_refs) body)
                     /\ fit_fcn own given known fn (ps, body) = true)
      \/ (assoc f (e_fcns (En p)) = None /\ c_fcn C f = f /\ assoc f (e_fcns E') = None).
    Proof.
      intros Hf. cbn [with_fcns e_fcns c_fcn ctx_of]. unfold prefix_ref. destruct (strip_u f) as [x|] eqn:Ef.
      - apply strip_u_Some in Ef. subst f. left. pose proof (mv_decl _ _ _ _ _ _ Hmov x Hf) as I. apply in_map_iff in I.
        destruct I as ([y [ps body]] & <- & I). cbn [fst] in *. exists ps, body. rewrite !assoc_pref. split; [|split].
        + apply assoc_In; [apply Hdict|exact I].
        + apply (Hfound y ps body I).
        + exact (mv_fcns _ _ _ _ _ _ Hmov y ps body I Hf).
      - right. split; [now apply assoc_nopref|]. split; [reflexivity|now apply assoc_nopref].
    Qed.
    Lemma step_sim n s s' r s2 : RR Act 0 s s' -> run (eval (En p) n) code s = Done r s2 -> pre (s_emitted s2) ->
      exists s2', run (eval E' (n + N)) (map (ren C given) code) s' = Done r s2' /\ RR Act 0 s2 s2'.
    Proof.
      intros HR Hr Hp.
      pose proof (sim_exec (En p) E' C own given known fn vals pad f0 Rest pre N Hown Hdollar Hpad eq_refl eq_refl eq_refl eq_refl eq_refl
                   eq_refl eq_refl eq_refl (plain_with L _ PL) found_fn) as X.
      destruct (fun a b c d e f => X a b c d pre_closed rest_scopes rest_cell rest_pool rest_trace rest_log e f n true Act 0%nat code
                 (fun _ => eq_refl) (mv_code _ _ _ _ _ _ Hmov) s s' r s2 HR Hr Hp) as (r' & s2' & X1 & X2 & X3).
      - now apply assoc_nopref.
      - intros c c2 H. exact (append_inj _ _ _ H).
      - intros c c2 H. exact (append_inj _ _ _ H).
      - intros c x Hx. apply (label_given i (f_name p) c x). now apply Hgiven.
      - intros Hf. specialize (Hemit_def Hf). destruct (c_emit C); [exact Hemit_def|]. now apply assoc_nopref.
      - exact Hemit.
      - apply res_eq in X2. subst r'. eauto.
    Qed.
  End One.

  (** *** Actions *)
  Variables (nm inst meta : val) (o : options).
  Hypothesis Ho : unlimited o.
  Notation D p := (doc_of nm inst meta o p).
  Definition eng (p : pfa) : engine := (En p, D p).
  Definition vals (a b : Z) (x : string) : val :=
    match assoc x [("name", nm); ("instance", inst); ("metadata", meta); ("actionsStarted", VInt a); ("actionsFinished", VInt b)] with
    | Some v => v
    | None => VNull
    end.
  Definition glob (cnt : bool) (a b : Z) (s' : st) : Prop :=
    forall x, among engine_names x = true -> known cnt x = true -> exists c, assoc x (s_cells s') = Some c /\ c_value c = vals a b x.
  Lemma glob_eq cnt a b s s2 : s_cells s2 = s_cells s -> glob cnt a b s -> glob cnt a b s2.
  Proof. intros E H x H1 H2. rewrite E. auto. Qed.
  Lemma among_In l x : among l x = true -> In x l.
  Proof. unfold among. rewrite existsb_exists. intros (y & I & E). apply String.eqb_eq in E. now subst. Qed.
  Lemma glob_keeps cnt a b i k s s2 : keeps i k s s2 -> glob cnt a b s -> glob cnt a b s2.
  Proof. intros K H x H1 H2. rewrite (k_cells _ _ _ _ K); [auto|]. apply mine_given. now apply among_In. Qed.
  Lemma own_given x : own_act x = true -> among engine_names x = false.
  Proof. unfold own_act. destruct (among engine_names x); [discriminate|reflexivity]. Qed.
  Lemma dollar_own j : among engine_names (dollar j) = false.
  Proof. reflexivity. Qed.
  Lemma save_like x y : cell_like x y -> cell_like (save_cell x) y.
  Proof. unfold save_cell. intros H. destruct (c_rollback x) eqn:Er; [|exact H]. unfold cell_like in *. cbn. intuition congruence. Qed.
  Lemma save_pool_like x y : pool_like x y -> pool_like (save_pool x) y.
  Proof. unfold save_pool. intros H. destruct (p_rollback x) eqn:Er; [|exact H]. unfold pool_like in *. cbn. intuition congruence. Qed.
  Lemma save_like2 x y : cell_like x y -> cell_like x (save_cell y).
  Proof. unfold save_cell. intros H. destruct (c_rollback y) eqn:Er; [|exact H]. unfold cell_like in *. cbn. intuition congruence. Qed.
  Lemma save_pool_like2 x y : pool_like x y -> pool_like x (save_pool y).
  Proof. unfold save_pool. intros H. destruct (p_rollback y) eqn:Er; [|exact H]. unfold pool_like in *. cbn. intuition congruence. Qed.
  Lemma assoc_map_vals {A B} (f : A -> B) l x : assoc x (map_vals f l) = option_map f (assoc x l).
  Proof. unfold map_vals. induction l as [|[y w] l IH]; cbn; [reflexivity|]. destruct (String.eqb x y); [reflexivity|exact IH]. Qed.
  Lemma holds_prepare i p s s' : holds i p s s' -> holds i p (prepare (En p) (D p) s) s'.
  Proof.
    intros [H1 H2]. split; intros c.
    - specialize (H1 c). change (s_cells (prepare (En p) (D p) s)) with (map_vals save_cell (s_cells s)). rewrite assoc_map_vals. destruct (assoc c (s_cells s)); cbn in *; [|exact H1]. destruct (assoc _ (s_cells s')); [|exact H1]. now apply save_like.
    - specialize (H2 c). change (s_pools (prepare (En p) (D p) s)) with (map_vals save_pool (s_pools s)). rewrite assoc_map_vals. destruct (assoc c (s_pools s)); cbn in *; [|exact H2]. destruct (assoc _ (s_pools s')); [|exact H2]. now apply save_pool_like.
  Qed.
  Definition input_frame (v : val) : frame := frame_let (zip_dict ["input"] [v]) [].
  Lemma start_R cnt a b i p next (Rest : st -> st -> Prop) v s s' : f_method p <> MFold -> holds i p s s' -> glob cnt a b s' -> no_limit s' ->
    (cnt = true -> a = s_started s + 1 /\ b = s_finished s) ->
    let s1 := prepare (En p) (D p) s in
    Rest (set_scopes [action_frame (D p) v s1] s1) (set_scopes [input_frame v; []] s') ->
    R (ctx_of i p next) own_act (among engine_names) (known cnt) (vals a b) [[]] (input_frame v) Rest Act 0
      (set_scopes [action_frame (D p) v s1] s1) (set_scopes [input_frame v; []] s').
  Proof.
    intros Hm H G T Hc s1 HR. destruct (holds_prepare _ _ _ _ H) as [H1 H2]. split; auto.
    - exists [], [action_frame (D p) v s1], [input_frame v; []]. split; [reflexivity|]. split; [reflexivity|]. split; [reflexivity|].
      split; [constructor|]. exists (action_frame (D p) v s1), (input_frame v). split; [reflexivity|]. split; [reflexivity|].
      assert (X : action_frame (D p) v s1 = [("input", v); ("name", nm); ("instance", inst); ("metadata", meta);
         ("actionsStarted", VInt (s_started s + 1)); ("actionsFinished", VInt (s_finished s))]).
      { unfold action_frame, tally_vars. cbn [d_method doc_of]. destruct (f_method p); try congruence; reflexivity. }
      rewrite X. split; [|split].
      + intros x Hx. assert (Hy : among engine_names x = false) by (destruct Hx as [Hx|[j ->]]; [now apply own_given|reflexivity]). clear Hx. rename Hy into Hx. cbn in Hx. cbn. destruct (String.eqb x "input"); [reflexivity|].
        destruct (String.eqb x "name"); [discriminate|]. destruct (String.eqb x "instance"); [discriminate|].
        destruct (String.eqb x "metadata"); [discriminate|]. destruct (String.eqb x "actionsStarted"); [discriminate|].
        destruct (String.eqb x "actionsFinished"); [discriminate|reflexivity].
      + intros x Hg Hk. apply among_In in Hg. cbn in Hg. destruct cnt.
        * destruct (Hc eq_refl) as [-> ->]. repeat destruct Hg as [<-|Hg]; try reflexivity. contradiction.
        * repeat destruct Hg as [<-|Hg]; try reflexivity; try discriminate. contradiction.
      + intros x Hx. reflexivity.
    - cbn. split; [|exact T]. exists (o_action o). split; [reflexivity|exact Ho].
  Qed.

  Lemma keeps_cell i nm' k s0 s c y : (1 <= k)%nat -> keeps i k s0 s -> keeps i k s0 (set_cells (dict_set (label i nm' ++ c)%string y (s_cells s)) s).
  Proof.
    intros Hk [A1 A2 A3 A4]. split; auto. intros c2 Nm. cbn. rewrite assoc_set_neq; [auto|]. intros ->. apply Nm. exists i, nm', c. split; [lia|reflexivity].
  Qed.
  Lemma keeps_pool i nm' k s0 s c y : (1 <= k)%nat -> keeps i k s0 s -> keeps i k s0 (set_pools (dict_set (label i nm' ++ c)%string y (s_pools s)) s).
  Proof.
    intros Hk [A1 A2 A3 A4]. split; auto. intros c2 Nm. cbn. rewrite assoc_set_neq; [auto|]. intros ->. apply Nm. exists i, nm', c. split; [lia|reflexivity].
  Qed.
  Lemma keeps_same i k s0 s s2 : s_cells s2 = s_cells s -> s_pools s2 = s_pools s -> s_started s2 = s_started s -> s_finished s2 = s_finished s ->
    keeps i k s0 s -> keeps i k s0 s2.
  Proof. intros E1 E2 E3 E4 [A1 A2 A3 A4]. split; intros; rewrite ?E1, ?E2, ?E3, ?E4; auto. Qed.

  Lemma map_body cnt a b i p next n v s r s2 s' : action_moves cnt p -> is_emit (f_method p) = false -> found i p next ->
    holds i p s s' -> glob cnt a b s' -> no_limit s' -> (cnt = true -> a = s_started s + 1 /\ b = s_finished s) ->
    let s1 := prepare (En p) (D p) s in
    run (eval (En p) n) (f_action p) (set_scopes [action_frame (D p) v s1] s1) = Done r s2 ->
    exists s2', run (eval E' n) (map (ren (ctx_of i p next) action_refs) (f_action p)) (set_scopes [input_frame v; []] s') = Done r s2' /\
      holds i p s2 s2' /\ keeps i 1 s' s2' /\ s_emitted s2' = s_emitted s' /\ no_limit s2'.
  Proof.
    intros (Hm & Hd & fn & Hmov & He) Em Hf H G T Hc s1 Hr. specialize (He Em).
    set (Rest := fun _ s2' : st => keeps i 1 s' s2' /\ s_emitted s2' = s_emitted s').
    assert (HR : R (ctx_of i p next) own_act (among engine_names) (known cnt) (vals a b) [[]] (input_frame v) Rest Act 0
              (set_scopes [action_frame (D p) v s1] s1) (set_scopes [input_frame v; []] s')).
    { apply start_R; auto. split; [|reflexivity]. apply (keeps_same i 1 s' s'); try reflexivity. apply keeps_refl. }
    destruct (step_sim i p next own_act (among engine_names) (known cnt) fn (vals a b) [[]] (input_frame v) Rest (fun _ => True) 0 own_given dollar_own)
      with (code := f_action p) (n := n) (s := set_scopes [action_frame (D p) v s1] s1) (s' := set_scopes [input_frame v; []] s') (r := r) (s2 := s2)
      as (s2' & X1 & X2); auto; try congruence.
    - intros f [<-|[]]. reflexivity.
    - intros x; apply among_In.
    - intros x x' c c2 [K1 K2]. split; [|exact K2]. now apply (keeps_same i 1 s' x').
    - intros x x' c c2 y [K1 K2]. split; [|exact K2]. now apply keeps_cell.
    - intros x x' c c2 y [K1 K2]. split; [|exact K2]. now apply keeps_pool.
    - intros x x' f g [K1 K2]. split; [|exact K2]. now apply (keeps_same i 1 s' x').
    - intros x x' l [K1 K2]. split; [|exact K2]. now apply (keeps_same i 1 s' x').
    - rewrite Nat.add_0_r in X1. exists s2'. split; [exact X1|]. destruct X2 as [_ C1 C2 _ [_ C3] [C4 C5]]. split; [split; auto|]. auto.
  Qed.

  (** *** Engines one after the other *)
  Lemma one_app n e v1 v2 s : one_engine n e (v1 ++ v2) s =
    match one_engine n e v1 s with
    | Some (o1, s1) => match one_engine n e v2 s1 with Some (o2, s2) => Some (o1 ++ o2, s2) | None => None end
    | None => None
    end.
  Proof.
    revert s. induction v1 as [|v v1 IH]; intros s; cbn [one_engine app].
    - destruct (one_engine n e v2 s) as [[]|]; reflexivity.
    - destruct (action (fst e) (snd e) n v s) as [[r|] s1| |]; try reflexivity. rewrite IH.
      destruct (one_engine n e v1 s1) as [[o1 s2]|]; [|reflexivity]. destruct (one_engine n e v2 s2) as [[o2 s3]|]; [|reflexivity]. now rewrite app_assoc.
  Qed.
  Lemma pipeline_app n es v1 v2 ss : pipeline n es (v1 ++ v2) ss =
    match pipeline n es v1 ss with
    | Some (o1, ss1) => match pipeline n es v2 ss1 with Some (o2, ss2) => Some (o1 ++ o2, ss2) | None => None end
    | None => None
    end.
  Proof.
    revert v1 v2 ss. induction es as [|e es IH]; intros v1 v2 [|s ss]; cbn [pipeline]; try reflexivity. rewrite one_app.
    destruct (one_engine n e v1 s) as [[o1 s1]|]; [|reflexivity]. destruct (one_engine n e v2 s1) as [[o2 s2]|] eqn:E2.
    - rewrite IH. destruct (pipeline n es o1 ss) as [[q1 ss1]|]; [|reflexivity]. cbn [pipeline]. rewrite E2.
      destruct (pipeline n es o2 ss1) as [[q2 ss2]|]; reflexivity.
    - destruct (pipeline n es o1 ss) as [[q1 ss1]|]; [|reflexivity]. cbn [pipeline]. now rewrite E2.
  Qed.
  Lemma pipeline_nil n es ss o1 ss2 : pipeline n es [] ss = Some (o1, ss2) -> o1 = [] /\ ss2 = ss.
  Proof.
    revert ss o1 ss2. induction es as [|e es IH]; intros [|s ss] o' ss2; cbn [pipeline one_engine]; try discriminate.
    - now intros [= <- <-].
    - destruct (pipeline n es [] ss) as [[q1 ss1]|] eqn:E; [|discriminate]. intros [= <- <-]. destruct (IH _ _ _ E) as [-> ->]. auto.
  Qed.
  Lemma pipeline_start n ps ss i s' : holds_all i ps ss s' -> pipeline n (map eng ps) [] ss = Some ([], ss).
  Proof.
    revert ss i. induction ps as [|p ps IH]; intros [|s ss] i; cbn [holds_all map pipeline one_engine]; try tauto. intros [_ H]. now rewrite (IH ss (S i) H).
  Qed.
  (** one call of one engine *)
  Lemma engine_call n p v s r s3 : action (En p) (D p) n v s = Done r s3 ->
    let s1 := prepare (En p) (D p) s in
    exists r2 s2, run (eval (En p) n) (f_action p) (set_scopes [action_frame (D p) v s1] s1) = Done r2 s2 /\
      match r2 with
      | Ok w => f_method p <> MFold -> r = Ok (if is_emit (f_method p) then VNull else w) /\ s_cells s3 = s_cells s2 /\ s_pools s3 = s_pools s2 /\ s_emitted s3 = s_emitted s2 /\
          s_started s3 = s_started s2 /\ s_finished s3 = s_finished s2 + 1
      | Raise e => r = Raise e
      end.
  Proof.
    intros H s1. unfold action in H. cbn [d_check doc_of d_action] in H. unfold in_root, exec in H. fold s1 in H.
    destruct (run (eval (En p) n) (f_action p) (set_scopes [action_frame (D p) v s1] s1)) as [r2 s2| |] eqn:Er; try discriminate.
    exists r2, s2. split; [reflexivity|]. destruct r2 as [w|e]; [|congruence].
    intros Nf. unfold finish in H. cbn [d_method doc_of] in H. destruct (f_method p); try congruence; injection H as <- <-; cbn; auto 10.
  Qed.
  Lemma run_snoc ev es e s w s1 v s2 : run ev es s = Done (Ok w) s1 -> ev e s1 = Done (Ok v) s2 -> run ev (es ++ [e]) s = Done (Ok v) s2.
  Proof.
    unfold run. intros H He.
    assert (X : forall vs, mapE ev es s = Done (Ok vs) s1 -> mapE ev (es ++ [e]) s = Done (Ok (vs ++ [v])) s2).
    { clear H. revert s. induction es as [|x es IH]; intros s vs; cbn [mapE app].
      - intros [= <- ->]. unfold bind. rewrite He. reflexivity.
      - unfold bind. destruct (ev x s) as [[y|] sx| |]; try discriminate. destruct (mapE ev es sx) as [[ys|] sy| |] eqn:Ey; try discriminate.
        intros [= <- ->]. rewrite (IH sx ys Ey). reflexivity. }
    unfold bind in *. destruct (mapE ev es s) as [[vs|] sx| |] eqn:Em; try discriminate. injection H as <- ->. rewrite (X vs eq_refl). unfold ret. f_equal. f_equal.
    clear. induction vs as [|x [|y vs] IH]; cbn in *; auto.
  Qed.

  (** *** Chains that emit *)
  Variable n : nat.
  Notation emits i ps := (holds_all i ps).
  Fixpoint need (ps : list pfa) : nat := match ps with [] => 0 | _ :: ps' => n + need ps' + 3 end.
  Fixpoint looks (whole : method) (i : nat) (ps : list pfa) : Prop :=
    match ps with
    | [] => True
    | p :: ps' => found i p (head_name ps') /\ assoc (prefix_action i (f_name p)) fcns = Some (["input"], step_body whole i p (head_name ps'))
                  /\ looks whole (S i) ps'
    end.
  Definition good (i : nat) (ps : list pfa) : Prop := forall v ss outs ss2 s' n' nm', (need ps <= n')%nat ->
    head_name ps = Some nm' ->
    pipeline n (map eng ps) [v] ss = Some (outs, ss2) -> emits i ps ss s' -> glob false 0 0 s' -> no_limit s' ->
    exists s2', call_user E' (eval E' n') ("u." ++ prefix_action i nm')%string [v] s' = Done (Ok VNull) s2' /\
      emits i ps ss2 s2' /\ keeps i (length ps) s' s2' /\ s_emitted s2' = s_emitted s' ++ outs /\ no_limit s2' /\ s_scopes s2' = s_scopes s'.
  Lemma has_action i nm' ps b : assoc (prefix_action i nm') fcns = Some (ps, b) -> assoc ("u." ++ prefix_action i nm')%string (e_fcns E') = Some (ps, b).
  Proof. intros H. unfold with_fcns. cbn [e_fcns]. now rewrite assoc_pref. Qed.

  Lemma emit_body i p ps v s s' r s2 outs ss ss2 : action_moves false p -> is_emit (f_method p) = true -> found i p (head_name ps) ->
    looks MEmit (S i) ps -> good (S i) ps -> holds i p s s' -> emits (S i) ps ss s' -> glob false 0 0 s' -> no_limit s' ->
    let s1 := prepare (En p) (D p) s in
    run (eval (En p) n) (f_action p) (set_scopes [action_frame (D p) v s1] s1) = Done r s2 ->
    pipeline n (map eng ps) (skipn (length (s_emitted s)) (s_emitted s2)) ss = Some (outs, ss2) ->
    exists s2', run (eval E' (n + need ps)) (map (ren (ctx_of i p (head_name ps)) action_refs) (f_action p)) (set_scopes [input_frame v; []] s') = Done r s2' /\
      holds i p s2 s2' /\ emits (S i) ps ss2 s2' /\ keeps i (S (length ps)) s' s2' /\ s_emitted s2' = s_emitted s' ++ outs /\ no_limit s2'.
  Proof.
    intros (Hm & Hd & fn & Hmov & He) Em Hf Hlk Hgood H Hs G T s1 Hr Hp.
    set (Rest := fun sx s2' : st => keeps i (S (length ps)) s' s2' /\ exists vs o1 ss1, s_emitted sx = s_emitted s ++ vs /\
       pipeline n (map eng ps) vs ss = Some (o1, ss1) /\ emits (S i) ps ss1 s2' /\ s_emitted s2' = s_emitted s' ++ o1).
    assert (HR : R (ctx_of i p (head_name ps)) own_act (among engine_names) (known false) (vals 0 0) [[]] (input_frame v) Rest Act 0
              (set_scopes [action_frame (D p) v s1] s1) (set_scopes [input_frame v; []] s')).
    { apply start_R; auto; [discriminate|]. split; [apply (keeps_same i (S (length ps)) s' s'); try reflexivity; apply keeps_refl|].
      exists [], [], ss. split; [now rewrite app_nil_r|]. split; [eapply pipeline_start; eauto|].
      split; [|now rewrite app_nil_r]. revert Hs. clear. generalize (S i). revert ss. induction ps as [|q ps IH]; intros [|sx ss] j; cbn; auto.
      intros [H1 H2]. split; [now apply (holds_eq j q sx sx s')|now apply IH]. }
    assert (St : forall x x' y y', s_emitted y = s_emitted x -> s_emitted y' = s_emitted x' -> keeps i 1 x' y' -> Rest x x' -> Rest y y').
    { intros x x' y y' E1 E2 K [K1 (vs & o1 & ss1 & P1 & P2 & P3 & P4)]. split.
      - eapply keeps_trans; [exact K1|]. eapply keeps_more; [| |exact K]; lia.
      - exists vs, o1, ss1. rewrite E1, E2. split; [exact P1|]. split; [exact P2|]. split; [|exact P4]. eapply (holds_all_keeps i 1); [lia|exact K|exact P3]. }
    destruct (step_sim i p (head_name ps) own_act (among engine_names) (known false) fn (vals 0 0) [[]] (input_frame v) Rest
                (fun l => exists t, l ++ t = s_emitted s2) (need ps) own_given dollar_own)
      with (code := f_action p) (n := n) (s := set_scopes [action_frame (D p) v s1] s1) (s' := set_scopes [input_frame v; []] s') (r := r) (s2 := s2)
      as (s2' & X1 & X2); auto.
    - intros f [<-|[]]. reflexivity.
    - intros x; apply among_In.
    - intros l t [u E]. exists (t ++ u). now rewrite app_assoc.
    - intros x x' c c2 HX. eapply St; [| | |exact HX]; try reflexivity. apply (keeps_same i 1 x' x'); try reflexivity. apply keeps_refl.
    - intros x x' c c2 y HX. eapply St; [| | |exact HX]; try reflexivity. apply keeps_cell; [lia|]. apply keeps_refl.
    - intros x x' c c2 y HX. eapply St; [| | |exact HX]; try reflexivity. apply keeps_pool; [lia|]. apply keeps_refl.
    - intros x x' f g HX. eapply St; [| | |exact HX]; try reflexivity. apply (keeps_same i 1 x' x'); try reflexivity. apply keeps_refl.
    - intros x x' l HX. eapply St; [| | |exact HX]; try reflexivity. apply (keeps_same i 1 x' x'); try reflexivity. apply keeps_refl.
    - intros _. cbn [ctx_of c_emit]. rewrite Em. destruct ps as [|q ps]; [exact I|]. cbn [head_name option_map]. destruct Hlk as (_ & A & _).
      unfold has_key. now rewrite (has_action _ _ _ _ A).
    - intros _ k d m x x' w Hm' HX [t Ht]. unfold emit_code. cbn [ctx_of c_emit]. rewrite Em. destruct HX as [Z1 Z2 Z3 Z4 [Z5 Z6] [K (vs & o1 & ss1 & P1 & P2 & P3 & P4)]].
      rewrite P1 in Ht. assert (Hv : skipn (length (s_emitted s)) (s_emitted s2) = (vs ++ [w]) ++ t).
      { rewrite <- Ht, <- !app_assoc. rewrite skipn_app, skipn_all, Nat.sub_diag. reflexivity. }
      rewrite Hv, !pipeline_app, P2 in Hp.
      destruct (pipeline n (map eng ps) [w] ss1) as [[o2 ss3]|] eqn:Pw; [|discriminate].
      destruct ps as [|q ps].
      + cbn [head_name option_map]. destruct ss1; [|contradiction]. cbn in Pw. injection Pw as <- <-.
        eexists. split; [reflexivity|]. split; auto.
        split; [apply (keeps_same i (S (length ([] : list pfa))) s' x'); auto|]. exists (vs ++ [w]), (o1 ++ [w]), [].
        cbn. rewrite P1, P4, !app_assoc. split; [reflexivity|]. split; [|auto]. destruct ss; [|discriminate]. cbn in P2 |- *. injection P2 as ->. reflexivity.
      + cbn [head_name option_map]. set (gname := ("u." ++ prefix_action (S i) (f_name q))%string).
        destruct (Hgood w ss1 o2 ss3 (add_trace gname x') m (f_name q) Hm' eq_refl Pw) as (s2' & Y1 & Y2 & Y3 & Y4 & Y5 & Y6); auto.
        { revert P3. clear. generalize (S i). generalize (q :: ps). intros l. revert ss1. induction l as [|p0 l IH]; intros [|sx ss1] j; cbn; auto.
          intros [H1 H2]. split; [now apply (holds_eq j p0 sx sx x')|now apply IH]. }
        exists s2'. split; [exact Y1|]. split.
        * rewrite Y6. exact Z1.
        * intros c. cbn [add_emitted s_cells add_trace]. rewrite (k_cells _ _ _ _ Y3); [exact (Z2 c)|]. apply mine_label. lia.
        * intros c. cbn [add_emitted s_pools add_trace]. rewrite (k_pools _ _ _ _ Y3); [exact (Z3 c)|]. apply mine_label. lia.
        * intros y Hy1 Hy2. rewrite (k_cells _ _ _ _ Y3); [apply (Z4 y Hy1 Hy2)|]. apply mine_given. now apply among_In.
        * auto.
        * split.
          -- eapply keeps_trans; [exact K|]. eapply (keeps_trans _ _ _ (add_trace gname x')).
             ++ apply (keeps_same i _ x' x'); try reflexivity. apply keeps_refl.
             ++ eapply keeps_more; [| |exact Y3]; cbn [length]; lia.
          -- exists (vs ++ [w]), (o1 ++ o2), ss3. cbn [s_emitted add_emitted add_trace]. rewrite P1, Y4. cbn [s_emitted add_trace]. rewrite P4, !app_assoc.
             split; [reflexivity|]. split; [now rewrite pipeline_app, P2, Pw|]. auto.
    - exists []. now rewrite app_nil_r.
    - exists s2'. split; [exact X1|]. destruct X2 as [_ C1 C2 _ [_ C3] [C4 (vs & o1 & ss1 & P1 & P2 & P3 & P4)]].
      assert (Hv : skipn (length (s_emitted s)) (s_emitted s2) = vs) by (rewrite P1, skipn_app, skipn_all, Nat.sub_diag; reflexivity).
      rewrite Hv, P2 in Hp. injection Hp as <- <-. split; [split; auto|]. auto.
  Qed.

  Lemma holds_all_eq i ps ss a b : s_cells b = s_cells a -> s_pools b = s_pools a -> holds_all i ps ss a -> holds_all i ps ss b.
  Proof.
    intros E1 E2. revert i ss. induction ps as [|q ps IH]; intros i [|sx ss]; cbn; auto.
    intros [H1 H2]. split; [now apply (holds_eq i q sx sx a)|now apply IH].
  Qed.
  Lemma eval_call m g ps b body s w s1 : assoc g (e_fcns E') = Some (ps, b) -> run (eval E' m) body s = Done (Ok w) s1 ->
    eval E' (S (S m)) (ECall g [AExpr (EDo body)]) s = call_user E' (eval E' (S m)) g [w] (add_trace g s1).
  Proof. intros A H. cbn [eval step]. rewrite A. cbn [mapE ev_arg eval step]. unfold bind. rewrite H. reflexivity. Qed.
  Lemma eval_call1 m g ps b e s w s1 : assoc g (e_fcns E') = Some (ps, b) -> eval E' m e s = Done (Ok w) s1 ->
    eval E' (S m) (ECall g [AExpr e]) s = call_user E' (eval E' m) g [w] (add_trace g s1).
  Proof.
    intros A H. change (eval E' (S m)) with (step E' m (eval E' m) (apply E' m)). revert H. generalize (eval E' m) as ev, (apply E' m) as app.
    intros ev app H. cbn [step]. rewrite A. cbn [mapE ev_arg]. unfold bind. rewrite H. reflexivity.
  Qed.
  Lemma eval_call1_raise m g ps b e s x s1 : assoc g (e_fcns E') = Some (ps, b) -> eval E' m e s = Done (Raise x) s1 ->
    eval E' (S m) (ECall g [AExpr e]) s = Done (Raise x) s1.
  Proof.
    intros A H. change (eval E' (S m)) with (step E' m (eval E' m) (apply E' m)). revert H. generalize (eval E' m) as ev, (apply E' m) as app.
    intros ev app H. cbn [step]. rewrite A. cbn [mapE ev_arg]. unfold bind. rewrite H. reflexivity.
  Qed.
  Lemma eval_call_raise m g ps b body s e s1 : assoc g (e_fcns E') = Some (ps, b) -> run (eval E' m) body s = Done (Raise e) s1 ->
    eval E' (S (S m)) (ECall g [AExpr (EDo body)]) s = Done (Raise e) s1.
  Proof. intros A H. cbn [eval step]. rewrite A. cbn [mapE ev_arg eval step]. unfold bind. rewrite H. reflexivity. Qed.
  Lemma eval_emit m body s w s1 : run (eval E' m) body s = Done (Ok w) s1 ->
    eval E' (S (S m)) (ECall "emit" [AExpr (EDo body)]) s = Done (Ok VNull) (add_emitted w (add_trace "emit" s1)).
  Proof.
    intros H. cbn [eval step]. assert (X : assoc "emit" (e_fcns E') = None) by (now apply assoc_nopref). rewrite X, String.eqb_refl.
    cbn [mapE ev_arg eval step]. unfold bind. rewrite H. reflexivity.
  Qed.
  Lemma run_mono E m m' es s r s2 : (m <= m')%nat -> run (eval E m) es s = Done r s2 -> run (eval E m') es s = Done r s2.
  Proof. apply exec_mono. Qed.
  Lemma call_body m i nm' body v s' r s2 : assoc (prefix_action i nm') fcns = Some (["input"], body) ->
    run (eval E' m) body (set_scopes [input_frame v; []] s') = Done r s2 ->
    call_user E' (eval E' m) ("u." ++ prefix_action i nm')%string [v] s' = Done r (set_scopes (s_scopes s') s2).
  Proof. intros A H. unfold call_user. rewrite (has_action _ _ _ _ A). unfold in_root. fold (input_frame v). now rewrite H. Qed.

  Theorem tail_good ps : forall i, Forall (action_moves false) ps -> looks MEmit i ps -> good i ps.
  Proof.
    induction ps as [|p ps IH]; intros i HF Hl v ss outs ss2 s' n' nm' Hn Hh Hp Hs G T; [discriminate|].
    injection Hh as <-. inversion_clear HF as [|? ? Hmv HF']. destruct Hl as (Hf & Ha & Hl). specialize (IH (S i) HF' Hl).
    destruct ss as [|s ss]; [contradiction|]. destruct Hs as [H Hs]. cbn [map pipeline one_engine] in Hp.
    change (fst (eng p)) with (En p) in Hp. change (snd (eng p)) with (D p) in Hp.
    destruct (action (En p) (D p) n v s) as [[r|] s3| |] eqn:Ea; try discriminate. rewrite app_nil_r in Hp.
    destruct (pipeline n (map eng ps) (outputs (D p) r s s3) ss) as [[o2 ss3]|] eqn:Ep; [|discriminate]. injection Hp as <- <-.
    destruct (engine_call n p v s _ s3 Ea) as (r2 & s2 & Er & Q). destruct r2 as [w|]; [|discriminate].
    destruct (Q (proj1 Hmv)) as (Q1 & Q2 & Q3 & Q4 & Q5 & Q6). clear Q. injection Q1 as ->. cbn [need] in Hn.
    unfold step_body in Ha. cbn [is_emit] in Ha. unfold outputs in Ep. cbn [d_method doc_of] in Ep.
    destruct (is_emit (f_method p)) eqn:Em.
    - assert (Ep' : pipeline n (map eng ps) (skipn (length (s_emitted s)) (s_emitted s2)) ss = Some (o2, ss3)).
      { rewrite <- Q4. destruct (f_method p); try discriminate. exact Ep. }
      destruct (emit_body i p ps v s s' _ s2 o2 ss ss3 Hmv Em Hf Hl IH H Hs G T Er Ep') as (s2' & X1 & X2 & X3 & X4 & X5 & X6).
      apply (run_mono E' _ n') in X1; [|lia]. destruct n' as [|n']; [lia|].
      pose proof (run_snoc _ _ null_lit _ _ _ VNull s2' X1 eq_refl) as X7. eexists. split; [apply (call_body _ _ _ _ _ _ _ _ Ha X7)|].
      split; [|split; [|split; [|split]]]; auto.
      + split; [now apply (holds_eq i p s2 s3 s2')|now apply (holds_all_eq _ _ _ s2')].
      + now apply (keeps_same _ _ _ s2').
    - destruct (map_body false 0 0 i p (head_name ps) n v s _ s2 s' Hmv Em Hf H G T ltac:(discriminate) Er) as (s2' & X1 & X2 & X3 & X4 & X5).
      destruct n' as [|[|n']]; [lia|lia|]. apply (run_mono E' _ n') in X1; [|lia].
      assert (Ep' : pipeline n (map eng ps) [w] ss = Some (o2, ss3)) by (destruct (f_method p); try discriminate; exact Ep).
      destruct ps as [|q ps].
      + cbn [head_name] in Ha, X1. destruct ss; [|contradiction]. cbn in Ep'. injection Ep' as <- <-.
        eexists. split; [eapply call_body; [exact Ha|]|].
        { unfold run. cbn [mapE]. unfold bind. rewrite (eval_emit _ _ _ _ _ X1). reflexivity. }
        split; [|split; [|split; [|split]]]; auto.
        * split; [now apply (holds_eq i p s2 s3 s2')|exact I].
        * now apply (keeps_same _ _ _ s2').
        * cbn. now rewrite X4.
      + cbn [head_name] in Ha, X1. set (gname := ("u." ++ prefix_action (S i) (f_name q))%string) in *. destruct Hl as (Hfq & Haq & Hlq).
        destruct (IH w ss o2 ss3 (add_trace gname s2') (S n') (f_name q)) as (s4' & Y1 & Y2 & Y3 & Y4 & Y5 & Y6); auto.
        { lia. }
        { apply (holds_all_eq _ _ _ s2'); try reflexivity. apply (holds_all_keeps i 1 (S i) (q :: ps) ss s'); [lia|exact X3|exact Hs]. }
        { apply (glob_keeps false 0 0 i 1 s'); [|exact G]. now apply (keeps_same _ _ _ s2'). }
        eexists. split; [eapply call_body; [exact Ha|]|].
        { unfold run. cbn [mapE]. unfold bind. unfold gname in Y1 |- *. rewrite (eval_call _ _ _ _ _ _ _ _ (has_action _ _ _ _ Haq) X1), Y1. reflexivity. }
        split; [|split; [|split; [|split]]]; auto.
        * split.
          -- apply (holds_keeps (S i) (S (length ps)) i p s3 s2'); [lia| |now apply (holds_eq i p s2 s3 s2')].
             apply (keeps_same _ _ _ s4'); try reflexivity. apply (keeps_trans _ _ _ (add_trace gname s2')); [|exact Y3].
             apply (keeps_same _ _ _ s2'); try reflexivity. apply keeps_refl.
          -- now apply (holds_all_eq _ _ _ s4').
        * apply (keeps_same _ _ _ s4'); try reflexivity. apply (keeps_trans _ _ _ (add_trace gname s2')).
          -- apply (keeps_same _ _ _ s2'); try reflexivity. eapply keeps_more; [| |exact X3]; cbn [length]; lia.
          -- eapply keeps_more; [| |exact Y3]; cbn [length]; lia.
        * cbn [s_emitted set_scopes]. rewrite Y4. cbn [s_emitted add_trace]. now rewrite X4.
  Qed.

  (** *** Chains of maps *)
  Lemma map_chain cnt a b ps : forall i e ss s' s0' n' v outs ss2, Forall (action_moves cnt) ps -> Forall (fun p => f_method p = MMap) ps -> looks MMap i ps ->
    holds_all i ps ss s' -> glob cnt a b s' -> no_limit s' -> (cnt = true -> Forall (fun s => a = s_started s + 1 /\ b = s_finished s) ss) ->
    pipeline n (map eng ps) [v] ss = Some (outs, ss2) -> (n <= n')%nat ->
    eval E' (S n') e s0' = Done (Ok v) s' ->
    exists m w s2', outs = [w] /\ eval E' m (nest i ps e) s0' = Done (Ok w) s2' /\ holds_all i ps ss2 s2' /\ keeps i (length ps) s' s2' /\
      s_emitted s2' = s_emitted s' /\ no_limit s2' /\ s_scopes s2' = s_scopes s' /\
      (cnt = true -> Forall (fun s => a = s_started s /\ b + 1 = s_finished s) ss2).
  Proof.
    induction ps as [|p ps IH]; intros i e ss s' s0' n' v outs ss2 HF HM Hl Hs G T Hc Hp Hn He.
    - destruct ss; [|discriminate]. injection Hp as <- <-. exists (S n'), v, s'. cbn [nest]. repeat (split; [now auto using keeps_refl|]). constructor.
    - inversion_clear HF as [|? ? Hmv HF']. inversion_clear HM as [|? ? Em HM']. destruct Hl as (Hf & Ha & Hl).
      destruct ss as [|s ss]; [contradiction|]. destruct Hs as [H Hs]. cbn [map pipeline one_engine] in Hp.
      change (fst (eng p)) with (En p) in Hp. change (snd (eng p)) with (D p) in Hp.
      destruct (action (En p) (D p) n v s) as [[r|] s3| |] eqn:Ea; try discriminate. rewrite app_nil_r in Hp.
      unfold outputs in Hp at 1. cbn [d_method doc_of] in Hp. rewrite Em in Hp.
      destruct (pipeline n (map eng ps) [r] ss) as [[o2 ss3]|] eqn:Ep; [|discriminate]. injection Hp as <- <-.
      destruct (engine_call n p v s _ s3 Ea) as (r2 & s2 & Er & Q). destruct r2 as [w|]; [|discriminate].
      destruct (Q (proj1 Hmv)) as (Q1 & Q2 & Q3 & Q4 & Q5 & Q6). clear Q. rewrite Em in Q1. cbn [is_emit] in Q1. injection Q1 as ->.
      assert (Hc1 : cnt = true -> a = s_started s + 1 /\ b = s_finished s) by (intros X; specialize (Hc X); now inversion Hc).
      assert (Hc2 : cnt = true -> Forall (fun s => a = s_started s + 1 /\ b = s_finished s) ss) by (intros X; specialize (Hc X); now inversion Hc).
      assert (Em' : is_emit (f_method p) = false) by (now rewrite Em).
      set (gname := ("u." ++ prefix_action i (f_name p))%string).
      destruct (map_body cnt a b i p (head_name ps) n v s (Ok w) s2 (add_trace gname s') Hmv Em' Hf) as (s2' & X1 & X2 & X3 & X4 & X5); auto.
      unfold step_body in Ha. cbn [is_emit] in Ha.
      apply (run_mono E' _ (S n')) in X1; [|lia]. pose proof (call_body _ _ _ _ _ _ _ _ Ha X1) as X6.
      assert (X7 : eval E' (S (S n')) (ECall gname [AExpr e]) s0' = Done (Ok w) (set_scopes (s_scopes s') s2')).
      { unfold gname. rewrite (eval_call1 _ _ _ _ _ _ _ _ (has_action _ _ _ _ Ha) He). exact X6. }
      assert (K1 : keeps i 1 s' (set_scopes (s_scopes s') s2')).
      { apply (keeps_same _ _ _ s2'); try reflexivity. apply (keeps_trans _ _ _ (add_trace gname s')); [|exact X3].
        apply (keeps_same _ _ _ s'); try reflexivity. apply keeps_refl. }
      destruct (IH (S i) (ECall gname [AExpr e]) ss (set_scopes (s_scopes s') s2') s0' (S n') w o2 ss3) as (m & w2 & s4' & Y1 & Y2 & Y3 & Y4 & Y5 & Y6 & Y7 & Y8); auto.
      { eapply holds_all_keeps; [|exact K1|exact Hs]. lia. }
      { eapply glob_keeps; eauto. }
      exists m, w2, s4'. split; [exact Y1|]. split; [exact Y2|]. split; [split; [|exact Y3]|].
      { apply (holds_keeps (S i) (length ps) i p s3 (set_scopes (s_scopes s') s2')); [lia|exact Y4|now apply (holds_eq i p s2 s3 s2')]. }
      split; [|split; [|split; [|split]]]; auto.
      + eapply keeps_trans; [eapply keeps_more; [| |exact K1]; cbn [length]; lia|]. eapply keeps_more; [| |exact Y4]; cbn [length]; lia.
      + rewrite Y5. exact X4.
      + intros X. constructor; auto. destruct (Hc1 X) as [-> ->].
        assert (Z : s_started s2 = s_started s + 1 /\ s_finished s2 = s_finished s); [|lia].
        pose proof (pres_exec EngineProofs.stable EngineProofs.stable_closed (En p) n (f_action p) _ _ _ Er) as St.
        destruct St as [_ _ St1 St2 _ _ _]. split; [exact St1|exact St2].
  Qed.

  (** *** Failures in chains of maps *)
  Lemma nest_app ps1 ps2 : forall i e, nest i (ps1 ++ ps2) e = nest (i + length ps1) ps2 (nest i ps1 e).
  Proof.
    induction ps1 as [|p ps1 IH]; intros i e; cbn [nest app length]; [now rewrite Nat.add_0_r|]. rewrite IH. f_equal. lia.
  Qed.
  Lemma nest_raise ps : forall i e m s x s1, looks MMap i ps -> eval E' m e s = Done (Raise x) s1 -> exists m', eval E' m' (nest i ps e) s = Done (Raise x) s1.
  Proof.
    induction ps as [|p ps IH]; intros i e m s x s1 Hl H; cbn [nest]; [eauto|]. destruct Hl as (_ & Ha & Hl).
    eapply IH; [exact Hl|]. eapply eval_call1_raise; [apply (has_action _ _ _ _ Ha)|exact H].
  Qed.
  Lemma looks_app whole ps1 ps2 : forall i, looks whole i (ps1 ++ ps2) -> looks whole (i + length ps1) ps2.
  Proof.
    induction ps1 as [|p ps1 IH]; intros i; cbn [app length]; [now rewrite Nat.add_0_r|]. intros (_ & _ & H).
    replace (i + S (length ps1))%nat with (S i + length ps1)%nat by lia. now apply IH.
  Qed.
  Lemma holds_all_app ps1 ps2 : forall i ss1 ss2 s', holds_all i ps1 ss1 s' -> holds_all (i + length ps1) ps2 ss2 s' -> holds_all i (ps1 ++ ps2) (ss1 ++ ss2) s'.
  Proof.
    induction ps1 as [|p ps1 IH]; intros i [|s ss1] ss2 s'; cbn [holds_all app length]; try tauto; [now rewrite Nat.add_0_r|].
    intros [H1 H2] H3. split; [exact H1|]. apply IH; [exact H2|]. now replace (S i + length ps1)%nat with (i + S (length ps1))%nat by lia.
  Qed.
  Lemma holds_all_split ps1 ps2 : forall i ss s', holds_all i (ps1 ++ ps2) ss s' ->
    exists ss1 ss2, ss = ss1 ++ ss2 /\ holds_all i ps1 ss1 s' /\ holds_all (i + length ps1) ps2 ss2 s'.
  Proof.
    induction ps1 as [|p ps1 IH]; intros i ss s' H; cbn [app length] in *.
    - exists [], ss. rewrite Nat.add_0_r. cbn. auto.
    - destruct ss as [|s ss]; [contradiction|]. destruct H as [H1 H2]. destruct (IH _ _ _ H2) as (ss1 & ss2 & -> & H3 & H4).
      exists (s :: ss1), ss2. split; [reflexivity|]. split; [split; auto|]. now replace (i + S (length ps1))%nat with (S i + length ps1)%nat by lia.
  Qed.

  (** *** The code of begin and end *)
  Lemma mapE_app {A B} (f : A -> EM B) l1 l2 s a s1 b s2 : mapE f l1 s = Done (Ok a) s1 -> mapE f l2 s1 = Done (Ok b) s2 ->
    mapE f (l1 ++ l2) s = Done (Ok (a ++ b)) s2.
  Proof.
    revert s a. induction l1 as [|x l1 IH]; intros s a; cbn [mapE app].
    - intros [= <- ->]. auto.
    - unfold bind. destruct (f x s) as [[y|] sx| |]; try discriminate. destruct (mapE f l1 sx) as [[ys|] sy| |] eqn:Ey; try discriminate.
      intros [= <- ->] H2. rewrite (IH sx ys Ey H2). reflexivity.
  Qed.
  Lemma run_mapE ev es s w s1 : run ev es s = Done (Ok w) s1 -> exists vs, mapE ev es s = Done (Ok vs) s1.
  Proof. unfold run, bind. destruct (mapE ev es s) as [[vs|] sx| |]; try discriminate. intros [= _ ->]. eauto. Qed.
  (** [Fr]: the frame in which the code of an engine runs, [s]: the state in which it starts *)
  Fixpoint ran (sel : pfa -> list expr) (Fr : st -> frame) (ps : list pfa) (ss ss2 : list st) : Prop :=
    match ps, ss, ss2 with
    | [], [], [] => True
    | p :: ps', s :: ss', s2 :: ss2' =>
        (no_limit s /\ exists w sx, run (eval (En p) n) (sel p) (set_scopes [Fr s] s) = Done (Ok w) sx /\ s_cells s2 = s_cells sx /\ s_pools s2 = s_pools sx)
        /\ ran sel Fr ps' ss' ss2'
    | _, _, _ => False
    end.
  Lemma code_seq own given known (vals : string -> val) sel Fr F0 whole :
    (forall i x, own i x = true -> given x = false) -> (forall i j x, i <> j -> own i x = true -> own j x = false) ->
    (forall i j, own i (dollar j) = false) -> (forall x, given x = true -> In x engine_names) ->
    (forall x, given x = false -> assoc x F0 = None) ->
    forall ps i ss ss2 s' fr, code_moves own given known sel i ps -> looks whole i ps -> ran sel Fr ps ss ss2 ->
    Forall (fun s => (forall x, given x = false -> assoc x (Fr s) = None) /\
                     (forall x, given x = true -> known x = true -> assoc x (Fr s) = Some (vals x))) ss ->
    (forall x, given x = true -> known x = true -> exists c, assoc x (s_cells s') = Some c /\ c_value c = vals x) ->
    s_scopes s' = [fr] -> (forall x, (forall j, (j < i)%nat -> own j x = false) -> assoc x fr = assoc x F0) ->
    holds_all i ps ss s' -> no_limit s' ->
    exists ws s2', mapE (eval E' n) (all_code sel given i ps) s' = Done (Ok ws) s2' /\
      holds_all i ps ss2 s2' /\ keeps i (length ps) s' s2' /\ no_limit s2' /\ s_emitted s2' = s_emitted s'.
  Proof.
    intros Hown Hdis Hdol Hgiv HF0. induction ps as [|p ps IH]; intros i ss ss2 s' fr Hm Hl Hr HFr Hv Hsc Hfr Hs T.
    - destruct ss, ss2; try contradiction. exists [], s'. cbn. auto using keeps_refl.
    - destruct Hm as [(Hd & fn & Hmov & He) Hm]. destruct Hl as (Hf & _ & Hl). destruct ss as [|s ss]; [destruct ss2; contradiction|]. destruct ss2 as [|s2 ss2]; [contradiction|].
      destruct Hr as [(Hlim & w & sx & Er & Q1 & Q2) Hr]. pose proof (Forall_inv HFr) as [HF1 HF2]. pose proof (Forall_inv_tail HFr) as HFr'. destruct Hs as [H Hs].
      set (Rest := fun _ x' : st => keeps i 1 s' x' /\ s_emitted x' = s_emitted s').
      assert (Own0 : forall x, own i x = true -> assoc x fr = None).
      { intros x Hx. rewrite Hfr; [apply HF0; eauto|]. intros j Hj. apply (Hdis i j); [lia|exact Hx]. }
      assert (HR : R (ctx_of i p (head_name ps)) (own i) given known vals [] fr Rest Act 0 (set_scopes [Fr s] s) s').
      { destruct H as [H1 H2]. split; auto.
        - exists [], [Fr s], [fr]. split; [reflexivity|]. split; [exact Hsc|]. split; [reflexivity|]. split; [constructor|].
          exists (Fr s), fr. split; [reflexivity|]. split; [reflexivity|]. split; [|split]; auto.
          assert (Gd : forall j, given (dollar j) = false).
          { intros j. destruct (given (dollar j)) eqn:Eg; [|reflexivity]. apply Hgiv in Eg. cbn in Eg. repeat destruct Eg as [Eg|Eg]; discriminate || contradiction. }
          intros x [Hx|[j ->]].
          + rewrite HF1 by eauto. now rewrite Own0.
          + rewrite HF1 by auto. rewrite Hfr by auto. now rewrite HF0.
        - split; [apply keeps_refl|reflexivity]. }
      destruct (step_sim i p (head_name ps) (own i) given known fn vals [] fr Rest (fun _ => True) 0 (Hown i))
        with (code := sel p) (n := n) (s := set_scopes [Fr s] s) (s' := s') (r := Ok w) (s2 := sx) as (s2' & X1 & X2); auto; try congruence.
      + intros j. destruct (given (dollar j)) eqn:Eg; [|reflexivity]. apply Hgiv in Eg. cbn in Eg. repeat destruct Eg as [Eg|Eg]; discriminate || contradiction.
      + intros f [].
      + intros x x' c c2 [K1 K2]. split; [|exact K2]. now apply (keeps_same i 1 s' x').
      + intros x x' c c2 y [K1 K2]. split; [|exact K2]. now apply keeps_cell.
      + intros x x' c c2 y [K1 K2]. split; [|exact K2]. now apply keeps_pool.
      + intros x x' f g [K1 K2]. split; [|exact K2]. now apply (keeps_same i 1 s' x').
      + intros x x' l [K1 K2]. split; [|exact K2]. now apply (keeps_same i 1 s' x').
      + rewrite Nat.add_0_r in X1. destruct X2 as [(top & t & t' & S1 & S2 & S3 & _ & F & f' & -> & -> & _ & _ & S4) C1 C2 C3 [_ C4] [C5 C6]].
        destruct top; [|discriminate]. cbn [app] in S2. apply run_mapE in X1. destruct X1 as [vs X1].
        destruct (IH (S i) ss ss2 s2' f' Hm Hl Hr HFr' C3 S2) as (ws & s3' & Y1 & Y2 & Y3 & Y4 & Y5); auto.
        * intros x Hx. rewrite S4 by (apply Hx; lia). apply Hfr. intros j Hj. apply Hx. lia.
        * eapply holds_all_keeps; [|exact C5|exact Hs]. lia.
        * exists (vs ++ ws), s3'. split; [cbn [all_code]; eapply mapE_app; [exact X1|exact Y1]|].
          split; [split; [|exact Y2]|split; [|split; [exact Y4|congruence]]].
          -- apply (holds_keeps (S i) (length ps) i p s2 s2'); [lia|exact Y3|]. split; intros c; rewrite ?Q1, ?Q2; [exact (C1 c)|exact (C2 c)].
          -- eapply keeps_trans; [eapply keeps_more; [| |exact C5]; cbn [length]; lia|]. eapply keeps_more; [| |exact Y3]; cbn [length]; lia.
  Qed.
End Steps.
