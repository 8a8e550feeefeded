(** Documents accepted by the scoping rules never meet an unknown variable: proofs for C59. *)
From Verif Require Import Base ScopeModel CoreModel CoreInv CoreScopes CoreInd CoreFlow StaticModel.
Open Scope string_scope.
Open Scope list_scope.

(** * Specification *)
(** what DynamicScope.get and set raise when no scope has the variable (util.py:130, 153) *)
Definition unknown : exn := PyErr "RuntimeError".
Definition known {A} (r : res A) : Prop := r <> Raise unknown.
Definition bound (ss : scopes) (x : string) : bool := existsb (has_key x) ss.

Definition is_user (E : env) (f : string) : bool := has_key f (e_fcns E).
Definition params_of (E : env) (g : string) : list string := match assoc g (e_fcns E) with Some (ps, _) => ps | None => e_libparams E g end.
(** A library function raises no RuntimeError of its own, passes on those of the functions it is given only
    if they raise them, and calls these functions with as many arguments as its signature says. *)
Section Lib.
  Variable E : env.
  Variable fa : string -> nat -> option nat.
  Definition fits (a : arg) (n : nat) : Prop := takes (is_user E) (params_of E) a n = true.
  Definition good_args (f : string) (avs : list aval) : Prop :=
    forall i a, nth_error avs i = Some (AF a) -> exists k, fa f i = Some k /\ fits a k.
  Fixpoint lib_ok (avs : list aval) (p : libprog) : Prop :=
    match p with
    | LRet _ => True
    | LRaise e => e <> unknown
    | LCall i vs k => match nth_error avs i with Some (AF f) => fits f (length vs) | _ => True end /\ forall r, known r -> lib_ok avs (k r)
    | LForce _ k => forall r, known r -> lib_ok avs (k r)
    | LTime k => lib_ok avs k
    | LRand k => forall z, lib_ok avs (k z)
    end.
(** "set" and "step" with one variable at a time (see C09), "call" with a name that is one of the symbols of its enum type
    (the static type check, not modelled, gives this); functions filled into a library
    function have as many parameters as it expects (1702-1734 does not compare the types of the fills) *)
Definition tame_here (n : node) : Prop :=
  match n with
  | NE (ESet bs) => (length bs <= 1)%nat
  | NE (EFor _ _ upd _) => (length upd <= 1)%nat
  | NE (ECallUser nm choices _) => names_one_of E nm choices
  | NA (AFill g fills) => forall i p a, nth_error (params_of E g) i = Some p -> assoc p fills = Some a ->
      match a with AExpr _ => True | _ => exists k, fa g i = Some k /\ fits a k end
  | _ => True
  end.
Inductive tame : node -> Prop := Tame n : tame_here n -> Forall tame (parts n) -> tame n.
(** the library, the codecs and the packed formats *)
Record lib_sound : Prop := {
  ok_strict : forall f g avs, e_lib E f = Some (Strict g) -> good_args f avs -> lib_ok avs (g avs);
  ok_lazy : forall f p, e_lib E f = Some (Lazy p) -> lib_ok [] p;
  ok_ref : forall g avs, good_args g avs -> lib_ok avs (e_libref E g avs);
  ok_decode : forall ty v, known (e_decode E ty v);
  ok_pack : forall fs vs, known (e_pack E fs vs);
  ok_unpack : forall fmt v bs, e_unpack E fmt v = Some bs -> map fst bs = map fst fmt }.
(** and the user functions *)
Record env_ok : Prop := {
  ok_lib : lib_sound;
  ok_fcns : forall f ps body, assoc f (e_fcns E) = Some (ps, body) ->
    walk_fcn (is_user E) (params_of E) fa ps body = true /\ Forall (fun e => tame (NE e)) body }.
End Lib.

(** * Proofs *)
Definition covers (T : symtab) (ss : scopes) : Prop := forall x, visible T x = true -> bound ss x = true.
Lemma bound_sub ss ss' x : sub_scopes ss ss' -> bound ss x = true -> bound ss' x = true.
Proof.
  intros H. induction H as [|f f' l l' Hf Hl IH]; cbn; [discriminate|]. intros B. apply Bool.orb_true_iff in B. apply Bool.orb_true_iff.
  destruct B as [B|B]; [left; now apply Hf|right; auto].
Qed.
Lemma covers_sub T ss ss' : sub_scopes ss ss' -> covers T ss -> covers T ss'.
Proof. intros S C x V. eapply bound_sub; eauto. Qed.
Lemma covers_new T a w ss : covers T ss -> covers (new_scope a w T) ss.
Proof. intros C x V. apply C. exact V. Qed.
Lemma covers_frame T f ss : covers T ss -> covers T (f :: ss).
Proof. intros C x V. unfold bound. cbn [existsb]. fold (bound ss x). rewrite (C x V). apply Bool.orb_true_r. Qed.
Lemma memb_app x a b : memb x (a ++ b) = (memb x a || memb x b)%bool.
Proof. apply existsb_app. Qed.
Lemma memb_In x l : memb x l = true <-> In x l.
Proof.
  unfold memb. rewrite existsb_exists. split.
  - intros (y & I & E). apply String.eqb_eq in E. now subst.
  - intros I. exists x. split; auto. apply String.eqb_refl.
Qed.
(** declaring in the innermost scope *)
Lemma covers_put xs T f ss : covers T (f :: ss) -> (forall x, In x xs -> has_key x f = true) -> covers (put xs T) (f :: ss).
Proof.
  intros C H x V. destruct T as [|s T]; [discriminate|]. unfold visible, put in V. cbn [existsb sc_syms] in V. rewrite memb_app in V.
  destruct (memb x xs) eqn:M.
  - apply memb_In in M. unfold bound. cbn [existsb]. rewrite (H x M). reflexivity.
  - apply (C x). exact V.
Qed.
Lemma has_key_let_in bs f x : In x (map fst bs) -> has_key x (frame_let bs f) = true.
Proof.
  intros H. rewrite has_key_frame_let. apply Bool.orb_true_iff. left. apply existsb_exists.
  apply in_map_iff in H. destruct H as (b & <- & I). exists b. split; auto. apply String.eqb_refl.
Qed.
Lemma zip_names {A} : forall ks (vs : list A), length ks = length vs -> map fst (zip_dict ks vs) = ks.
Proof. induction ks as [|k ks IH]; intros [|v vs] H; try discriminate; auto. cbn. f_equal. apply IH. now injection H. Qed.

(** ** Runs that never meet an unknown variable *)
Definition safe1 {A} (C : scopes -> Prop) (m : EM A) (Q : A -> scopes -> Prop) : Prop :=
  forall s r s', s_scopes s <> [] -> C (s_scopes s) -> m s = Done r s' ->
    sub_scopes (s_scopes s) (s_scopes s') /\ match r with Ok a => Q a (s_scopes s') | Raise e => e <> unknown end.
(** ... and do the same, and leave the scopes around as they are, when there are more scopes around *)
Definition widen (B : scopes) (s : st) : st := set_scopes (s_scopes s ++ B) s.
Definition widen_out {A} (B : scopes) (o : out A) : out A :=
  match o with Done r s => Done r (widen B s) | Blocked => Blocked | OutOfFuel => OutOfFuel end.
Definition wide {A} (C : scopes -> Prop) (m : EM A) : Prop :=
  forall s B, s_scopes s <> [] -> C (s_scopes s) -> m (widen B s) = widen_out B (m s).
Definition safe {A} (C : scopes -> Prop) (m : EM A) (Q : A -> scopes -> Prop) : Prop := safe1 C m Q /\ wide C m.
Definition stable (C : scopes -> Prop) : Prop := forall ss ss', sub_scopes ss ss' -> C ss -> C ss'.
Definition any {A} : A -> scopes -> Prop := fun _ _ => True.
Lemma sub_nonempty ss ss' : sub_scopes ss ss' -> ss <> [] -> ss' <> [].
Proof. intros H. inversion H; subst; congruence. Qed.
Lemma safe_bind {A B} C (m : EM A) Q1 (k : A -> EM B) Q2 :
  safe C m Q1 -> (forall a, safe (Q1 a) (k a) Q2) -> safe C (bind m k) Q2.
Proof.
  intros [Hm Wm] Hk. split.
  - intros s r s' N HC H. unfold bind in H. destruct (m s) as [[a|e] s1| |] eqn:E; try discriminate.
    + destruct (Hm _ _ _ N HC E) as [S1 Q]. destruct (proj1 (Hk a) _ _ _ (sub_nonempty _ _ S1 N) Q H) as [S2 R]. split; auto. eapply sub_trans; eauto.
    + injection H as <- <-. exact (Hm _ _ _ N HC E).
  - intros s D N HC. unfold bind. rewrite (Wm s D N HC). destruct (m s) as [[a|e] s1| |] eqn:E; try reflexivity. cbn [widen_out].
    destruct (Hm _ _ _ N HC E) as [S1 Q]. exact (proj2 (Hk a) s1 D (sub_nonempty _ _ S1 N) Q).
Qed.
Lemma safe_conseq {A} (C C' : scopes -> Prop) (m : EM A) (Q Q' : A -> scopes -> Prop) :
  safe C m Q -> (forall ss, C' ss -> C ss) -> (forall a ss, Q a ss -> Q' a ss) -> safe C' m Q'.
Proof.
  intros [H Wm] HC HQ. split; [|intros s D N HC'; exact (Wm s D N (HC _ HC'))].
  intros s r s' N HC' E. destruct (H s r s' N (HC _ HC') E) as [S R]. split; auto. destruct r; auto.
Qed.
(** keep a stable fact along *)
Lemma safe_frame {A} (C D : scopes -> Prop) (m : EM A) Q : stable D -> safe C m Q -> safe (fun ss => C ss /\ D ss) m (fun a ss => Q a ss /\ D ss).
Proof.
  intros SD [H Wm]. split; [|intros s B N [HC HD]; exact (Wm s B N HC)].
  intros s r s' N [HC HD] E. destruct (H s r s' N HC E) as [S R]. split; auto. destruct r; auto. split; auto. eapply SD; eauto.
Qed.
Lemma safe_ret {A} (C : scopes -> Prop) (a : A) (Q : A -> scopes -> Prop) : (forall ss, C ss -> Q a ss) -> safe C (ret a) Q.
Proof. intros H. split; [|intros s B N HC; reflexivity]. intros s r s' N HC [= <- <-]. split; [apply sub_refl|auto]. Qed.
Lemma safe_raise {A} C e (Q : A -> scopes -> Prop) : e <> unknown -> safe C (raise e) Q.
Proof. intros H. split; [|intros s B N HC; reflexivity]. intros s r s' N HC [= <- <-]. split; [apply sub_refl|auto]. Qed.
Lemma safe_lift {A} C (x : res A) : known x -> safe C (lift x) any.
Proof. intros H. split; [|intros s B N HC; reflexivity]. intros s r s' N HC [= <- <-]. split; [apply sub_refl|]. destruct x; [exact I|]. intros ->. now apply H. Qed.
Lemma safe_fuel {A} C (Q : A -> scopes -> Prop) : safe C out_of_fuel Q.
Proof. split; [intros s r s' N HC H; discriminate|intros s B N HC; reflexivity]. Qed.
Lemma safe_blocked {A} C (Q : A -> scopes -> Prop) : safe C blocked Q.
Proof. split; [intros s r s' N HC H; discriminate|intros s B N HC; reflexivity]. Qed.
(** effects outside the scopes *)
Lemma safe_quiet {A} C (m : EM A) : (forall s r s', m s = Done r s' -> s_scopes s' = s_scopes s /\ known r) ->
  (forall s ss, m (set_scopes ss s) = match m s with Done r s' => Done r (set_scopes ss s') | Blocked => Blocked | OutOfFuel => OutOfFuel end) ->
  safe C m (fun _ => C).
Proof.
  intros H G. split.
  2: { intros s B N HC. unfold widen at 1. rewrite G. destruct (m s) as [r s'| |] eqn:E; try reflexivity. cbn [widen_out]. unfold widen.
       destruct (H _ _ _ E) as [-> _]. reflexivity. }
  intros s r s' N HC E. destruct (H _ _ _ E) as [-> K]. split; [apply sub_refl|]. destruct r as [a|e]; auto. intros ->. now apply K.
Qed.
Lemma safe_modify C f : (forall s, s_scopes (f s) = s_scopes s) -> (forall s ss, f (set_scopes ss s) = set_scopes ss (f s)) -> safe C (modify f) (fun _ => C).
Proof.
  intros H G. apply safe_quiet; [intros s r s' [= <- <-]; split; [apply H|discriminate]|].
  intros s ss. unfold modify. now rewrite G.
Qed.
Lemma sub_skip fs ss ss' : sub_scopes (fs ++ ss) ss' -> sub_scopes ss (skipn (length fs) ss').
Proof. intros H. now apply sub_app in H. Qed.
(** blocks: the facts about the scopes around stay true *)
Lemma safe_frames {A} (C : scopes -> Prop) fs (m : EM A) (C' : scopes -> Prop) Q : stable C -> fs <> [] ->
  (forall ss, C ss -> C' (fs ++ ss)) -> safe C' m Q ->
  safe C (in_frames fs m) (fun p ss => C ss /\ sub_scopes fs (snd p) /\ Q (fst p) (snd p ++ ss)).
Proof.
  intros SC Nf HC' [Hm Wm]. split.
  2: { intros s B N HC. unfold in_frames.
       assert (N' : s_scopes (set_scopes (fs ++ s_scopes s) s) <> []) by (cbn; intros K; apply app_eq_nil in K; tauto).
       change (set_scopes (fs ++ s_scopes (widen B s)) (widen B s)) with (set_scopes (fs ++ s_scopes s ++ B) s).
       rewrite app_assoc. change (set_scopes ((fs ++ s_scopes s) ++ B) s) with (widen B (set_scopes (fs ++ s_scopes s) s)).
       rewrite (Wm _ B N' (HC' _ HC)). destruct (m _) as [x s1| |] eqn:E; try reflexivity. cbn [widen_out]. unfold widen at 1 2 3. cbn [s_scopes set_scopes].
       destruct (Hm _ _ _ N' (HC' _ HC) E) as [S _]. cbn [s_scopes set_scopes] in S. pose proof (sub_length _ _ S) as L. rewrite app_length in L.
       rewrite firstn_app, skipn_app. replace (length fs - length (s_scopes s1))%nat with 0%nat by lia. cbn [firstn skipn]. rewrite app_nil_r.
       destruct x; reflexivity. }
  intros s r s' N HC H. unfold in_frames in H. destruct (m _) as [x s1| |] eqn:E; try discriminate. injection H as <- <-.
  assert (N' : s_scopes (set_scopes (fs ++ s_scopes s) s) <> []) by (cbn; intros K; apply app_eq_nil in K; tauto).
  destruct (Hm _ _ _ N' (HC' _ HC) E) as [S R]. cbn [s_scopes set_scopes] in *.
  pose proof (sub_skip _ _ _ S) as S2. split; [exact S2|]. destruct x; [|exact R]. cbn [fst snd]. rewrite firstn_skipn.
  split; [eapply SC; eauto|]. split; [|exact R]. now apply sub_app in S.
Qed.
Lemma safe_in_frame {A} (C : scopes -> Prop) f (m : EM A) (C' : scopes -> Prop) Q : stable C ->
  (forall ss, C ss -> C' (f :: ss)) -> safe C' m Q -> safe C (in_frame f m) (fun _ => C).
Proof.
  intros SC H Hm. eapply safe_bind; [apply (safe_frames C [f] m C' Q); auto; discriminate|]. intros p. apply safe_ret. tauto.
Qed.
Lemma safe_root {A} (C : scopes -> Prop) fs (m : EM A) (C' : scopes -> Prop) Q : fs <> [] -> C' fs -> safe C' m Q -> safe C (in_root fs m) (fun _ => C).
Proof.
  intros Nf HC' [Hm Wm]. split.
  2: { intros s B N HC. unfold in_root. change (set_scopes fs (widen B s)) with (set_scopes fs s). destruct (m (set_scopes fs s)); reflexivity. }
  intros s r s' N HC H. unfold in_root in H. destruct (m _) as [x s1| |] eqn:E; try discriminate. injection H as <- <-.
  destruct (Hm (set_scopes fs s) _ _ Nf HC' E) as [S R]. split; [apply sub_refl|]. destruct x; auto.
Qed.
Lemma safe_attempt {A} (C : scopes -> Prop) (m : EM A) Q : stable C -> safe C m Q -> safe C (attempt m) (fun r ss => known r /\ C ss).
Proof.
  intros SC [Hm Wm]. split.
  2: { intros s B N HC. unfold attempt. rewrite (Wm s B N HC). destruct (m s); reflexivity. }
  intros s r s' N HC H. unfold attempt in H. destruct (m s) as [x s1| |] eqn:E; try discriminate. injection H as <- <-.
  destruct (Hm _ _ _ N HC E) as [S R]. split; auto. split; [|eapply SC; eauto]. destruct x; [discriminate|]. intros [= ->]. now apply R.
Qed.
Lemma covers_stable T : stable (covers T).
Proof. intros ss ss' S. now apply covers_sub. Qed.
Lemma stable_and C D : stable C -> stable D -> stable (fun ss => C ss /\ D ss).
Proof. intros HC HD ss ss' S [a b]. split; [eapply HC|eapply HD]; eauto. Qed.
Lemma stable_all {A} (P : A -> scopes -> Prop) l : (forall a, stable (P a)) -> stable (fun ss => Forall (fun a => P a ss) l).
Proof. intros H ss ss' S F. eapply Forall_impl; [|exact F]. cbn. intros a. now apply H. Qed.

(** setting one variable that some scope has *)
Lemma set_one_bound x v : forall ss, bound ss x = true -> fst (set_vars [(x, v)] ss) = Ok tt.
Proof.
  unfold set_vars. induction ss as [|f ss IH]; intros B; [discriminate|]. cbn [bound existsb] in B.
  cbn [length scope_set]. destruct (has_key x f) eqn:K; [reflexivity|]. cbn in B. specialize (IH B).
  destruct (scope_set (length ss) [(x, v)] ss) as [[u|e] r]; cbn in *; congruence.
Qed.
Lemma bound_get ss x : bound ss x = true -> known (scope_get x ss).
Proof.
  induction ss as [|f ss IH]; [discriminate|]. unfold bound. cbn [existsb scope_get]. unfold has_key. destruct (assoc x f) eqn:A; [discriminate|]. exact IH.
Qed.
Lemma get_wide ss x B : bound ss x = true -> scope_get x (ss ++ B) = scope_get x ss.
Proof.
  induction ss as [|f ss IH]; [discriminate|]. unfold bound. cbn [existsb scope_get app]. unfold has_key. destruct (assoc x f) eqn:A; [reflexivity|]. exact IH.
Qed.
Lemma set_wide x v B : forall ss, bound ss x = true -> set_vars [(x, v)] (ss ++ B) = (Ok tt, snd (set_vars [(x, v)] ss) ++ B).
Proof.
  unfold set_vars. induction ss as [|f ss IH]; intros D; [discriminate|]. cbn [bound existsb] in D.
  cbn [length scope_set app]. destruct (has_key x f) eqn:K; [reflexivity|]. cbn in D. specialize (IH D).
  rewrite IH. pose proof (set_one_bound x v ss D) as O. unfold set_vars in O.
  destruct (scope_set (length ss) [(x, v)] ss) as [[u|e] r]; cbn in *; congruence.
Qed.
Lemma safe_get T x : visible T x = true -> safe (covers T) (fun s => Done (scope_get x (s_scopes s)) s) (fun _ => covers T).
Proof.
  intros V. split.
  2: { intros s B N HC. unfold widen. cbn [s_scopes set_scopes]. rewrite (get_wide _ _ B (HC _ V)). reflexivity. }
  intros s r s' N HC [= <- <-]. split; [apply sub_refl|]. pose proof (bound_get _ _ (HC _ V)) as K.
  destruct (scope_get x (s_scopes s)); auto. intros ->. now apply K.
Qed.
Lemma safe_let T bs : safe (covers T) (let_vars bs) (fun _ => covers (put (map fst bs) T)).
Proof.
  split.
  2: { intros s B N HC. unfold let_vars, modify, widen. cbn [s_scopes set_scopes widen_out]. unfold widen. cbn [s_scopes set_scopes].
       destruct (s_scopes s) as [|f ss]; [contradiction|]. reflexivity. }
  intros s r s' N HC [= <- <-]. cbn [s_scopes set_scopes]. destruct (s_scopes s) as [|f ss]; [contradiction|]. cbn [scope_let].
  split; [constructor; [apply sub_frame_let|apply sub_refl]|]. apply covers_put.
  - eapply covers_sub; [|exact HC]. constructor; [apply sub_frame_let|apply sub_refl].
  - intros x. apply has_key_let_in.
Qed.
Lemma safe_set T bs : (length bs <= 1)%nat -> (forall b, In b bs -> visible T (fst b) = true) -> safe (covers T) (set_vars_m bs) (fun _ => covers T).
Proof.
  intros L V. split.
  2: { intros s B N HC. unfold set_vars_m, widen. cbn [s_scopes set_scopes]. destruct bs as [|[x v] [|b bs]]; [| |cbn in L; lia].
       - unfold set_vars. destruct (s_scopes s); [contradiction|]. reflexivity.
       - pose proof (HC _ (V _ (or_introl eq_refl))) as D. rewrite (set_wide x v B _ D). pose proof (set_one_bound x v _ D) as O.
         destruct (set_vars [(x, v)] (s_scopes s)) as [r0 ss]. cbn in O. subst. reflexivity. }
  intros s r s' N HC H. unfold set_vars_m in H. destruct (set_vars bs (s_scopes s)) as [r0 ss] eqn:E. injection H as <- <-.
  cbn [s_scopes set_scopes]. assert (S : sub_scopes (s_scopes s) ss) by (pose proof (sub_scope_set (length (s_scopes s)) bs (s_scopes s)) as S; unfold set_vars in E; now rewrite E in S).
  split; [exact S|]. destruct r0 as [u|e]; [eapply covers_sub; eauto|].
  destruct bs as [|[x v] [|b bs]]; [|pose proof (set_one_bound x v (s_scopes s) (HC _ (V _ (or_introl eq_refl)))) as K; rewrite E in K; discriminate|cbn in L; lia].
  unfold set_vars in E. destruct (s_scopes s); [contradiction|]. discriminate.
Qed.

(** quiet effects *)
Lemma safe_time E C : safe C (check_time E) (fun _ => C).
Proof.
  apply safe_quiet.
  2: { intros s ss. unfold check_time. cbn [s_timeout s_start s_tick set_scopes]. destruct (s_timeout s) as [t|]; [|reflexivity].
       destruct (t <=? 0)%Z; [reflexivity|]. destruct (t <? _)%Z; reflexivity. }
  intros s r s' H. unfold check_time in H. destruct (s_timeout s) as [t|]; [|injection H as <- <-; split; [reflexivity|discriminate]].
  destruct (t <=? 0)%Z; [injection H as <- <-; split; [reflexivity|discriminate]|]. destruct (t <? _)%Z; injection H as <- <-; split; auto; discriminate.
Qed.
Lemma safe_draw E C : safe C (draw E) (fun _ => C).
Proof. apply safe_quiet; [|reflexivity]. intros s r s' [= <- <-]. split; [reflexivity|discriminate]. Qed.
Lemma safe_get_cell C c : safe C (get_cell c) (fun _ => C).
Proof. apply safe_quiet; [|intros s ss; unfold get_cell; cbn [s_cells s_pools set_scopes]; destruct (assoc c _); reflexivity]. intros s r s' H. unfold get_cell in H. destruct (assoc c _); injection H as <- <-; split; auto; discriminate. Qed.
Lemma safe_get_pool C c : safe C (get_pool c) (fun _ => C).
Proof. apply safe_quiet; [|intros s ss; unfold get_pool; cbn [s_cells s_pools set_scopes]; destruct (assoc c _); reflexivity]. intros s r s' H. unfold get_pool in H. destruct (assoc c _); injection H as <- <-; split; auto; discriminate. Qed.
Lemma safe_upd_cell C c f : safe C (upd_cell c f) (fun _ => C).
Proof. apply safe_quiet; [|intros s ss; unfold upd_cell; cbn [s_cells s_pools set_scopes]; destruct (assoc c _); reflexivity]. intros s r s' H. unfold upd_cell in H. destruct (assoc c _); injection H as <- <-; split; auto; discriminate. Qed.
Lemma safe_upd_pool C c f : safe C (upd_pool c f) (fun _ => C).
Proof. apply safe_quiet; [|intros s ss; unfold upd_pool; cbn [s_cells s_pools set_scopes]; destruct (assoc c _); reflexivity]. intros s r s' H. unfold upd_pool in H. destruct (assoc c _); injection H as <- <-; split; auto; discriminate. Qed.
Lemma get_path_known : forall path obj a m, known (get_path obj path a m).
Proof.
  induction path as [|k path IH]; intros obj a m; [discriminate|]. cbn [get_path]. 
  assert (K : known (get_one obj k a m)).
  { unfold get_one. destruct obj; try discriminate; destruct k; try discriminate; [destruct (_ && _)%bool; discriminate|]. destruct (assoc _ _); discriminate. }
  destruct (get_one obj k a m) as [v|e]; [apply IH|]. intros [= ->]. now apply K.
Qed.
Lemma safe_lift' {A} C (x : res A) : known x -> safe C (lift x) (fun _ => C).
Proof. intros K. apply safe_quiet; [|reflexivity]. intros s r s' [= <- <-]. auto. Qed.
Lemma safe_handle E C flt e : e <> unknown -> safe C (handle E flt e) (fun _ => C).
Proof.
  intros H. unfold handle. destruct flt as [l|]; [|apply safe_ret; auto]. destruct (in_filter E e l) as [[]|]; [apply safe_ret; auto|now apply safe_raise|now apply safe_raise].
Qed.
Lemma safe_update_path C leaf a m : (forall v, safe C (leaf v) (fun _ => C)) -> forall path obj, safe C (update_path leaf obj path a m) (fun _ => C).
Proof.
  intros L. induction path as [|k path IH]; intros obj; [apply L|]. cbn [update_path].
  destruct obj; try (apply safe_raise; discriminate); destruct k; try (apply safe_raise; discriminate);
    try (destruct path; [apply safe_ret; auto|apply safe_raise; discriminate]).
  - destruct (_ || _)%bool; [apply safe_raise; discriminate|]. destruct (_ <=? _)%Z; [apply safe_ret; auto|].
    eapply safe_bind; [apply IH|]. intros v. apply safe_ret. auto.
  - destruct (assoc _ _) as [v|]; [eapply safe_bind; [apply IH|]; intros w; apply safe_ret; auto|].
    destruct path; [apply safe_ret; auto|apply safe_raise; discriminate].
Qed.
Ltac quiet := repeat (first [apply safe_ret; auto; fail | apply safe_blocked | apply safe_raise; discriminate | eapply safe_bind; [first [apply safe_get_cell | apply safe_get_pool | apply safe_upd_cell | apply safe_upd_pool]|intros ?]]).
Lemma safe_cell_update C c f : (forall v, safe C (f v) (fun _ => C)) -> safe C (cell_update c f) (fun _ => C).
Proof.
  intros H. unfold cell_update. quiet. destruct (c_shared a); [destruct (c_locked a); quiet|]; (eapply safe_bind; [apply H|intros ?]; quiet).
Qed.
Lemma safe_pool_body C p h f i : (forall v, safe C (f v) (fun _ => C)) -> safe C (pool_update_body p h f i) (fun _ => C).
Proof.
  intros H. unfold pool_update_body. quiet. eapply (safe_bind C _ (fun _ => C)); [destruct (has_key _ _); [quiet|apply safe_upd_pool]|]. intros ?. quiet.
  eapply safe_bind; [apply H|intros ?]. quiet.
Qed.
Lemma safe_pool_update C p h f i : (forall v, safe C (f v) (fun _ => C)) -> safe C (pool_update p h f i) (fun _ => C).
Proof.
  intros H. unfold pool_update. quiet. destruct (p_shared a); [|now apply safe_pool_body].
  destruct (p_locklock a); quiet. destruct (existsb _ _); quiet. eapply safe_bind; [now apply safe_pool_body|intros ?]. quiet.
Qed.

Lemma safe_pure {A} (C : scopes -> Prop) (P : Prop) (m : EM A) Q : (P -> safe C m Q) -> safe (fun ss => C ss /\ P) m Q.
Proof.
  intros H. split; [intros s r s' Nn [HC HP] Hr; exact (proj1 (H HP) s r s' Nn HC Hr)|intros s B Nn [HC HP]; exact (proj2 (H HP) s B Nn HC)].
Qed.
Lemma safe_pure3 {A} (C D : scopes -> Prop) (P : Prop) (m : EM A) Q : (P -> safe (fun ss => C ss /\ D ss) m Q) -> safe (fun ss => C ss /\ D ss /\ P) m Q.
Proof.
  intros H. split; [intros s r s' Nn (HC & HD & HP) Hr; exact (proj1 (H HP) s r s' Nn (conj HC HD) Hr)|].
  intros s B Nn (HC & HD & HP). exact (proj2 (H HP) s B Nn (conj HC HD)).
Qed.

(** lists of parts *)
Lemma safe_mapE {A B} (f : A -> EM B) (W : symtab -> A -> option symtab) (R : A -> B -> scopes -> Prop) :
  (forall a b, stable (R a b)) -> forall l T T',
  (forall a, In a l -> forall T T', W T a = Some T' -> safe (covers T) (f a) (fun b ss => covers T' ss /\ R a b ss)) ->
  walk_all W T l = Some T' -> safe (covers T) (mapE f l) (fun bs ss => covers T' ss /\ Forall2 (fun a b => R a b ss) l bs).
Proof.
  intros SR. induction l as [|a l IH]; intros T T' H W1; cbn [walk_all mapE] in *.
  - injection W1 as ->. apply safe_ret. auto.
  - destruct (W T a) as [T1|] eqn:E; [|discriminate]. eapply safe_bind; [apply (H a (or_introl eq_refl) _ _ E)|]. intros b.
    eapply safe_bind.
    { apply (safe_frame _ (R a b)); [apply SR|]. apply (IH T1 T'); auto. intros; apply H; auto. now right. }
    intros bs. apply safe_ret. intros ss [[C F] r]. auto.
Qed.
(** each part in a scope of its own *)
Lemma safe_each {A B} (C : scopes -> Prop) (f : A -> EM B) (R : A -> B -> scopes -> Prop) : stable C -> (forall a b, stable (R a b)) -> forall l,
  (forall a, In a l -> safe C (f a) (fun b ss => R a b ss)) -> safe C (mapE f l) (fun bs ss => C ss /\ Forall2 (fun a b => R a b ss) l bs).
Proof.
  intros SC SR. induction l as [|a l IH]; intros H; cbn [mapE].
  - apply safe_ret. auto.
  - eapply safe_bind; [apply (safe_conseq (fun ss => C ss /\ C ss) _ _ (fun b ss => R a b ss /\ C ss) (fun b ss => R a b ss /\ C ss)); [apply safe_frame; auto; apply H; now left|auto|auto]|]. intros b.
    eapply safe_bind.
    { apply (safe_conseq (fun ss => C ss /\ R a b ss) _ _ (fun bs ss => (C ss /\ Forall2 (fun a b => R a b ss) l bs) /\ R a b ss) (fun bs ss => (C ss /\ Forall2 (fun a b => R a b ss) l bs) /\ R a b ss)); [apply safe_frame; [apply SR|apply IH; intros; apply H; now right]|tauto|auto]. }
    intros bs. apply safe_ret. intros ss [[Cs F] r]. auto.
Qed.
Lemma safe_keep {A} (C : scopes -> Prop) (m : EM A) Q : stable C -> safe C m Q -> safe C m (fun a ss => Q a ss /\ C ss).
Proof. intros SC H. eapply safe_conseq; [apply (safe_frame C C m Q); auto| |]; cbn; tauto. Qed.
Lemma safe_drop {A} (C : scopes -> Prop) (m : EM A) Q : stable C -> safe C m Q -> safe C m (fun _ => C).
Proof. intros SC H. eapply safe_conseq; [apply safe_keep; eauto|auto|]. cbn. tauto. Qed.
Lemma Forall2_len {A B} (R : A -> B -> Prop) l l' : Forall2 R l l' -> length l = length l'.
Proof. induction 1; cbn; congruence. Qed.
Lemma Forall2_map_fst {A B K} (f : A -> K) (g : B -> K) R l l' : Forall2 R l l' -> (forall a b, R a b -> f a = g b) -> map f l = map g l'.
Proof. intros H K1. induction H; cbn; auto. f_equal; auto. Qed.
Lemma ok_some {A} (o : option A) : ok o = true -> exists a, o = Some a.
Proof. destruct o; [eauto|discriminate]. Qed.
Lemma when_some b T T' : when b T = Some T' -> b = true /\ T' = T.
Proof. unfold when. destruct b; [|discriminate]. intros [= ->]. auto. Qed.
Lemma Forall_map_inv {A B} (P : B -> Prop) (f : A -> B) l : Forall P (map f l) -> forall a, In a l -> P (f a).
Proof. rewrite Forall_map. intros H. now apply Forall_forall. Qed.
Lemma dollars_in i n j : (j < n)%nat -> In (dollar (i + j)) (dollars i n).
Proof.
  revert i j. induction n as [|n IH]; intros i j H; [lia|]. cbn [dollars]. destruct j; [left; f_equal; lia|right].
  replace (i + S j)%nat with (S i + j)%nat by lia. apply IH. lia.
Qed.
Lemma dollars_length : forall n i, length (dollars i n) = n.
Proof. induction n; intros; cbn [dollars length]; auto. Qed.
Lemma in_assoc {A} k (d : list (string * A)) a : assoc k d = Some a -> In (k, a) d.
Proof. induction d as [|[k' a'] d IH]; [discriminate|]. cbn [assoc]. destruct (String.eqb k k') eqn:E; [|right; auto]. intros [= ->]. apply String.eqb_eq in E. subst. now left. Qed.

Section Walks.
  Variable user : string -> bool.
  Variable params : string -> list string.
  Variable fa : string -> nat -> option nat.
  (** nothing is declared in a sealed scope *)
  Lemma walk_all_same {A} (W : symtab -> A -> option symtab) T l : (forall a T', In a l -> W T a = Some T' -> T' = T) -> forall T', walk_all W T l = Some T' -> T' = T /\ forall a, In a l -> W T a = Some T.
  Proof.
    induction l as [|a l IH]; intros H T' W1; cbn [walk_all] in W1.
    - injection W1 as <-. split; [reflexivity|intros a []].
    - destruct (W T a) as [T1|] eqn:E; [|discriminate]. pose proof (H _ _ (or_introl eq_refl) E) as ->.
      destruct (IH (fun a T' i => H a T' (or_intror i)) _ W1) as [-> K]. split; auto. intros b [<-|i]; auto.
  Qed.
  Definition nwalk (T : symtab) (n : node) : option symtab := match n with NE e => walk user params fa T e | NA a => walk_arg user params fa T a end.
  Lemma walk_sealed : forall n T T', sealed T = true -> nwalk T n = Some T' -> T' = T.
  Proof.
    refine (node_induction _ _). intros n F T T' S W. destruct n as [e|a]; [destruct e|destruct a]; cbn [nwalk walk walk_arg parts] in *;
      fold (walk user params fa) in W; fold (walk_arg user params fa) in W;
      try (apply when_some in W; now destruct W); try (now injection W).
    - rewrite S in W. cbn in W. discriminate.
    - destruct (_ && _)%bool; [|discriminate]. apply Forall_inv_tail in F. apply Forall_app in F. destruct F as [_ F]. apply Forall_inv in F. exact (F _ _ S W).
    - destruct (_ && _)%bool; [|discriminate]. apply Forall_app in F. destruct F as [_ F]. apply Forall_inv in F. exact (F _ _ S W).
    - destruct (_ && _)%bool; [|discriminate]. apply Forall_app in F. destruct F as [_ F]. inversion F as [|? ? F1 F2]; subst. apply Forall_inv in F2.
      destruct (walk_arg user params fa T to) as [T1|] eqn:W1; [|discriminate]. pose proof (F1 _ _ S W1) as ->. exact (F2 _ _ S W).
    - apply Forall_inv in F. exact (F _ _ S W).
    - destruct (declare _ _); [|discriminate]. apply when_some in W. now destruct W.
    - apply Forall_inv in F. exact (F _ _ S W).
  Qed.
End Walks.

Section Main.
  Variable E : env.
  Variable fa : string -> nat -> option nat.
  Hypothesis OK : env_ok E fa.
  Notation tame := (tame E fa).
  Notation tame_here := (tame_here E fa).
  Notation fits := (fits E).
  Notation lib_ok := (lib_ok E).
  Notation W := (walk (is_user E) (params_of E) fa).
  Notation WA := (walk_arg (is_user E) (params_of E) fa).
  Definition aval_ok (a : aval) (ss : scopes) : Prop :=
    match a with AV _ => True | AF f => tame (NA f) /\ exists U U', covers U ss /\ WA U f = Some U' end.
  Lemma aval_stable a : stable (aval_ok a).
  Proof. intros ss ss' S. destruct a; [auto|]. cbn. intros (t & U & U' & C & H). split; auto. exists U, U'. split; auto. eapply covers_sub; eauto. Qed.
  Definition SE (ev : expr -> EM val) : Prop := forall e T T', W T e = Some T' -> tame (NE e) -> safe (covers T) (ev e) (fun _ => covers T').
  Definition SA (app : arg -> list val -> EM val) : Prop := forall a vs T T', WA T a = Some T' -> tame (NA a) -> fits a (length vs) ->
    safe (covers T) (app a vs) (fun _ => covers T).

  Section Step.
  Variable n : nat.
  Variable ev : expr -> EM val.
  Variable app : arg -> list val -> EM val.
  Hypothesis He : SE ev.
  Hypothesis Ha : SA app.
  Hypothesis Hl : forall nm choices, names_one_of E nm choices -> forall s v s', ev nm s = Done (Ok v) s' -> exists x, v = VStr x /\ In x choices.

  Lemma tame_inv m : tame m -> tame_here m /\ Forall tame (parts m).
  Proof. inversion 1; auto. Qed.
  Lemma safe_all l T T' : Forall (fun e => tame (NE e)) l -> walk_all W T l = Some T' -> safe (covers T) (mapE ev l) (fun vs ss => covers T' ss /\ length vs = length l).
  Proof.
    intros F Wl. eapply safe_conseq; [apply (safe_mapE ev W (fun _ _ _ => True) (fun _ _ _ _ _ H => H) l T T')|auto|]; auto.
    - intros a I U U' HW. eapply safe_conseq; [apply (He _ _ _ HW)|auto|cbn; auto]. rewrite Forall_forall in F. auto.
    - cbn. intros a ss [C F2]. split; auto. symmetry. now apply Forall2_len in F2.
  Qed.
  Lemma safe_run l T T' : Forall (fun e => tame (NE e)) l -> walk_all W T l = Some T' -> safe (covers T) (run ev l) (fun _ => covers T').
  Proof. intros F Wl. eapply safe_bind; [apply (safe_all _ _ _ F Wl)|]. intros vs. apply safe_ret. tauto. Qed.
  (** parts walked in a scope of their own leave the scope around as it is *)
  Lemma safe_all_in l a w T : Forall (fun e => tame (NE e)) l -> ok (walk_all W (new_scope a w T) l) = true ->
    safe (covers T) (mapE ev l) (fun vs ss => covers T ss /\ length vs = length l).
  Proof.
    intros F H. apply ok_some in H. destruct H as [T' H]. eapply safe_conseq; [apply safe_keep; [apply covers_stable|apply (safe_all _ _ _ F H)]|auto|]. cbn. tauto.
  Qed.
  Lemma safe_run_in l a w T : Forall (fun e => tame (NE e)) l -> ok (walk_all W (new_scope a w T) l) = true -> safe (covers T) (run ev l) (fun _ => covers T).
  Proof. intros F H. apply ok_some in H. destruct H as [T' H]. eapply safe_drop; [apply covers_stable|]. apply (safe_run _ _ _ F H). Qed.
  Lemma safe_ev_in e a w T : tame (NE e) -> ok (W (new_scope a w T) e) = true -> safe (covers T) (ev e) (fun _ => covers T).
  Proof. intros F H. apply ok_some in H. destruct H as [T' H]. eapply safe_drop; [apply covers_stable|]. apply (He _ _ _ H F). Qed.
  Lemma safe_ev_arg a T T' : tame (NA a) -> WA T a = Some T' -> safe (covers T) (ev_arg ev a) (fun v ss => covers T' ss /\ aval_ok v ss).
  Proof.
    intros F HW. destruct a as [e|ps body|g|g fills]; cbn [ev_arg].
    - eapply safe_bind; [apply (He e _ _ HW)|]. { apply tame_inv in F. destruct F as [_ F]. now apply Forall_inv in F. }
      intros v. apply safe_ret. cbn. auto.
    - assert (T' = T) as -> by (cbn [walk_arg] in HW; now apply when_some in HW). apply safe_ret. cbn [aval_ok]. intros ss C. split; auto. split; auto. exists T, T. auto.
    - assert (T' = T) as -> by (cbn [walk_arg] in HW; now injection HW). apply safe_ret. cbn [aval_ok]. intros ss C. split; auto. split; auto. exists T, T. auto.
    - assert (T' = T) as -> by (cbn [walk_arg] in HW; now apply when_some in HW). apply safe_ret. cbn [aval_ok]. intros ss C. split; auto. split; auto. exists T, T. auto.
  Qed.
  Lemma safe_args l a w T : Forall (fun a => tame (NA a)) l -> ok (walk_all WA (new_scope a w T) l) = true ->
    safe (covers T) (mapE (ev_arg ev) l) (fun avs ss => (Forall (fun v => aval_ok v ss) avs /\ covers T ss) /\ length avs = length l).
  Proof.
    intros F H. apply ok_some in H. destruct H as [T' H].
    eapply safe_conseq; [apply safe_keep; [apply covers_stable|apply (safe_mapE (ev_arg ev) WA (fun _ v ss => aval_ok v ss) (fun _ b => aval_stable b) l (new_scope a w T) T')]|auto|].
    - intros b I U U' HW. eapply safe_conseq; [apply (safe_ev_arg _ _ _ (proj1 (Forall_forall _ _) F b I) HW)|auto|auto].
    - exact H.
    - cbn. intros avs ss [[C F2] C0]. split; [split; [|exact C0]|symmetry; now apply Forall2_len in F2].
      clear - F2. induction F2; auto.
  Qed.
  Lemma safe_named l a w T : Forall tame (map (fun b : string * expr => NE (snd b)) l) -> forallb (fun b => ok (W (new_scope a w T) (snd b))) l = true ->
    safe (covers T) (ev_named ev l) (fun bs ss => covers T ss /\ map fst bs = map fst l).
  Proof.
    intros F H. eapply safe_conseq; [apply (safe_each (covers T) _ (fun a b _ => fst a = fst b) (covers_stable T)); [intros ? ? ? ? ? K; exact K|]|auto|].
    - intros b I. eapply safe_bind; [apply (safe_ev_in (snd b) a w T)|].
      + exact (Forall_map_inv _ _ _ F b I).
      + rewrite forallb_forall in H. auto.
      + intros v. apply safe_ret. auto.
    - cbn. intros bs ss [C F2]. split; auto. symmetry. apply (Forall2_map_fst _ _ _ _ _ F2). auto.
  Qed.

  Lemma safe_lib (C : scopes -> Prop) lazies avs : stable C ->
    (forall i e, nth_error lazies i = Some (AExpr e) -> safe C (ev e) any) ->
    (forall ss, C ss -> Forall (fun v => aval_ok v ss) avs) ->
    forall p, lib_ok avs p -> safe C (run_lib E ev app lazies avs p) (fun _ => C).
  Proof.
    intros SC HL HA. induction p as [v|e|i vs k IH|i k IH|k IH|k IH]; cbn [lib_ok run_lib]; intros H.
    - apply safe_ret. auto.
    - now apply safe_raise.
    - destruct H as [Hf Hk]. destruct (nth_error avs i) as [[v|f]|] eqn:N; try (apply safe_raise; discriminate).
      eapply safe_bind; [apply (safe_attempt _ _ any); [exact SC|]|].
      + split; intros s.
        * intros r s' Nn HC Hr. pose proof (HA _ HC) as FA. rewrite Forall_forall in FA. destruct (FA _ (nth_error_In _ _ N)) as (t & U & U' & CU & HU).
          destruct (proj1 (Ha f vs U U' HU t Hf) s r s' Nn CU Hr) as [S R]. split; auto. destruct r; [exact I|exact R].
        * intros B Nn HC. pose proof (HA _ HC) as FA. rewrite Forall_forall in FA. destruct (FA _ (nth_error_In _ _ N)) as (t & U & U' & CU & HU).
          exact (proj2 (Ha f vs U U' HU t Hf) s B Nn CU).
      + intros r. cbn. split.
        * intros s x s' Nn [Kr HC] Hr. exact (proj1 (IH r (Hk r Kr)) s x s' Nn HC Hr).
        * intros s B Nn [Kr HC]. exact (proj2 (IH r (Hk r Kr)) s B Nn HC).
    - destruct (nth_error lazies i) as [[e| | |]|] eqn:N; try (apply safe_raise; discriminate).
      eapply safe_bind; [apply (safe_attempt _ _ any); [exact SC|apply (HL _ _ N)]|].
      intros r. cbn. split.
      + intros s x s' Nn [Kr HC] Hr. exact (proj1 (IH r (H r Kr)) s x s' Nn HC Hr).
      + intros s B Nn [Kr HC]. exact (proj2 (IH r (H r Kr)) s B Nn HC).
    - eapply safe_bind; [apply safe_time|]. intros u. now apply IH.
    - eapply safe_bind; [apply safe_draw|]. intros z. now apply IH.
  Qed.
  Lemma covers_start names f ss : (forall x, In x names -> has_key x f = true) -> forall a w U, covers U ss -> covers (put names (new_scope a w U)) (f :: ss).
  Proof. intros H a w U C. apply covers_put; [|exact H]. apply covers_frame. exact C. Qed.
  Lemma body_safe (C : scopes -> Prop) ps body vs ss0 :
    assoc ss0 (e_fcns E) = Some (ps, body) -> length ps = length vs -> stable C ->
    safe C (in_frame (frame_let (zip_dict ps vs) []) (run ev body)) (fun _ => C).
  Proof.
    intros A L SC. destruct (ok_fcns E fa OK _ _ _ A) as [Hw Ht]. unfold walk_fcn in Hw. apply ok_some in Hw. destruct Hw as [T' Hw].
    eapply safe_in_frame; [exact SC| |apply (safe_run _ _ _ Ht Hw)].
    intros ss _. apply covers_start; [|intros x V; discriminate]. intros x I. apply has_key_let_in. now rewrite zip_names.
  Qed.
  Lemma call_safe (C : scopes -> Prop) f vs : (forall ps body, assoc f (e_fcns E) = Some (ps, body) -> length ps = length vs) -> stable C ->
    safe C (call_user E ev f vs) (fun _ => C).
  Proof.
    intros L SC. unfold call_user. destruct (assoc f (e_fcns E)) as [[ps body]|] eqn:A; [|apply safe_raise; discriminate].
    destruct (ok_fcns E fa OK _ _ _ A) as [Hw Ht]. unfold walk_fcn in Hw. apply ok_some in Hw. destruct Hw as [T' Hw].
    eapply safe_root; [discriminate| |apply (safe_run _ _ _ Ht Hw)].
    apply covers_start; [|intros x V; discriminate]. intros x I. apply has_key_let_in. rewrite zip_names; auto. eapply L; eauto.
  Qed.
  Lemma arity_len f k ps body : arity_ok (is_user E) (params_of E) f k = true -> assoc f (e_fcns E) = Some (ps, body) -> length ps = k.
  Proof. unfold arity_ok, is_user, params_of, has_key. intros H A. rewrite A in H. now apply Nat.eqb_eq in H. Qed.
  Lemma leaf_safe T t : forall old, safe (fun ss => covers T ss /\ aval_ok t ss /\ match t with AF f => fits f 1 | _ => True end) (update_leaf E app t old)
    (fun _ ss => covers T ss /\ aval_ok t ss /\ match t with AF f => fits f 1 | _ => True end).
  Proof.
    intros old. set (C := fun ss => _).
    assert (SC : stable C). { unfold C. apply stable_and; [apply covers_stable|]. apply stable_and; [apply aval_stable|]. intros ? ? _ K. exact K. }
    destruct t as [v|f]; cbn [update_leaf]; [apply safe_ret; auto|].
    assert (G : safe C (app f [old]) (fun _ => C)).
    { apply (safe_drop C _ any); [exact SC|]. split.
      - intros s r s' Nn (C1 & (tm & U & U' & CU & HU) & F) Hr. destruct (proj1 (Ha f [old] U U' HU tm F) s r s' Nn CU Hr) as [S R].
        split; auto. destruct r; [exact I|exact R].
      - intros s B Nn (C1 & (tm & U & U' & CU & HU) & F). exact (proj2 (Ha f [old] U U' HU tm F) s B Nn CU). }
    destruct f; auto. destruct (assoc _ _); [exact G|apply safe_raise; discriminate].
  Qed.

  (** control structures *)
  Lemma conds_safe T els keep its : safe (covers T) els (fun _ => covers T) ->
    Forall (fun it => tame (NE (fst it)) /\ Forall (fun e => tame (NE e)) (snd it)) its ->
    forallb (fun it => ok (W (new_scope true true T) (fst it)) && ok (walk_all W (new_scope false false T) (snd it)))%bool its = true ->
    safe (covers T) (conds ev its els keep) (fun _ => covers T).
  Proof.
    intros Hel F. induction F as [|[p t] its [Fp Ft] F IH]; cbn [conds forallb fst snd]; intros H; [exact Hel|].
    apply Bool.andb_true_iff in H. destruct H as [H Hr]. apply Bool.andb_true_iff in H. destruct H as [Hp Ht].
    eapply safe_bind; [eapply (safe_in_frame (covers T) [] _ (covers T)); [apply covers_stable|apply covers_frame|eapply safe_ev_in; eauto]|].
    intros b. destruct (truthy b); [|auto].
    eapply safe_bind; [eapply (safe_in_frame (covers T) [] _ (covers T)); [apply covers_stable|apply covers_frame|eapply safe_run_in; eauto]|].
    intros v. apply safe_ret. auto.
  Qed.
  Lemma while_safe T p body : tame (NE p) -> Forall (fun e => tame (NE e)) body ->
    ok (W (new_scope true true (new_scope false false T)) p) = true -> ok (walk_all W (new_scope false false T) body) = true ->
    forall m pf bf, safe (covers T) (while_loop E ev m p body pf bf) (fun _ => covers T).
  Proof.
    intros Fp Fb Hp Hb. induction m as [|m IH]; intros pf bf; cbn [while_loop]; [apply safe_fuel|].
    eapply safe_bind; [eapply (safe_frames (covers T) [pf; bf] _ (covers T)); [apply covers_stable|discriminate|intros ss C; apply covers_frame, covers_frame, C|apply (safe_ev_in p true true (new_scope false false T)); auto]|].
    intros [b fs]. cbn [fst snd]. destruct (truthy b); [|apply safe_ret; tauto].
    eapply safe_bind; [eapply safe_conseq; [apply (safe_time E (covers T))|tauto|intros ? ? K; exact K]|]. intros u.
    eapply safe_bind; [eapply (safe_frames (covers T) [nth 1 fs []] _ (covers T)); [apply covers_stable|discriminate|intros ss C; apply covers_frame, C|eapply safe_run_in; eauto]|].
    intros r. eapply safe_conseq; [apply IH|tauto|auto].
  Qed.
  Lemma until_safe T U p body : tame (NE p) -> Forall (fun e => tame (NE e)) body ->
    walk_all W (new_scope false false T) body = Some U -> ok (W (new_scope true true U) p) = true ->
    forall m pf bf, safe (covers T) (until_loop E ev m body p pf bf) (fun _ => covers T).
  Proof.
    intros Fp Fb Hb Hp. induction m as [|m IH]; intros pf bf; cbn [until_loop]; [apply safe_fuel|].
    eapply safe_bind; [apply safe_time|]. intros u.
    eapply safe_bind; [eapply (safe_frames (covers T) [bf] _ (covers T)); [apply covers_stable|discriminate|intros ss C; apply covers_frame, C|apply (safe_run _ _ _ Fb Hb)]|].
    intros [rv rfs]. cbn [fst snd]. set (bf' := nth 0 rfs []).
    eapply safe_bind.
    { eapply (safe_conseq (fun ss => covers T ss /\ covers U (bf' :: ss))); [|intros ss (C & S & Q)|intros a ss Q; exact Q].
      - eapply (safe_frames (fun ss => covers T ss /\ covers U (bf' :: ss)) [pf; bf'] _ (covers U)); [|discriminate| |apply (safe_ev_in p true true U); auto].
        + apply stable_and; [apply covers_stable|]. intros ss ss' S. apply covers_sub. constructor; [apply sub_frame_refl|exact S].
        + intros ss [_ C]. apply covers_frame, C.
      - split; auto. unfold bf'. inversion S as [|f f' l l' Sf Sl]; subst. inversion Sl; subst. exact Q. }
    intros [b fs]. cbn [fst snd]. destruct (truthy b); [apply safe_ret; tauto|]. eapply safe_conseq; [apply IH|tauto|auto].
  Qed.
  Definition lcov (T U : symtab) (lf : frame) : scopes -> Prop := fun ss => covers T ss /\ covers U (lf :: ss).
  Lemma lcov_stable T U lf : stable (lcov T U lf).
  Proof. apply stable_and; [apply covers_stable|]. intros ss ss' S. apply covers_sub. constructor; [apply sub_frame_refl|exact S]. Qed.
  Lemma lcov_sub T U lf lf' ss : sub_frame lf lf' -> lcov T U lf ss -> lcov T U lf' ss.
  Proof. intros S [C1 C2]. split; auto. eapply covers_sub; [|exact C2]. constructor; [exact S|apply sub_refl]. Qed.
  Lemma for_safe T U p upd body : tame (NE p) -> Forall (fun e => tame (NE e)) body -> Forall tame (map (fun b : string * expr => NE (snd b)) upd) ->
    (length upd <= 1)%nat ->
    ok (W (new_scope true true U) p) = true ->
    forallb (fun b => visible U (fst b) && writable U (fst b) && ok (W (new_scope true true U) (snd b)))%bool upd = true ->
    ok (walk_all W (new_scope false false U) body) = true ->
    forall m pf bf lf, safe (lcov T U lf) (for_loop E ev m p upd body pf bf lf) (fun _ => covers T).
  Proof.
    intros Fp Fb Fu Lu Hp Hu Hb. induction m as [|m IH]; intros pf bf lf; cbn [for_loop]; [apply safe_fuel|].
    eapply safe_bind; [eapply (safe_frames (lcov T U lf) [pf; lf] _ (covers U)); [apply lcov_stable|discriminate|intros ss [_ C]; apply covers_frame, C|apply (safe_ev_in p true true U); auto]|].
    intros [b fs]. cbn [fst snd]. set (lf1 := nth 1 fs []).
    apply (safe_conseq (lcov T U lf1) _ _ (fun _ => covers T)); [|intros ss (C & S & Q)|auto].
    2: { apply (lcov_sub _ _ lf); [|exact C]. unfold lf1. inversion S as [|f f' l l' Sf Sl]; subst. inversion Sl as [|f2 f2' l2 l2' Sf2 Sl2]; subst. exact Sf2. }
    destruct (truthy b); [|apply safe_ret; unfold lcov; tauto].
    eapply safe_bind; [apply safe_time|]. intros u.
    eapply safe_bind; [eapply (safe_frames (lcov T U lf1) [bf; lf1] _ (covers U)); [apply lcov_stable|discriminate|intros ss [_ C]; apply covers_frame, C|eapply safe_run_in; eauto]|].
    intros [v fs2]. cbn [fst snd]. set (lf2 := nth 1 fs2 []).
    apply (safe_conseq (lcov T U lf2) _ _ (fun _ => covers T)); [|intros ss (C & S & Q)|auto].
    2: { apply (lcov_sub _ _ lf1); [|exact C]. unfold lf2. inversion S as [|f f' l l' Sf Sl]; subst. inversion Sl as [|f2 f2' l2 l2' Sf2 Sl2]; subst. exact Sf2. }
    eapply safe_bind.
    { eapply (safe_frames (lcov T U lf2) [lf2] _ (covers U)); [apply lcov_stable|discriminate|intros ss [_ C]; exact C|].
      assert (Hu1 : forallb (fun b => ok (W (new_scope true true U) (snd b))) upd = true).
      { apply forallb_forall. intros x I. rewrite forallb_forall in Hu. specialize (Hu x I). apply Bool.andb_true_iff in Hu. tauto. }
      eapply safe_bind; [apply (safe_named upd true true U Fu Hu1)|]. intros vs.
      apply safe_pure. intros Hn. apply safe_set.
      - rewrite <- (map_length fst), Hn, map_length. exact Lu.
      - intros b0 I. apply (in_map fst) in I. rewrite Hn in I. apply in_map_iff in I. destruct I as (x & <- & I).
        rewrite forallb_forall in Hu. specialize (Hu x I). apply Bool.andb_true_iff in Hu. destruct Hu as [Hu _]. apply Bool.andb_true_iff in Hu. tauto. }
    intros [v3 fs3]. cbn [fst snd]. eapply safe_conseq; [apply IH|intros ss (C & S & Q)|auto].
    apply (lcov_sub _ _ lf2); [|exact C]. inversion S as [|f f' l l' Sf Sl]; subst. exact Sf.
  Qed.
  Lemma each_safe T names body a w : Forall (fun e => tame (NE e)) body ->
    ok (walk_all W (new_scope false false (put names (new_scope a w T))) body) = true ->
    forall items bf lf, (forall bs, In bs items -> map fst bs = names) -> safe (covers T) (each_loop E ev items body bf lf) (fun _ => covers T).
  Proof.
    intros Fb Hb. induction items as [|bs items IH]; intros bf lf Hn; cbn [each_loop]; [apply safe_ret; auto|].
    eapply safe_bind; [apply safe_time|]. intros u.
    eapply safe_bind; [eapply (safe_frames (covers T) [bf; frame_let bs lf] _ (covers (put names (new_scope a w T)))); [apply covers_stable|discriminate| |eapply safe_run_in; eauto]|].
    { intros ss C. apply covers_frame. apply covers_start; auto. intros x I. apply has_key_let_in. now rewrite (Hn bs (or_introl eq_refl)). }
    intros r. eapply safe_conseq; [apply IH|tauto|auto]. intros b0 I. apply Hn. now right.
  Qed.
  Lemma cast_safe T fromU part v cases : Forall (fun c => Forall (fun e => tame (NE e)) (snd c)) cases ->
    forallb (fun c => ok (walk_all W (put [fst (fst c)] (new_scope false false T)) (snd c))) cases = true ->
    safe (covers T) (cast_cases E ev fromU part v cases) (fun _ => covers T).
  Proof.
    intros F. induction F as [|[[name ty] body] cases Fb F IH]; cbn [cast_cases forallb fst snd]; intros H; [apply safe_ret; auto|].
    apply Bool.andb_true_iff in H. destruct H as [H Hr]. specialize (IH Hr).
    destruct (cast_value _ _ _) as [w|]; [|exact IH]. pose proof (ok_decode E fa (ok_lib E fa OK) ty w) as K.
    destruct (e_decode E ty w) as [c|e].
    - apply ok_some in H. destruct H as [U H].
      eapply safe_bind; [eapply (safe_in_frame (covers T) [(name, c)] _ (covers (put [name] (new_scope false false T)))); [apply covers_stable| |apply (safe_run _ _ _ Fb H)]|].
      + intros ss C. apply covers_start; auto. intros x [<-|[]]. unfold has_key. cbn [assoc]. now rewrite String.eqb_refl.
      + intros o. apply safe_ret. auto.
    - assert (Ke : e <> unknown) by (intros ->; now apply K). destruct e; try (now apply safe_raise); try exact IH.
      destruct (String.eqb _ _); [exact IH|now apply safe_raise].
  Qed.

  Lemma args_good f : forall args i (avs : list aval), args_ok (is_user E) (params_of E) fa f i args = true ->
    Forall2 (fun a v => match a with AExpr _ => exists x, v = AV x | _ => v = AF a end) args avs ->
    forall j a, nth_error avs j = Some (AF a) -> exists k, fa f (i + j)%nat = Some k /\ fits a k.
  Proof.
    induction args as [|a0 args IH]; intros i avs H F j a N; inversion F as [|? v ? avs' Hv F']; subst; [destruct j; discriminate|].
    destruct j as [|j].
    - cbn in N. injection N as ->. rewrite Nat.add_0_r. destruct a0; [destruct Hv as [x Hv]; discriminate| | |]; injection Hv as ->; cbn [args_ok] in H;
        apply Bool.andb_true_iff in H; destruct H as [H _]; destruct (fa f i); try discriminate; eauto.
    - cbn in N. replace (i + S j)%nat with (S i + j)%nat by lia. apply (IH _ _) with (3 := N); auto.
      destruct a0; cbn [args_ok] in H; auto; apply Bool.andb_true_iff in H; tauto.
  Qed.
  Lemma ev_arg_shape a s v s' : ev_arg ev a s = Done (Ok v) s' -> match a with AExpr _ => exists x, v = AV x | _ => v = AF a end.
  Proof.
    destruct a; cbn [ev_arg]; unfold bind, ret; [|now intros [= <- _]..]. destruct (ev e s) as [[x|]| |]; try discriminate. intros [= <- _]. eauto.
  Qed.
  Lemma args_shape : forall args s avs s', mapE (ev_arg ev) args s = Done (Ok avs) s' -> Forall2 (fun a v => match a with AExpr _ => exists x, v = AV x | _ => v = AF a end) args avs.
  Proof.
    induction args as [|a args IH]; intros s avs s' H; cbn [mapE] in H.
    - injection H as <- _. constructor.
    - unfold bind in H. destruct (ev_arg ev a s) as [[v|]s1| |] eqn:Ea; try discriminate.
      destruct (mapE (ev_arg ev) args s1) as [[vs|] s2| |] eqn:Eb; try discriminate. injection H as <- _. constructor; [eapply ev_arg_shape|]; eauto.
  Qed.
  Lemma safe_args' f l a w T : Forall (fun a => tame (NA a)) l -> ok (walk_all WA (new_scope a w T) l) = true -> args_ok (is_user E) (params_of E) fa f 0 l = true ->
    safe (covers T) (mapE (ev_arg ev) l) (fun avs ss => Forall (fun v => aval_ok v ss) avs /\ covers T ss /\ length avs = length l /\ good_args E fa f avs).
  Proof.
    intros F H G. split; [|exact (proj2 (safe_args l a w T F H))].
    intros s r s' Nn HC Hr. destruct (proj1 (safe_args l a w T F H) s r s' Nn HC Hr) as [S R]. split; auto. destruct r as [avs|]; auto.
    destruct R as [[R1 R2] R3]. do 3 (split; [assumption|]). intros j b N. apply args_shape in Hr. exact (args_good f l 0 avs G Hr j b N).
  Qed.
  Lemma tames l : Forall tame (map NE l) -> Forall (fun e => tame (NE e)) l.
  Proof. apply Forall_map. Qed.
  Lemma declare_covers xs f ss : (forall x, In x xs -> has_key x f = true) -> forall T U, declare T xs = Some U -> covers T (f :: ss) -> covers U (f :: ss).
  Proof.
    induction xs as [|x xs IH]; intros H T U D C; cbn [declare] in D; [injection D as <-; exact C|]. destruct (visible T x); [discriminate|].
    apply (IH (fun y I => H y (or_intror I)) _ _ D). apply covers_put; auto. intros y [<-|[]]. apply H. now left.
  Qed.
  Lemma to_safe T to t ks a m : takes (is_user E) (params_of E) to 1 = true -> (match to with AExpr _ => exists x, t = AV x | _ => t = AF to end) ->
    forall old, safe (fun ss => covers T ss /\ aval_ok t ss) (update_path (update_leaf E app t) old ks a m) (fun _ => covers T).
  Proof.
    intros Ht Hs old. 
    eapply (safe_conseq _ _ _ _ _ (safe_update_path _ (update_leaf E app t) a m (leaf_safe T t) ks old)); [|cbn; tauto].
    intros ss [C A]. split; auto. split; auto. destruct t as [v|f]; auto. destruct to; try (destruct Hs; discriminate); injection Hs as ->; exact Ht.
  Qed.
  Ltac unb H := repeat match type of H with (_ && _)%bool = true => let H2 := fresh H in apply Bool.andb_true_iff in H; destruct H as [H H2] end.
  Lemma safe_ev_arg' a T T' : tame (NA a) -> WA T a = Some T' -> safe (covers T) (ev_arg ev a)
     (fun v ss => covers T' ss /\ aval_ok v ss /\ match a with AExpr _ => exists x, v = AV x | _ => v = AF a end).
  Proof.
    intros F HW. split; [|exact (proj2 (safe_ev_arg a T T' F HW))].
    intros s r s' Nn HC Hr. destruct (proj1 (safe_ev_arg a T T' F HW) s r s' Nn HC Hr) as [S R]. split; auto. destruct r as [v|]; auto.
    destruct R. do 2 (split; [assumption|]). eapply ev_arg_shape; eauto.
  Qed.
  Lemma frame_stable {A} C (m : EM A) Q T : safe C m Q -> safe (fun ss => C ss /\ covers T ss) m (fun a ss => Q a ss /\ covers T ss).
  Proof. apply safe_frame, covers_stable. Qed.
  Lemma or_else_safe T el : Forall tame (map NE (opt_list el)) -> opt_all (fun es => ok (walk_all W (new_scope false false T) es)) el = true ->
    safe (covers T) (or_else el (run ev)) (fun _ => covers T).
  Proof.
    intros F H. destruct el as [es|]; cbn [or_else]; [|apply safe_ret; auto]. apply (safe_run_in es false false T (tames _ F) H).
  Qed.

  Lemma step_safe : SE (step E n ev app).
  Proof.
    intros e T T' HW Ht. apply tame_inv in Ht. destruct Ht as [Hh Hp].
    destruct e; cbn [step]; cbn [walk] in HW; fold W in HW; fold WA in HW; cbn [parts] in Hp.
    - (* ELit *) injection HW as <-. apply safe_ret. auto.
    - (* ERef *) apply when_some in HW. destruct HW as [HV ->]. now apply safe_get.
    - (* ECall *) apply when_some in HW. destruct HW as [HV ->]. unb HV. apply (proj1 (Forall_map NA tame args)) in Hp.
      destruct (assoc f (e_fcns E)) as [[ps body]|] eqn:A.
      + eapply safe_bind; [apply (safe_args' f args true true T Hp HV0 HV1)|]. intros avs.
        eapply safe_bind; [apply safe_modify; reflexivity|]. intros u.
        eapply (safe_conseq (fun ss => covers T ss /\ length avs = length args)); [apply safe_pure; intros L|cbn; tauto|intros ? ? K; exact K].
        apply call_safe; [|apply covers_stable]. intros ps' body' A'. rewrite map_length, L. eapply arity_len; eauto.
      + destruct (String.eqb f "emit").
        * eapply safe_bind; [apply (safe_args' f args true true T Hp HV0 HV1)|]. intros avs. eapply safe_bind; [apply safe_modify; reflexivity|]. intros u.
          eapply safe_bind; [apply safe_modify; reflexivity|]. intros u2. apply safe_ret. tauto.
        * destruct (e_lib E f) as [[g|p]|] eqn:L; [| |apply safe_raise; discriminate].
          -- eapply safe_bind; [apply (safe_args' f args true true T Hp HV0 HV1)|]. intros avs. eapply safe_bind; [apply safe_modify; reflexivity|]. intros u.
             eapply (safe_conseq (fun ss => (Forall (fun v => aval_ok v ss) avs /\ covers T ss) /\ good_args E fa f avs)); [apply safe_pure; intros G|cbn; tauto|intros ? ? K; exact K].
             eapply safe_conseq; [apply (safe_lib (fun ss => Forall (fun v => aval_ok v ss) avs /\ covers T ss))|auto|cbn; tauto].
             ++ apply stable_and; [apply stable_all; apply aval_stable|apply covers_stable].
             ++ intros [|i]; discriminate.
             ++ tauto.
             ++ eapply (ok_strict E fa (ok_lib E fa OK)); eauto.
          -- eapply safe_bind; [apply safe_modify; reflexivity|]. intros u.
             apply safe_lib; [apply covers_stable| |intros; constructor|eapply (ok_lazy E fa (ok_lib E fa OK)); eauto].
             intros i e N. apply ok_some in HV0. destruct HV0 as [U HU].
             apply walk_all_same in HU.
             ++ destruct HU as [-> HU]. specialize (HU _ (nth_error_In _ _ N)). apply nth_error_In in N. rewrite Forall_forall in Hp. specialize (Hp _ N).
                apply tame_inv in Hp. destruct Hp as [_ Hp]. apply Forall_inv in Hp. eapply safe_conseq; [apply (He _ _ _ HU Hp)|auto|exact (fun _ _ _ => I)].
             ++ intros a U' I HU'. apply (walk_sealed (is_user E) (params_of E) fa (NA a) (new_scope true true T) U' eq_refl HU').
    - (* ECallUser *) apply when_some in HW. destruct HW as [HV ->]. unb HV. inversion Hp as [|? ? Hn Ha']; subst.
      apply (safe_bind _ _ (fun v ss => covers T ss /\ exists x, v = VStr x /\ In x choices)).
      { apply ok_some in HV1. destruct HV1 as [U HU]. split; [|exact (proj2 (He _ _ _ HU Hn))].
        intros s r s' Nn HC Hr. destruct (proj1 (He _ _ _ HU Hn) s r s' Nn HC Hr) as [S R]. split; auto.
        destruct r as [v|]; auto. split; [eapply covers_sub; eauto|]. exact (Hl _ _ Hh _ _ _ Hr). }
      intros nm. apply safe_pure. intros (x & -> & Hx).
      destruct (has_key _ _) eqn:HK; [|apply safe_raise; discriminate].
      eapply safe_bind; [eapply safe_all_in; [apply tames; exact Ha'|exact HV0]|]. intros vs.
      eapply safe_bind; [apply safe_modify; reflexivity|]. intros u. apply safe_pure. intros L.
      apply call_safe; [|apply covers_stable]. intros ps body A. rewrite L. rewrite forallb_forall in HV. eapply arity_len; eauto.
    - (* ENewObj *) apply when_some in HW. destruct HW as [HV ->]. apply ok_some in HV. destruct HV as [U HU].
      eapply safe_bind.
      { eapply (safe_drop (covers T)); [apply covers_stable|].
        apply (safe_mapE (fun b => v <== ev (snd b) ;; ret (fst b, v)) (fun U b => W U (snd b)) (fun _ _ _ => True) (fun _ _ _ _ _ K => K) _ (new_scope true true T) U); [|exact HU].
        intros b I U1 U2 HW. eapply safe_bind; [apply (He _ _ _ HW)|intros v; apply safe_ret; auto]. exact (Forall_map_inv _ _ _ Hp b I). }
      intros kvs. apply safe_ret. auto.
    - (* ENewArr *) apply when_some in HW. destruct HW as [HV ->].
      eapply safe_bind; [eapply safe_all_in; [apply tames; exact Hp|exact HV]|]. intros vs. apply safe_ret. tauto.
    - (* EDo *) apply when_some in HW. destruct HW as [HV ->]. eapply safe_run_in; [apply tames; exact Hp|exact HV].
    - (* ELet *) destruct (_ && _)%bool eqn:HV; [|discriminate]. injection HW as <-. unb HV.
      assert (H1 : forallb (fun b => ok (W (new_scope true true T) (snd b))) bs = true).
      { apply forallb_forall. intros x I. rewrite forallb_forall in HV0. specialize (HV0 x I). unb HV0. assumption. }
      eapply safe_bind; [eapply (safe_named bs true true T Hp H1)|]. intros vs. apply safe_pure. intros <-.
      eapply safe_bind; [apply safe_let|]. intros u. apply safe_ret. auto.
    - (* ESet *) apply when_some in HW. destruct HW as [HV ->].
      assert (H1 : forallb (fun b => ok (W (new_scope true true T) (snd b))) bs = true).
      { apply forallb_forall. intros x I. rewrite forallb_forall in HV. specialize (HV x I). unb HV. assumption. }
      eapply safe_bind; [eapply (safe_named bs true true T Hp H1)|]. intros vs. apply safe_pure. intros Hn.
      eapply safe_bind; [apply safe_set|intros u; apply safe_ret; auto].
      + rewrite <- (map_length fst), Hn, map_length. exact Hh.
      + intros b0 I. apply (in_map fst) in I. rewrite Hn in I. apply in_map_iff in I. destruct I as (x & <- & I).
        rewrite forallb_forall in HV. specialize (HV x I). unb HV. assumption.
    - (* EAttrGet *) apply when_some in HW. destruct HW as [HV ->]. unb HV. inversion Hp as [|? ? Hp1 Hp2]; subst.
      eapply safe_bind; [eapply safe_ev_in; eauto|]. intros v.
      eapply safe_bind; [eapply safe_all_in; [apply tames; exact Hp2|exact HV0]|]. intros ks.
      apply safe_pure. intros _. apply safe_lift'. apply get_path_known.
    - (* EAttrTo *) destruct (_ && _)%bool eqn:HV; [|discriminate]. unb HV. inversion Hp as [|? ? Hp1 Hp2]; subst. apply Forall_app in Hp2. destruct Hp2 as [Hp2 Hp3]. apply Forall_inv in Hp3.
      eapply safe_bind; [eapply safe_ev_in; eauto|]. intros v.
      eapply safe_bind; [eapply safe_all_in; [apply tames; exact Hp2|exact HV1]|]. intros ks. apply safe_pure. intros _.
      eapply safe_bind; [apply (safe_ev_arg' _ _ _ Hp3 HW)|]. intros t.
      apply safe_pure3. intros Hs.
      exact (to_safe T' to t ks 2002 2003 HV0 Hs v).
    - (* ECellGet *) apply when_some in HW. destruct HW as [HV ->]. eapply safe_bind; [apply safe_get_cell|]. intros x.
      eapply safe_bind; [eapply safe_all_in; [apply tames; exact Hp|exact HV]|]. intros ks. apply safe_pure. intros _. apply safe_lift'. apply get_path_known.
    - (* ECellTo *) destruct (_ && _)%bool eqn:HV; [|discriminate]. unb HV. apply Forall_app in Hp. destruct Hp as [Hp2 Hp3]. apply Forall_inv in Hp3.
      eapply safe_bind; [eapply safe_all_in; [apply tames; exact Hp2|exact HV]|]. intros ks. apply safe_pure. intros _.
      eapply safe_bind; [apply (safe_ev_arg' _ _ _ Hp3 HW)|]. intros t.
      apply safe_pure3. intros Hs.
      eapply safe_bind; [apply safe_modify; reflexivity|]. intros u.
      eapply safe_conseq; [apply (safe_cell_update (fun ss => covers T' ss /\ aval_ok t ss))|auto|cbn; tauto].
      intros old. eapply (safe_drop (fun ss => covers T' ss /\ aval_ok t ss)); [apply stable_and; [apply covers_stable|apply aval_stable]|]. exact (to_safe T' to t ks 2006 2007 HV0 Hs old).
    - (* EPoolGet *) apply when_some in HW. destruct HW as [HV ->]. eapply safe_bind; [apply safe_get_pool|]. intros x0.
      eapply safe_bind; [eapply safe_all_in; [apply tames; exact Hp|exact HV]|]. intros ks. apply safe_pure. intros _.
      eapply safe_bind; [apply safe_get_pool|]. intros x. apply safe_lift'. apply get_path_known.
    - (* EPoolTo *) destruct (_ && _)%bool eqn:HV; [|discriminate]. unb HV. apply Forall_app in Hp. destruct Hp as [Hp2 Hp3]. inversion Hp3 as [|? ? Hp4 Hp5]; subst. apply Forall_inv in Hp5.
      destruct (WA T to) as [T1|] eqn:HW1; [|discriminate].
      eapply safe_bind; [eapply safe_all_in; [apply tames; exact Hp2|exact HV]|]. intros ks. apply safe_pure. intros _.
      eapply safe_bind; [apply (safe_ev_arg' _ _ _ Hp4 HW1)|]. intros t.
      apply safe_pure3. intros Hs.
      eapply safe_bind; [apply (safe_frame _ (aval_ok t)); [apply aval_stable|apply (He _ _ _ HW Hp5)]|]. intros i0.
      eapply safe_bind; [apply safe_modify; reflexivity|]. intros u.
      destruct ks as [|[] tail]; try (apply safe_raise; discriminate).
      eapply safe_conseq; [apply (safe_pool_update (fun ss => covers T' ss /\ aval_ok t ss))|auto|cbn; tauto].
      intros old. eapply (safe_drop (fun ss => covers T' ss /\ aval_ok t ss)); [apply stable_and; [apply covers_stable|apply aval_stable]|]. exact (to_safe T' to t tail 2010 2011 HV0 Hs old).
    - (* EPoolDel *) apply Forall_inv in Hp. eapply safe_bind; [apply (He _ _ _ HW Hp)|]. intros k.
      eapply safe_bind; [apply safe_modify; reflexivity|]. intros u. destruct k; try (apply safe_ret; auto; fail).
      eapply safe_bind; [apply safe_upd_pool|]. intros u2. apply safe_ret. auto.
    - (* EIf *) apply when_some in HW. destruct HW as [HV ->]. unb HV. inversion Hp as [|? ? Hp1 Hp2]; subst. apply Forall_app in Hp2. destruct Hp2 as [Hp2 Hp3].
      match type of Hp1 with tame (NE ?x) => set (P := x) in * end.
      assert (G : forall els keep, safe (covers T) els (fun _ => covers T) -> safe (covers T) (conds ev [(P, t)] els keep) (fun _ => covers T)).
      { intros els keep Hel. apply conds_safe; auto; [constructor; [|constructor]; split; auto; apply tames; exact Hp2|]. cbn [forallb fst snd]. now rewrite HV, HV1. }
      match goal with |- context [match ?o with Some _ => _ | None => _ end] => destruct o as [el|] end.
      + apply G. eapply safe_in_frame; [apply covers_stable|apply covers_frame|]. eapply safe_run_in; [apply tames; exact Hp3|exact HV0].
      + apply G. apply safe_ret. auto.
    - (* ECond *) apply when_some in HW. destruct HW as [HV ->]. unb HV. apply Forall_app in Hp. destruct Hp as [Hp2 Hp3].
      assert (G : forall els keep, safe (covers T) els (fun _ => covers T) -> safe (covers T) (conds ev its els keep) (fun _ => covers T)).
      { intros els keep Hel. apply conds_safe; auto. clear - Hp2. induction its as [|[p t] its IH]; constructor; cbn [flat_map fst snd] in *.
        - inversion Hp2 as [|? ? Hp1 Hp3]; subst. apply Forall_app in Hp3. split; auto. apply tames. tauto.
        - apply IH. inversion Hp2 as [|? ? Hp1 Hp3]; subst. apply Forall_app in Hp3. tauto. }
      match goal with |- context [match ?o with Some _ => _ | None => _ end] => destruct o as [el|] end.
      + apply G. eapply safe_in_frame; [apply covers_stable|apply covers_frame|]. eapply safe_run_in; [apply tames; exact Hp3|exact HV0].
      + apply G. apply safe_ret. auto.
    - (* EWhile *) apply when_some in HW. destruct HW as [HV ->]. unb HV. inversion Hp as [|? ? Hp1 Hp2]; subst. apply while_safe; auto. apply tames. exact Hp2.
    - (* EDoUntil *) apply when_some in HW. destruct HW as [HV ->]. apply Forall_app in Hp. destruct Hp as [Hp2 Hp3]. apply Forall_inv in Hp3.
      destruct (walk_all W _ body) as [U|] eqn:HU; [|discriminate]. eapply until_safe; eauto. apply tames. exact Hp2.
    - (* EFor *) apply when_some in HW. destruct HW as [HV ->]. unb HV. apply Forall_app in Hp. destruct Hp as [Hp1 Hp2]. inversion Hp2 as [|? ? Hp3 Hp4]; subst. apply Forall_app in Hp4. destruct Hp4 as [Hp4 Hp5].
      set (U := put (map fst init) (new_scope false false T)) in *.
      eapply safe_bind.
      { eapply (safe_frames (covers T) [[]] _ (covers T) (fun _ => covers U)); [apply covers_stable|discriminate|intros ss C; apply covers_frame, C|].
        assert (H1 : forallb (fun b => ok (W (new_scope true true (new_scope false false T)) (snd b))) init = true).
        { apply forallb_forall. intros x I. rewrite forallb_forall in HV. specialize (HV x I). unb HV. assumption. }
        eapply safe_bind; [apply (safe_named init true true (new_scope false false T) Hp1 H1)|]. intros vs. apply safe_pure. intros Hn.
        eapply safe_conseq; [apply (safe_let (new_scope false false T))|auto|]. cbn beta. unfold U. rewrite Hn. auto. }
      intros [u fs]. cbn [fst snd]. eapply (safe_conseq (lcov T U (nth 0 fs []))); [eapply for_safe; eauto; apply tames; exact Hp5| |auto].
      intros ss (C & S & Q). split; auto. inversion S as [|f f' l l' Sf Sl]; subst. inversion Sl; subst. exact Q.
    - (* EForeach *) apply when_some in HW. destruct HW as [HV ->]. unb HV. inversion Hp as [|? ? Hp1 Hp2]; subst.
      eapply safe_bind; [apply (safe_ev_in _ true true (new_scope (negb seq) false T) Hp1 HV1)|]. intros v. destruct v; try (apply safe_raise; discriminate).
      eapply (each_safe T [x]); [apply tames; exact Hp2|exact HV0|]. intros bs I. apply in_map_iff in I. destruct I as (y & <- & _). reflexivity.
    - (* EForkeyval *) apply when_some in HW. destruct HW as [HV ->]. unb HV. inversion Hp as [|? ? Hp1 Hp2]; subst.
      eapply safe_bind; [apply (safe_ev_in _ true true (new_scope false false T) Hp1 HV1)|]. intros m. destruct m; try (apply safe_raise; discriminate).
      eapply (each_safe T [k; v]); [apply tames; exact Hp2|exact HV0|]. intros bs I. apply in_map_iff in I. destruct I as (y & <- & _). reflexivity.
    - (* ECast *) apply when_some in HW. destruct HW as [HV ->]. unb HV. inversion Hp as [|? ? Hp1 Hp2]; subst.
      eapply safe_bind; [eapply safe_ev_in; eauto|]. intros v. apply cast_safe; [|exact HV0].
      clear - Hp2. induction cases as [|c cases IH]; constructor; cbn [flat_map] in Hp2; apply Forall_app in Hp2; [apply tames|apply IH]; tauto.
    - (* EUpcast *) apply when_some in HW. destruct HW as [HV ->]. apply Forall_inv in Hp.
      match goal with |- context [match ?o with Some _ => _ | None => _ end] => destruct o as [tag|] end.
      + eapply safe_bind; [eapply safe_ev_in; eauto|]. intros v. apply safe_ret. auto.
      + eapply safe_ev_in; eauto.
    - (* EIfNotNull *) apply when_some in HW. destruct HW as [HV ->]. unb HV. apply ok_some in HV. destruct HV as [U HU].
      apply Forall_app in Hp. destruct Hp as [Hp1 Hp2]. apply Forall_app in Hp2. destruct Hp2 as [Hp2 Hp3].
      eapply (safe_bind _ _ (fun vs ss => covers T ss /\ map fst vs = map fst bs)).
      { eapply safe_conseq; [apply safe_keep; [apply covers_stable|]; apply (safe_mapE (fun b => v <== ev (snd b) ;; ret (fst b, v)) (fun U b => W U (snd b)) (fun a b _ => fst a = fst b) (fun _ _ _ _ _ K => K) _ (new_scope true true T) U); [|exact HU]|auto|].
        - intros b I U1 U2 HW. eapply safe_bind; [apply (He _ _ _ HW)|intros v; apply safe_ret; auto]. exact (Forall_map_inv _ _ _ Hp1 b I).
        - cbn. intros vs ss [[_ F2] C]. split; auto. symmetry. apply (Forall2_map_fst _ _ _ _ _ F2). auto. }
      intros vs. apply safe_pure. intros Hn.
      destruct (forallb _ vs).
      + eapply safe_bind; [eapply (safe_in_frame (covers T) _ _ (covers (put (map (fun b => fst (fst b)) bs) (new_scope false false T)))); [apply covers_stable| |eapply safe_run_in; [apply tames; exact Hp2|exact HV1]]|].
        * intros ss C. apply covers_start; auto. intros x I. apply has_key_let_in. rewrite map_map. cbn [fst].
          rewrite <- (map_map fst fst), Hn, map_map. exact I.
        * intros v. apply safe_ret. auto.
      + now apply or_else_safe.
    - (* EPack *) apply when_some in HW. destruct HW as [HV ->].
      eapply safe_bind.
      { eapply (safe_each (covers T) ev (fun _ _ _ => True) (covers_stable T) (fun _ _ _ _ _ K => K) (map snd es)).
        intros a I. apply in_map_iff in I. destruct I as (b & <- & I). eapply safe_conseq; [eapply (safe_ev_in (snd b) true true T)|auto|cbn; auto].
        - exact (Forall_map_inv _ _ _ Hp b I).
        - rewrite forallb_forall in HV. auto. }
      intros vs. eapply (safe_conseq (covers T)); [apply safe_lift'; apply (ok_pack E fa (ok_lib E fa OK))|tauto|auto].
    - (* EUnpack *) destruct (declare _ _) as [U|] eqn:D; [|discriminate]. apply when_some in HW. destruct HW as [HV ->]. unb HV.
      inversion Hp as [|? ? Hp1 Hp2]; subst. apply Forall_app in Hp2. destruct Hp2 as [Hp2 Hp3].
      eapply safe_bind; [eapply safe_ev_in; eauto|]. intros b. destruct (e_unpack E fmt b) as [bs|] eqn:Eu.
      + pose proof (ok_unpack E fa (ok_lib E fa OK) _ _ _ Eu) as Hn.
        eapply safe_bind; [eapply (safe_in_frame (covers T) _ _ (covers U)); [apply covers_stable| |eapply safe_run_in; [apply tames; exact Hp2|exact HV1]]|].
        * intros ss C. apply (declare_covers (map fst fmt) _ _ (fun x I => has_key_let_in bs [] x (eq_ind_r (In x) I Hn)) _ _ D). apply covers_frame. exact C.
        * intros v. apply safe_ret. auto.
      + now apply or_else_safe.
    - (* EDoc *) injection HW as <-. apply safe_ret. auto.
    - (* EError *) apply safe_raise. discriminate.
    - (* ETry *) apply when_some in HW. destruct HW as [HV ->].
      eapply safe_bind; [eapply safe_attempt; [apply covers_stable|eapply safe_run_in; [apply tames; exact Hp|exact HV]]|].
      intros r. eapply (safe_conseq (fun ss => covers T ss /\ known r)); [apply safe_pure; intros K|tauto|intros ? ? Q; exact Q].
      destruct r as [v|e]; [apply safe_ret; auto|]. apply safe_handle. intros ->. now apply K.
    - (* ELog *) apply when_some in HW. destruct HW as [HV ->].
      eapply safe_bind; [eapply safe_all_in; [apply tames; exact Hp|exact HV]|]. intros vs.
      eapply safe_bind; [apply safe_modify; reflexivity|]. intros u. apply safe_ret. tauto.
  Qed.

  Definition fill_args (fills : list (string * arg)) : nat -> list string -> EM (list aval) :=
    fix args (j : nat) (ps : list string) : EM (list aval) :=
      match ps with
      | [] => ret []
      | p :: ps' =>
          match assoc p fills with
          | Some a => v <== ev_arg ev a ;; vs <== args j ps' ;; ret (v :: vs)
          | None => v <== (fun s => Done (scope_get (dollar j) (s_scopes s)) s) ;; vs <== args (S j) ps' ;; ret (AV v :: vs)
          end
      end.
  Definition fill_ok (fills : list (string * arg)) (D : symtab) (ps : list string) (avs : list aval) (ss : scopes) : Prop :=
    covers D ss /\ Forall (fun v => aval_ok v ss) avs /\ length avs = length ps
    /\ forall i a, nth_error avs i = Some (AF a) -> exists p, nth_error ps i = Some p /\ assoc p fills = Some a /\ match a with AExpr _ => False | _ => True end.
  Lemma fill_args_safe fills D k : (forall j, (j < k)%nat -> visible D (dollar j) = true) ->
    (forall p a, assoc p fills = Some a -> tame (NA a) /\ exists U U', (forall ss, covers D ss -> covers U ss) /\ WA U a = Some U') ->
    forall ps j, (j + length (filter (fun p => negb (has_key p fills)) ps) <= k)%nat ->
    safe (covers D) (fill_args fills j ps) (fill_ok fills D ps).
  Proof.
    intros HD HF. induction ps as [|p ps IH]; intros j L; cbn [fill_args].
    - apply safe_ret. intros ss C. split; [exact C|]. split; [constructor|]. split; [reflexivity|]. intros [|i] a; discriminate.
    - cbn [filter] in L. unfold has_key in L. fold (@has_key arg) in L. destruct (assoc p fills) as [a|] eqn:A; cbn [negb] in L.
      + destruct (HF _ _ A) as (t & U & U' & CU & HU).
        eapply (safe_bind _ _ (fun v ss => covers D ss /\ aval_ok v ss /\ match a with AExpr _ => exists x, v = AV x | _ => v = AF a end)).
        { eapply safe_conseq; [apply (safe_keep (covers D)); [apply covers_stable|]; eapply (safe_conseq (covers U)); [apply (safe_ev_arg' _ _ _ t HU)|exact CU|intros ? ? K; exact K]|auto|cbn; tauto]. }
        intros v. apply safe_pure3. intros Sh.
        eapply safe_bind; [apply (safe_frame _ (aval_ok v)); [apply aval_stable|apply (IH j); exact L]|]. intros vs.
        apply safe_ret. intros ss [(C & F & Ln & Q) Av]. split; [exact C|]. split; [constructor; auto|]. split; [cbn; congruence|].
        intros [|i] b N; [|exact (Q i b N)]. cbn in N. injection N as ->. exists p. cbn. do 2 (split; [auto|]).
        * rewrite A. f_equal. destruct a; [destruct Sh; discriminate|now injection Sh..].
        * destruct a; [destruct Sh; discriminate| | |]; injection Sh as ->; exact I.
      + cbn [length] in L.
        eapply safe_bind; [apply safe_get; apply HD; lia|]. intros v.
        eapply safe_bind; [apply (IH (S j)); unfold has_key; lia|]. intros vs.
        apply safe_ret. intros ss (C & F & Ln & Q). split; [exact C|]. split; [constructor; [exact I|auto]|]. split; [cbn; congruence|].
        intros [|i] b N; [discriminate|exact (Q i b N)].
  Qed.
  Lemma visible_put xs T x : visible T x = true -> T <> [] -> visible (put xs T) x = true.
  Proof.
    destruct T as [|s T]; [contradiction|]. intros V _. unfold visible, put in *. cbn [existsb sc_syms] in *. rewrite memb_app. apply Bool.orb_true_iff in V.
    destruct V as [->|V]; [now rewrite Bool.orb_true_r|]. rewrite V. now rewrite !Bool.orb_true_r.
  Qed.
  Lemma app_safe : SA (step_app E ev app).
  Proof.
    intros a vs T T' HW Ht Hf. change (takes (is_user E) (params_of E) a (length vs) = true) in Hf. apply tame_inv in Ht. destruct Ht as [Hh Hp].
    destruct a as [e|ps body|g|g fills]; cbn [step_app]; cbn [walk_arg] in HW; fold W in HW; fold WA in HW; cbn [parts] in Hp; cbn [takes] in Hf.
    - apply safe_raise. discriminate.
    - apply when_some in HW. destruct HW as [HV _]. apply ok_some in HV. destruct HV as [U HU]. apply Nat.eqb_eq in Hf.
      eapply safe_in_frame; [apply covers_stable| |apply (safe_run _ _ _ (tames _ Hp) HU)].
      intros ss C. apply covers_start; auto. intros x I. apply has_key_let_in. now rewrite zip_names.
    - eapply safe_bind; [apply safe_modify; reflexivity|]. intros u. destruct (assoc g (e_fcns E)) as [[ps body]|] eqn:A.
      + eapply body_safe; [exact A|eapply arity_len; eauto|apply covers_stable].
      + apply safe_lib; [apply covers_stable|intros [|i]; discriminate| |].
        * intros ss C. apply Forall_map. apply Forall_forall. intros; exact I.
        * apply (ok_ref E fa (ok_lib E fa OK)). intros i b N. rewrite nth_error_map in N. destruct (nth_error vs i); discriminate.
    - apply when_some in HW. destruct HW as [HV _]. apply ok_some in HV. destruct HV as [U HU]. apply Nat.eqb_eq in Hf.
      set (D := put (dollars 0 (length vs)) (new_scope true true T)).
      change (match assoc g (e_fcns E) with Some (ps, _) => ps | None => e_libparams E g end) with (params_of E g).
      assert (DT : forall ss, covers D ss -> covers T ss).
      { intros ss C x V. apply C. apply visible_put; [exact V|discriminate]. }
      eapply (safe_in_frame (covers T) _ _ (covers D)); [apply covers_stable| |].
      { intros ss C. apply covers_start; auto. intros x I. apply has_key_let_in. now rewrite zip_names by apply dollars_length. }
      apply (safe_bind _ (fill_args fills 0 (params_of E g)) (fill_ok fills D (params_of E g))).
      { apply (fill_args_safe fills D (length vs)).
        - intros j L. unfold D, visible, put. cbn [existsb sc_syms new_scope]. rewrite memb_app. pose proof (proj2 (memb_In _ _) (dollars_in 0 _ j L)) as M. cbn [Nat.add] in M. rewrite M. reflexivity.
        - intros p a A. apply in_assoc in A. apply walk_all_same in HU.
          + destruct HU as [-> HU]. split; [exact (Forall_map_inv _ _ _ Hp _ A)|]. exists (new_scope true true T), (new_scope true true T). split; [exact DT|]. exact (HU _ A).
          + intros b U' I HU'. apply (walk_sealed (is_user E) (params_of E) fa (NA (snd b)) (new_scope true true T) U' eq_refl HU').
        - rewrite Hf. cbn. lia. }
      intros avs. eapply safe_bind; [apply safe_modify; reflexivity|]. intros u.
      eapply (safe_conseq (fun ss => (covers D ss /\ Forall (fun v => aval_ok v ss) avs) /\ (length avs = length (params_of E g) /\ good_args E fa g avs))).
      + apply safe_pure. intros [Ln G]. eapply (safe_in_frame _ _ _ (fun ss => covers D ss /\ Forall (fun v => aval_ok v ss) avs)).
        * apply stable_and; [apply covers_stable|apply stable_all; apply aval_stable].
        * intros ss [C F]. split; [apply covers_frame; exact C|]. eapply Forall_impl; [|exact F]. intros v K. destruct v as [|f]; [exact I|]. destruct K as (t & U1 & U2 & C1 & H1).
          split; [exact t|]. exists U1, U2. split; [|exact H1]. apply covers_frame. exact C1.
        * destruct (assoc g (e_fcns E)) as [[ps body]|] eqn:A.
          -- eapply body_safe; [exact A| |apply stable_and; [apply covers_stable|apply stable_all; apply aval_stable]]. rewrite map_length, Ln. unfold params_of. now rewrite A.
          -- apply safe_lib; [apply stable_and; [apply covers_stable|apply stable_all; apply aval_stable]|intros [|i]; discriminate|tauto|]. now apply (ok_ref E fa (ok_lib E fa OK)).
      + intros ss (C & F & Ln & Q). split; [split; auto|]. split; [exact Ln|]. intros i a N. destruct (Q i a N) as (p & Np & A & Na).
        specialize (Hh i p a Np A). destruct a; [contradiction|exact Hh..].
      + intros a ss [C _]. apply DT. exact C.
  Qed.
  End Step.
  Lemma eval_safe : forall n, SE (eval E n) /\ SA (apply E n).
  Proof.
    induction n as [|n [IHe IHa]].
    - split; [intros e T T' _ _|intros a vs T T' _ _ _]; apply safe_fuel.
    - split; [apply (step_safe n _ _ IHe IHa); intros nm choices H; exact (H n)|apply (app_safe _ _ IHe IHa)].
  Qed.
  Lemma exec_safe n es T T' : walk_all W T es = Some T' -> Forall (fun e => tame (NE e)) es -> safe (covers T) (exec E n es) (fun _ => covers T').
  Proof. intros HW F. apply (safe_run _ (proj1 (eval_safe n)) _ _ _ F HW). Qed.
End Main.
