(** Library functions referenced with some of their arguments filled in (C63). *)
From Verif Require Import Base ScopeModel VersionModel CoreModel RefTable RefModel RefSpec RefProofs.
Require Import Ascii.
Open Scope string_scope.
Open Scope list_scope.
Open Scope Z_scope.

(** {"fcn": g, "fill": fills} written as a function: its parameters [qs] go, in their order, where no argument is filled in *)
Fixpoint fill_args (fills : list (string * arg)) (names qs : list string) : list arg :=
  match names with
  | [] => []
  | p :: names' =>
      match assoc p fills with
      | Some a => a :: fill_args fills names' qs
      | None => match qs with
                | q :: qs' => AExpr (ERef q) :: fill_args fills names' qs'
                | [] => fill_args fills names' []
                end
      end
  end.
Definition fill_wrapper (g : string) (names : list string) (fills : list (string * arg)) (qs : list string) : arg :=
  AFcn qs [ECall g (fill_args fills names qs)].
(** how many are not filled in *)
Definition left_over (fills : list (string * arg)) (names : list string) : nat :=
  length (filter (fun p => negb (has_key p fills)) names).
(** filled in: literals, and variables that exist where the reference stands and have none of the given names *)
Definition plain_fill (ss : scopes) (hidden : list string) (a : arg) : Prop :=
  match a with
  | AExpr (ELit _ _) => True
  | AExpr (ERef x) => ~ In x hidden /\ exists v, scope_get x ss = Ok v
  | _ => False
  end.
Definition fill_value (ss : scopes) (a : arg) : val :=
  match a with
  | AExpr (ELit _ v) => v
  | AExpr (ERef x) => match scope_get x ss with Ok v => v | Raise _ => VNull end
  | _ => VNull
  end.
(** the arguments that reach the function *)
Fixpoint fill_values (ss : scopes) (fills : list (string * arg)) (names : list string) (vs : list val) : list val :=
  match names with
  | [] => []
  | p :: names' =>
      match assoc p fills with
      | Some a => fill_value ss a :: fill_values ss fills names' vs
      | None => match vs with v :: vs' => v :: fill_values ss fills names' vs' | [] => fill_values ss fills names' [] end
      end
  end.

Lemma left_cons_in fills p names a : assoc p fills = Some a -> left_over fills (p :: names) = left_over fills names.
Proof. intros H. unfold left_over. cbn [filter]. unfold has_key. rewrite H. reflexivity. Qed.
Lemma left_cons_out fills p names : assoc p fills = None -> left_over fills (p :: names) = S (left_over fills names).
Proof. intros H. unfold left_over. cbn [filter]. unfold has_key. rewrite H. reflexivity. Qed.

Lemma fill_eval E n ss hidden (f : frame) a s : plain_fill ss hidden a -> s_scopes s = f :: ss -> (forall x, assoc x f <> None -> In x hidden) ->
  ev_arg (eval E n) a s = OutOfFuel \/ ev_arg (eval E n) a s = Done (Ok (AV (fill_value ss a))) s.
Proof.
  intros P S H. destruct a as [e| | |]; try contradiction. destruct e; try contradiction; cbn [plain_fill fill_value ev_arg] in *.
  - unfold bind, ret. destruct n; [left; reflexivity|right]. reflexivity.
  - destruct P as [P1 [v P2]]. rewrite P2. unfold bind, ret. destruct (eval_ref E n x s) as [R|R]; rewrite R; [left; reflexivity|right].
    rewrite S. cbn [scope_get]. destruct (assoc x f) eqn:A.
    + elim P1. apply H. rewrite A. discriminate.
    + now rewrite P2.
Qed.
Lemma fill_direct E n ss hidden (f : frame) fills s : s_scopes s = f :: ss -> (forall x, assoc x f <> None -> In x hidden) ->
  (forall p a, assoc p fills = Some a -> plain_fill ss hidden a) ->
  forall names qs vs, Forall2 (fun q v => scope_get q (f :: ss) = Ok v) qs vs -> left_over fills names = length qs ->
  mapE (ev_arg (eval E n)) (fill_args fills names qs) s = OutOfFuel \/
  mapE (ev_arg (eval E n)) (fill_args fills names qs) s = Done (Ok (map AV (fill_values ss fills names vs))) s.
Proof.
  intros S H P. induction names as [|p names IH]; intros qs vs B L; [right; reflexivity|]. cbn [fill_args fill_values].
  destruct (assoc p fills) as [a|] eqn:A.
  - rewrite (left_cons_in _ _ _ _ A) in L. cbn [mapE]. unfold bind, ret.
    destruct (fill_eval E n ss hidden f a s (P p a A) S H) as [R|R]; rewrite R; [left; reflexivity|].
    destruct (IH qs vs B L) as [R'|R']; rewrite R'; [left|right]; reflexivity.
  - rewrite (left_cons_out _ _ _ A) in L. destruct B as [|q v qs vs Q B]; [discriminate|].
    cbn [mapE ev_arg]. unfold bind, ret.
    destruct (eval_ref E n q s) as [R|R]; rewrite R; [left; reflexivity|]. rewrite S, Q.
    destruct (IH qs vs B ltac:(cbn in L; lia)) as [R'|R']; rewrite R'; [left|right]; reflexivity.
Qed.

(** the loop of genpy.py:316-323, as in CoreModel.step_app *)
Definition fill_loop (ev : expr -> EM val) (fills : list (string * arg)) : nat -> list string -> EM (list aval) :=
  fix args (j : nat) (ps : list string) : EM (list aval) :=
    match ps with
    | [] => ret []
    | p :: ps' =>
        match assoc p fills with
        | Some a => v <== ev_arg ev a ;; vs <== args j ps' ;; ret (v :: vs)
        | None => v <== (fun s => Done (scope_get (dollar j) (s_scopes s)) s) ;; vs <== args (S j) ps' ;; ret (AV v :: vs)
        end
    end.
Lemma fill_reference E n ss hidden (f : frame) fills s : s_scopes s = f :: ss -> (forall x, assoc x f <> None -> In x hidden) ->
  (forall p a, assoc p fills = Some a -> plain_fill ss hidden a) ->
  forall names j vs, Forall2 (fun q v => scope_get q (f :: ss) = Ok v) (dollars j (length vs)) vs -> left_over fills names = length vs ->
  fill_loop (eval E (S n)) fills j names s = Done (Ok (map AV (fill_values ss fills names vs))) s.
Proof.
  intros S H P. induction names as [|p names IH]; intros j vs B L; [reflexivity|]. cbn [fill_loop fill_values].
  destruct (assoc p fills) as [a|] eqn:A.
  - rewrite (left_cons_in _ _ _ _ A) in L. unfold bind, ret.
    destruct (fill_eval E (Datatypes.S n) ss hidden f a s (P p a A) S H) as [R|R].
    + exfalso. clear -R P A. specialize (P p a A). destruct a as [e| | |]; try contradiction. destruct e; try contradiction; cbn in R; unfold bind, ret in R; [discriminate|].
      destruct P as [_ [v P]]. destruct (scope_get x (s_scopes s)); discriminate.
    + rewrite R. fold (fill_loop (eval E (Datatypes.S n)) fills). rewrite (IH j vs B L). reflexivity.
  - rewrite (left_cons_out _ _ _ A) in L. destruct vs as [|v vs]; [discriminate|]. cbn [length dollars] in B.
    inversion B as [|? ? ? ? Q B']; subst. unfold bind, ret. rewrite S, Q.
    fold (fill_loop (eval E (Datatypes.S n)) fills). rewrite (IH (Datatypes.S j) vs B' ltac:(cbn in L; lia)). reflexivity.
Qed.

(** ** The reference against the function *)
Lemma dollars_NoDup n : forall i, (i + n <= 208)%nat -> NoDup (dollars i n).
Proof.
  assert (K : forall n i x, In x (dollars i n) -> exists j, (i <= j < i + n)%nat /\ x = dollar j).
  { intros m. induction m as [|m IH]; intros i x H; [destruct H|]. destruct H as [<-|H]; [exists i; split; [lia|reflexivity]|].
    destruct (IH _ _ H) as [j [J ->]]. exists j. split; [lia|reflexivity]. }
  induction n as [|n IH]; intros i L; constructor; [|apply IH; lia].
  intros H. destruct (K _ _ _ H) as [j [J X]]. unfold dollar in X. injection X as X.
  apply (f_equal nat_of_ascii) in X. rewrite !nat_ascii_embedding in X by lia. lia.
Qed.
Lemma dollars_len n : forall i, length (dollars i n) = n.
Proof. induction n; intros; cbn [dollars length]; auto. Qed.
Lemma let_keys x ps (vs : list val) : assoc x (frame_let (zip_dict ps vs) []) <> None -> In x ps.
Proof.
  intros H. destruct (in_dec string_dec x ps) as [I|I]; [exact I|]. elim H. rewrite assoc_let_out; [reflexivity|].
  intros J. apply I. clear -J. revert vs J. induction ps; intros [|v vs] J; cbn in *; try tauto. destruct J as [->|J]; [tauto|]. right. eauto.
Qed.

Section Fill.
Variable E : env.
Variable c : libclass.
Variables (p : posv) (ts : list string).
Hypothesis text : p <> PosFcn.
Hypothesis impl : implements E c p ts.

(** inherited genpy, or an expression equal to the method *)
Theorem fill_ref qs vs fills n s r s' :
  (direct c p ts = Strict (fun avs => compile false p (Some ts) (c_method c avs))) -> (forall avs, untyped (c_method c avs)) ->
  NoDup qs -> length qs = length vs -> (length vs <= 208)%nat ->
  left_over fills (e_libparams E (c_name c)) = length vs ->
  (forall x a, assoc x fills = Some a -> plain_fill (s_scopes s) (qs ++ dollars 0 (length vs)) a) ->
  apply E n (fill_wrapper (c_name c) (e_libparams E (c_name c)) fills qs) vs s = Done r s' ->
  apply E n (AFill (c_name c) fills) vs s = Done (referenced r) s'.
Proof using impl text.
  intros D U N L L2 F P H. set (names := e_libparams E (c_name c)) in *.
  destruct impl as [L1 [R1 [N1 X]]]. set (g := c_name c) in *.
  destruct n as [|n]; [discriminate|]. rewrite apply_S in H |- *. unfold fill_wrapper in H. cbn [step_app] in H |- *.
  set (f := frame_let (zip_dict qs vs) []) in H. set (d := frame_let (zip_dict (dollars 0 (length vs)) vs) []).
  unfold in_frame, in_frames, run, bind, ret in H. cbn [mapE length app] in H. unfold bind, ret in H.
  destruct n as [|n]; [discriminate|]. rewrite eval_S in H. cbn [step] in H. rewrite N1 in H.
  destruct (String.eqb_spec g "emit"); [contradiction|]. rewrite L1, D in H. unfold bind at 1 in H.
  assert (Hf : forall x, assoc x f <> None -> In x (qs ++ dollars 0 (length vs))).
  { intros x Q. apply in_or_app. left. exact (let_keys _ _ _ Q). }
  assert (Hd : forall x, assoc x d <> None -> In x (qs ++ dollars 0 (length vs))).
  { intros x Q. apply in_or_app. right. exact (let_keys _ _ _ Q). }
  destruct (fill_direct E n (s_scopes s) _ f fills (set_scopes (f :: s_scopes s) s) eq_refl Hf P names qs vs
              (params_bound qs vs [] (s_scopes s) N L) ltac:(congruence)) as [M|M]; rewrite M in H; [discriminate|].
  set (ws := fill_values (s_scopes s) fills names vs) in *.
  unfold bind, modify in H.
  change (add_trace g (set_scopes (f :: s_scopes s) s)) with (set_scopes (f :: s_scopes s) (add_trace g s)) in H.
  rewrite N1, R1.
  fold (fill_loop (eval E (S n)) fills).
  unfold in_frame, in_frames, bind, ret, modify. cbn [length app].
  pose proof (fill_reference E n (s_scopes s) _ d fills (set_scopes (d :: s_scopes s) s) eq_refl Hd P names 0%nat vs
              (params_bound (dollars 0 (length vs)) vs [] (s_scopes s) (dollars_NoDup _ 0%nat L2) (dollars_len _ _)) F) as Q.
  fold d. fold names. rewrite Q. fold ws.
  destruct (run_values E ws p ts text (c_method c (map AV ws)) (U _) (eval E n) (apply E n) (eval E (S n)) (apply E (S n))
              (f :: s_scopes s) (set_scopes ([] :: d :: s_scopes s) (add_trace g s))) as [r0 [s0 [S0 [R2 R3]]]].
  rewrite set_set in R2. rewrite R2 in H.
  change (set_scopes ([] :: s_scopes (add_trace g (set_scopes (d :: s_scopes s) s))) (add_trace g (set_scopes (d :: s_scopes s) s)))
    with (set_scopes ([] :: d :: s_scopes s) (add_trace g s)).
  unfold by_reference. rewrite R3.
  destruct r0 as [v0|e0]; cbn in H; injection H as <- <-; cbn in S0; destruct s0; cbn in S0 |- *; subst; [reflexivity|destruct e0; reflexivity].
Qed.
End Fill.
