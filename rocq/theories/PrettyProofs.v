(** Proofs about the machine that reads operator expressions. *)
From Verif Require Import Base PrettyModel PrettySpec.
Open Scope string_scope.
Open Scope list_scope.

Lemma bin_prec_eq o : bin_prec o = (if comparison o then Neither else ToLeft, binds o).
Proof. now destruct o. Qed.
Lemma un_prec_eq u : un_prec u = (ToRight, sign_binds u).
Proof. now destruct u. Qed.
Lemma bin_call_eq o : bin_call o = function_of o.
Proof. now destruct o. Qed.
Lemma un_call_eq u : un_call u = sign_function u.
Proof. now destruct u. Qed.
Lemma left_level k o : (if comparison o then S (binds o) else binds o) = k -> (binds o < k \/ (binds o = k /\ comparison o = false))%nat.
Proof. destruct (comparison o); lia. Qed.

Lemma last_app_cons {A} (a : list A) x b d : last (a ++ x :: b) d = last (x :: b) d.
Proof. induction a as [|y a IH]; [reflexivity|]. cbn [app]. rewrite <- IH. destruct a; reflexivity. Qed.
Lemma feeds_app st a b : feeds st (a ++ b) = (st' <- feeds st a ;; feeds st' b).
Proof. revert st. induction a as [|t a IH]; intros st; cbn [app feeds]; [reflexivity|]. destruct (feed st t); cbn [rbind]; [apply IH|reflexivity]. Qed.

(** tokens of levels [k] and more do not reduce what is on the stack *)
Definition stops (k : nat) (fs : list frame) : Prop := forall s e, (k <= s)%nat -> reduce s e fs = Ok (e, fs).
Definition operand (tp : top) : option tree := match tp with Need => None | Named s => Some (Name s) | Have e => Some e end.
(** levels of tokens that end an expression of level [k]: looser ones, and those of the same level that group from the left *)
Definition ends (k s : nat) : Prop := (s < k \/ (s = k /\ k <> 4 /\ k <> 5 /\ k <> 11))%nat.
Definition pending (k : nat) (fs : list frame) (t : tree) (ts : list token) (st : list frame * top) : Prop :=
  exists e, operand (snd st) = Some e /\ (forall s, ends k s -> reduce s e (fst st) = reduce s t fs) /\ (forall x, snd st = Named x -> last ts TR = TName x).

Lemma decide_bin o s : decide (bin_prec o) s = if Nat.ltb s (binds o) then Reduce else if Nat.eqb s (binds o) then (if comparison o then Stop else Reduce) else Shift.
Proof. rewrite bin_prec_eq. unfold decide. cbn [fst snd]. now destruct (comparison o). Qed.
Lemma decide_un u s : decide (un_prec u) s = if Nat.ltb s (sign_binds u) then Reduce else Shift.
Proof. rewrite un_prec_eq. unfold decide. cbn [fst snd]. destruct (Nat.ltb s (sign_binds u)); [reflexivity|]. now destruct (Nat.eqb s (sign_binds u)). Qed.
Lemma stops_mono k k' fs : (k <= k')%nat -> stops k fs -> stops k' fs.
Proof. intros L S s e H. apply S. lia. Qed.
Lemma stops_bin l o fs : stops (S (binds o)) (FBin l o :: fs).
Proof. intros s e H. cbn [reduce]. rewrite decide_bin. destruct (Nat.ltb_spec s (binds o)); [lia|]. destruct (Nat.eqb_spec s (binds o)); [lia|reflexivity]. Qed.
Lemma stops_un u fs : stops (sign_binds u) (FUn u :: fs).
Proof. intros s e H. cbn [reduce]. rewrite decide_un. destruct (Nat.ltb_spec s (sign_binds u)); [lia|reflexivity]. Qed.
Lemma feed_operand fs tp e t : operand tp = Some e -> (forall x, tp = Named x -> t <> TL /\ t <> TLb) -> feed (fs, tp) t = after fs e t.
Proof. intros H N. destruct tp as [|x|e']; cbn in H; try discriminate; injection H as <-; [|reflexivity]. destruct (N x eq_refl) as [N1 N2]. now destruct t. Qed.



Definition P (n : nat) : Prop := forall f k t ts, (length ts < n)%nat -> written f k t ts -> forall fs, stops k fs -> (f = true -> stops 0 fs) ->
  exists st, feeds (fs, Need) ts = Ok st /\ pending k fs t ts st.

Inductive opened : (option (list tree) -> frame) -> token -> (list tree -> tree) -> Prop :=
| o_call s : opened (FCall s) TR (Call s)
| o_get s : opened (FGet s) TRb (Get s)
| o_genget x : opened (FGenGet x) TRb (GenGet x).
Lemma opened_stops mk c t a fs : opened mk c t -> stops 0 (mk a :: fs).
Proof. now intros []. Qed.
Lemma opened_empty mk c t fs : opened mk c t -> feed (mk None :: fs, Need) c = Ok (fs, Have (t [])).
Proof. now intros []. Qed.
Lemma opened_close mk c t a fs e : opened mk c t -> after (mk a :: fs) e c = Ok (fs, Have (t (given a ++ [e]))).
Proof. now intros []. Qed.
Lemma opened_comma mk c t a fs e : opened mk c t -> after (mk a :: fs) e TComma = Ok (mk (Some (given a ++ [e])) :: fs, Need).
Proof. now intros []. Qed.
Lemma opened_token mk c t : opened mk c t -> c <> TL /\ c <> TLb.
Proof. intros []; split; discriminate. Qed.
Lemma after_reduced mk c t a fs fs2 e e2 x : opened mk c t -> reduce 0 e2 fs2 = reduce 0 e (mk a :: fs) -> (x = c \/ x = TComma) -> after fs2 e2 x = after (mk a :: fs) e x.
Proof. intros O H [->| ->]; destruct O; cbn [after]; now rewrite H. Qed.

Lemma args_ok n (IH : P n) mk c t : opened mk c t -> forall args tss, Forall2 (written true 0) args tss -> (length (commas tss) < n)%nat -> forall a fs, (args = [] -> a = None) ->
  feeds (mk a :: fs, Need) (commas tss ++ [c]) = Ok (fs, Have (t (given a ++ args))).
Proof.
  intros O args tss F. induction F as [|x ts args tss W F IHF]; intros L a fs Ha.
  - rewrite (Ha eq_refl). cbn [commas app feeds]. rewrite (opened_empty _ _ _ fs O). reflexivity.
  - assert (L1 : (length ts < n)%nat) by (destruct tss; cbn [commas] in L; [lia|rewrite app_length in L; lia]).
    destruct (IH true 0%nat x ts L1 W (mk a :: fs) (opened_stops _ _ _ a fs O) (fun _ => opened_stops _ _ _ a fs O)) as ([fs2 tp] & E & e & Eo & Er & _). cbn [fst snd] in *.
    assert (R0 : reduce 0 e fs2 = reduce 0 x (mk a :: fs)) by (apply Er; right; lia).
    destruct tss as [|ts' tss].
    + inversion F; subst. cbn [commas]. rewrite feeds_app, E. cbn [rbind feeds]. rewrite (feed_operand _ _ _ _ Eo) by (intros; eapply opened_token; eauto).
      rewrite (after_reduced _ _ _ _ _ _ _ _ c O R0) by auto. rewrite (opened_close _ _ _ _ _ _ O). reflexivity.
    + cbn [commas]. rewrite <- app_assoc. cbn [app]. rewrite feeds_app, E. cbn [rbind feeds]. rewrite (feed_operand _ _ _ _ Eo) by (intros; split; discriminate).
      rewrite (after_reduced _ _ _ _ _ _ _ _ TComma O R0) by auto. rewrite (opened_comma _ _ _ _ _ _ O). cbn [rbind].
      inversion F as [|y ? l ? Wy Fl]; subst. cbn [commas] in L. rewrite app_length in L. cbn [length] in L. change (match tss with [] => ts' | _ :: _ => ts' ++ TComma :: commas tss end) with (commas (ts' :: tss)).
      rewrite IHF by (try discriminate; cbn [commas] in *; lia). cbn [given]. now rewrite <- app_assoc.
Qed.

Lemma machine : forall n, P n.
Proof.
  induction n as [|n IH]; intros f k t ts L W fs S0 S1; [lia|].
  destruct W as [f k s|f k s|f k s|f k t ts W|f k o l r tl tr K Wl Wr|f k u t ts K W|f k s args tss F|f k s args tss F|k t ts args tss W Nl F].
  - eexists. split; [reflexivity|]. eexists. repeat split; intros; cbn in *; congruence.
  - eexists. split; [reflexivity|]. eexists. repeat split; intros; cbn in *; congruence.
  - eexists. split; [reflexivity|]. eexists. repeat split; intros; cbn in *; congruence.
  - cbn [length] in L. rewrite app_length in L. cbn [length] in L. assert (SG : stops 0 (FGroup :: fs)) by now intros s e _.
    destruct (IH true 0%nat t ts ltac:(lia) W (FGroup :: fs) SG (fun _ => SG)) as ([fs2 tp] & E & e & Eo & Er & _). cbn [fst snd] in *.
    exists (fs, Have t). split; [|exists t; repeat split; intros; discriminate].
    cbn [app feeds feed rbind]. rewrite feeds_app, E. cbn [rbind feeds]. rewrite (feed_operand _ _ _ _ Eo) by (intros; split; discriminate). cbn [after]. rewrite (Er 0%nat) by (right; lia). reflexivity.
  - rewrite app_length in L. cbn [length] in L. set (kl := if comparison o then S (binds o) else binds o) in *.
    assert (KL : ends kl (binds o)) by (unfold kl, ends; destruct o; cbn; lia).
    assert (KK : (k <= kl)%nat) by (unfold kl; destruct (comparison o); lia).
    destruct (IH f kl l tl ltac:(lia) Wl fs (stops_mono _ _ _ KK S0) S1) as ([fs2 tp] & E & e & Eo & Er & _). cbn [fst snd] in *.
    destruct (IH false (S (binds o)) r tr ltac:(lia) Wr (FBin l o :: fs) (stops_bin l o fs) ltac:(discriminate)) as ([fs3 tp3] & E3 & e3 & Eo3 & Er3 & N3). cbn [fst snd] in *.
    exists (fs3, tp3). split.
    + rewrite feeds_app, E. cbn [rbind feeds]. rewrite (feed_operand _ _ _ _ Eo) by (intros; split; discriminate). cbn [after]. rewrite bin_prec_eq. cbn [snd]. rewrite (Er _ KL), (S0 _ l K). exact E3.
    + exists e3. cbn [fst snd]. repeat split; [exact Eo3| |].
      * intros s Hs. rewrite (Er3 s) by (left; destruct Hs; lia). cbn [reduce]. rewrite decide_bin, bin_call_eq. destruct (Nat.ltb_spec s (binds o)); [reflexivity|].
        destruct (Nat.eqb_spec s (binds o)); [|destruct Hs; lia]. destruct (comparison o) eqn:C; [|reflexivity]. exfalso. destruct o; cbn in *; try discriminate; destruct Hs; lia.
      * intros x Hx. specialize (N3 x Hx). rewrite last_app_cons. destruct tr; [cbn in N3; discriminate|exact N3].
  - cbn [length] in L. destruct (IH false (sign_binds u) t ts ltac:(lia) W (FUn u :: fs) (stops_un u fs) ltac:(discriminate)) as ([fs3 tp3] & E3 & e3 & Eo3 & Er3 & N3). cbn [fst snd] in *.
    exists (fs3, tp3). split; [cbn [feeds]; replace (feed (fs, Need) (sign_token u)) with (Ok (FUn u :: fs, Need)) by (now destruct u); exact E3|].
    exists e3. cbn [fst snd]. repeat split; [exact Eo3| |].
    + intros s Hs. assert (s < sign_binds u)%nat by (destruct u; cbn in *; destruct Hs; lia). rewrite (Er3 s) by (left; lia). cbn [reduce]. rewrite decide_un, un_call_eq. destruct (Nat.ltb_spec s (sign_binds u)); [reflexivity|lia].
    + intros x Hx. specialize (N3 x Hx). destruct ts; [cbn in N3; discriminate|exact N3].
  - exists (fs, Have (Call s args)). split; [|exists (Call s args); repeat split; intros; discriminate]. cbn [feeds feed rbind].
    cbn [length] in L. rewrite app_length in L. rewrite (args_ok n IH _ _ _ (o_call s) args tss F) by (auto; lia). reflexivity.
  - exists (fs, Have (Get s args)). split; [|exists (Get s args); repeat split; intros; discriminate]. cbn [feeds feed rbind].
    cbn [length] in L. rewrite app_length in L. rewrite (args_ok n IH _ _ _ (o_get s) args tss F) by (auto; lia). reflexivity.
  - exists (fs, Have (GenGet t args)). split; [|exists (GenGet t args); repeat split; intros; discriminate].
    rewrite app_length in L. cbn [length] in L. rewrite app_length in L. cbn [length] in L.
    destruct (IH true tight t ts ltac:(lia) W fs (fun s e _ => S1 eq_refl s e (Nat.le_0_l s)) S1) as ([fs2 tp] & E & e & Eo & Er & N). cbn [fst snd] in *.
    rewrite feeds_app, E. cbn [rbind feeds]. rewrite (feed_operand _ _ _ _ Eo) by (intros x Hx; exfalso; exact (Nl x (N x Hx))). cbn [after]. rewrite (Er 0%nat) by (left; unfold tight; lia). rewrite (S1 eq_refl) by lia. cbn [rbind fst snd].
    rewrite (args_ok n IH _ _ _ (o_genget t) args tss F) by (auto; lia). reflexivity.
Qed.

Lemma read_back t ts : written true 0 t ts -> parse ts = Ok t.
Proof.
  intros W. destruct (machine (S (length ts)) true 0%nat t ts ltac:(lia) W [] (fun s e _ => eq_refl) (fun _ s e _ => eq_refl)) as ([fs tp] & E & e & Eo & Er & _). cbn [fst snd] in *.
  unfold parse. rewrite E. cbn [rbind]. assert (R : reduce 0 e fs = Ok (t, [])) by (rewrite Er by (right; lia); reflexivity).
  unfold closing. cbn [snd fst]. destruct tp; cbn in Eo; try discriminate; injection Eo as <-; now rewrite R.
Qed.
