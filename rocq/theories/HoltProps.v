(** * C88: Holt-Winters states and their forecasts *)
From Coq Require Import Reals Lra SpecFloat.
From Verif Require Import Base PyNum HoltModel.
Open Scope R_scope.
Open Scope list_scope.

(** exact arithmetic *)
Definition rltb (a b : R) : bool := if Rlt_dec a b then true else false.
Definition rdiv (a b : R) : option R := if Req_EM_T b 0 then None else Some (a / b).
Definition r_update := update_holt 0 1 Rplus Rminus Rmult rltb.
Definition r_update_periodic := update_periodic 0 1 Rplus Rminus Rmult rltb rdiv.
Definition r_forecast1 := forecast1_holt Rplus.
Definition r_forecast1_periodic := forecast1_periodic 0 Rplus Rmult.
Definition r_forecast := forecast_holt Rplus Rmult IZR.
Definition r_forecast_periodic := forecast_periodic 0 Rplus Rmult IZR.
Definition ratio (a : R) : Prop := 0 <= a <= 1.

Lemma in_range a : ratio a -> out_of_range 0 1 rltb a = false.
Proof. intros [A B]. unfold out_of_range, rltb. destruct (Rlt_dec a 0); [lra|]. destruct (Rlt_dec 1 a); [lra|]. auto. Qed.
Lemma not_in_range a : ~ ratio a -> out_of_range 0 1 rltb a = true.
Proof. intros N. unfold out_of_range, rltb. destruct (Rlt_dec a 0); auto. destruct (Rlt_dec 1 a); auto. exfalso. apply N. split; lra. Qed.

Lemma upto_succ n : (0 <= n)%Z -> upto (n + 1) = 1%Z :: map (fun i => (i + 1)%Z) (upto n).
Proof.
  intros N. unfold upto. replace (Z.to_nat (n + 1)) with (S (Z.to_nat n)) by lia. cbn [seq map]. f_equal.
  rewrite <- seq_shift, !map_map. apply map_ext. intro k. lia.
Qed.
Lemma upto_pos n i : In i (upto n) -> (1 <= i)%Z.
Proof. unfold upto. rewrite in_map_iff. intros (k & <- & _). lia. Qed.

(** ** Without a cycle *)
(** The first forecast is the forecast. There are n of them; none for negative n. *)
Theorem C88_forecast_length : forall n s, length (r_forecast n s) = Z.to_nat n.
Proof. intros. unfold r_forecast, forecast_holt, upto. rewrite !map_length, seq_length. auto. Qed.
Theorem C88_forecast_first : forall n s, (1 <= n)%Z -> hd_error (r_forecast n s) = Some (r_forecast1 s).
Proof.
  intros n s N. unfold r_forecast, forecast_holt. replace n with (n - 1 + 1)%Z by lia. rewrite upto_succ by lia. cbn.
  unfold r_forecast1, forecast1_holt. f_equal. ring.
Qed.

(** Data that come as forecast change no forecast: whatever alpha and beta are, after the first k forecasts were observed,
    the state forecasts what the old state had forecast beyond them. *)
Fixpoint observe (alpha beta : R) (xs : list R) (s : holt) : res holt :=
  match xs with [] => Ok s | x :: r => s' <- r_update x alpha beta s ;; observe alpha beta r s' end.
Lemma update_own alpha beta s : ratio alpha -> ratio beta ->
  r_update (r_forecast1 s) alpha beta s = Ok (Holt (level s + trend s) (trend s)).
Proof.
  intros A B. unfold r_update, update_holt. rewrite !in_range by auto. unfold r_forecast1, forecast1_holt. do 2 f_equal; ring.
Qed.
Theorem C88_own_forecast : forall k n alpha beta s, ratio alpha -> ratio beta -> (0 <= n)%Z ->
  exists s', observe alpha beta (r_forecast (Z.of_nat k) s) s = Ok s' /\
    r_forecast n s' = skipn k (r_forecast (Z.of_nat k + n) s).
Proof.
  induction k as [|k IH]; intros n alpha beta s A B N.
  - exists s. split; auto.
  - replace (Z.of_nat (S k)) with (Z.of_nat k + 1)%Z by lia.
    destruct (IH n alpha beta (Holt (level s + trend s) (trend s)) A B N) as (s' & O & F).
    assert (Sh : forall m, r_forecast m (Holt (level s + trend s) (trend s)) = map (fun i => level s + IZR (i + 1) * trend s) (upto m)).
    { intro m. unfold r_forecast, forecast_holt. cbn. apply map_ext. intro i. rewrite plus_IZR. ring. }
    exists s'. split.
    + unfold r_forecast, forecast_holt. rewrite upto_succ by lia. cbn [map observe]. rewrite map_map.
      replace (level s + 1 * trend s) with (r_forecast1 s) by (unfold r_forecast1, forecast1_holt; ring).
      rewrite update_own by auto. cbn [rbind]. rewrite <- Sh. exact O.
    + rewrite F, Sh. replace (Z.of_nat k + 1 + n)%Z with (Z.of_nat k + n + 1)%Z by lia.
      unfold r_forecast, forecast_holt. rewrite upto_succ by lia. cbn [map skipn]. rewrite map_map. auto.
Qed.
Example C88_own_forecast_ex : ratio (1 / 2) /\ ratio 1 /\ r_forecast 3 (Holt 5 2) = [5 + 1 * 2; 5 + 2 * 2; 5 + 3 * 2].
Proof. split; [unfold ratio; lra|]. split; [unfold ratio; lra|]. reflexivity. Qed.

(** An update refuses exactly an alpha or a beta outside of the range from 0 to 1. Its level lies between the datum and
    the forecast, and its trend between the old trend and the last change of the level. *)
Definition between (a b x : R) : Prop := Rmin a b <= x <= Rmax a b.
Lemma mixture a x y : ratio a -> between x y (a * x + (1 - a) * y).
Proof.
  intros [A B]. unfold between, Rmin, Rmax. destruct (Rle_dec x y) as [L|L].
  - split.
    + assert (0 <= (1 - a) * (y - x)) by (apply Rmult_le_pos; lra). lra.
    + assert (0 <= a * (y - x)) by (apply Rmult_le_pos; lra). lra.
  - split.
    + assert (0 <= a * (x - y)) by (apply Rmult_le_pos; lra). lra.
    + assert (0 <= (1 - a) * (x - y)) by (apply Rmult_le_pos; lra). lra.
Qed.
Theorem C88_update : forall x alpha beta s,
  (~ ratio alpha -> r_update x alpha beta s = Raise (PFAErr 14040)) /\
  (ratio alpha -> ~ ratio beta -> r_update x alpha beta s = Raise (PFAErr 14041)) /\
  (ratio alpha -> ratio beta -> exists s', r_update x alpha beta s = Ok s' /\
     between x (r_forecast1 s) (level s') /\ between (level s' - level s) (trend s) (trend s')).
Proof.
  intros. unfold r_update, update_holt. split; [|split].
  - intro N. rewrite not_in_range by auto. auto.
  - intros A N. rewrite in_range, not_in_range by auto. auto.
  - intros A B. rewrite !in_range by auto. eexists. split; eauto. cbn [level trend]. split; apply mixture; auto.
Qed.

(** ** With a cycle *)
Lemma rotate_nil {T} (c : list T) : rotate c = [] -> c = [].
Proof. destruct c as [|a r]; auto. cbn. intro H. destruct (app_cons_not_nil r [] a). auto. Qed.
Lemma rotate_length {T} (c : list T) : length (rotate c) = length c.
Proof. destruct c; cbn; auto. rewrite app_length. cbn. lia. Qed.
Lemma season_rotate c i : c <> [] -> (0 <= i)%Z -> season 0 (rotate c) i = season 0 c (i + 1).
Proof.
  intros N I. unfold season. rewrite rotate_length. destruct c as [|a r]; [congruence|]. set (L := Z.of_nat (length (a :: r))).
  assert (LP : (0 < L)%Z) by (unfold L; cbn; lia). pose proof (Z.mod_pos_bound i L LP) as B.
  assert (Lr : length r = Z.to_nat (L - 1)) by (unfold L; cbn [length]; lia). cbn [rotate].
  destruct (Z.eq_dec (i mod L) (L - 1)) as [E|E].
  - replace ((i + 1) mod L)%Z with 0%Z.
    + rewrite E. rewrite app_nth2 by lia. rewrite Lr, Nat.sub_diag. auto.
    + rewrite Z.add_mod, E by lia. destruct (Z.eq_dec L 1) as [->|N1]; [rewrite Z.mod_1_r; auto|].
      rewrite (Z.mod_small 1) by lia. replace (L - 1 + 1)%Z with L by lia. rewrite Z.mod_same; lia.
  - replace ((i + 1) mod L)%Z with (i mod L + 1)%Z.
    + rewrite app_nth1 by lia. replace (Z.to_nat (i mod L + 1)) with (S (Z.to_nat (i mod L))) by lia. reflexivity.
    + assert (1 < L)%Z by lia. rewrite Z.add_mod by lia. rewrite (Z.mod_small 1) by lia. rewrite (Z.mod_small (i mod L + 1)); lia.
Qed.
Lemma season_hd c c0 r : rotate c = c0 :: r -> season 0 c 1 = c0.
Proof.
  intro E. assert (N : c <> []) by (intro H; subst; discriminate).
  change (season 0 c (0 + 1) = c0). rewrite <- season_rotate by (auto; lia). unfold season. rewrite E, Z.mod_0_l by (cbn [length]; lia). reflexivity.
Qed.

(** the value forecast i steps ahead *)
Definition ahead (s : periodic) (i : Z) : R :=
  let t := p_level s + IZR i * p_trend s in
  if multiplicative s then t * season 0 (cycle s) i else t + season 0 (cycle s) i.
Lemma forecast_ahead n s : cycle s <> [] -> r_forecast_periodic n s = Ok (map (ahead s) (upto n)).
Proof. intros N. unfold r_forecast_periodic, forecast_periodic. destruct (cycle s) eqn:E; [congruence|]. rewrite <- E. unfold ahead. reflexivity. Qed.

Theorem C88_periodic_forecast : forall n s, cycle s <> [] -> (1 <= n)%Z ->
  exists l, r_forecast_periodic n s = Ok l /\ length l = Z.to_nat n /\
    exists f, r_forecast1_periodic s = Ok f /\ hd_error l = Some f.
Proof.
  intros n s N L. rewrite forecast_ahead by auto. eexists. split; eauto. split.
  { unfold upto. rewrite !map_length, seq_length. auto. }
  unfold r_forecast1_periodic, forecast1_periodic. destruct (cycle s) eqn:E; [congruence|]. rewrite <- E. eexists. split; eauto.
  replace n with (n - 1 + 1)%Z by lia. rewrite upto_succ by lia. cbn [map hd_error]. f_equal. unfold ahead.
  destruct (multiplicative s); ring.
Qed.

(** one observation that comes as forecast *)
Definition advanced (s : periodic) : periodic := Periodic (p_level s + p_trend s) (p_trend s) (rotate (cycle s)) (multiplicative s).
Lemma periodic_own alpha beta gamma s : ratio alpha -> ratio beta -> ratio gamma -> cycle s <> [] ->
  (multiplicative s = true -> p_level s + p_trend s <> 0 /\ season 0 (cycle s) 1 <> 0) ->
  r_update_periodic (ahead s 1) alpha beta gamma s = Ok (Some (advanced s)).
Proof.
  intros A B G N M. unfold r_update_periodic, update_periodic. rewrite !in_range by auto.
  destruct (rotate (cycle s)) as [|c0 r] eqn:E; [apply rotate_nil in E; congruence|].
  pose proof (season_hd _ _ _ E) as Hc. unfold ahead, advanced. rewrite E, Hc. rewrite Hc in M.
  destruct (multiplicative s) eqn:Em.
  - destruct (M eq_refl) as [M1 M2]. unfold rdiv at 1. destruct (Req_EM_T c0 0) as [|_]; [contradiction|].
    assert (El : alpha * ((p_level s + 1 * p_trend s) * c0) / c0 + (1 - alpha) * (p_level s + p_trend s) = p_level s + p_trend s) by (field; auto).
    rewrite El. unfold rdiv. destruct (Req_EM_T (p_level s + p_trend s) 0) as [|_]; [contradiction|].
    do 3 f_equal; [ring|]. f_equal. field. auto.
  - assert (El : alpha * (p_level s + 1 * p_trend s + c0 - c0) + (1 - alpha) * (p_level s + p_trend s) = p_level s + p_trend s) by ring.
    rewrite El. do 3 f_equal; [ring|]. f_equal. ring.
Qed.
Lemma ahead_advanced s i : cycle s <> [] -> (0 <= i)%Z -> ahead (advanced s) i = ahead s (i + 1).
Proof.
  intros N I. unfold ahead, advanced. cbn [p_level p_trend cycle multiplicative]. rewrite season_rotate, plus_IZR by auto. destruct (multiplicative s); ring.
Qed.

Fixpoint observe_periodic (alpha beta gamma : R) (xs : list R) (s : periodic) : res (option periodic) :=
  match xs with
  | [] => Ok (Some s)
  | x :: r => o <- r_update_periodic x alpha beta gamma s ;;
              match o with Some s' => observe_periodic alpha beta gamma r s' | None => Ok None end
  end.
(** Data that come as forecast change no forecast, with a cycle of any length; for a multiplicative cycle as long as no
    season and none of the levels passed is zero. *)
Theorem C88_periodic_own_forecast : forall k n alpha beta gamma s,
  ratio alpha -> ratio beta -> ratio gamma -> cycle s <> [] -> (0 <= n)%Z ->
  (multiplicative s = true -> forall i, (1 <= i <= Z.of_nat k)%Z -> p_level s + IZR i * p_trend s <> 0 /\ season 0 (cycle s) i <> 0) ->
  exists l s' l', r_forecast_periodic (Z.of_nat k) s = Ok l /\ observe_periodic alpha beta gamma l s = Ok (Some s') /\
    r_forecast_periodic (Z.of_nat k + n) s = Ok l' /\ r_forecast_periodic n s' = Ok (skipn k l').
Proof.
  induction k as [|k IH]; intros n alpha beta gamma s A B G N P M.
  - rewrite !forecast_ahead by auto. exists [], s, (map (ahead s) (upto n)). rewrite forecast_ahead by auto. auto.
  - assert (Na : cycle (advanced s) <> []).
    { cbn. intro H. apply rotate_nil in H. auto. }
    destruct (IH n alpha beta gamma (advanced s) A B G Na P) as (l & s' & l' & F1 & O & F2 & F3).
    { cbn [advanced p_level p_trend cycle multiplicative]. intros Hm i I. rewrite season_rotate by (auto; lia). specialize (M Hm (i + 1)%Z ltac:(lia)).
      rewrite plus_IZR in M. replace (p_level s + p_trend s + IZR i * p_trend s) with (p_level s + (IZR i + 1) * p_trend s) by ring. auto. }
    rewrite forecast_ahead in F1, F2 by auto. injection F1 as <-. injection F2 as <-.
    assert (Sh : forall m, (0 <= m)%Z -> map (ahead s) (upto (m + 1)) = ahead s 1 :: map (ahead (advanced s)) (upto m)).
    { intros m Hm. rewrite upto_succ by auto. cbn [map]. f_equal. rewrite map_map. apply map_ext_in. intros i I. apply upto_pos in I.
      symmetry. apply ahead_advanced; auto. lia. }
    replace (Z.of_nat (S k)) with (Z.of_nat k + 1)%Z by lia. rewrite !forecast_ahead by auto.
    replace (Z.of_nat k + 1 + n)%Z with (Z.of_nat k + n + 1)%Z by lia. rewrite !Sh by lia.
    do 3 eexists. split; [reflexivity|]. split; [|split; [reflexivity|]].
    + cbn [observe_periodic]. rewrite periodic_own; auto.
      * cbn [rbind]. exact O.
      * intro Hm. specialize (M Hm 1%Z ltac:(lia)). rewrite Rmult_1_l in M. exact M.
    + cbn [skipn]. exact F3.
Qed.
Example C88_periodic_ex :
  let s := Periodic 10 1 [3; 4; 5] true in
  cycle s <> [] /\ r_forecast_periodic 2 s = Ok [(10 + 1 * 1) * 4; (10 + 2 * 1) * 5] /\
  (forall i, (1 <= i <= 2)%Z -> p_level s + IZR i * p_trend s <> 0 /\ season 0 (cycle s) i <> 0).
Proof.
  cbn zeta. split; [discriminate|]. split; [reflexivity|]. intros i I.
  assert (H : (i = 1 \/ i = 2)%Z) by lia. cbn [p_level p_trend cycle].
  destruct H as [-> | ->]; [change (season 0 [3; 4; 5] 1) with 4 | change (season 0 [3; 4; 5] 2) with 5]; split; lra.
Qed.

(** The error-correction form: with e the error of the forecast, the level is corrected by alpha * e and the trend by
    alpha * beta * e; with an additive cycle, the season observed by gamma * (1 - alpha) * e, and no other season. *)
Theorem C88_error_correction : forall x alpha beta s, ratio alpha -> ratio beta ->
  let e := x - r_forecast1 s in
  r_update x alpha beta s = Ok (Holt (level s + trend s + alpha * e) (trend s + alpha * beta * e)).
Proof.
  intros x alpha beta s A B e. unfold r_update, update_holt. rewrite !in_range by auto. unfold e, r_forecast1, forecast1_holt. do 2 f_equal; ring.
Qed.
Theorem C88_periodic_error_correction : forall x alpha beta gamma l t c0 c1 r f, ratio alpha -> ratio beta -> ratio gamma ->
  let s := Periodic l t (c0 :: c1 :: r) false in
  r_forecast1_periodic s = Ok f ->
  let e := x - f in
  r_update_periodic x alpha beta gamma s =
    Ok (Some (Periodic (l + t + alpha * e) (t + alpha * beta * e) (c1 + gamma * (1 - alpha) * e :: r ++ [c0]) false)).
Proof.
  intros x alpha beta gamma l t c0 c1 r f A B G s F e. unfold r_update_periodic, update_periodic. rewrite !in_range by auto.
  assert (Ef : f = l + t + c1).
  { unfold r_forecast1_periodic, forecast1_periodic, s in F. cbn [cycle multiplicative p_level p_trend] in F. injection F as <-.
    erewrite season_hd by reflexivity. reflexivity. }
  subst f. unfold s, e. cbn [cycle multiplicative p_level p_trend rotate app]. do 2 f_equal. f_equal; try ring. f_equal. ring.
Qed.
Example C88_error_correction_ex : r_forecast1_periodic (Periodic 10 1 [3; 4] false) = Ok (10 + 1 + 4).
Proof. reflexivity. Qed.

(** With gamma 0 the seasons never change: whatever is observed, an update only turns the cycle, and after as many
    updates as it is long it is the old one. *)
Fixpoint rotations (k : nat) (c : list R) : list R := match k with O => c | S k' => rotations k' (rotate c) end.
Lemma rotations_app k : forall c1 c2, length c1 = k -> rotations k (c1 ++ c2) = c2 ++ c1.
Proof.
  induction k as [|k IH]; intros [|a c1] c2 L; try discriminate; cbn [rotations].
  - rewrite app_nil_r. auto.
  - cbn [app rotate]. rewrite <- app_assoc. injection L as L. rewrite IH by auto. rewrite <- app_assoc. auto.
Qed.
Theorem C88_gamma_zero : forall alpha beta xs s s', cycle s <> [] ->
  observe_periodic alpha beta 0 xs s = Ok (Some s') ->
  cycle s' = rotations (length xs) (cycle s) /\ (length xs = length (cycle s) -> cycle s' = cycle s).
Proof.
  intros alpha beta xs s s' N O.
  assert (H : cycle s' = rotations (length xs) (cycle s)).
  { revert s N O. induction xs as [|x xs IH]; intros s N O.
    - cbn in O. injection O as <-. auto.
    - cbn [observe_periodic] in O. destruct (r_update_periodic x alpha beta 0 s) as [[s1|]|] eqn:U; try discriminate.
      cbn [rbind] in O. assert (E : cycle s1 = rotate (cycle s)).
      { unfold r_update_periodic, update_periodic in U. destruct (out_of_range _ _ _ alpha); [discriminate|].
        destruct (out_of_range _ _ _ beta); [discriminate|]. destruct (out_of_range _ _ _ 0); [discriminate|].
        destruct (rotate (cycle s)) as [|c0 r]; [discriminate|]. destruct (multiplicative s).
        - destruct (rdiv (alpha * x) c0) as [q|]; [|discriminate]. unfold rdiv in U.
          destruct (Req_EM_T _ 0) as [|n0]; [discriminate|].
          match type of U with Ok (Some ?a) = _ => assert (X : s1 = a) by congruence end. rewrite X. cbn [cycle]. f_equal. field. exact n0.
        - match type of U with Ok (Some ?a) = _ => assert (X : s1 = a) by congruence end. rewrite X. cbn [cycle]. f_equal. ring. }
      cbn [length rotations]. rewrite <- E. apply IH; auto. rewrite E. intro H. apply rotate_nil in H. auto. }
  split; auto. intro L. rewrite H, L. rewrite <- (app_nil_r (cycle s)) at 2. rewrite rotations_app; auto.
Qed.

(** What an update with a cycle refuses. *)
Theorem C88_periodic_refused : forall x alpha beta gamma s,
  (~ ratio alpha -> r_update_periodic x alpha beta gamma s = Raise (PFAErr 14050)) /\
  (ratio alpha -> ~ ratio beta -> r_update_periodic x alpha beta gamma s = Raise (PFAErr 14051)) /\
  (ratio alpha -> ratio beta -> ~ ratio gamma -> r_update_periodic x alpha beta gamma s = Raise (PFAErr 14052)) /\
  (ratio alpha -> ratio beta -> ratio gamma -> cycle s = [] -> r_update_periodic x alpha beta gamma s = Raise (PFAErr 14053)) /\
  (ratio alpha -> ratio beta -> ratio gamma -> cycle s <> [] -> exists o, r_update_periodic x alpha beta gamma s = Ok o /\
     forall s', o = Some s' -> length (cycle s') = length (cycle s) /\ multiplicative s' = multiplicative s) /\
  (cycle s = [] -> r_forecast1_periodic s = Raise (PFAErr 14060) /\ forall n, r_forecast_periodic n s = Raise (PFAErr 14070)).
Proof.
  intros. unfold r_update_periodic, update_periodic.
  split; [intro; rewrite not_in_range; auto|]. split; [intros; rewrite in_range, not_in_range; auto|].
  split; [intros A B G; rewrite (in_range alpha), (in_range beta), (not_in_range gamma) by auto; auto|].
  split; [intros A B G E; rewrite !in_range by auto; rewrite E; auto|]. split.
  - intros A B G N. rewrite !in_range by auto. destruct (rotate (cycle s)) as [|c0 r] eqn:E; [apply rotate_nil in E; congruence|].
    assert (L : length (cycle s) = S (length r)) by (rewrite <- rotate_length, E; auto).
    destruct (multiplicative s).
    + destruct (rdiv _ c0); [|eexists; split; eauto; discriminate]. destruct (rdiv _ _); [|eexists; split; eauto; discriminate].
      eexists. split; eauto. intros s' H. injection H as <-. cbn. auto.
    + eexists. split; eauto. intros s' H. injection H as <-. cbn. auto.
  - intro E. unfold r_forecast1_periodic, forecast1_periodic, r_forecast_periodic, forecast_periodic. rewrite E. auto.
Qed.

(** Over floats alpha may be NaN, which is no number from 0 to 1: it is accepted and the state is lost. *)
Definition f_update := update_holt f0 (f_of_Z 1) fadd fsub fmul (fun a b => num_lt (NF a) (NF b)).
Theorem C88_nan_refuted : forall x beta s, isnan beta = false -> num_lt (NF beta) (NF f0) = false -> num_lt (NF (f_of_Z 1)) (NF beta) = false ->
  exists s', f_update x fnan beta s = Ok s' /\ isnan (level s') = true /\ isnan (trend s') = true.
Proof.
  intros x beta s Nb B1 B2. unfold f_update, update_holt, out_of_range. cbn [num_lt num_cmp]. rewrite B1, B2.
  replace (num_lt (NF fnan) (NF f0)) with false by reflexivity. replace (num_lt (NF (f_of_Z 1)) (NF fnan)) with false by reflexivity. cbn [orb].
  eexists. split; [reflexivity|]. cbn [level trend].
  assert (M : forall y, fmul fnan y = fnan) by (intro y; destruct y; reflexivity).
  assert (Ad : forall y, fadd fnan y = fnan) by (intro y; destruct y; reflexivity).
  assert (Su : forall y, fsub fnan y = fnan) by (intro y; destruct y; reflexivity).
  assert (Mr : forall y, fmul y fnan = fnan) by (intro y; destruct y; reflexivity).
  rewrite M, Ad, Su, Mr, Ad. auto.
Qed.
Example C88_nan_ex : isnan (f_of_Z 1) = false /\ num_lt (NF (f_of_Z 1)) (NF f0) = false /\ num_lt (NF (f_of_Z 1)) (NF (f_of_Z 1)) = false.
Proof. repeat split; vm_compute; reflexivity. Qed.
Print Assumptions C88_forecast_length.
Print Assumptions C88_forecast_first.
Print Assumptions C88_own_forecast.
Print Assumptions C88_update.
Print Assumptions C88_periodic_forecast.
Print Assumptions C88_periodic_own_forecast.
Print Assumptions C88_error_correction.
Print Assumptions C88_periodic_error_correction.
Print Assumptions C88_gamma_zero.
Print Assumptions C88_periodic_refused.
Print Assumptions C88_nan_refuted.
