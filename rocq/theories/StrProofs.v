(** Lemmas about strings. *)
From Verif Require Import Base ArrayModel StrModel StrSpec.
Open Scope list_scope.
Open Scope Z_scope.

Lemma starts_spec n : forall h, starts n h = true <-> exists q, h = n ++ q.
Proof.
  induction n as [|c n IH]; intros h; cbn; [split; eauto|]. destruct h as [|d h].
  - split; [discriminate|intros (q & H); discriminate].
  - rewrite andb_true_iff, Z.eqb_eq, IH. split; [intros (-> & q & ->); eauto|intros (q & H); injection H as -> ->; eauto].
Qed.
Lemma occurs_at_nonneg n h i : occurs_at n h i -> 0 <= i.
Proof. intros (p & q & _ & <-). lia. Qed.
Lemma occurs_at_0 n h : occurs_at n h 0 <-> starts n h = true.
Proof.
  rewrite starts_spec. split.
  - intros (p & q & -> & L). destruct p; [eexists; reflexivity|cbn in L; lia].
  - intros (q & ->). exists [], q. auto.
Qed.
Lemma occurs_at_cons n c h i : occurs_at n (c :: h) i <-> (i = 0 /\ starts n (c :: h) = true) \/ occurs_at n h (i - 1).
Proof.
  rewrite <- occurs_at_0. split.
  - intros (p & q & E & L). destruct p as [|d p]; [left; cbn in L; split; [lia|exists [], q; auto]|]. right. cbn in E, L. injection E as -> ->. exists p, q. split; auto. lia.
  - intros [[-> H]|(p & q & -> & L)]; auto. exists (c :: p), q. split; auto. cbn. lia.
Qed.
Lemma occurs_cons n c h : occurs n (c :: h) <-> starts n (c :: h) = true \/ occurs n h.
Proof.
  unfold occurs. split.
  - intros (i & H). apply occurs_at_cons in H. destruct H as [[_ H]|H]; eauto.
  - intros [H|(i & H)]; [exists 0; apply occurs_at_0; auto|exists (i + 1); apply occurs_at_cons; right; replace (i + 1 - 1) with i by lia; auto].
Qed.
Lemma occurs_nil n : occurs n [] <-> n = [].
Proof.
  split; [|intros ->; exists 0, [], []; auto]. intros (i & p & q & E & _). symmetry in E. apply app_eq_nil in E. destruct E as [_ E]. apply app_eq_nil in E. tauto.
Qed.
Lemma find_spec n : forall h i, match find_from i n h with
  | Some k => occurs_at n h (k - i) /\ forall j, occurs_at n h j -> k - i <= j
  | None => ~ occurs n h end.
Proof.
  induction h as [|c h IH]; intros i; cbn [find_from].
  - destruct (starts n []) eqn:E.
    + rewrite Z.sub_diag. split; [apply occurs_at_0; auto|]. intros j Hj. apply (occurs_at_nonneg _ _ _ Hj).
    + rewrite occurs_nil. intros ->. discriminate.
  - destruct (starts n (c :: h)) eqn:E.
    + rewrite Z.sub_diag. split; [apply occurs_at_0; auto|]. intros j Hj. apply (occurs_at_nonneg _ _ _ Hj).
    + specialize (IH (i + 1)). destruct (find_from (i + 1) n h) as [k|].
      * destruct IH as [H1 H2]. split; [apply occurs_at_cons; right; replace (k - i - 1) with (k - (i + 1)) by lia; auto|].
        intros j Hj. apply occurs_at_cons in Hj. destruct Hj as [[_ Hj]|Hj]; [congruence|]. specialize (H2 _ Hj). lia.
      * rewrite occurs_cons. intros [H|H]; [congruence|auto].
Qed.
Lemma rfind_spec n : forall h i, match rfind_from i n h with
  | Some k => occurs_at n h (k - i) /\ forall j, occurs_at n h j -> j <= k - i
  | None => ~ occurs n h end.
Proof.
  induction h as [|c h IH]; intros i; cbn [rfind_from].
  - destruct (starts n []) eqn:E.
    + rewrite Z.sub_diag. split; [apply occurs_at_0; auto|]. intros j (p & q & H & L). symmetry in H. apply app_eq_nil in H. destruct H as [-> _]. cbn in L. lia.
    + rewrite occurs_nil. intros ->. discriminate.
  - specialize (IH (i + 1)). destruct (rfind_from (i + 1) n h) as [k|].
    + destruct IH as [H1 H2]. split; [apply occurs_at_cons; right; replace (k - i - 1) with (k - (i + 1)) by lia; auto|].
      intros j Hj. apply occurs_at_cons in Hj. destruct Hj as [[-> Hj]|Hj]; [|specialize (H2 _ Hj); lia]. apply occurs_at_nonneg in H1. lia.
    + destruct (starts n (c :: h)) eqn:E.
      * rewrite Z.sub_diag. split; [apply occurs_at_0; auto|]. intros j Hj. apply occurs_at_cons in Hj. destruct Hj as [[-> _]|Hj]; [lia|]. exfalso. apply IH. exists (j - 1). auto.
      * rewrite occurs_cons. intros [H|H]; [congruence|auto].
Qed.

(** ** Cutting at the occurrences of a separator *)
Lemma cuts_joined sep s p ps : cuts sep s p ps -> joined sep p ps = s.
Proof. induction 1; cbn; auto. rewrite IHcuts. auto. Qed.
Lemma app_same_len {A} (a : list A) : forall b c d, length a = length b -> a ++ c = b ++ d -> a = b /\ c = d.
Proof. induction a as [|x a IH]; intros [|y b] c d L E; try discriminate; auto. cbn in *. injection E as -> E. destruct (IH b c d); auto. subst. auto. Qed.
Lemma cuts_unique sep : forall s p ps, cuts sep s p ps -> forall p' ps', cuts sep s p' ps' -> p = p' /\ ps = ps'.
Proof.
  induction 1 as [s N|p s' p1 ps F C IH]; intros p' ps' H.
  - inversion H; subst; auto. exfalso. apply N. exists (Z.of_nat (length p')), p', s'. auto.
  - inversion H as [s0 N E|p0 s0 p2 ps2 F0 C0 E]; subst.
    + exfalso. apply N. exists (Z.of_nat (length p)), p, s'. auto.
    + assert (L : Z.of_nat (length p) = Z.of_nat (length p')).
      { apply Z.le_antisymm; [apply F; exists p', s0; auto|apply F0; exists p, s'; auto]. }
      apply app_same_len in E; [|lia]. destruct E as [-> E]. apply app_inv_head in E. subst s0.
      destruct (IH _ _ C0) as [-> ->]. auto.
Qed.
Lemma cuts_cons sep c s p ps : starts sep (c :: s) = false -> cuts sep s p ps -> cuts sep (c :: s) (c :: p) ps.
Proof.
  intros E H. inversion H; subst.
  - constructor. rewrite occurs_cons. intros [K|K]; [congruence|auto].
  - apply (cuts_step sep (c :: p) s'); auto. intros i Hi. cbn [app] in Hi. apply occurs_at_cons in Hi.
    destruct Hi as [[_ Hi]|Hi]; [cbn in E; congruence|]. apply H0 in Hi. cbn [length]. lia.
Qed.
Lemma cuts_start sep s' p ps : cuts sep s' p ps -> cuts sep (sep ++ s') [] (p :: ps).
Proof. intros H. apply (cuts_step sep [] s'); auto. intros i Hi. apply occurs_at_nonneg in Hi. cbn. lia. Qed.
(** the last piece, like every other, contains no separator *)
Lemma cuts_clean sep s p ps : sep <> [] -> cuts sep s p ps -> Forall (fun t => ~ occurs sep t) (p :: ps).
Proof.
  intros NE. induction 1 as [s N|p s' p1 ps F C IH]; [constructor; auto|]. constructor; auto.
  intros (i & a & b & E & L). specialize (F i). assert (K : Z.of_nat (length p) <= i).
  { apply F. exists a, (b ++ sep ++ s'). split; auto. rewrite E, <- !app_assoc. auto. }
  rewrite E, !app_length in K. destruct sep; [congruence|]. cbn in K. lia.
Qed.
(** no other way of cutting s at occurrences of sep gives more pieces *)
Lemma joined_app sep x : forall q qs, x ++ joined sep q qs = joined sep (x ++ q) qs.
Proof. intros q [|r qs]; cbn; auto. rewrite <- app_assoc. auto. Qed.
Lemma cuts_most sep : forall s p ps, cuts sep s p ps -> forall q qs, joined sep q qs = s -> (length qs <= length ps)%nat.
Proof.
  induction 1 as [s N|p s' p1 ps F C IH]; intros q qs E.
  - destruct qs as [|r qs]; [auto|]. exfalso. apply N. cbn in E. exists (Z.of_nat (length q)), q, (joined sep r qs). auto.
  - destruct qs as [|r qs]; [cbn; lia|]. cbn [joined] in E. cbn [length]. apply le_n_S.
    assert (L : (length p <= length q)%nat). { specialize (F (Z.of_nat (length q))). assert (Z.of_nat (length p) <= Z.of_nat (length q)); [|lia]. apply F. exists q, (joined sep r qs). auto. }
    assert (K : exists y, s' = y ++ joined sep r qs).
    { assert (E2 : skipn (length (p ++ sep)) (q ++ sep) ++ joined sep r qs = s').
      { replace s' with (skipn (length (p ++ sep)) ((p ++ sep) ++ s')) by (rewrite skipn_app, skipn_all, Nat.sub_diag; reflexivity).
        replace ((p ++ sep) ++ s') with ((q ++ sep) ++ joined sep r qs) by (rewrite <- !app_assoc; auto).
        rewrite (skipn_app _ (q ++ sep)). rewrite !app_length. replace (length p + length sep - (length q + length sep))%nat with 0%nat by lia. auto. }
      eauto. }
    destruct K as (y & ->). apply (IH (y ++ r) qs). rewrite <- joined_app. auto.
Qed.
Lemma skipn_start (sep : str) c s q : sep <> [] -> c :: s = sep ++ q -> skipn (length sep - 1) s = q.
Proof.
  intros NE E. destruct sep as [|d sep]; [congruence|]. cbn in *. injection E as -> ->. rewrite Nat.sub_0_r, skipn_app, skipn_all, Nat.sub_diag. auto.
Qed.
Lemma split_skip sep : forall s k cur, split_from k cur sep s = split_from 0 cur sep (skipn k s).
Proof. induction s as [|c s IH]; intros [|k] cur; auto. cbn [split_from skipn]. apply IH. Qed.
Lemma count_skip sep : forall s k, count_from k sep s = count_from 0 sep (skipn k s).
Proof. induction s as [|c s IH]; intros [|k]; auto. cbn [count_from skipn]. apply IH. Qed.
Lemma replace_skip lim old new : forall s k, replace_from k lim old new s = replace_from 0 lim old new (skipn k s).
Proof. induction s as [|c s IH]; intros [|k]; auto. cbn [replace_from skipn]. apply IH. Qed.
Lemma replace_none old new : forall s, replace_from 0 (Some O) old new s = s.
Proof. induction s as [|c s IH]; auto. cbn [replace_from negb]. rewrite andb_false_r, IH. auto. Qed.
(** all the functions in terms of the pieces *)
Lemma cuts_all sep : sep <> [] -> forall n s, (length s <= n)%nat -> exists p ps, cuts sep s p ps /\
  (forall cur, split_from 0 cur sep s = (rev cur ++ p) :: ps) /\ count_from 0 sep s = Z.of_nat (length ps) /\
  (forall new, replace_from 0 None sep new s = joined new p ps) /\
  (forall new, replace_from 0 (Some 1%nat) sep new s = match ps with [] => s | p1 :: ps1 => p ++ new ++ joined sep p1 ps1 end).
Proof.
  intros NE. induction n as [|n IH]; intros s L.
  - destruct s; [|cbn in L; lia]. exists [], []. split; [constructor; rewrite occurs_nil; auto|]. cbn. split; [intros; rewrite app_nil_r; auto|auto].
  - destruct s as [|c s]. { exists [], []. split; [constructor; rewrite occurs_nil; auto|]. cbn. split; [intros; rewrite app_nil_r; auto|auto]. }
    destruct (starts sep (c :: s)) eqn:E.
    + pose proof E as E'. apply starts_spec in E'. destruct E' as (q & Eq). pose proof (skipn_start _ _ _ _ NE Eq) as Sk.
      assert (Lq : (length q <= n)%nat). { pose proof (f_equal (@length Z) Eq) as Q. rewrite app_length in Q. cbn in Q, L. destruct sep; [congruence|]. cbn in Q. lia. }
      destruct (IH q Lq) as (p & ps & C & S1 & S2 & S3 & S4).
      exists [], (p :: ps). split; [rewrite Eq; apply cuts_start; auto|].
      cbn [split_from count_from replace_from]. rewrite E. cbn [andb negb option_map pred].
      split; [|split; [|split]].
      * intros cur. rewrite split_skip, Sk, S1. rewrite app_nil_r. auto.
      * rewrite count_skip, Sk, S2. cbn [length]. lia.
      * intros new. rewrite replace_skip, Sk, S3. auto.
      * intros new. rewrite replace_skip, Sk, replace_none. cbn [app]. rewrite (cuts_joined _ _ _ _ C). auto.
    + cbn [length] in L. destruct (IH s ltac:(lia)) as (p & ps & C & S1 & S2 & S3 & S4).
      exists (c :: p), ps. split; [apply cuts_cons; auto|].
      cbn [split_from count_from replace_from]. rewrite E. cbn [andb].
      split; [|split; [|split]].
      * intros cur. rewrite S1. cbn [rev]. rewrite <- app_assoc. auto.
      * auto.
      * intros new. rewrite S3. destruct ps; auto.
      * intros new. rewrite S4. destruct ps; auto.
Qed.
Lemma cuts_functions sep s p ps : sep <> [] -> cuts sep s p ps ->
  split_from 0 [] sep s = p :: ps /\ count_from 0 sep s = Z.of_nat (length ps) /\
  (forall new, replace_from 0 None sep new s = joined new p ps) /\
  (forall new, replace_from 0 (Some 1%nat) sep new s = match ps with [] => s | p1 :: ps1 => p ++ new ++ joined sep p1 ps1 end).
Proof.
  intros NE C. destruct (cuts_all sep NE (length s) s (le_n _)) as (p' & ps' & C' & S1 & S2 & S3 & S4).
  destruct (cuts_unique _ _ _ _ C _ _ C') as [-> ->]. split; auto. apply (S1 []).
Qed.
Lemma py_join_joined sep : forall ps p, py_join sep (p :: ps) = joined sep p ps.
Proof. induction ps as [|q ps IH]; intros p; [reflexivity|]. change (py_join sep (p :: q :: ps)) with (p ++ sep ++ py_join sep (q :: ps)). rewrite IH. auto. Qed.
Lemma occurs_rev n h i : occurs_at n h i <-> occurs_at (rev n) (rev h) (Z.of_nat (length h) - Z.of_nat (length n) - i).
Proof.
  assert (G : forall n h i, occurs_at n h i -> occurs_at (rev n) (rev h) (Z.of_nat (length h) - Z.of_nat (length n) - i)).
  { clear. intros n h i (p & q & -> & L). exists (rev q), (rev p). split; [rewrite !rev_app_distr, <- app_assoc; auto|]. rewrite !app_length, rev_length. lia. }
  split; [apply G|]. intros H. apply G in H. rewrite !rev_involutive, !rev_length in H. replace i with (Z.of_nat (length h) - Z.of_nat (length n) - (Z.of_nat (length h) - Z.of_nat (length n) - i)) by lia. auto.
Qed.
(** ** Stripping *)
Lemma existsb_eqb c chars : existsb (Z.eqb c) chars = true <-> In c chars.
Proof.
  rewrite existsb_exists. split; [intros (d & H & E); apply Z.eqb_eq in E; subst; auto|intros H; exists c; split; auto; apply Z.eqb_refl].
Qed.
Lemma lstrip_spec chars : forall s, exists p, s = p ++ py_lstrip s chars /\ (forall c, In c p -> In c chars) /\
  (forall c t, py_lstrip s chars = c :: t -> ~ In c chars).
Proof.
  induction s as [|c s IH]; [exists []; cbn; split; auto; split; [intros c []|discriminate]|]. cbn [py_lstrip].
  destruct (existsb (Z.eqb c) chars) eqn:E.
  - apply existsb_eqb in E. destruct IH as (p & Ep & P1 & P2).
    exists (c :: p). split; [cbn; congruence|]. split; [intros d [<- | H]; auto|auto].
  - exists []. split; auto. split; [intros d []|]. intros d t H. injection H as <- <-. rewrite <- existsb_eqb. congruence.
Qed.
Lemma rstrip_spec chars s : exists q, s = py_rstrip s chars ++ q /\ (forall c, In c q -> In c chars) /\
  (forall c t, py_rstrip s chars = t ++ [c] -> ~ In c chars).
Proof.
  destruct (lstrip_spec chars (rev s)) as (p & E & P1 & P2). unfold py_rstrip. exists (rev p). split; [|split].
  - rewrite <- rev_app_distr, <- E, rev_involutive. auto.
  - intros c H. apply P1. apply in_rev. auto.
  - intros c t H. apply (P2 c (rev t)). rewrite <- (rev_involutive (py_lstrip (rev s) chars)), H, rev_app_distr. auto.
Qed.
(** ** Numbers *)
Lemma numeral_app b : forall ds a es, numeral b a (ds ++ es) = numeral b (numeral b a ds) es.
Proof. induction ds; intros; cbn; auto. Qed.
Lemma digits_fuel_spec b : 2 <= b -> forall fuel n acc, 0 <= n -> n < 2 ^ Z.of_nat (S fuel) ->
  exists ds, digits_fuel (S fuel) b n acc = ds ++ acc /\ numeral b 0 ds = n /\ Forall (fun d => 0 <= d < b) ds /\ ds <> [] /\ (forall d l, ds = d :: l -> d = 0 -> l = []).
Proof.
  intros B. induction fuel as [|f IH]; intros n acc N L.
  - cbn [digits_fuel]. change (2 ^ Z.of_nat 1) with 2 in L. destruct (Z.ltb_spec n b); [|lia]. exists [n]. cbn. split; [auto|]. split; [lia|]. split; [constructor; [lia|constructor]|]. split; [discriminate|]. intros d l E. injection E as <- <-. auto.
  - change (digits_fuel (S (S f)) b n acc) with (if n <? b then n :: acc else digits_fuel (S f) b (n / b) (n mod b :: acc)).
    destruct (Z.ltb_spec n b).
    + exists [n]. cbn. split; [auto|]. split; [lia|]. split; [constructor; [lia|constructor]|]. split; [discriminate|]. intros d l E. injection E as <- <-. auto.
    + assert (D : 0 < n / b) by (apply Z.div_str_pos; lia). pose proof (Z.mod_pos_bound n b ltac:(lia)) as Mb. pose proof (Z.div_mod n b ltac:(lia)) as DM.
      destruct (IH (n / b) (n mod b :: acc)) as (ds & E & V & F & NE & H0). { lia. }
      { rewrite (Nat2Z.inj_succ (S f)), Z.pow_succ_r in L by lia. apply Z.div_lt_upper_bound; [lia|].
        assert (0 < 2 ^ Z.of_nat (S f)) by (apply Z.pow_pos_nonneg; lia). nia. }
      exists (ds ++ [n mod b]). split; [rewrite E, <- app_assoc; auto|]. split; [rewrite numeral_app, V; cbn; lia|].
      split; [apply Forall_app; split; auto|]. split; [destruct ds; discriminate|].
      intros d l E2 D0. destruct ds as [|d' ds]; [congruence|]. cbn in E2. injection E2 as -> <-. subst d.
      pose proof (H0 0 ds eq_refl eq_refl). subst ds. cbn in V. lia.
Qed.
Lemma digits_spec b n : 2 <= b -> 0 <= n ->
  numeral b 0 (digits b n) = n /\ Forall (fun d => 0 <= d < b) (digits b n) /\ digits b n <> [] /\ (forall d l, digits b n = d :: l -> d = 0 -> l = []).
Proof.
  intros B N. unfold digits. destruct (digits_fuel_spec b B (Z.to_nat (Z.log2 n)) n [] N) as (ds & -> & H).
  - rewrite Nat2Z.inj_succ, Z2Nat.id by apply Z.log2_nonneg. destruct (Z.eq_dec n 0) as [-> | NZ]; [cbn; lia|]. apply Z.log2_spec. lia.
  - rewrite app_nil_r. auto.
Qed.
Lemma body_denotes b x : 2 <= b <= 16 -> denotes b (body b x) (Z.abs x).
Proof.
  intros B. destruct (digits_spec b (Z.abs x)) as (V & F & NE & H0); [lia|lia|]. exists (digits b (Z.abs x)).
  split; [|split; [auto|split; [auto|split]]].
  - unfold body. clear -F B. induction F; cbn; constructor; auto. unfold digit_value, digit_char. destruct (Z.ltb_spec x0 10); lia.
  - unfold body. destruct (digits b (Z.abs x)); [congruence|discriminate].
  - intros c s' E C. unfold body in E. destruct (digits b (Z.abs x)) as [|d l] eqn:D; [discriminate|]. cbn in E. injection E as E1 E2.
    pose proof (Forall_inv F) as F0. cbv beta in F0. rewrite (H0 d l eq_refl) in E2; [subst; auto|]. unfold digit_char in E1. destruct (Z.ltb_spec d 10); lia.
Qed.
Lemma digit_value_inj c d d' : digit_value c d -> digit_value c d' -> d = d'.
Proof. unfold digit_value. lia. Qed.
Lemma denotes_unique b s x y : denotes b s x -> denotes b s y -> x = y.
Proof.
  intros (ds & F & _ & V & _) (ds' & F' & _ & V' & _). assert (ds = ds'); [|congruence].
  clear -F F'. revert ds' F'. induction F; intros ds' F'; inversion F'; subst; auto. f_equal; auto. eapply digit_value_inj; eauto.
Qed.
