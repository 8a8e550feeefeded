(** C29: strings. *)
From Verif Require Import Base ArrayModel ArraySpec ArrayProofs ArrayProps StrModel StrSpec StrProofs.
Open Scope string_scope.
Open Scope list_scope.
Open Scope Z_scope.

(** ** Searching *)
Theorem C29_contains : forall hay needle, s_contains hay needle = true <-> occurs needle hay.
Proof.
  intros hay needle. unfold s_contains. pose proof (find_spec needle hay 0) as H. destruct (find_from 0 needle hay) as [k|].
  - split; auto. intros _. destruct H as [H _]. eexists; eauto.
  - split; [discriminate|contradiction].
Qed.
(** the first position; -1 if there is none *)
Theorem C29_index : forall hay needle,
  (occurs needle hay -> occurs_at needle hay (s_index hay needle) /\ forall i, occurs_at needle hay i -> s_index hay needle <= i) /\
  (~ occurs needle hay -> s_index hay needle = -1).
Proof.
  intros hay needle. unfold s_index. pose proof (find_spec needle hay 0) as H. destruct (find_from 0 needle hay) as [k|].
  - rewrite Z.sub_0_r in H. split; auto. intros N. exfalso. apply N. destruct H as [H _]. eexists; eauto.
  - split; [contradiction|auto].
Qed.
Theorem C29_rindex : forall hay needle,
  (occurs needle hay -> occurs_at needle hay (s_rindex hay needle) /\ forall i, occurs_at needle hay i -> i <= s_rindex hay needle) /\
  (~ occurs needle hay -> s_rindex hay needle = -1).
Proof.
  intros hay needle. unfold s_rindex. pose proof (rfind_spec needle hay 0) as H. destruct (rfind_from 0 needle hay) as [k|].
  - rewrite Z.sub_0_r in H. split; auto. intros N. exfalso. apply N. destruct H as [H _]. eexists; eauto.
  - split; [contradiction|auto].
Qed.
Theorem C29_startswith : forall hay needle,
  (s_startswith hay needle = true <-> exists q, hay = needle ++ q) /\ (s_endswith hay needle = true <-> exists p, hay = p ++ needle).
Proof.
  intros hay needle. unfold s_startswith, s_endswith. rewrite !starts_spec. split; [tauto|]. split.
  - intros (q & E). exists (rev q). rewrite <- (rev_involutive hay), E, rev_app_distr, rev_involutive. auto.
  - intros (p & ->). exists (rev p). rewrite rev_app_distr. auto.
Qed.
Example C29_search_example : let hay := [97;98;97;98;97] in let needle := [97;98;97] in
  occurs needle hay /\ s_index hay needle = 0 /\ s_rindex hay needle = 2 /\ s_count hay needle = 1 /\ s_index hay [99] = -1 /\ s_endswith hay [98;97] = true.
Proof. cbn zeta. split; [exists 0, [], [98;97]; auto|]. vm_compute. auto 6. Qed.

(** ** Cutting and joining *)
(** s.split cuts at the occurrences found from left to right; no piece contains the separator *)
Theorem C29_split : forall s sep, sep <> [] -> exists p ps, s_split s sep = p :: ps /\ cuts sep s p ps /\ Forall (fun t => ~ occurs sep t) (p :: ps).
Proof.
  intros s sep NE. destruct (cuts_all sep NE (length s) s (le_n _)) as (p & ps & C & _). exists p, ps.
  destruct (cuts_functions _ _ _ _ NE C) as (S1 & _). unfold s_split. destruct (Z.eqb_spec (zlen sep) 0) as [Z0|_].
  { unfold zlen in Z0. destruct sep; [congruence|cbn in Z0; lia]. }
  split; auto. split; auto. eapply cuts_clean; eauto.
Qed.
Theorem C29_cuts_unique : forall sep s p ps p' ps', cuts sep s p ps -> cuts sep s p' ps' -> p = p' /\ ps = ps'.
Proof. intros. eapply cuts_unique; eauto. Qed.
Theorem C29_join_split : forall s sep, sep <> [] -> s_join (s_split s sep) sep = s.
Proof.
  intros s sep NE. destruct (C29_split s sep NE) as (p & ps & -> & C & _). unfold s_join. rewrite py_join_joined. eapply cuts_joined; eauto.
Qed.
(** with a separator of one character that no piece contains, splitting undoes joining *)
Theorem C29_split_join : forall c p ps, (forall t, In t (p :: ps) -> ~ In c t) -> s_split (s_join (p :: ps) [c]) [c] = p :: ps.
Proof.
  intros c p ps H. destruct (C29_split (s_join (p :: ps) [c]) [c]) as (p' & ps' & -> & C & _); [discriminate|].
  unfold s_join in C. rewrite py_join_joined in C.
  assert (C' : cuts [c] (joined [c] p ps) p ps).
  { clear C p' ps'. revert p H. induction ps as [|q ps IH]; intros p H.
    - constructor. intros (i & a & b & E & _). apply (H p); [left; auto|]. cbn in E. rewrite E. apply in_or_app. right. left. auto.
    - cbn [joined]. constructor; [|apply IH; intros t Ht; apply H; right; auto].
      intros i (a & b & E & L). rewrite <- L. destruct (Nat.le_gt_cases (length p) (length a)) as [K|K]; [lia|]. exfalso. apply (H p); [left; auto|].
      assert (E2 : firstn (length p) (a ++ [c] ++ b) = p). { rewrite <- E, firstn_app, firstn_all, Nat.sub_diag. cbn. apply app_nil_r. }
      rewrite <- E2, firstn_app. apply in_or_app. right. destruct (length p - length a)%nat eqn:D; [lia|]. cbn. auto. }
  destruct (cuts_unique _ _ _ _ C _ _ C') as [-> ->]. auto.
Qed.
(** s.count is the number of separators, which is the largest number of occurrences that do not overlap *)
Theorem C29_count : forall hay needle p ps, needle <> [] -> cuts needle hay p ps ->
  s_count hay needle = Z.of_nat (length ps) /\
  (forall q qs, joined needle q qs = hay -> Z.of_nat (length qs) <= s_count hay needle) /\
  (s_count hay needle = 0 <-> ~ occurs needle hay).
Proof.
  intros hay needle p ps NE C. assert (E : s_count hay needle = Z.of_nat (length ps)).
  { destruct (cuts_functions _ _ _ _ NE C) as (_ & S2 & _). unfold s_count, zlen. destruct needle as [|n0 needle]; [congruence|].
    replace (Z.of_nat (length (n0 :: needle)) =? 0) with false by (symmetry; apply Z.eqb_neq; cbn; lia). rewrite orb_false_r.
    destruct (Z.eqb_spec (Z.of_nat (length hay)) 0); auto. destruct hay; [|cbn in e; lia]. cbn in S2. auto. }
  split; auto. rewrite E. split.
  - intros q qs J. pose proof (cuts_most _ _ _ _ C q qs J). lia.
  - inversion C; subst; cbn [length].
    + tauto.
    + split; [lia|]. intros N. exfalso. apply N. exists (Z.of_nat (length p)), p, s'. auto.
Qed.
Theorem C29_count_empty : forall hay, s_count hay [] = 0.
Proof. intros. unfold s_count. cbn. rewrite orb_true_r. auto. Qed.
(** s.replaceall replaces exactly the occurrences between the pieces *)
Theorem C29_replaceall : forall s old new p ps, old <> [] -> cuts old s p ps -> s_replaceall s old new = joined new p ps.
Proof.
  intros s old new p ps NE C. destruct (cuts_functions _ _ _ _ NE C) as (_ & _ & S3 & _). unfold s_replaceall, py_replace.
  destruct old; [congruence|]. apply S3.
Qed.
Corollary C29_replaceall_same : forall s old, old <> [] -> s_replaceall s old old = s.
Proof.
  intros s old NE. destruct (C29_split s old NE) as (p & ps & _ & C & _). rewrite (C29_replaceall _ _ _ _ _ NE C). eapply cuts_joined; eauto.
Qed.
(** but the result may contain the replaced string again *)
Theorem C29_replaceall_refuted : exists s old new, old <> [] /\ occurs old (s_replaceall s old new).
Proof. exists [97;97;98;98], [97;98], []. split; [discriminate|]. exists 0, [], []. auto. Qed.
(** the first and the last occurrence; without an occurrence nothing changes *)
Lemma occurs_cut old s : occurs old s -> exists p q, s = p ++ old ++ q /\ forall i, occurs_at old s i -> Z.of_nat (length p) <= i.
Proof.
  intros H. destruct (C29_index s old) as [G _]. destruct (G H) as [(p & q & E & L) F]. exists p, q. split; auto. intros i Hi. rewrite L. auto.
Qed.
Lemma replace1_spec : forall s old new p q, s = p ++ old ++ q -> (forall i, occurs_at old s i -> Z.of_nat (length p) <= i) ->
  (if 0 <? zlen s then py_replace (Some 1%nat) s old new else py_replace None s old new) = p ++ new ++ q.
Proof.
  intros s old new p q E F. destruct old as [|o old].
  - assert (P0 : p = []). { specialize (F 0). destruct p; auto. exfalso. assert (K : 0 < Z.of_nat (length (z :: p))) by (cbn; lia). assert (0 >= Z.of_nat (length (z :: p))); [|lia]. apply Z.le_ge, F. exists [], s. auto. }
    subst p. cbn in E. subst q. destruct s as [|c s]; [cbn; rewrite !app_nil_r; auto|]. reflexivity.
  - assert (NE : o :: old <> []) by discriminate. destruct (cuts_all _ NE (length q) q (le_n _)) as (p1 & ps & C & _).
    assert (C2 : cuts (o :: old) s p (p1 :: ps)) by (rewrite E in *; constructor; auto).
    destruct (cuts_functions _ _ _ _ NE C2) as (_ & _ & S3 & S4).
    assert (Hs : 0 <? zlen s = true). { apply Z.ltb_lt. unfold zlen. rewrite E, !app_length. cbn. lia. }
    rewrite Hs. cbn [py_replace]. rewrite S4. rewrite (cuts_joined _ _ _ _ C). auto.
Qed.
Lemma replace1_none : forall s old new, ~ occurs old s ->
  (if 0 <? zlen s then py_replace (Some 1%nat) s old new else py_replace None s old new) = s.
Proof.
  intros s old new N. destruct old as [|o old]; [exfalso; apply N; exists 0, [], s; auto|].
  assert (NE : o :: old <> []) by discriminate. pose proof (cuts_last (o :: old) s N) as C. destruct (cuts_functions _ _ _ _ NE C) as (_ & _ & S3 & S4).
  cbn [py_replace]. rewrite S3, S4. destruct (0 <? zlen s); auto.
Qed.
Theorem C29_replacefirst : forall s old new,
  (forall p q, s = p ++ old ++ q -> (forall i, occurs_at old s i -> Z.of_nat (length p) <= i) -> s_replacefirst s old new = p ++ new ++ q) /\
  (~ occurs old s -> s_replacefirst s old new = s) /\
  (occurs old s -> exists p q, s = p ++ old ++ q /\ forall i, occurs_at old s i -> Z.of_nat (length p) <= i).
Proof. intros s old new. unfold s_replacefirst. split; [intros; apply replace1_spec; auto|]. split; [apply replace1_none|apply occurs_cut]. Qed.
Theorem C29_replacelast : forall s old new,
  (forall p q, s = p ++ old ++ q -> (forall i, occurs_at old s i -> i <= Z.of_nat (length p)) -> s_replacelast s old new = p ++ new ++ q) /\
  (~ occurs old s -> s_replacelast s old new = s) /\
  (occurs old s -> exists p q, s = p ++ old ++ q /\ forall i, occurs_at old s i -> i <= Z.of_nat (length p)).
Proof.
  intros s old new. unfold s_replacelast. replace (zlen s) with (zlen (rev s)) by (unfold zlen; rewrite rev_length; auto). split; [|split].
  - intros p q E F. rewrite (replace1_spec (rev s) (rev old) (rev new) (rev q) (rev p)).
    + rewrite !rev_app_distr, !rev_involutive, <- app_assoc. auto.
    + rewrite E, !rev_app_distr, <- app_assoc. auto.
    + intros i Hi. rewrite rev_length. rewrite <- (rev_involutive old), <- (rev_involutive s) in F.
      apply (occurs_rev (rev old) (rev s) i) in Hi. apply F in Hi. rewrite !rev_length in Hi. pose proof (f_equal (@length Z) E) as L. rewrite !app_length in L. lia.
  - intros N. rewrite replace1_none; [apply rev_involutive|]. intros (i & H). apply N. apply occurs_rev in H. rewrite !rev_involutive in H. eexists; eauto.
  - intros H. destruct (C29_rindex s old) as [G _]. destruct (G H) as [(p & q & E & L) F]. exists p, q. split; auto. intros i Hi. rewrite L. auto.
Qed.
Example C29_replace_example : let s := [97;98;97;98;97] in let o := [97;98] in
  cuts o s [] [[]; [97]] /\ s_split s o = [[]; []; [97]] /\ s_replaceall s o [120] = [120;120;97] /\
  s_replacefirst s o [120] = [120;97;98;97] /\ s_replacelast s o [120] = [97;98;120;97] /\ s_join [[97];[];[98]] [44;32] = [97;44;32;44;32;98].
Proof.
  cbn zeta. split.
  - apply (cuts_start [97;98] [97;98;97]). apply (cuts_start [97;98] [97]). constructor. intros (i & p & q & E & _).
    pose proof (f_equal (@length Z) E) as L. rewrite !app_length in L. cbn in L. lia.
  - vm_compute. auto 6.
Qed.
(** with an empty separator s.split gives no pieces, so that joining does not restore the string *)
Theorem C29_empty_separator_refuted : exists s, s_join (s_split s []) [] <> s.
Proof. exists [97]. vm_compute. discriminate. Qed.

(** ** Other functions *)
Theorem C29_substr : forall s start stop r,
  s_substrto s start stop (s_substr s start stop) = s /\
  exists p q, cut3 s start stop p (s_substr s start stop) q /\ s_substrto s start stop r = p ++ r ++ q.
Proof.
  intros s start stop r. split; [apply (C27_subseqto_subseq Z s start stop)|].
  destruct (C27_subseq Z s start stop) as (p & q & C). exists p, q. split; auto. apply (C27_subseqto Z s start stop r p _ q C).
Qed.
Theorem C29_strip : forall s chars, exists p q, s = p ++ s_strip s chars ++ q /\
  (forall c, In c (p ++ q) -> In c chars) /\
  (forall c t, s_strip s chars = c :: t -> ~ In c chars) /\ (forall c t, s_strip s chars = t ++ [c] -> ~ In c chars).
Proof.
  intros s chars. destruct (lstrip_spec chars s) as (p & E & P1 & P2). unfold s_strip.
  destruct (rstrip_spec chars (py_lstrip s chars)) as (q & E2 & Q1 & Q2). exists p, q. split; [congruence|]. split; [|split; auto].
  - intros c H. apply in_app_or in H. destruct H; auto.
  - intros c t H. apply (P2 c (t ++ q)). rewrite E2, H. auto.
Qed.
Theorem C29_lstrip_rstrip : forall s chars,
  (exists p, s = p ++ s_lstrip s chars /\ (forall c, In c p -> In c chars) /\ forall c t, s_lstrip s chars = c :: t -> ~ In c chars) /\
  (exists q, s = s_rstrip s chars ++ q /\ (forall c, In c q -> In c chars) /\ forall c t, s_rstrip s chars = t ++ [c] -> ~ In c chars).
Proof. intros. split; [apply lstrip_spec|apply rstrip_spec]. Qed.
Theorem C29_repeat : forall s n, s_len (s_repeat s n) = Z.max n 0 * s_len s /\ forall m, 0 <= n -> 0 <= m -> s_repeat s (n + m) = s_concat (s_repeat s n) (s_repeat s m).
Proof.
  intros s n. unfold s_len, s_repeat, s_concat, zlen. split.
  - assert (G : forall k, Z.of_nat (length (concat (repeat s k))) = Z.of_nat k * Z.of_nat (length s)). { induction k; cbn [repeat concat]; [reflexivity|]. rewrite app_length, Nat2Z.inj_add, IHk. lia. }
    rewrite G. f_equal. lia.
  - intros m N M. rewrite Z2Nat.inj_add, repeat_app, concat_app by auto. auto.
Qed.
(** s.translate maps each character by itself: not mentioned: kept; mentioned first at position i: the i-th new character, or dropped if there is none *)
Definition translated (oldchars newchars : str) (c : Z) (out : str) : Prop :=
  (~ In c oldchars /\ out = [c]) \/
  (exists p q, oldchars = p ++ c :: q /\ ~ In c p /\
     ((exists d, nth_error newchars (length p) = Some d /\ out = [d]) \/ ((length newchars <= length p)%nat /\ out = []))).
Lemma index_of_spec c : forall l i, match index_of i c l with
  | Some k => exists p q, l = p ++ c :: q /\ ~ In c p /\ k = i + Z.of_nat (length p) | None => ~ In c l end.
Proof.
  induction l as [|d l IH]; intros i; cbn [index_of]; [auto|]. destruct (Z.eqb_spec c d) as [-> | N].
  - exists [], l. cbn. split; auto. split; auto. lia.
  - specialize (IH (i + 1)). destruct (index_of (i + 1) c l) as [k|].
    + destruct IH as (p & q & -> & H1 & ->). exists (d :: p), q. split; auto. split; [intros [E|H]; auto|]. cbn [length]. lia.
    + intros [E|H]; auto.
Qed.
Theorem C29_translate : forall s oldchars newchars, exists outs, Forall2 (translated oldchars newchars) s outs /\ s_translate s oldchars newchars = concat outs.
Proof.
  intros s old new. unfold s_translate. induction s as [|c s IH]; [exists []; split; auto; constructor|]. destruct IH as (outs & F & E).
  eexists (_ :: outs). split; [|cbn [map concat]; rewrite E; reflexivity]. constructor; auto. unfold translated.
  pose proof (index_of_spec c old 0) as H. destruct (index_of 0 c old) as [k|]; [|left; auto]. right. destruct H as (p & q & -> & H1 & ->). exists p, q. split; auto. split; auto.
  rewrite Z.add_0_l, Nat2Z.id. unfold zlen. destruct (Z.ltb_spec (Z.of_nat (length p)) (Z.of_nat (length new))) as [L|L].
  - left. destruct (nth_error new (length p)) as [d|] eqn:D; [eauto|]. apply nth_error_None in D. lia.
  - right. split; [lia|auto].
Qed.
Example C29_translate_example : s_translate [104;101;108;108;111] [108;101;108] [76] = [104;76;76;111] /\ s_strip [32;32;97;32;98;9] [9;32] = [97;32;98].
Proof. vm_compute. auto. Qed.

(** ** Numbers *)
(** s.int and s.hex write the number in decimal and hexadecimal notation *)
Theorem C29_int : forall x, (0 <= x -> denotes 10 (s_int x) x) /\ (x < 0 -> exists t, s_int x = 45 :: t /\ denotes 10 t (- x)).
Proof.
  intros x. unfold s_int, plain, sign. pose proof (body_denotes 10 x ltac:(lia)) as B. split; intros H.
  - destruct (Z.ltb_spec x 0); [lia|]. rewrite Z.abs_eq in B by lia. auto.
  - destruct (Z.ltb_spec x 0); [|lia]. rewrite Z.abs_neq in B by lia. eexists. split; [reflexivity|]. auto.
Qed.
Theorem C29_int_injective : forall x y, s_int x = s_int y -> x = y.
Proof.
  intros x y E. destruct (C29_int x) as [X1 X2], (C29_int y) as [Y1 Y2].
  assert (M : forall t, ~ denotes 10 (45 :: t) x /\ ~ denotes 10 (45 :: t) y).
  { intros t. split; intros (ds & F & _); inversion F as [|? ? ? ? D _]; unfold digit_value in D; lia. }
  destruct (Z.ltb_spec x 0) as [Hx|Hx], (Z.ltb_spec y 0) as [Hy|Hy].
  - destruct (X2 Hx) as (t & Et & Dt), (Y2 Hy) as (u & Eu & Du). assert (t = u) by congruence. subst. pose proof (denotes_unique _ _ _ _ Dt Du). lia.
  - destruct (X2 Hx) as (t & Et & _). specialize (Y1 Hy). rewrite <- E, Et in Y1. destruct (proj2 (M t) Y1).
  - destruct (Y2 Hy) as (t & Et & _). specialize (X1 Hx). rewrite E, Et in X1. destruct (proj1 (M t) X1).
  - specialize (X1 Hx). specialize (Y1 Hy). rewrite E in X1. eapply denotes_unique; eauto.
Qed.
Theorem C29_hex : forall x, (0 <= x -> exists s, s_hex x = Ok s /\ denotes 16 s x) /\ (x < 0 -> forall w z, s_hex x = Raise (PFAErr 39111) /\ s_hex3 x w z = Raise (PFAErr 39111)).
Proof.
  intros x. unfold s_hex, s_hex3, plain, sign. split; intros H; destruct (Z.ltb_spec x 0); try lia; auto.
  eexists. split; [reflexivity|]. pose proof (body_denotes 16 x ltac:(lia)) as B. rewrite Z.abs_eq in B by lia. auto.
Qed.
(** with a width: padded to the width, on the side that is asked for, never cut; a width of zero gives the empty string *)
Lemma zlen_app {A} (a b : list A) : zlen (a ++ b) = zlen a + zlen b.
Proof. unfold zlen. rewrite app_length. lia. Qed.
Lemma zlen_pad c n : zlen (pad c n) = Z.max n 0.
Proof. unfold zlen, pad. rewrite repeat_length. lia. Qed.
Theorem C29_width : forall x width,
  (0 < width -> s_int3 x width false = Ok (repeat 32 (Z.to_nat (width - zlen (s_int x))) ++ s_int x)) /\
  (width < 0 -> s_int3 x width false = Ok (s_int x ++ repeat 32 (Z.to_nat (- width - zlen (s_int x))))) /\
  (0 < width -> exists ds, s_int3 x width true = Ok (sign x ++ repeat 48 (Z.to_nat (width - zlen (s_int x))) ++ ds) /\ s_int x = sign x ++ ds) /\
  (width < 0 -> s_int3 x width true = Raise (PFAErr 39240)) /\
  (forall z s, s_int3 x width z = Ok s -> zlen s = if width =? 0 then 0 else Z.max (Z.abs width) (zlen (s_int x))).
Proof.
  intros x width. unfold s_int3, formatted.
  assert (A1 : 0 < width -> (width <? 0) = false /\ (width =? 0) = false) by (intros; split; [apply Z.ltb_ge|apply Z.eqb_neq]; lia).
  assert (A2 : width < 0 -> (width <? 0) = true) by (intros; apply Z.ltb_lt; lia).
  split; [|split; [|split; [|split]]].
  - intros H. destruct (A1 H) as [-> ->]. reflexivity.
  - intros H. rewrite (A2 H). reflexivity.
  - intros H. destruct (A1 H) as [-> ->]. eexists. split; reflexivity.
  - intros H. rewrite (A2 H). reflexivity.
  - intros z s H. unfold s_int. destruct z; cbn [negb] in H.
    + destruct (Z.ltb_spec width 0); [discriminate|]. destruct (Z.eqb_spec width 0); [injection H as <-; auto|]. injection H as <-.
      unfold zero_padded. rewrite !zlen_app, zlen_pad. unfold plain. rewrite zlen_app. lia.
    + destruct (Z.ltb_spec width 0).
      { injection H as <-. destruct (Z.eqb_spec width 0); [lia|]. unfold left_just. rewrite zlen_app, zlen_pad. lia. }
      destruct (Z.eqb_spec width 0); [injection H as <-; auto|]. injection H as <-. unfold right_just. rewrite zlen_app, zlen_pad. lia.
Qed.
Theorem C29_hex_width : forall x width t, 0 <= x -> s_hex x = Ok t ->
  (0 < width -> s_hex3 x width false = Ok (repeat 32 (Z.to_nat (width - zlen t)) ++ t)) /\
  (width < 0 -> s_hex3 x width false = Ok (t ++ repeat 32 (Z.to_nat (- width - zlen t)))) /\
  (0 < width -> s_hex3 x width true = Ok (repeat 48 (Z.to_nat (width - zlen t)) ++ t)) /\
  (width < 0 -> s_hex3 x width true = Raise (PFAErr 39110)) /\
  (forall z, s_hex3 x 0 z = Ok []).
Proof.
  intros x width t X H. unfold s_hex, s_hex3, formatted in *. destruct (Z.ltb_spec x 0); [lia|]. injection H as <-.
  assert (A1 : 0 < width -> (width <? 0) = false /\ (width =? 0) = false) by (intros; split; [apply Z.ltb_ge|apply Z.eqb_neq]; lia).
  assert (A2 : width < 0 -> (width <? 0) = true) by (intros; apply Z.ltb_lt; lia).
  split; [|split; [|split; [|split]]].
  - intros H. destruct (A1 H) as [-> ->]. reflexivity.
  - intros H. rewrite (A2 H). reflexivity.
  - intros H. destruct (A1 H) as [-> ->]. cbn [negb]. unfold zero_padded, plain, sign, pad. destruct (Z.ltb_spec x 0); [lia|]. reflexivity.
  - intros H. rewrite (A2 H). reflexivity.
  - intros []; reflexivity.
Qed.
Example C29_int_example : s_int (-1205) = [45;49;50;48;53] /\ s_int3 (-12) 6 true = Ok [45;48;48;48;49;50] /\ s_int3 7 (-3) false = Ok [55;32;32] /\
  s_hex 255 = Ok [102;102] /\ s_hex3 4096 6 true = Ok [48;48;49;48;48;48].
Proof. vm_compute. auto 6. Qed.

Print Assumptions C29_contains.
Print Assumptions C29_index.
Print Assumptions C29_rindex.
Print Assumptions C29_startswith.
Print Assumptions C29_split.
Print Assumptions C29_cuts_unique.
Print Assumptions C29_join_split.
Print Assumptions C29_split_join.
Print Assumptions C29_count.
Print Assumptions C29_count_empty.
Print Assumptions C29_replaceall.
Print Assumptions C29_replaceall_same.
Print Assumptions C29_replaceall_refuted.
Print Assumptions C29_replacefirst.
Print Assumptions C29_replacelast.
Print Assumptions C29_empty_separator_refuted.
Print Assumptions C29_substr.
Print Assumptions C29_strip.
Print Assumptions C29_lstrip_rstrip.
Print Assumptions C29_repeat.
Print Assumptions C29_translate.
Print Assumptions C29_int.
Print Assumptions C29_int_injective.
Print Assumptions C29_hex.
Print Assumptions C29_width.
Print Assumptions C29_hex_width.
