(** Proofs about encodings and base 64 (C76). *)
From Coq Require Import Lia.
From Verif Require Import Base ArrayModel BytesModel BytesSpec.
Open Scope string_scope.
Open Scope list_scope.
Open Scope Z_scope.

Ltac Zdiv := Z.to_euclidean_division_equations; lia.
Ltac ltb := repeat match goal with
  | |- context [?a <? ?b] => destruct (Z.ltb_spec a b)
  | |- context [?a <=? ?b] => destruct (Z.leb_spec a b)
  | |- context [?a =? ?b] => destruct (Z.eqb_spec a b)
  end.
Lemma some_inj {A} (x y : A) : Some x = Some y -> y = x.
Proof. congruence. Qed.
Lemma surrogate_spec c : surrogate c = true <-> 55296 <= c < 57344.
Proof. unfold surrogate. rewrite Bool.andb_true_iff, Z.leb_le, Z.ltb_lt. tauto. Qed.
Lemma surrogate_not c : surrogate c = false <-> ~ 55296 <= c < 57344.
Proof. rewrite <- surrogate_spec. destruct (surrogate c); intuition congruence. Qed.

(** ** One character of UTF-8 *)
Lemma utf8_char_decode c b r : utf8_char c = Some b -> utf8_decode (b ++ r) = match utf8_decode r with Some s => Some (c :: s) | None => None end.
Proof.
  unfold utf8_char. destruct (Z.ltb_spec c 0); [discriminate|].
  destruct (Z.ltb_spec c 128); [intros E; apply some_inj in E; subst b; cbn [app utf8_decode]; destruct (Z.ltb_spec c 128); [reflexivity|lia]|].
  destruct (Z.ltb_spec c 2048).
  { intros E; apply some_inj in E; subst b. cbn [app utf8_decode]. unfold cont.
    assert (A : 2 <= c / 64 < 32) by Zdiv. assert (B : 0 <= c mod 64 < 64) by Zdiv. 
    replace (192 + c / 64 <? 128) with false by (symmetry; apply Z.ltb_ge; lia).
    replace (192 + c / 64 <? 194) with false by (symmetry; apply Z.ltb_ge; lia).
    replace (192 + c / 64 <? 224) with true by (symmetry; apply Z.ltb_lt; lia).
    replace ((128 <=? 128 + c mod 64) && (128 + c mod 64 <? 192))%bool with true by (symmetry; apply Bool.andb_true_iff; split; [apply Z.leb_le|apply Z.ltb_lt]; lia).
    replace ((192 + c / 64 - 192) * 64 + (128 + c mod 64 - 128)) with c by Zdiv. reflexivity. }
  destruct (surrogate c) eqn:S; [discriminate|]. pose proof (proj1 (surrogate_not c) S) as S'.
  destruct (Z.ltb_spec c 65536).
  { intros E; apply some_inj in E; subst b. cbn [app utf8_decode]. unfold cont.
    assert (A : 0 <= c / 4096 < 16) by Zdiv. assert (B : 0 <= c mod 64 < 64) by Zdiv. assert (C : 0 <= c / 64 mod 64 < 64) by Zdiv.
    replace (224 + c / 4096 <? 128) with false by (symmetry; apply Z.ltb_ge; lia).
    replace (224 + c / 4096 <? 194) with false by (symmetry; apply Z.ltb_ge; lia).
    replace (224 + c / 4096 <? 224) with false by (symmetry; apply Z.ltb_ge; lia).
    replace (224 + c / 4096 <? 240) with true by (symmetry; apply Z.ltb_lt; lia).
    replace ((128 <=? 128 + c mod 64) && (128 + c mod 64 <? 192))%bool with true by (symmetry; apply Bool.andb_true_iff; split; [apply Z.leb_le|apply Z.ltb_lt]; lia).
    replace ((128 <=? 128 + c / 64 mod 64) && (128 + c / 64 mod 64 <? 192))%bool with true by (symmetry; apply Bool.andb_true_iff; split; [apply Z.leb_le|apply Z.ltb_lt]; lia).
    replace ((224 + c / 4096 - 224) * 4096 + (128 + c / 64 mod 64 - 128) * 64 + (128 + c mod 64 - 128)) with c by Zdiv.
    rewrite S. replace (2048 <=? c) with true by (symmetry; apply Z.leb_le; lia). reflexivity. }
  destruct (Z.ltb_spec c 1114112); [|discriminate].
  intros E; apply some_inj in E; subst b. cbn [app utf8_decode]. unfold cont.
  assert (A : 0 <= c / 262144 < 5) by Zdiv. assert (B : 0 <= c mod 64 < 64) by Zdiv. assert (C : 0 <= c / 64 mod 64 < 64) by Zdiv.
  assert (D : 0 <= c / 4096 mod 64 < 64) by Zdiv.
  replace (240 + c / 262144 <? 128) with false by (symmetry; apply Z.ltb_ge; lia).
  replace (240 + c / 262144 <? 194) with false by (symmetry; apply Z.ltb_ge; lia).
  replace (240 + c / 262144 <? 224) with false by (symmetry; apply Z.ltb_ge; lia).
  replace (240 + c / 262144 <? 240) with false by (symmetry; apply Z.ltb_ge; lia).
  replace (240 + c / 262144 <? 245) with true by (symmetry; apply Z.ltb_lt; lia).
  replace ((128 <=? 128 + c mod 64) && (128 + c mod 64 <? 192))%bool with true by (symmetry; apply Bool.andb_true_iff; split; [apply Z.leb_le|apply Z.ltb_lt]; lia).
  replace ((128 <=? 128 + c / 64 mod 64) && (128 + c / 64 mod 64 <? 192))%bool with true by (symmetry; apply Bool.andb_true_iff; split; [apply Z.leb_le|apply Z.ltb_lt]; lia).
  replace ((128 <=? 128 + c / 4096 mod 64) && (128 + c / 4096 mod 64 <? 192))%bool with true by (symmetry; apply Bool.andb_true_iff; split; [apply Z.leb_le|apply Z.ltb_lt]; lia).
  replace ((240 + c / 262144 - 240) * 262144 + (128 + c / 4096 mod 64 - 128) * 4096 + (128 + c / 64 mod 64 - 128) * 64 + (128 + c mod 64 - 128)) with c by Zdiv.
  replace (65536 <=? c) with true by (symmetry; apply Z.leb_le; lia). replace (c <? 1114112) with true by (symmetry; apply Z.ltb_lt; lia). reflexivity.
Qed.
Lemma utf8_roundtrip s : forall b, encode_with utf8_char s = Some b -> utf8_decode b = Some s.
Proof.
  induction s as [|c s IH]; simpl; intros b; [intros E; inversion E; reflexivity|].
  destruct (utf8_char c) as [x|] eqn:Ec; [|discriminate]. destruct (encode_with utf8_char s) as [y|] eqn:Es; [|discriminate].
  intros E; inversion E; subst. rewrite (utf8_char_decode _ _ _ Ec). now rewrite (IH _ eq_refl).
Qed.
Lemma list_strong {A} (P : list A -> Prop) : (forall l, (forall m, (length m < length l)%nat -> P m) -> P l) -> forall l, P l.
Proof.
  intros H l. assert (G : forall n l, (length l <= n)%nat -> P l).
  { induction n as [|n IH]; intros m L; apply H; intros k Lk; [lia|]. apply IH. lia. }
  now apply (G (length l)).
Qed.
Lemma utf8_canonical l : Forall (fun b => 0 <= b < 256) l -> forall s, utf8_decode l = Some s -> encode_with utf8_char s = Some l.
Proof.
  induction l as [l IH] using list_strong; intros F s. destruct l as [|b0 r0]; [intros E; inversion E; reflexivity|].
  inversion F as [|? ? R0 F0]; subst. cbn [utf8_decode].
  destruct (Z.ltb_spec b0 128).
  { destruct (utf8_decode r0) as [s'|] eqn:E; [|discriminate]. intros Q; apply some_inj in Q; subst s. simpl.
    rewrite (IH r0 ltac:(simpl; lia) F0 _ E). unfold utf8_char. destruct (Z.ltb_spec b0 0); [lia|]. destruct (Z.ltb_spec b0 128); [reflexivity|lia]. }
  destruct (Z.ltb_spec b0 194); [discriminate|].
  destruct (Z.ltb_spec b0 224).
  { destruct r0 as [|b1 r]; [discriminate|]. unfold cont. destruct (Z.leb_spec 128 b1); [|discriminate]. destruct (Z.ltb_spec b1 192); [|discriminate]. simpl.
    inversion F0 as [|? ? R1 F1]; subst.
    destruct (utf8_decode r) as [s'|] eqn:E; [|discriminate]. intros Q; apply some_inj in Q; subst s. simpl.
    rewrite (IH r ltac:(simpl; lia) F1 _ E). set (c := (b0 - 192) * 64 + (b1 - 128)). unfold utf8_char.
    destruct (Z.ltb_spec c 0); [lia|]. destruct (Z.ltb_spec c 128); [lia|]. destruct (Z.ltb_spec c 2048); [|lia].
    replace (192 + c / 64) with b0 by (unfold c; Zdiv). replace (128 + c mod 64) with b1 by (unfold c; Zdiv). reflexivity. }
  destruct (Z.ltb_spec b0 240).
  { destruct r0 as [|b1 [|b2 r]]; try discriminate. unfold cont. destruct (Z.leb_spec 128 b1); [|discriminate]. destruct (Z.ltb_spec b1 192); [|discriminate].
    destruct (Z.leb_spec 128 b2); [|discriminate]. destruct (Z.ltb_spec b2 192); [|discriminate]. cbn [andb].
    set (c := (b0 - 224) * 4096 + (b1 - 128) * 64 + (b2 - 128)). destruct (Z.leb_spec 2048 c); [|discriminate]. destruct (surrogate c) eqn:S; [discriminate|]. simpl.
    inversion F0 as [|? ? R1 F1]; subst. inversion F1 as [|? ? R2 F2]; subst.
    destruct (utf8_decode r) as [s'|] eqn:E; [|discriminate]. intros Q; apply some_inj in Q; subst s. simpl.
    rewrite (IH r ltac:(simpl; lia) F2 _ E). unfold utf8_char. rewrite S.
    destruct (Z.ltb_spec c 0); [lia|]. destruct (Z.ltb_spec c 128); [lia|]. destruct (Z.ltb_spec c 2048); [lia|]. destruct (Z.ltb_spec c 65536); [|unfold c in *; lia].
    replace (224 + c / 4096) with b0 by (unfold c; Zdiv). replace (128 + c / 64 mod 64) with b1 by (unfold c; Zdiv). replace (128 + c mod 64) with b2 by (unfold c; Zdiv). reflexivity. }
  destruct (Z.ltb_spec b0 245); [|discriminate].
  destruct r0 as [|b1 [|b2 [|b3 r]]]; try discriminate. unfold cont. destruct (Z.leb_spec 128 b1); [|discriminate]. destruct (Z.ltb_spec b1 192); [|discriminate].
  destruct (Z.leb_spec 128 b2); [|discriminate]. destruct (Z.ltb_spec b2 192); [|discriminate].
  destruct (Z.leb_spec 128 b3); [|discriminate]. destruct (Z.ltb_spec b3 192); [|discriminate]. cbn [andb].
  set (c := (b0 - 240) * 262144 + (b1 - 128) * 4096 + (b2 - 128) * 64 + (b3 - 128)). destruct (Z.leb_spec 65536 c); [|discriminate]. destruct (Z.ltb_spec c 1114112); [|discriminate]. simpl.
  inversion F0 as [|? ? R1 F1]; subst. inversion F1 as [|? ? R2 F2]; subst. inversion F2 as [|? ? R3 F3]; subst.
  destruct (utf8_decode r) as [s'|] eqn:E; [|discriminate]. intros Q; apply some_inj in Q; subst s. simpl.
  rewrite (IH r ltac:(simpl; lia) F3 _ E). unfold utf8_char.
  assert (S : surrogate c = false) by (apply surrogate_not; lia). rewrite S.
  destruct (Z.ltb_spec c 0); [lia|]. destruct (Z.ltb_spec c 128); [lia|]. destruct (Z.ltb_spec c 2048); [lia|]. destruct (Z.ltb_spec c 65536); [lia|]. destruct (Z.ltb_spec c 1114112); [|lia].
  replace (240 + c / 262144) with b0 by (unfold c; Zdiv). replace (128 + c / 4096 mod 64) with b1 by (unfold c; Zdiv).
  replace (128 + c / 64 mod 64) with b2 by (unfold c; Zdiv). replace (128 + c mod 64) with b3 by (unfold c; Zdiv). reflexivity.
Qed.

(** ** UTF-16 *)
Lemma utf16_char_decode le c b r : utf16_char le c = Some b -> utf16_decode le (b ++ r) = match utf16_decode le r with Some s => Some (c :: s) | None => None end.
Proof.
  unfold utf16_char. destruct (Z.ltb_spec c 0); [discriminate|]. destruct (surrogate c) eqn:S; [discriminate|].
  assert (U : forall u, unit_of le (nth 0 (unit_bytes le u) 0) (nth 1 (unit_bytes le u) 0) = u).
  { intros u. unfold unit_of, unit_bytes. destruct le; simpl; Zdiv. }
  destruct (Z.ltb_spec c 65536).
  { intros E; apply some_inj in E; subst b. specialize (U c). unfold unit_bytes in *. destruct le; cbn [nth app] in *; cbn [utf16_decode]; cbv zeta; rewrite U, S; reflexivity. }
  destruct (Z.ltb_spec c 1114112); [|discriminate]. intros E; apply some_inj in E; subst b.
  set (u := 55296 + (c - 65536) / 1024). set (w := 56320 + (c - 65536) mod 1024).
  assert (Ru : 55296 <= u < 56320) by (unfold u; Zdiv). assert (Rw : 56320 <= w < 57344) by (unfold w; Zdiv).
  assert (Su : surrogate u = true) by (apply surrogate_spec; lia).
  assert (Ec : 65536 + (u - 55296) * 1024 + (w - 56320) = c) by (unfold u, w; Zdiv).
  pose proof (U u) as Uu. pose proof (U w) as Uw. unfold unit_bytes in *.
  destruct le; cbn [nth app] in *; cbn [utf16_decode]; cbv zeta; rewrite Uu, Uw, Su; cbn [negb];
    (destruct (Z.ltb_spec u 56320); [|lia]); (destruct (Z.leb_spec 56320 w); [|lia]); (destruct (Z.ltb_spec w 57344); [|lia]); cbn [andb]; rewrite Ec; reflexivity.
Qed.
Lemma utf16_roundtrip le s : forall b, encode_with (utf16_char le) s = Some b -> utf16_decode le b = Some s.
Proof.
  induction s as [|c s IH]; cbn [encode_with]; intros b; [intros E; inversion E; reflexivity|].
  destruct (utf16_char le c) as [x|] eqn:Ec; [|discriminate]. destruct (encode_with (utf16_char le) s) as [y|] eqn:Es; [|discriminate].
  intros E; inversion E; subst. rewrite (utf16_char_decode _ _ _ _ Ec). now rewrite (IH _ eq_refl).
Qed.
Lemma unit_of_bytes le a b : 0 <= a < 256 -> 0 <= b < 256 -> unit_bytes le (unit_of le a b) = [a; b] /\ 0 <= unit_of le a b < 65536.
Proof. intros A B. unfold unit_bytes, unit_of. destruct le; (split; [f_equal; [|f_equal]; Zdiv|lia]). Qed.
Lemma utf16_canonical le l : Forall (fun b => 0 <= b < 256) l -> forall s, utf16_decode le l = Some s -> encode_with (utf16_char le) s = Some l.
Proof.
  induction l as [l IH] using list_strong; intros F s. destruct l as [|a [|b r]]; [intros E; inversion E; reflexivity|discriminate|].
  inversion F as [|? ? Ra F0]; subst. inversion F0 as [|? ? Rb F1]; subst. cbn [utf16_decode]. cbv zeta.
  destruct (unit_of_bytes le a b Ra Rb) as [Eu Ru]. set (u := unit_of le a b) in *.
  destruct (surrogate u) eqn:S; cbn [negb].
  - destruct (Z.ltb_spec u 56320); [|discriminate]. destruct r as [|a' [|b' r']]; try discriminate.
    inversion F1 as [|? ? Ra' F2]; subst. inversion F2 as [|? ? Rb' F3]; subst.
    destruct (unit_of_bytes le a' b' Ra' Rb') as [Ew Rw]. set (w := unit_of le a' b') in *.
    destruct (Z.leb_spec 56320 w); [|discriminate]. destruct (Z.ltb_spec w 57344); [|discriminate]. cbn [andb].
    destruct (utf16_decode le r') as [s'|] eqn:E; [|discriminate]. intros Q; apply some_inj in Q; subst s. cbn [encode_with].
    rewrite (IH r' ltac:(simpl; lia) F3 _ E). apply surrogate_spec in S. set (c := 65536 + (u - 55296) * 1024 + (w - 56320)). unfold utf16_char.
    assert (Sc : surrogate c = false) by (apply surrogate_not; unfold c; lia). rewrite Sc.
    destruct (Z.ltb_spec c 0); [unfold c in *; lia|]. destruct (Z.ltb_spec c 65536); [unfold c in *; lia|]. destruct (Z.ltb_spec c 1114112); [|unfold c in *; lia].
    replace (55296 + (c - 65536) / 1024) with u by (unfold c; Zdiv). replace (56320 + (c - 65536) mod 1024) with w by (unfold c; Zdiv).
    rewrite Eu, Ew. reflexivity.
  - destruct (utf16_decode le r) as [s'|] eqn:E; [|discriminate]. intros Q; apply some_inj in Q; subst s. cbn [encode_with].
    rewrite (IH r ltac:(simpl; lia) F1 _ E). unfold utf16_char. rewrite S.
    destruct (Z.ltb_spec u 0); [lia|]. destruct (Z.ltb_spec u 65536); [|lia]. rewrite Eu. reflexivity.
Qed.
(** ** ASCII and Latin 1 *)
Lemma below_roundtrip n s b : encode_with (below n) s = Some b -> b = s /\ Forall (fun c => 0 <= c < n) s.
Proof.
  revert b; induction s as [|c s IH]; simpl; intros b; [intros E; inversion E; auto|]. unfold below at 1.
  destruct (Z.leb_spec 0 c); [|discriminate]. destruct (Z.ltb_spec c n); [|discriminate]. simpl.
  destruct (encode_with (below n) s) as [y|]; [|discriminate]. intros E; inversion E; subst. destruct (IH _ eq_refl); subst. split; auto.
Qed.
Lemma below_all n s : Forall (fun c => 0 <= c < n) s -> encode_with (below n) s = Some s.
Proof.
  induction 1 as [|c s H F IH]; simpl; auto. unfold below at 1. destruct (Z.leb_spec 0 c); [|lia]. destruct (Z.ltb_spec c n); [|lia]. now rewrite IH.
Qed.
Lemma forallb_below n s : forallb (fun b => b <? n) s = true <-> Forall (fun b => b < n) s.
Proof. rewrite forallb_forall, Forall_forall. split; intros H x I; specialize (H x I); [now apply Z.ltb_lt|now apply Z.ltb_lt]. Qed.
(** ** Which characters are encoded *)
Lemma encode_domain (P : Z -> Prop) f s : (forall c, (exists b, f c = Some b) <-> P c) -> (exists b, encode_with f s = Some b) <-> Forall P s.
Proof.
  intros H. induction s as [|c s IH]; simpl.
  - split; [constructor|eauto].
  - split.
    + intros [b E]. destruct (f c) eqn:Ec; [|discriminate]. destruct (encode_with f s) eqn:Es; [|discriminate].
      constructor; [apply H; eauto|apply IH; eauto].
    + intros F; inversion F as [|? ? Pc Fs]; subst. apply H in Pc as [x ->]. apply IH in Fs as [y ->]. eauto.
Qed.
Lemma utf8_domain c : (exists b, utf8_char c = Some b) <-> 0 <= c < 55296 \/ 57344 <= c < 1114112.
Proof.
  unfold utf8_char. split.
  - intros [b E]. revert E. destruct (surrogate c) eqn:S; [apply surrogate_spec in S|apply surrogate_not in S]; ltb; try discriminate; intros _; lia.
  - intros H. assert (S : surrogate c = false) by (apply surrogate_not; lia). rewrite S. ltb; eauto; lia.
Qed.
Lemma utf16_domain le c : (exists b, utf16_char le c = Some b) <-> 0 <= c < 55296 \/ 57344 <= c < 1114112.
Proof.
  unfold utf16_char. split.
  - intros [b E]. revert E. destruct (surrogate c) eqn:S; [apply surrogate_spec in S|apply surrogate_not in S]; ltb; try discriminate; intros _; lia.
  - intros H. assert (S : surrogate c = false) by (apply surrogate_not; lia). rewrite S. ltb; eauto; lia.
Qed.
Lemma below_domain n c : (exists b, below n c = Some b) <-> 0 <= c < n.
Proof. unfold below. split; [intros [b E]; revert E; ltb; simpl; try discriminate; intros _; lia|intros H; ltb; simpl; eauto; lia]. Qed.

(** ** Bytes *)
Lemma as_bytes_ok x : bytes_ok x -> as_bytes x = Ok (contents x).
Proof.
  destruct x as [l|l]; simpl; auto. intros F. unfold string_to_bytes.
  replace (forallb _ l) with true; auto. symmetry. apply forallb_forall. rewrite Forall_forall in F. intros y I. specialize (F y I).
  apply Bool.andb_true_iff; split; [apply Z.leb_le|apply Z.ltb_lt]; lia.
Qed.
Lemma encode_bytes (f : Z -> option (list Z)) : (forall c b, f c = Some b -> Forall (fun x => 0 <= x < 256) b) ->
  forall s b, encode_with f s = Some b -> Forall (fun x => 0 <= x < 256) b.
Proof.
  intros H. induction s as [|c s IH]; simpl; intros b E; [inversion E; constructor|].
  destruct (f c) eqn:Ec; [|discriminate]. destruct (encode_with f s) eqn:Es; [|discriminate]. inversion E; subst. apply Forall_app. split; eauto.
Qed.
Lemma utf8_bytes c b : utf8_char c = Some b -> Forall (fun x => 0 <= x < 256) b.
Proof.
  unfold utf8_char. destruct (surrogate c); ltb; try discriminate; intros E; apply some_inj in E; subst b; repeat constructor; try Zdiv.
Qed.
Lemma utf16_bytes le c b : utf16_char le c = Some b -> Forall (fun x => 0 <= x < 256) b.
Proof.
  unfold utf16_char. destruct (surrogate c); ltb; try discriminate; intros E; apply some_inj in E; subst b; unfold unit_bytes; destruct le; repeat constructor; try Zdiv.
Qed.
Lemma below_bytes n c b : n <= 256 -> below n c = Some b -> Forall (fun x => 0 <= x < 256) b.
Proof. unfold below. intros L. ltb; try discriminate; intros E; inversion E; repeat constructor; lia. Qed.

(** ** Base 64 *)
Lemma b64_value_char v : 0 <= v < 64 -> b64_value (b64_char v) = Some v.
Proof.
  intros H. unfold b64_char. destruct (Z.ltb_spec v 26); [|destruct (Z.ltb_spec v 52); [|destruct (Z.ltb_spec v 62); [|destruct (Z.eqb_spec v 62)]]];
    unfold b64_value; ltb; cbn [andb]; try lia; try (f_equal; lia).
Qed.
Lemma b64_char_not_pad v : 0 <= v < 64 -> (b64_char v =? 61) = false.
Proof. intros H. unfold b64_char. apply Z.eqb_neq. ltb; lia. Qed.
Lemma list_three {A} (P : list A -> Prop) : P [] -> (forall a, P [a]) -> (forall a b, P [a; b]) -> (forall a b c l, P l -> P (a :: b :: c :: l)) -> forall l, P l.
Proof.
  intros H0 H1 H2 H3 l. induction l as [l IH] using list_strong. destruct l as [|a [|b [|c l]]]; auto. apply H3, IH. simpl; lia.
Qed.
Lemma a2b_char quad left pads v s : 0 <= v < 64 ->
  a2b quad left pads (b64_char v :: s) =
    if quad =? 0 then a2b 1 v 0 s
    else if quad =? 1 then r <- a2b 2 (v mod 16) 0 s ;; Ok (left * 4 + v / 16 :: r)
    else if quad =? 2 then r <- a2b 3 (v mod 4) 0 s ;; Ok (left * 16 + v / 4 :: r)
    else r <- a2b 0 0 0 s ;; Ok (left * 64 + v :: r).
Proof. intros H. cbn [a2b]. now rewrite b64_char_not_pad, b64_value_char. Qed.
Lemma a2b_encode l : Forall (fun b => 0 <= b < 256) l -> a2b 0 0 0 (b64encode l) = Ok l.
Proof.
  induction l as [|a|a b|a b c l IH] using list_three; intros F.
  - reflexivity.
  - inversion F; subst. cbn [b64encode]. rewrite a2b_char by Zdiv. cbn [Z.eqb]. rewrite a2b_char by Zdiv. simpl. f_equal. f_equal. Zdiv.
  - inversion F as [|? ? Ra F0]; subst. inversion F0 as [|? ? Rb F1]; subst. cbn [b64encode].
    rewrite a2b_char by Zdiv. cbn [Z.eqb]. rewrite a2b_char by Zdiv. cbn [Z.eqb Pos.eqb]. rewrite a2b_char by Zdiv. simpl.
    f_equal. f_equal; [|f_equal]; Zdiv.
  - inversion F as [|? ? Ra F0]; subst. inversion F0 as [|? ? Rb F1]; subst. inversion F1 as [|? ? Rc F2]; subst. cbn [b64encode].
    rewrite a2b_char by Zdiv. cbn [Z.eqb]. rewrite a2b_char by Zdiv. cbn [Z.eqb Pos.eqb]. rewrite a2b_char by Zdiv. cbn [Z.eqb Pos.eqb]. rewrite a2b_char by Zdiv.
    cbn [Z.eqb Pos.eqb]. rewrite IH by auto. cbn [rbind]. simpl. f_equal. f_equal; [|f_equal; [|f_equal]]; Zdiv.
Qed.
Lemma b64_looks_encode l : Forall (fun b => 0 <= b < 256) l -> b64_looks (b64encode l) = true.
Proof.
  induction l as [|a|a b|a b c l IH] using list_three; intros F; cbn [b64encode b64_looks].
  - reflexivity.
  - inversion F; subst. rewrite !b64_value_char by Zdiv. reflexivity.
  - inversion F as [|? ? Ra F0]; subst. inversion F0 as [|? ? Rb F1]; subst. rewrite !b64_value_char by Zdiv. reflexivity.
  - inversion F as [|? ? Ra F0]; subst. inversion F0 as [|? ? Rb F1]; subst. inversion F1 as [|? ? Rc F2]; subst. rewrite !b64_value_char by Zdiv. auto.
Qed.

(** ** Numbers *)
Lemma number_from base l : forall n, fold_left (fun n d => n * base + d) l n = n * base ^ Z.of_nat (length l) + number base l.
Proof.
  induction l as [|d l IH]; intros n; [unfold number; cbn; lia|]. unfold number. cbn [fold_left length]. rewrite !IH. rewrite Nat2Z.inj_succ, Z.pow_succ_r by lia. ring.
Qed.
Lemma number_app base x y : number base (x ++ y) = number base x * base ^ Z.of_nat (length y) + number base y.
Proof. unfold number at 1. rewrite fold_left_app. apply number_from. Qed.
Lemma b64_table_char d : 0 <= d < 64 -> nth_error b64_table (Z.to_nat d) = Some (b64_char d).
Proof.
  intros H. rewrite <- (Z2Nat.id d) at 2 by lia. assert (L : (Z.to_nat d < 64)%nat) by lia. revert L. generalize (Z.to_nat d). clear H d. intros n L.
  do 64 (destruct n as [|n]; [vm_compute; reflexivity|]). lia.
Qed.
