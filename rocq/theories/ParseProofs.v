(** Lemmas for C77. *)
From Coq Require Import Lia.
From Verif Require Import Base PyNum StrSpec ParseModel ParseSpec.
Open Scope list_scope.
Open Scope Z_scope.

Ltac zb := repeat match goal with
  | |- context [?a <? ?b] => destruct (Z.ltb_spec a b)
  | |- context [?a <=? ?b] => destruct (Z.leb_spec a b)
  | |- context [?a =? ?b] => destruct (Z.eqb_spec a b)
  end; cbn [andb orb] in *.

Lemma is_space_iff c : is_space c = true <-> space c.
Proof. unfold is_space, space. cbn [In]. zb; split; intros H'; try discriminate; try reflexivity; try lia. Qed.
Lemma digit_of_iff base c : base <= 36 -> (digit_of c < base <-> digit_in base c (digit_of c)).
Proof. intros B. unfold digit_of, digit_in, alnum_value. zb; lia. Qed.
Lemma digit_in_of base c d : digit_in base c d -> digit_of c = d.
Proof. unfold digit_of, digit_in, alnum_value. intros H. zb; lia. Qed.
Lemma digit_not_space base c d : digit_in base c d -> is_space c = false /\ c <> 95 /\ c <> 43 /\ c <> 45.
Proof. intros [V _]. unfold alnum_value in V. unfold is_space. split; [|lia]. lia. Qed.

Lemma skip_space_app sp l : Forall space sp -> skip_space (sp ++ l) = skip_space l.
Proof. induction 1 as [|c sp H F IH]; auto. cbn. apply is_space_iff in H. now rewrite H. Qed.
Lemma skip_space_split l : exists sp, Forall space sp /\ l = sp ++ skip_space l /\ (forall c r, skip_space l = c :: r -> is_space c = false).
Proof.
  induction l as [|c l (sp & F & E & N)]; [exists []; repeat split; auto; discriminate|]. cbn. destruct (is_space c) eqn:S.
  - exists (c :: sp). split; [constructor; auto; now apply is_space_iff|]. split; [cbn; now rewrite E at 1|exact N].
  - exists []. split; [constructor|]. split; [reflexivity|]. intros c' r Q. inversion Q; subst. exact S.
Qed.
Lemma skip_space_all l : skip_space l = [] <-> Forall space l.
Proof.
  split.
  - intros E. destruct (skip_space_split l) as (sp & F & Q & _). rewrite E, app_nil_r in Q. now subst.
  - intros F. rewrite <- (app_nil_r l). rewrite skip_space_app; auto.
Qed.

(** Reading digits. *)
Lemma read_digits_text base s ds : digit_text base s ds -> forall n l, (forall c r, l = c :: r -> c <> 95 /\ ~ digit_of c < base) ->
  read_digits base false n (s ++ l) = Some (numeral base n ds, l).
Proof.
  induction 1 as [c d D|c d s ds D T IH|c d s ds D T IH]; intros n l L; cbn [app read_digits numeral];
    pose proof (digit_in_of _ _ _ D) as E; destruct (digit_not_space _ _ _ D) as (_ & N & _); destruct (Z.eqb_spec c 95); try contradiction;
    rewrite E; destruct D as [_ D]; destruct (Z.ltb_spec d base); try lia.
  - destruct l as [|x l]; [reflexivity|]. cbn [read_digits]. destruct (L x l eq_refl) as [L1 L2]. destruct (Z.eqb_spec x 95); [contradiction|]. destruct (Z.ltb_spec (digit_of x) base); [contradiction|reflexivity].
  - now apply IH.
  - rewrite Z.eqb_refl. assert (H1 : exists c' s', s = c' :: s' /\ c' <> 95).
    { inversion T; subst; do 2 eexists; (split; [reflexivity|]); eapply digit_not_space; eauto. }
    destruct H1 as (c' & s' & -> & N'). specialize (IH (n * base + d) l L). cbn [app read_digits] in *. destruct (Z.eqb_spec c' 95); [contradiction|].
    exact IH || (inversion T; subst; match goal with H : digit_in base c' ?e |- _ => pose proof (digit_in_of _ _ _ H) as E'; destruct H as [_ H]; rewrite E' in *; destruct (Z.ltb_spec e base); [exact IH|lia] end).
Qed.
Lemma read_digits_some base (B : base <= 36) l : forall u n m rest, read_digits base u n l = Some (m, rest) ->
  exists s, l = s ++ rest /\ (forall c r, rest = c :: r -> c <> 95 /\ ~ digit_of c < base)
    /\ ((u = false /\ s = [] /\ m = n) \/ (exists ds, digit_text base s ds /\ m = numeral base n ds) \/ (u = false /\ exists s' ds, s = 95 :: s' /\ digit_text base s' ds /\ m = numeral base n ds)).
Proof.
  induction l as [|c l IH]; intros u n m rest; cbn [read_digits].
  - destruct u; [discriminate|]. intros Q; inversion Q; subst. exists []. repeat split; auto; discriminate.
  - destruct (Z.eqb_spec c 95) as [->|N].
    + destruct u; [discriminate|]. intros Q. apply IH in Q as (s & -> & R & [(F & _)|[(ds & T & ->)|(F & _)]]); try discriminate.
      exists (95 :: s). split; [reflexivity|]. split; [exact R|]. right; right. split; auto. eauto.
    + destruct (Z.ltb_spec (digit_of c) base) as [L|L].
      * intros Q. apply IH in Q as (s & -> & R & [(_ & -> & ->)|[(ds & T & ->)|(_ & s' & ds & -> & T & ->)]]);
          apply (digit_of_iff base c B) in L.
        -- exists [c]. split; [reflexivity|]. split; [exact R|]. right; left. exists [digit_of c]. split; [now constructor|reflexivity].
        -- exists (c :: s). split; [reflexivity|]. split; [exact R|]. right; left. exists (digit_of c :: ds). split; [now constructor|reflexivity].
        -- exists (c :: 95 :: s'). split; [reflexivity|]. split; [exact R|]. right; left. exists (digit_of c :: ds). split; [now constructor|reflexivity].
      * destruct u; [discriminate|]. intros Q; inversion Q; subst. exists []. split; [reflexivity|]. split; [|left; auto]. intros c' r E; inversion E; subst. split; auto. lia.
Qed.

(** The prefix. *)
Lemma prefix_letter_iff base c : prefix_letter base c = true <-> In (base, c) [(16, 120); (16, 88); (8, 111); (8, 79); (2, 98); (2, 66)].
Proof.
  unfold prefix_letter. cbn [In]. split.
  - zb; intros; try discriminate; try (exfalso; lia); subst; auto 10.
  - intros H. repeat (destruct H as [H|H]; [inversion H; reflexivity|]). destruct H.
Qed.
Lemma prefix_letter_digit base c : prefix_letter base c = true -> ~ digit_of c < base.
Proof. intros H. apply prefix_letter_iff in H. cbn [In] in H. repeat (destruct H as [H|H]; [inversion H; unfold digit_of; cbn; lia|]). destruct H. Qed.
Lemma skip_prefix_split base l : exists p, base_prefix base p /\ l = p ++ skip_prefix base l.
Proof.
  unfold skip_prefix. destruct l as [|z [|c r]]; try (exists []; split; [now left|reflexivity]).
  destruct (Z.eqb_spec z 48) as [->|]; cbn [andb]; [|exists []; split; [now left|reflexivity]].
  destruct (prefix_letter base c) eqn:P; [|exists []; split; [now left|reflexivity]]. apply prefix_letter_iff in P.
  destruct r as [|u r']; [exists [48; c]; split; [right; exists base, c; auto|reflexivity]|].
  destruct (Z.eqb_spec u 95) as [->|]; [exists [48; c; 95]|exists [48; c]]; (split; [right; exists base, c; auto|reflexivity]).
Qed.
Lemma skip_prefix_app base p s ds l : base_prefix base p -> digit_text base s ds -> skip_space l = [] -> skip_prefix base (p ++ s ++ l) = s ++ l.
Proof.
  intros [->|(b & c & I & -> & P)] T L.
  - cbn [app]. destruct T as [x d D|x d s ds D T|x d s ds D T]; cbn [app skip_prefix].
    + destruct l as [|y l]; [reflexivity|]. destruct (Z.eqb_spec x 48); cbn [andb]; [|reflexivity]. replace (prefix_letter base y) with false; auto.
      symmetry. cbn in L. destruct (is_space y) eqn:S; [|discriminate]. destruct (prefix_letter base y) eqn:P; auto. apply prefix_letter_iff in P. cbn [In] in P.
      repeat (destruct P as [P|P]; [inversion P; subst y; discriminate|]). destruct P.
    + destruct (s ++ l) as [|y r] eqn:E; [reflexivity|]. destruct (Z.eqb_spec x 48); cbn [andb]; [|reflexivity].
      assert (Y : exists e, digit_in base y e) by (inversion T; subst; cbn in E; inversion E; subst; eauto).
      replace (prefix_letter base y) with false; auto. symmetry. destruct (prefix_letter base y) eqn:P; auto. apply prefix_letter_digit in P. destruct Y as [v Y].
      pose proof (digit_in_of _ _ _ Y) as Q. destruct Y as [_ Y]. lia.
    + destruct (Z.eqb_spec x 48); cbn [andb]; [|reflexivity]. replace (prefix_letter base 95) with false; auto. symmetry. unfold prefix_letter. cbn. now rewrite !Bool.andb_false_r.
  - apply prefix_letter_iff in I. assert (H : exists y r, s ++ l = y :: r /\ y <> 95).
    { inversion T; subst; cbn; do 2 eexists; (split; [reflexivity|]); eapply digit_not_space; eauto. }
    destruct H as (y & r & -> & N). destruct P as [-> | ->]; cbn [app skip_prefix]; rewrite I; cbn [Z.eqb Pos.eqb andb].
    + destruct (Z.eqb_spec y 95); [contradiction|reflexivity].
    + reflexivity.
Qed.

Lemma from_ascii_iff base l n : 2 <= base <= 36 -> (from_ascii base l = Some n <-> int_text base l n).
Proof.
  intros [B1 B2]. unfold from_ascii. split.
  - destruct (skip_space_split l) as (sp & F & E & _). destruct (read_sign (skip_space l)) as [neg l1] eqn:RS.
    destruct (skip_prefix_split base l1) as (p & P & E1). destruct (skip_prefix base l1) as [|c l2] eqn:SP; [discriminate|].
    destruct (Z.ltb_spec (digit_of c) base) as [L|]; [|discriminate].
    destruct (read_digits base false 0 (c :: l2)) as [[m rest]|] eqn:RD; [|discriminate]. destruct (skip_space rest) eqn:SR; [|discriminate]. intros Q; inversion Q; subst n; clear Q.
    apply (read_digits_some base B2) in RD as (s & E2 & R & D). apply skip_space_all in SR.
    apply (digit_of_iff base c B2) in L. destruct (digit_not_space _ _ _ L) as (_ & N95 & N43 & N45).
    assert (D' : exists ds, digit_text base s ds /\ m = numeral base 0 ds).
    { destruct D as [(_ & -> & _)|[D|(_ & s' & ds & -> & _)]]; auto.
      - cbn in E2. destruct (R c l2 (eq_sym E2)) as [_ H]. exfalso. apply H. now apply (digit_of_iff base c B2).
      - inversion E2; congruence. }
    destruct D' as (ds & T & ->). rewrite E2 in E1.
    unfold read_sign in RS. exists sp, (match skip_space l with x :: _ => if x =? 43 then [43] else if x =? 45 then [45] else [] | [] => [] end), p, s, rest, ds.
    destruct (skip_space l) as [|x r] eqn:SL.
    + injection RS as Hn Hl. rewrite <- Hl in E1. destruct p; cbn in E1; [destruct s; [inversion T|discriminate]|discriminate].
    + destruct (Z.eqb_spec x 43) as [->|]; [|destruct (Z.eqb_spec x 45) as [->|]]; injection RS as Hn Hl; rewrite <- Hl in E1; (split; [rewrite E at 1; cbn; rewrite E1; reflexivity|]); (split; [exact F|]); (split; [exact SR|]); (split; [exact P|]); (split; [exact T|]); subst neg; auto.
  - intros (sp & sg & p & body & sp' & ds & -> & F & F' & P & T & S). rewrite skip_space_app by auto.
    assert (NS : exists y r, p ++ body ++ sp' = y :: r /\ is_space y = false /\ y <> 43 /\ y <> 45).
    { destruct P as [->|(b & c & _ & _ & [-> | ->])]; [|cbn; do 2 eexists; split; [reflexivity|]; repeat split; discriminate..].
      inversion T; subst; cbn; do 2 eexists; (split; [reflexivity|]); edestruct digit_not_space as (? & ? & ? & ?); eauto. }
    assert (RS : read_sign (skip_space (sg ++ p ++ body ++ sp')) = (match sg with [45] => true | _ => false end, p ++ body ++ sp')).
    { destruct NS as (y & r & -> & N1 & N2 & N3). destruct S as [[[-> | ->] _]|[-> _]]; try reflexivity. cbn [app skip_space]. rewrite N1. cbn [read_sign].
      destruct (Z.eqb_spec y 43); [contradiction|]. destruct (Z.eqb_spec y 45); [contradiction|reflexivity]. }
    rewrite RS. apply skip_space_all in F' as F2. rewrite (skip_prefix_app base p body ds sp' P T F2).
    rewrite (read_digits_text base body ds T 0 sp').
    + rewrite F2. assert (H : exists y r, body ++ sp' = y :: r /\ digit_of y < base).
      { inversion T; subst; cbn; do 2 eexists; (split; [reflexivity|]); match goal with H : digit_in base ?c ?d |- digit_of ?c < base => rewrite (digit_in_of _ _ _ H); apply H end. }
      destruct H as (y & r & -> & L). destruct (Z.ltb_spec (digit_of y) base); [|lia]. destruct S as [[[-> | ->] ->]|[-> ->]]; reflexivity.
    + intros c r ->. inversion F' as [|? ? Sp _]; subst. unfold space in Sp. cbn [In] in Sp. split; [lia|].
      unfold digit_of. zb; lia.
Qed.

Lemma alnum_functional c d d' : alnum_value c d -> alnum_value c d' -> d = d'.
Proof. unfold alnum_value. lia. Qed.

(** ASCII equivalents. *)
Lemma to_ascii_for uspace udecimal c t : ascii_for uspace udecimal c t -> to_ascii uspace udecimal c = t.
Proof.
  unfold ascii_for, to_ascii. intros [[H ->]|[(H & U & ->)|(H & U & d & D & ->)]]; destruct (Z.ltb_spec c 127); try lia; auto; rewrite U; auto. now rewrite D.
Qed.
Lemma to_ascii_cases uspace udecimal c : ascii_for uspace udecimal c (to_ascii uspace udecimal c) \/ to_ascii uspace udecimal c = 63.
Proof.
  unfold ascii_for, to_ascii. destruct (Z.ltb_spec c 127); [auto|]. destruct (uspace c) eqn:U; [left; right; left; auto|]. destruct (udecimal c) as [d|] eqn:D; auto. left. right. right. split; auto. split; auto. eauto.
Qed.
Lemma int_text_chars base s n : int_text base s n -> ~ In 63 s.
Proof.
  intros (sp & sg & p & body & sp' & ds & -> & F & F' & P & T & S) I.
  assert (X : forall l, Forall space l -> ~ In 63 l).
  { intros l Fl J. rewrite Forall_forall in Fl. apply Fl in J. unfold space in J. cbn [In] in J. lia. }
  rewrite !in_app_iff in I. destruct I as [I|[I|[I|[I|I]]]].
  - now apply (X sp).
  - destruct S as [[[-> | ->] _]|[-> _]]; cbn in I; lia.
  - destruct P as [->|(b & c & J & _ & [-> | ->])]; cbn [In] in *; [auto|repeat (destruct J as [J|J]; [inversion J; subst; lia|]); auto..].
  - clear -T I. induction T as [c d D|c d s ds D T IH|c d s ds D T IH]; cbn [In] in I; destruct D as [D _]; unfold alnum_value in D; intuition lia.
  - now apply (X sp').
Qed.
