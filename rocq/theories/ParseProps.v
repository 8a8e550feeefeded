(** C77: parsing numbers. *)
From Coq Require Import Lia SpecFloat.
From Verif Require Import Base PyNum ArrayModel StrSpec StrModel StrProofs StrProps FloatBridge2 ParseModel ParseSpec ParseProofs.
Open Scope list_scope.
Open Scope Z_scope.

Section Tables.
  Variables (uspace : Z -> bool) (udecimal : Z -> option Z).
  Local Notation ascii_text s t := (Forall2 (ascii_for uspace udecimal) s t).

  Lemma py_int_text_iff s base n : 2 <= base <= 36 ->
    (py_int_text uspace udecimal s base = Some n <-> exists t, ascii_text s t /\ int_text base t n).
  Proof.
    intros B. unfold py_int_text. rewrite (from_ascii_iff base _ n B). split.
    - intros H. exists (map (to_ascii uspace udecimal) s). split; auto. apply int_text_chars in H.
      induction s as [|c s IH]; cbn in *; constructor; [|apply IH; tauto]. destruct (to_ascii_cases uspace udecimal c) as [?|E]; auto. exfalso; apply H; auto.
    - intros (t & F & H). replace (map (to_ascii uspace udecimal) s) with t; auto. clear H. induction F as [|c d s t R F IH]; cbn; auto. now rewrite IH, (to_ascii_for _ _ _ _ R).
  Qed.

  (** parse.int and parse.long give n exactly for the texts that stand for n, when n is in the range of the type, and a PFA error in all other cases. *)
  Theorem C77_int : forall s base n,
    (parse_int uspace udecimal s base = Ok n <-> 2 <= base <= 36 /\ - 2 ^ 31 <= n < 2 ^ 31 /\ exists t, ascii_text s t /\ int_text base t n)
    /\ ((forall n, parse_int uspace udecimal s base <> Ok n) -> parse_int uspace udecimal s base = Raise (PFAErr (if ((2 <=? base) && (base <=? 36))%bool then 33000 else 33001))).
  Proof.
    intros s base n. change (- 2 ^ 31) with (-2147483648). change (2 ^ 31) with 2147483648. unfold parse_int, parse_integer.
    destruct (Z.ltb_spec base 2), (Z.ltb_spec 36 base); cbn [orb]; try lia;
      try (split; [split; [discriminate|lia]|intros _; destruct (Z.leb_spec 2 base), (Z.leb_spec base 36); cbn [andb]; try lia; reflexivity]).
    destruct (Z.leb_spec 2 base), (Z.leb_spec base 36); cbn [andb]; try lia.
    destruct (py_int_text uspace udecimal s base) as [m|] eqn:E.
    - destruct (Z.ltb_spec m (-2147483648)), (Z.ltb_spec 2147483647 m); cbn [orb]; (split; [split|]); try discriminate; try reflexivity.
      + intros (_ & R & H'). apply (py_int_text_iff s base n) in H'; [|lia]. assert (m = n) by congruence. lia.
      + intros (_ & R & H'). apply (py_int_text_iff s base n) in H'; [|lia]. assert (m = n) by congruence. lia.
      + intros (_ & R & H'). apply (py_int_text_iff s base n) in H'; [|lia]. assert (m = n) by congruence. lia.
      + intros Q; inversion Q; subst. split; [lia|]. split; [lia|]. apply py_int_text_iff; auto; lia.
      + intros (_ & R & H'). apply (py_int_text_iff s base n) in H'; [|lia]. congruence.
      + intros H'. exfalso. eapply H'; reflexivity.
    - split; [split; [discriminate|]|reflexivity]. intros (_ & _ & H'). apply (py_int_text_iff s base n) in H'; [congruence|lia].
  Qed.
  Theorem C77_long : forall s base n,
    (parse_long uspace udecimal s base = Ok n <-> 2 <= base <= 36 /\ - 2 ^ 63 <= n < 2 ^ 63 /\ exists t, ascii_text s t /\ int_text base t n)
    /\ ((forall n, parse_long uspace udecimal s base <> Ok n) -> parse_long uspace udecimal s base = Raise (PFAErr (if ((2 <=? base) && (base <=? 36))%bool then 33010 else 33011))).
  Proof.
    intros s base n. change (- 2 ^ 63) with (-9223372036854775808). change (2 ^ 63) with 9223372036854775808. unfold parse_long, parse_integer.
    destruct (Z.ltb_spec base 2), (Z.ltb_spec 36 base); cbn [orb]; try lia;
      try (split; [split; [discriminate|lia]|intros _; destruct (Z.leb_spec 2 base), (Z.leb_spec base 36); cbn [andb]; try lia; reflexivity]).
    destruct (Z.leb_spec 2 base), (Z.leb_spec base 36); cbn [andb]; try lia.
    destruct (py_int_text uspace udecimal s base) as [m|] eqn:E.
    - destruct (Z.ltb_spec m (-9223372036854775808)), (Z.ltb_spec 9223372036854775807 m); cbn [orb]; (split; [split|]); try discriminate; try reflexivity.
      + intros (_ & R & H'). apply (py_int_text_iff s base n) in H'; [|lia]. assert (m = n) by congruence. lia.
      + intros (_ & R & H'). apply (py_int_text_iff s base n) in H'; [|lia]. assert (m = n) by congruence. lia.
      + intros (_ & R & H'). apply (py_int_text_iff s base n) in H'; [|lia]. assert (m = n) by congruence. lia.
      + intros Q; inversion Q; subst. split; [lia|]. split; [lia|]. apply py_int_text_iff; auto; lia.
      + intros (_ & R & H'). apply (py_int_text_iff s base n) in H'; [|lia]. congruence.
      + intros H'. exfalso. eapply H'; reflexivity.
    - split; [split; [discriminate|]|reflexivity]. intros (_ & _ & H'). apply (py_int_text_iff s base n) in H'; [congruence|lia].
  Qed.
  (** A text stands for at most one number. *)
  Theorem C77_one_value : forall base s n m, 2 <= base <= 36 -> int_text base s n -> int_text base s m -> n = m.
  Proof. intros base s n m B H1 H2. apply (from_ascii_iff base s _ B) in H1, H2. congruence. Qed.

  (** What s.int and s.hex write is read back. *)
  Lemma digits_are_text base s ds : Forall2 digit_value s ds -> Forall (fun d => 0 <= d < base) ds -> s <> [] -> digit_text base s ds.
  Proof.
    intros F. induction F as [|c d s ds V F IH]; [congruence|]. intros R _. inversion R as [|? ? R1 R2]; subst.
    assert (D : digit_in base c d) by (split; [unfold digit_value in V; unfold alnum_value; lia|lia]).
    destruct F as [|c' d' s ds V' F]; [now constructor|]. apply dt_next; auto. apply IH; auto. discriminate.
  Qed.
  Lemma zeros_are_text base k s ds : 0 < base -> digit_text base s ds -> digit_text base (repeat 48 k ++ s) (repeat 0 k ++ ds).
  Proof. intros B T. induction k; cbn; auto. apply dt_next; auto. split; [left; lia|lia]. Qed.
  Lemma numeral_zeros base k ds : numeral base 0 (repeat 0 k ++ ds) = numeral base 0 ds.
  Proof. induction k; cbn; auto. Qed.
  Lemma ascii_self s : Forall (fun c => c < 127) s -> ascii_text s s.
  Proof. induction 1; constructor; auto. left; auto. Qed.
  Lemma digit_text_small base s ds : digit_text base s ds -> Forall (fun c => c < 127) s.
  Proof. induction 1 as [c d D|c d s ds D T IH|c d s ds D T IH]; destruct D as [D _]; unfold alnum_value in D; repeat constructor; auto; lia. Qed.
  Lemma int_text_small base s n : int_text base s n -> Forall (fun c => c < 127) s.
  Proof.
    intros (sp & sg & p & body & sp' & ds & -> & F & F' & P & T & S).
    assert (X : forall l, Forall space l -> Forall (fun c => c < 127) l).
    { intros l Fl. eapply Forall_impl; [|exact Fl]. unfold space; cbn [In]; lia. }
    rewrite !Forall_app. split; [now apply X|]. split; [|split; [|split; [|now apply X]]].
    - destruct S as [[[-> | ->] _]|[-> _]]; repeat constructor; lia.
    - destruct P as [->|(b & c & J & _ & [-> | ->])]; [constructor|cbn [In] in J; repeat constructor; repeat (destruct J as [J|J]; [inversion J; subst; lia|]); destruct J..].
    - eapply digit_text_small; eauto.
  Qed.
  (** x written in a base with zeros and blanks around it *)
  Lemma written base sp k sp' x ds body : 2 <= base <= 36 -> Forall space sp -> Forall space sp' -> Forall2 digit_value body ds -> Forall (fun d => 0 <= d < base) ds -> body <> [] ->
    numeral base 0 ds = Z.abs x -> int_text base (sp ++ sign x ++ (repeat 48 k ++ body) ++ sp') x.
  Proof.
    intros B F F' V R N E. exists sp, (sign x), [], (repeat 48 k ++ body), sp', (repeat 0 k ++ ds).
    split; [reflexivity|]. split; auto. split; auto. split; [now left|]. split; [apply zeros_are_text; [lia|]; now apply digits_are_text|].
    rewrite numeral_zeros, E. unfold sign. destruct (Z.ltb_spec x 0); [right|left]; split; auto; lia.
  Qed.
  Lemma pad_spaces n : Forall space (pad 32 n).
  Proof. unfold pad. induction (Z.to_nat n); cbn; constructor; auto. unfold space; cbn; auto 10. Qed.
  Lemma formatted_text base x code width zp t : 2 <= base <= 16 -> formatted base code x width zp = Ok t -> width <> 0 -> int_text base t x.
  Proof.
    intros B. destruct (body_denotes base x B) as (ds & V & R & E & N & _). unfold formatted. intros Q W.
    destruct zp; cbn [negb] in Q; destruct (Z.ltb_spec width 0); try discriminate; destruct (Z.eqb_spec width 0); try contradiction; inversion Q; subst t; clear Q.
    - unfold zero_padded, pad. pose proof (written base [] (Z.to_nat (width - zlen (plain base x))) [] x ds (body base x) ltac:(lia) ltac:(constructor) ltac:(constructor) V R N E) as H'.
      cbn [app] in H'. rewrite app_nil_r in H'. exact H'.
    - unfold left_just, plain. pose proof (written base [] 0 (pad 32 (- width - zlen (sign x ++ body base x))) x ds (body base x) ltac:(lia) ltac:(constructor) (pad_spaces _) V R N E) as H'.
      cbn [app repeat] in H'. rewrite <- app_assoc. exact H'.
    - unfold right_just, plain. pose proof (written base (pad 32 (width - zlen (sign x ++ body base x))) 0 [] x ds (body base x) ltac:(lia) (pad_spaces _) ltac:(constructor) V R N E) as H'.
      cbn [app repeat] in H'. rewrite app_nil_r in H'. exact H'.
  Qed.
  Theorem C77_roundtrip : forall x width zeroPad,
    (- 2 ^ 31 <= x < 2 ^ 31 -> parse_int uspace udecimal (s_int x) 10 = Ok x)
    /\ (- 2 ^ 63 <= x < 2 ^ 63 -> parse_long uspace udecimal (s_int x) 10 = Ok x)
    /\ (- 2 ^ 63 <= x < 2 ^ 63 -> forall t, width <> 0 -> s_int3 x width zeroPad = Ok t -> parse_long uspace udecimal t 10 = Ok x)
    /\ (- 2 ^ 63 <= x < 2 ^ 63 -> forall t, s_hex x = Ok t -> parse_long uspace udecimal t 16 = Ok x)
    /\ (- 2 ^ 63 <= x < 2 ^ 63 -> forall t, width <> 0 -> s_hex3 x width zeroPad = Ok t -> parse_long uspace udecimal t 16 = Ok x).
  Proof.
    intros x width zp.
    assert (I : forall base t, int_text base t x -> exists u, ascii_text t u /\ int_text base u x) by (intros base t H; exists t; split; auto; apply ascii_self; eapply int_text_small; eauto).
    assert (Pl : forall base, 2 <= base <= 16 -> int_text base (plain base x) x).
    { intros base B. destruct (body_denotes base x B) as (ds & V & R & E & N & _).
      pose proof (written base [] 0 [] x ds (body base x) ltac:(lia) ltac:(constructor) ltac:(constructor) V R N E) as H'. cbn [app repeat] in H'. rewrite app_nil_r in H'. exact H'. }
    split; [|split; [|split; [|split]]].
    - intros R. apply C77_int. split; [lia|]. split; auto. apply I, Pl. lia.
    - intros R. apply C77_long. split; [lia|]. split; auto. apply I, Pl. lia.
    - intros R t W F. apply C77_long. split; [lia|]. split; auto. apply I. eapply formatted_text; eauto. lia.
    - intros R t F. unfold s_hex in F. destruct (x <? 0); inversion F; subst. apply C77_long. split; [lia|]. split; auto. apply I, Pl. lia.
    - intros R t W F. unfold s_hex3 in F. destruct (x <? 0); [discriminate|]. apply C77_long. split; [lia|]. split; auto. apply I. eapply formatted_text; eauto. lia.
  Qed.
  (** More is accepted than a sign followed by digits: blanks around, underscores, prefixes, and digits of other scripts. *)
  Theorem C77_plain_refuted :
    parse_int uspace udecimal [49; 95; 48] 10 = Ok 10 /\ parse_int uspace udecimal [10; 55; 32] 10 = Ok 7
    /\ parse_int uspace udecimal [48; 120; 102] 16 = Ok 15 /\ (forall c, 127 <= c -> uspace c = false -> udecimal c = Some 3 -> parse_int uspace udecimal [c] 10 = Ok 3).
  Proof.
    split; [reflexivity|]. split; [reflexivity|]. split; [reflexivity|]. intros c L U D. unfold parse_int, parse_integer, py_int_text. cbn [map].
    rewrite (to_ascii_for uspace udecimal c 51); [reflexivity|]. right; right. split; auto. split; auto. exists 3; auto.
  Qed.
End Tables.

Lemma digits2_pos_size m : digits2_pos m = Pos.size m.
Proof. induction m; cbn; congruence. Qed.
(** parse.double gives what float() gives; only the sign of zero is lost. *)
Theorem C77_double : forall x, valid x -> parse_double (Some x) = Ok (match x with S754_zero _ => S754_zero false | _ => x end).
Proof.
  intros x V. destruct x as [s|s| |s m e]; try reflexivity.
  unfold parse_double, parse_real. cbn [isnan isinf]. unfold valid, valid_binary, SpecFloat.bounded, canonical_mantissa, fexp, emin in V.
  apply andb_prop in V as [V1 V2]. apply Zeq_bool_eq in V1. apply Z.leb_le in V2. simpl (3 - 1024 - 53) in V1.
  change (1024 - 53) with 971 in V2.
  assert (D : Z.pos (digits2_pos m) <= 53) by lia.
  assert (M : (Z.pos m < 2 ^ 53)%Z).
  { rewrite digits2_pos_size in D. pose proof (Pos.size_gt m) as G. apply Pos2Z.pos_lt_pos in G. rewrite Pos2Z.inj_pow in G.
    eapply Z.lt_le_trans; [exact G|]. apply Z.pow_le_mono_r; lia. }
  assert (E : -1074 <= e) by lia.
  assert (G1 : f_lt DOUBLE_MAX (S754_finite false m e) = false).
  { unfold f_lt, SFltb, SFcompare, DOUBLE_MAX. destruct (Z.compare_spec 971 e); auto; try lia. change (Pos.compare_cont Eq 9007199254740991 m) with (9007199254740991 ?= m)%positive.
    destruct (Pos.compare_spec 9007199254740991 m) as [Q|Q|Q]; auto. apply Pos2Z.pos_lt_pos in Q. lia. }
  assert (G2 : f_lt (S754_finite false m e) DOUBLE_MIN = false).
  { unfold f_lt, SFltb, SFcompare, DOUBLE_MIN. destruct (Z.compare_spec e (-1074)); auto; try lia. change (Pos.compare_cont Eq m 1) with (m ?= 1)%positive.
    destruct (Pos.compare_spec m 1) as [Q|Q|Q]; auto. lia. }
  destruct s; cbn [fneg SFopp negb fabs SFabs]; rewrite ?G1, ?G2; reflexivity.
Qed.
Lemma sfltb_opp s m e m' e' : SFltb (S754_finite false m' e') (SFopp (S754_finite s m e)) = SFltb (S754_finite s m e) (SFopp (S754_finite false m' e')).
Proof.
  destruct s; cbn [SFopp negb]; unfold SFltb, SFcompare; [|reflexivity]. rewrite (Z.compare_antisym e' e). destruct (e' ?= e); cbn [CompOpp]; auto.
  change (Pos.compare_cont Eq m m') with (m ?= m')%positive. change (Pos.compare_cont Eq m' m) with (m' ?= m)%positive. rewrite (Pos.compare_antisym m' m). destruct (m' ?= m)%positive; auto.
Qed.
(** parse.float gives the same between the smallest and the largest float, and zero or an infinity of the right sign outside. *)
Theorem C77_float : forall x, isnan x = false ->
  exists r, parse_float (Some x) = Ok r /\
    (r = x \/ (r = S754_zero false /\ SFltb (SFabs x) FLOAT_MIN = true) \/ (r = S754_infinity false /\ SFltb FLOAT_MAX x = true) \/ (r = S754_infinity true /\ SFltb x (SFopp FLOAT_MAX) = true))
    /\ (isinf r = true \/ r = S754_zero false \/ (SFltb (SFabs r) FLOAT_MIN = false /\ SFltb FLOAT_MAX (SFabs r) = false)).
Proof.
  intros x N. unfold parse_float, parse_real. rewrite N. unfold f_lt, fneg, fabs.
  destruct x as [s|s| |s m e]; try discriminate.
  - exists f0. split; [destruct s; reflexivity|]. split; [|right; left; reflexivity]. right; left. split; [reflexivity|destruct s; reflexivity].
  - exists (S754_infinity s). split; [reflexivity|]. split; [now left|now left].
  - cbn [isinf]. destruct (SFltb FLOAT_MAX (S754_finite s m e)) eqn:G1.
    { exists finf. split; [reflexivity|]. split; [|now left]. right; right; left. auto. }
    destruct (SFltb FLOAT_MAX (SFopp (S754_finite s m e))) eqn:G2.
    { exists fninf. split; [reflexivity|]. split; [|now left]. right; right; right. split; [reflexivity|]. rewrite <- G2. symmetry. apply sfltb_opp. }
    destruct (SFltb (SFabs (S754_finite s m e)) FLOAT_MIN) eqn:G3.
    { exists f0. split; [reflexivity|]. split; [|right; left; reflexivity]. right; left. auto. }
    exists (S754_finite s m e). split; [reflexivity|]. split; [now left|]. right; right. split; [exact G3|]. destruct s; [exact G2|exact G1].
Qed.
(** The result is not rounded to single precision, although its type is float: 0.1 stays the binary64 number nearest to 0.1. *)
Theorem C77_single_refuted : parse_float (Some (S754_finite false 7205759403792794 (-56))) = Ok (S754_finite false 7205759403792794 (-56)) /\ 7205759403792794 mod 2 ^ 29 <> 0.
Proof. split; [reflexivity|discriminate]. Qed.

(** ** Examples *)
(** " -0b_101 " in base 2, "Zz" in base 36, "-2147483648", "2147483648", "1__0", "12" in base 37 *)
Definition no_space (_ : Z) := false.
Definition no_digit (_ : Z) : option Z := None.
Example parsed :
  parse_int no_space no_digit [32; 45; 48; 98; 95; 49; 48; 49; 32] 2 = Ok (-5) /\ parse_int no_space no_digit [90; 122] 36 = Ok 1295
  /\ parse_int no_space no_digit [45; 50; 49; 52; 55; 52; 56; 51; 54; 52; 56] 10 = Ok (-2147483648)
  /\ parse_int no_space no_digit [50; 49; 52; 55; 52; 56; 51; 54; 52; 56] 10 = Raise (PFAErr 33000)
  /\ parse_long no_space no_digit [50; 49; 52; 55; 52; 56; 51; 54; 52; 56] 10 = Ok 2147483648
  /\ parse_int no_space no_digit [49; 95; 95; 48] 10 = Raise (PFAErr 33000) /\ parse_long no_space no_digit [49; 50] 37 = Raise (PFAErr 33011)
  /\ parse_int no_space no_digit [45; 32; 49] 10 = Raise (PFAErr 33000) /\ parse_int no_space no_digit [] 10 = Raise (PFAErr 33000).
Proof. repeat split. Qed.
Example a_text : int_text 2 [32; 45; 48; 98; 95; 49; 48; 49; 32] (-5).
Proof. apply from_ascii_iff; [lia|reflexivity]. Qed.
Example written_text : s_int3 (-42) 6 true = Ok [45; 48; 48; 48; 52; 50] /\ parse_long no_space no_digit [45; 48; 48; 48; 52; 50] 10 = Ok (-42).
Proof. split; vm_compute; reflexivity. Qed.
Example doubles : valid (S754_zero true) /\ parse_double (Some (S754_zero true)) = Ok (S754_zero false) /\ parse_float (Some (S754_finite true 5 500)) = Ok (S754_infinity true)
  /\ parse_float (Some (S754_finite true 5 (-500))) = Ok (S754_zero false).
Proof. repeat split. Qed.
Print Assumptions C77_int.
Print Assumptions C77_long.
Print Assumptions C77_one_value.
Print Assumptions C77_roundtrip.
Print Assumptions C77_plain_refuted.
Print Assumptions C77_double.
Print Assumptions C77_float.
Print Assumptions C77_single_refuted.
