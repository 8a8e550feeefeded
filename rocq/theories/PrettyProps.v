(** C99: operator expressions of PrettyPFA are read as their levels say. *)
From Verif Require Import Base PrettyModel PrettySpec PrettyProofs PrettyProofs2 PrettyProofs3.
Import Ascii.
Open Scope string_scope.
Open Scope list_scope.

(** tokens with white space between them are read one by one; more white space, ends of lines and comments count for nothing *)
Theorem C99_tokens : forall f ts s, filling f -> spaced ts s -> lex (String.length (f ++ s)) (f ++ s) = Ok ts.
Proof. intros f ts s F S. apply lex_filling; [exact F| |lia]. intros fuel L. eapply lex_spaced; eauto. Qed.
(** a text is read as the expression it is a way to write: operators bind as tightly as their level says, chains group from the left, parentheses may stand anywhere *)
Theorem C99_levels : forall t ts s, written true 0 t ts -> spaced ts s -> ppfa s = Ok t.
Proof. intros t ts s W S. unfold ppfa. rewrite (C99_tokens "" ts s f_nil S : lex (String.length s) s = Ok ts). now apply read_back. Qed.
(** no text is a way to write two expressions *)
Theorem C99_one_meaning : forall t t' ts, written true 0 t ts -> written true 0 t' ts -> t = t'.
Proof. intros t t' ts W W'. apply read_back in W, W'. congruence. Qed.
(** every expression of numbers, texts, names, operators, calls and extractions has a text *)
Theorem C99_every : forall t, sayable t -> exists s, ppfa s = Ok t.
Proof. intros t Y. destruct (writable (S (rank t)) t ltac:(lia) Y) as (ts & W & Sd). destruct (said_spaced ts Sd) as [s Sp]. exists s. eapply C99_levels; eauto. Qed.
(** only texts of the grammar are accepted: every operator has its operands, every parenthesis its other *)
Theorem C99_accepted : forall s t, ppfa s = Ok t -> exists ts, lex (String.length s) s = Ok ts /\ reads t ts.
Proof. intros s t H. unfold ppfa in H. destruct (lex (String.length s) s) as [ts|] eqn:E; [|discriminate]. exists ts. split; [reflexivity|]. now apply accepted. Qed.
(** the error of a text is that of the module: reading ends for every text *)
Lemma span_length p s : (String.length (snd (span p s)) <= String.length s)%nat.
Proof. induction s as [|c s IH]; cbn; [lia|]. destruct (p c); [|cbn; lia]. destruct (span p s). cbn in *. lia. Qed.
Lemma dotname_length s : forall w, (String.length (snd (dotname w s)) <= String.length s)%nat.
Proof.
  induction s as [|c s IH]; intros w; cbn [dotname]; [cbn; lia|]. destruct (letter c || w && digit c)%bool.
  - specialize (IH true). destruct (dotname true s). cbn in *. lia.
  - destruct (w && Ascii.eqb c ".")%bool; [|cbn; lia]. destruct s as [|d s']; [cbn; lia|]. destruct (letter d); [|cbn; lia]. specialize (IH false). destruct (dotname false (String d s')). cbn in *. lia.
Qed.
Lemma whole_length c s : digit c = true -> (String.length (snd (whole (String c s))) <= String.length s)%nat.
Proof. intros D. cbn [whole]. destruct (Ascii.eqb c "0"); [cbn; lia|]. cbn [span]. rewrite D. pose proof (span_length digit s). destruct (span digit s). cbn in *. lia. Qed.
Lemma fraction_length s : (String.length (snd (fraction s)) <= String.length s)%nat.
Proof. destruct s as [|c s]; cbn [fraction]; [cbn; lia|]. destruct (Ascii.eqb c "."); [|cbn; lia]. pose proof (span_length digit s). destruct (span digit s). cbn in *. lia. Qed.
Lemma exponent_length s : (String.length (snd (exponent s)) <= String.length s)%nat.
Proof.
  destruct s as [|c s]; cbn [exponent]; [cbn; lia|]. destruct (Ascii.eqb c "e" || Ascii.eqb c "E")%bool; [|cbn; lia]. destruct s as [|d s]; [cbn; lia|]. destruct (Ascii.eqb d "-" || Ascii.eqb d "+")%bool.
  - pose proof (span_length digit s). destruct (span digit s) as [[|x a] b]; cbn in *; lia.
  - pose proof (span_length digit (String d s)). destruct (span digit (String d s)) as [[|x a] b]; cbn [snd String.length] in *; lia.
Qed.
Lemma unsigned_length c s : digit c = true -> (String.length (snd (unsigned (String c s))) <= String.length s)%nat.
Proof.
  intros D. unfold unsigned. pose proof (whole_length c s D). destruct (whole (String c s)) as [a r]. pose proof (fraction_length r). destruct (fraction r) as [b r']. pose proof (exponent_length r'). destruct (exponent r') as [x r'']. cbn in *. lia.
Qed.
Lemma operator_length c s t r : operator c s = Some (t, r) -> (String.length r <= String.length s)%nat.
Proof.
  unfold operator. intros H.
  repeat match type of H with
         | (if ?b then _ else _) = _ => destruct b
         | Some _ = Some _ => injection H as <- <-
         | None = Some _ => discriminate H
         | match ?x with EmptyString => _ | String _ _ => _ end = _ => destruct x as [|? ?]
         | match ?x with Ascii _ _ _ _ _ _ _ _ => _ end = _ => destruct x as [[] [] [] [] [] [] [] []]
         end; cbn; lia.
Qed.
Lemma lex1_length c s : match lex1 c s with Skip r | Lexeme _ r => (String.length r <= String.length s)%nat | Bad => True end.
Proof.
  unfold lex1. destruct (blank c || newline c)%bool; [lia|]. match goal with |- context [(Ascii.eqb c "/" && ?b)%bool] => destruct (Ascii.eqb c "/" && b)%bool end; [apply span_length|].
  destruct (letter c) eqn:Lc; [cbn [dotname]; rewrite Lc; cbn [orb]; pose proof (dotname_length s true); destruct (dotname true s) as [a b]; cbn in *; destruct (name_token (String c a)); [lia|exact I]|].
  destruct (digit c) eqn:D; [pose proof (unsigned_length c s D); destruct (unsigned (String c s)); exact H|].
  destruct (Ascii.eqb c "-" && _)%bool eqn:Em.
  - destruct s as [|d s]; [now rewrite Bool.andb_false_r in Em|]. apply andb_prop in Em as [_ Dd]. pose proof (unsigned_length d s Dd). destruct (unsigned (String d s)). cbn in *. lia.
  - destruct (Ascii.eqb c (ascii_of_nat 39)).
    + pose proof (span_length (fun x => negb (Ascii.eqb x (ascii_of_nat 39))) s). destruct (span _ s) as [a [|q b]]; [exact I|]. cbn in *. lia.
    + destruct (operator c s) as [[t r]|] eqn:E; [eapply operator_length; eauto|exact I].
Qed.
Lemma lex_errors fuel : forall s e, (String.length s <= fuel)%nat -> lex fuel s = Raise e -> e = PyErr "PrettyPfaException".
Proof.
  induction fuel as [|fuel IH]; intros [|c s] e L H; try discriminate; [cbn in L; lia|]. cbn [lex] in H. cbn [String.length] in L. pose proof (lex1_length c s) as LL. destruct (lex1 c s) as [r|t r|]; [eapply IH; [|exact H]; lia| |now injection H as <-].
  destruct (lex fuel r) as [ts|e'] eqn:E; [discriminate|]. injection H as <-. eapply IH; [|exact E]. lia.
Qed.
Lemma reduce_errors n fs : forall e x, reduce n e fs = Raise x -> x = PyErr "PrettyPfaException".
Proof. induction fs as [|[l o|u| |s a|s a|s a] fs IH]; intros e x H; cbn [reduce] in H; try discriminate; [destruct (decide (bin_prec o) n)|destruct (decide (un_prec u) n)]; try discriminate; [eauto|now injection H as <-|eauto|now injection H as <-]. Qed.
Lemma after_errors fs e t x : after fs e t = Raise x -> x = PyErr "PrettyPfaException".
Proof.
  intros H. destruct t; cbn [after] in H; try (now injection H as <-);
    match type of H with (r <- reduce ?s _ _ ;; _) = _ => destruct (reduce s e fs) as [[e' fs']|] eqn:E; [|injection H as <-; eapply reduce_errors; eauto] end; cbn [rbind fst snd] in H; try discriminate;
    destruct fs' as [|[] ?]; try discriminate; now injection H as <-.
Qed.
Lemma feed_errors st t x : feed st t = Raise x -> x = PyErr "PrettyPfaException".
Proof.
  destruct st as [fs [|s|e]]; cbn [feed]; intros H; [|destruct t; try discriminate; eapply after_errors; eauto|eapply after_errors; eauto].
  destruct t as [?|?|?|o| | | | | | |]; try discriminate; try (now injection H as <-); [destruct o; try discriminate; now injection H as <-|..]; destruct fs as [|[?|?| |? [?|]|? [?|]|? [?|]] ?]; try discriminate; now injection H as <-.
Qed.
Theorem C99_errors : forall s e, ppfa s = Raise e -> e = PyErr "PrettyPfaException".
Proof.
  intros s e H. unfold ppfa in H. destruct (lex (String.length s) s) as [ts|x] eqn:E; [|injection H as <-; eapply lex_errors; [|exact E]; lia]. cbn [rbind] in H. clear E. unfold parse in H.
  assert (F : forall ts st x, feeds st ts = Raise x -> x = PyErr "PrettyPfaException").
  { clear. induction ts as [|t ts IH]; intros st x H; cbn [feeds] in H; [discriminate|]. destruct (feed st t) as [st'|y] eqn:E; [eauto|]. injection H as <-. eapply feed_errors; eauto. }
  destruct (feeds ([], Need) ts) as [[fs tp]|x] eqn:E; [|injection H as <-; eauto]. cbn [rbind] in H. unfold closing in H. cbn [fst snd] in H. destruct tp as [|y|y]; [now injection H as <-| |];
    match type of H with (r <- reduce ?s ?e _ ;; _) = _ => destruct (reduce s e fs) as [[e' fs']|] eqn:Er; [|injection H as <-; eapply reduce_errors; eauto] end; cbn [rbind fst snd] in H; destruct fs'; try discriminate; now injection H as <-.
Qed.
(** comparisons are not chained *)
Theorem C99_chains : forall o1 o2 a b ta tb rest, comparison o1 = true -> comparison o2 = true -> written true 6 a ta -> written false 6 b tb ->
  parse (ta ++ TOp o1 :: tb ++ TOp o2 :: rest) = Raise (PyErr "PrettyPfaException").
Proof.
  intros o1 o2 a b ta tb rest C1 C2 Wa Wb. assert (B1 : binds o1 = 5%nat) by (destruct o1; try discriminate; reflexivity). assert (B2 : bin_prec o2 = (Neither, 5%nat)) by (destruct o2; try discriminate; reflexivity).
  destruct (machine (S (length ta)) true 6%nat a ta ltac:(lia) Wa [] (fun s e _ => eq_refl) (fun _ s e _ => eq_refl)) as ([fs tp] & E & e & Eo & Er & _). cbn [fst snd] in *.
  pose proof (stops_bin a o1 []) as St. rewrite B1 in St.
  destruct (machine (S (length tb)) false 6%nat b tb ltac:(lia) Wb [FBin a o1] St ltac:(discriminate)) as ([fs2 tp2] & E2 & e2 & Eo2 & Er2 & _). cbn [fst snd] in *.
  unfold parse. rewrite feeds_app, E. cbn [rbind feeds]. rewrite (feed_operand _ _ _ _ Eo) by (intros; split; discriminate). cbn [after]. rewrite bin_prec_eq, B1. cbn [snd]. rewrite (Er 5%nat) by (left; lia). cbn [reduce rbind fst snd].
  rewrite feeds_app, E2. cbn [rbind feeds]. rewrite (feed_operand _ _ _ _ Eo2) by (intros; split; discriminate). cbn [after]. rewrite B2. cbn [snd]. rewrite (Er2 5%nat) by (left; lia). cbn [reduce]. rewrite decide_bin, B1, C1. reflexivity.
Qed.

Ltac speak := repeat (apply (sp_cons _ _ " "%char ""); [|now left|apply f_nil|] || apply sp_nil); try (apply (say_op MINUS); discriminate); try (apply (say_op POW); discriminate); try (apply say_name; assumption || now split); apply say_num; unfold is_number; eauto.

(** ** what goes wrong *)
(** a minus before a digit is its sign: without a blank there is no difference *)
Theorem C99_minus_refuted : forall x n, is_name x -> is_unsigned n ->
  ppfa (x ++ "-" ++ n ++ " ") = Raise (PyErr "PrettyPfaException") /\ ppfa (x ++ " - " ++ n ++ " ") = Ok (Call "-" [Name x; Num n]).
Proof.
  intros x n [D K] U. split.
  - destruct (dotted_head x D) as (c & w & -> & Lc). destruct (letter_not c Lc) as (B & Sc). destruct (unsigned_head _ U) as (d & r & -> & Dd). unfold ppfa.
    assert (L : lex (String.length (String c w ++ "-" ++ String d r ++ " ")%string) (String c w ++ "-" ++ String d r ++ " ")%string = Ok [TName (String c w); TNum ("-" ++ String d r)%string]).
    { assert (Q : forall a b, String.length (a ++ b)%string = (String.length a + String.length b)%nat) by (induction a as [|q a IHa]; intros b; cbn; [reflexivity|now rewrite IHa]).
      remember (String.length (String c w ++ "-" ++ String d r ++ " ")%string) as fuel eqn:Ef. rewrite !Q in Ef. cbn [String.length] in Ef. destruct fuel as [|[|[|fuel]]]; try lia.
      rewrite cons_app. cbn [lex]. unfold lex1 at 1. rewrite B, Sc, Lc. cbn [andb]. rewrite <- cons_app, (dotname_dotted _ D) by repeat split. rewrite (name_is_token _ K). cbn [append].
      unfold lex1 at 1. cbn -[unsigned digit lex1]. rewrite Dd. change (String d (r ++ " ")) with (String d r ++ " ")%string. rewrite (unsigned_ok _ U " ") by repeat split. change (lex1 " " "") with (Skip ""). destruct fuel; reflexivity. }
    rewrite L. reflexivity.
  - apply C99_levels with (ts := [TName x; TOp MINUS; TNum n]).
    + apply (w_bin true 0 MINUS (Name x) (Num n) [TName x] [TNum n]); [lia|constructor|constructor].
    + assert (E : (x ++ " - " ++ n ++ " " = x ++ String " " ("" ++ ("-" ++ String " " ("" ++ (n ++ String " " ("" ++ ""))))))%string) by reflexivity. rewrite E. speak.
Qed.
(** so that signs bind tighter in numbers than elsewhere *)
Theorem C99_sign_refuted : forall x n m, is_name x -> is_unsigned n -> is_unsigned m ->
  ppfa ("-" ++ n ++ " ** " ++ m ++ " ") = Ok (Call "**" [Num ("-" ++ n); Num m]) /\ ppfa ("- " ++ x ++ " ** " ++ m ++ " ") = Ok (Call "u-" [Call "**" [Name x; Num m]]).
Proof.
  intros x n m Hx Hn Hm. split.
  - apply C99_levels with (ts := [TNum ("-" ++ n); TOp POW; TNum m]).
    + apply (w_bin true 0 POW (Num ("-" ++ n)) (Num m) [TNum ("-" ++ n)] [TNum m]); [cbn; lia|constructor|constructor].
    + assert (E : ("-" ++ n ++ " ** " ++ m ++ " " = ("-" ++ n) ++ String " " ("" ++ ("**" ++ String " " ("" ++ (m ++ String " " ("" ++ ""))))))%string) by reflexivity. rewrite E. speak.
  - apply C99_levels with (ts := [TOp MINUS; TName x; TOp POW; TNum m]).
    + apply (w_un true 0 UMINUS (Call "**" [Name x; Num m]) [TName x; TOp POW; TNum m]); [cbn; lia|]. apply (w_bin false 11 POW (Name x) (Num m) [TName x] [TNum m]); [cbn; lia|constructor|constructor].
    + assert (E : ("- " ++ x ++ " ** " ++ m ++ " " = "-" ++ String " " ("" ++ (x ++ String " " ("" ++ ("**" ++ String " " ("" ++ (m ++ String " " ("" ++ ""))))))))%string) by reflexivity. rewrite E. speak.
Qed.
(** brackets after anything but a name extract from all that stands before them: [a + f(x)[0]] from the sum *)
Theorem C99_extraction_refuted : forall t ts args tss, written true 0 t ts -> (forall s, last ts TR <> TName s) -> Forall2 (written true 0) args tss ->
  parse (ts ++ TLb :: commas tss ++ [TRb]) = Ok (GenGet t args).
Proof.
  intros t ts args tss W N F. destruct (machine (S (length ts)) true 0%nat t ts ltac:(lia) W [] (fun s e _ => eq_refl) (fun _ s e _ => eq_refl)) as ([fs tp] & E & e & Eo & Er & Nm). cbn [fst snd] in *.
  unfold parse. rewrite feeds_app, E. cbn [rbind feeds]. rewrite (feed_operand _ _ _ _ Eo) by (intros x Hx; exfalso; exact (N x (Nm x Hx))). cbn [after]. rewrite (Er 0%nat) by (right; lia). cbn [reduce rbind fst snd].
  rewrite (args_ok (S (length (commas tss))) (machine _) _ _ _ (o_genget t) args tss F) by (auto; lia). reflexivity.
Qed.
(** a comma may stand before the first argument *)
Theorem C99_comma_refuted : forall f t ts, written true 0 t ts -> parse (TName f :: TL :: TComma :: ts ++ [TR]) = Ok (Call f [t]).
Proof.
  intros f t ts W. unfold parse. cbn [feeds feed rbind]. pose proof (args_ok (S (length (commas [ts]))) (machine _) _ _ _ (o_call f) [t] [ts] ltac:(repeat constructor; exact W) ltac:(lia) (Some []) [] ltac:(discriminate)) as A. cbn [commas given app] in A. rewrite A. reflexivity.
Qed.

(** every number and name that is read is one *)
Lemma span_all_digits s : forall a b, span digit s = (a, b) -> all_of digits a.
Proof.
  induction s as [|c s IH]; intros a b E; cbn in E; [injection E as <- <-; constructor|]. destruct (digit c) eqn:D; [|injection E as <- <-; constructor].
  destruct (span digit s) as [a' b'] eqn:Es. injection E as <- <-. constructor; [apply one_among; rewrite <- digit_eq; exact D | eapply IH; reflexivity].
Qed.
Lemma exponent_is s : forall e r, exponent s = (e, r) ->
  e = ""%string \/ exists l g c d, e = (String l g ++ String c d)%string /\ one_of "eE" l /\ (g = "" \/ g = "-" \/ g = "+")%string /\ one_of digits c /\ all_of digits d.
Proof.
  intros e r E. destruct s as [|c s]; cbn in E; [injection E as <- <-; auto|]. destruct (Ascii.eqb c "e" || Ascii.eqb c "E")%bool eqn:C; [|injection E as <- <-; auto].
  assert (Lc : one_of "eE" c) by (apply orb_prop in C; destruct C as [C|C]; apply Ascii.eqb_eq in C; subst; cbn; auto).
  destruct s as [|d s]; [injection E as <- <-; auto|].
  assert (D : forall x a b, span digit x = (a, b) -> a <> EmptyString -> exists h t, a = String h t /\ one_of digits h /\ all_of digits t).
  { intros x a b Es N. apply span_all_digits in Es. destruct a as [|h t]; [congruence|]. inversion Es; subst. eauto. }
  destruct (Ascii.eqb d "-" || Ascii.eqb d "+")%bool eqn:G.
  - destruct (span digit s) as [a b] eqn:Es. destruct a as [|h t]; injection E as <- <-; [auto|]. right. destruct (D s _ _ Es ltac:(discriminate)) as (h' & t' & [= <- <-] & H1 & H2).
    exists c, (String d EmptyString), h, t. split; [reflexivity|]. split; [exact Lc|]. split; [|auto]. apply orb_prop in G. destruct G as [G|G]; apply Ascii.eqb_eq in G; subst; auto.
  - destruct (span digit (String d s)) as [a b] eqn:Es. destruct a as [|h t]; injection E as <- <-; [auto|]. right. destruct (D _ _ _ Es ltac:(discriminate)) as (h' & t' & [= <- <-] & H1 & H2).
    exists c, EmptyString, h, t. split; [reflexivity|]. auto.
Qed.
Lemma unsigned_is c s : digit c = true -> forall u r, unsigned (String c s) = (u, r) -> is_unsigned u.
Proof.
  intros D u r E. unfold unsigned in E. destruct (whole (String c s)) as [w r1] eqn:W. destruct (fraction r1) as [f r2] eqn:F. destruct (exponent r2) as [e r3] eqn:X. injection E as <- <-.
  exists w, f, e. split; [reflexivity|]. split; [|split].
  - unfold whole in W. destruct (Ascii.eqb_spec c "0") as [->|N]; [injection W as <- <-; auto|]. right. cbn in W. rewrite D in W. destruct (span digit s) as [a b] eqn:Es. injection W as <- <-.
    exists c, a. split; [reflexivity|]. split; [|eapply span_all_digits, Es]. apply one_among. rewrite nonzero, D. destruct (Ascii.eqb_spec c "0"); [contradiction | reflexivity].
  - unfold fraction in F. destruct r1 as [|d r1]; [injection F as <- <-; auto|]. destruct (Ascii.eqb_spec d ".") as [->|N]; [|injection F as <- <-; auto].
    destruct (span digit r1) as [a b] eqn:Es. injection F as <- <-. right. exists a. split; [reflexivity | eapply span_all_digits, Es].
  - eapply exponent_is, X.
Qed.
Lemma dotname_is : forall n s, (String.length s <= n)%nat -> forall a b, dotname true s = (a, b) ->
  exists w t, a = (w ++ t)%string /\ all_of (letters ++ digits) w /\ (t = ""%string \/ exists m, t = ("." ++ m)%string /\ dotted m).
Proof.
  assert (Join : forall c w t, letter c = true -> all_of (letters ++ digits) w -> (t = ""%string \/ exists m, t = ("." ++ m)%string /\ dotted m) -> dotted (String c (w ++ t))).
  { intros c w t L A [->|(m & -> & Dm)].
    - rewrite sapp_nil. apply d_word. exists c, w. split; [reflexivity|]. split; [apply one_among; rewrite <- letter_eq; exact L | exact A].
    - change (dotted (String c w ++ "." ++ m)). apply d_dot; [|exact Dm]. exists c, w. split; [reflexivity|]. split; [apply one_among; rewrite <- letter_eq; exact L | exact A]. }
  induction n as [|n IH]; intros s L a b E.
  - destruct s; [|cbn in L; lia]. injection E as <- <-. exists ""%string, ""%string. split; [reflexivity|]. split; [constructor | auto].
  - destruct s as [|c s]; [injection E as <- <-; exists ""%string, ""%string; split; [reflexivity|]; split; [constructor | auto]|]. cbn in L. cbn [dotname] in E.
    destruct (letter c || (true && digit c))%bool eqn:C.
    + destruct (dotname true s) as [a' b'] eqn:Es. injection E as <- <-. destruct (IH s ltac:(lia) a' b' Es) as (w & t & -> & A & T). exists (String c w), t. split; [reflexivity|]. split; [|exact T].
      constructor; [apply one_among; rewrite both_eq; exact C | exact A].
    + destruct (true && Ascii.eqb c ".")%bool eqn:P; [|injection E as <- <-; exists ""%string, ""%string; split; [reflexivity|]; split; [constructor | auto]].
      apply Ascii.eqb_eq in P. subst c. destruct s as [|d s]; [injection E as <- <-; exists ""%string, ""%string; split; [reflexivity|]; split; [constructor | auto]|].
      destruct (letter d) eqn:Ld; [|injection E as <- <-; exists ""%string, ""%string; split; [reflexivity|]; split; [constructor | auto]].
      cbn [dotname] in E. rewrite Ld in E. cbn [orb] in E. destruct (dotname true s) as [a' b'] eqn:Es. injection E as <- <-. cbn in L.
      destruct (IH s ltac:(lia) a' b' Es) as (w & t & -> & A & T). exists ""%string, (String "." (String d (w ++ t))). split; [reflexivity|]. split; [constructor|]. right. exists (String d (w ++ t)).
      split; [reflexivity|]. apply Join; assumption.
Qed.
Lemma dotname_dotted_back c s : letter c = true -> forall a b, dotname false (String c s) = (a, b) -> dotted a.
Proof.
  intros L a b E. cbn [dotname] in E. rewrite L in E. cbn [orb] in E. destruct (dotname true s) as [a' b'] eqn:Es. injection E as <- <-.
  destruct (dotname_is (String.length s) s ltac:(lia) a' b' Es) as (w & t & -> & A & [->|(m & -> & Dm)]).
  - rewrite sapp_nil. apply d_word. exists c, w. split; [reflexivity|]. split; [apply one_among; rewrite <- letter_eq; exact L | exact A].
  - change (dotted (String c w ++ "." ++ m)). apply d_dot; [|exact Dm]. exists c, w. split; [reflexivity|]. split; [apply one_among; rewrite <- letter_eq; exact L | exact A].
Qed.
Lemma operator_plain c s : forall t r, operator c s = Some (t, r) -> match t with TNum _ | TName _ | TStr _ => False | _ => True end.
Proof.
  intros t r E. unfold operator in E.
  repeat (match type of E with context [if ?b then _ else _] => destruct b | context [match ?x with _ => _ end] => destruct x end; cbn in E; try discriminate E; try (injection E as <- <-; exact I)).
Qed.
Theorem C99_lexemes : forall fuel s ts, lex fuel s = Ok ts -> forall t, In t ts -> match t with TNum x => is_number x | TName x => is_name x | TStr x => ~ one_of x (ascii_of_nat 39) | _ => True end.
Proof.
  induction fuel as [|fuel IH]; intros s ts E t Ht; destruct s as [|c s]; cbn [lex] in E; try discriminate; try (injection E as <-; contradiction).
  destruct (lex1 c s) as [r|t' r|] eqn:L; [eapply IH; eassumption| |discriminate]. destruct (lex fuel r) as [ts'|] eqn:Er; cbn [rbind] in E; [|discriminate]. injection E as <-.
  destruct Ht as [->|Ht]; [|eapply IH; eassumption]. clear IH Er. unfold lex1 in L.
  destruct (blank c || newline c)%bool; [discriminate|].
  match type of L with (if ?b then _ else _) = _ => destruct b; [discriminate|] end.
  destruct (letter c) eqn:Lc.
  { destruct (dotname false (String c s)) as [a b] eqn:D. apply dotname_dotted_back in D; [|exact Lc]. unfold name_token in L. destruct (String.eqb_spec a "idiv") as [->|Ni]; [injection L as <- <-; exact I|].
    destruct (existsb (String.eqb a) reserved) eqn:R; [discriminate|]. injection L as <- <-. split; [exact D|]. intros [K|K]; [congruence|].
    assert (existsb (String.eqb a) reserved = true) by (apply existsb_exists; exists a; split; [exact K | apply String.eqb_refl]). congruence. }
  destruct (digit c) eqn:Dc.
  { destruct (unsigned (String c s)) as [a b] eqn:U. injection L as <- <-. left. eapply unsigned_is; eassumption. }
  match type of L with (if ?b then _ else _) = _ => destruct b eqn:M end.
  { apply andb_prop in M. destruct M as [Mc Md]. apply Ascii.eqb_eq in Mc. subst c. destruct s as [|d s]; [discriminate|]. destruct (unsigned (String d s)) as [a b] eqn:U. injection L as <- <-. right.
    exists a. split; [reflexivity|]. eapply unsigned_is; eassumption. }
  destruct (Ascii.eqb c (ascii_of_nat 39)).
  { assert (Q : forall x a b, span (fun x => negb (Ascii.eqb x (ascii_of_nat 39))) x = (a, b) -> ~ one_of a (ascii_of_nat 39)).
    { induction x as [|y x IHx]; intros a b E; cbn [span] in E; [injection E as <- <-; intros []|]. destruct (Ascii.eqb_spec y (ascii_of_nat 39)) as [->|Ny]; cbn [negb] in E; [injection E as <- <-; intros []|].
      destruct (span _ x) as [a' b'] eqn:Ex. injection E as <- <-. intros [K|K]; [congruence|]. exact (IHx a' b' eq_refl K). }
    destruct (span _ s) as [a b] eqn:Es. destruct b; [discriminate|]. injection L as <- <-. eapply Q, Es. }
  destruct (operator c s) as [[t2 r2]|] eqn:O; [|discriminate]. injection L as <- <-. apply operator_plain in O. destruct t2; try contradiction; exact I.
Qed.
Example C99_lexemes_example : lex 20 "x.y-1.5e3 * 1e" = Ok [TName "x.y"; TNum "-1.5e3"; TOp TIMES; TNum "1"; TName "e"].
Proof. reflexivity. Qed.

(** the other words of the language are no names: no expression starts with one *)
Theorem C99_keywords : forall k rest, In k keywords -> k <> "idiv" -> ppfa (k ++ " " ++ rest) = Raise (PyErr "PrettyPfaException").
Proof. intros k rest H N. cbn in H. destruct H as [<-|H]; [destruct (N eq_refl)|]. repeat (destruct H as [<-|H]; [reflexivity|]). destruct H. Qed.
Example C99_keywords_example : In "until" keywords /\ ppfa "until x" = Raise (PyErr "PrettyPfaException") /\ ppfa "untilx" = Ok (Name "untilx").
Proof. split; [cbn; tauto|]. split; reflexivity. Qed.

(** ** examples *)
Example C99_example : ppfa "-x ** 2 + 3 * (a.b - f(y, 'z')) idiv c[1, u] >= 2.5e-3 && ! q // rest" =
  Ok (Call "&&" [Call ">=" [Call "+" [Call "u-" [Call "**" [Name "x"; Num "2"]]; Call "//" [Call "*" [Num "3"; Call "-" [Name "a.b"; Call "f" [Name "y"; Str "z"]]]; Get "c" [Num "1"; Name "u"]]]; Num "2.5e-3"];
    Call "!" [Name "q"]]).
Proof. vm_compute. reflexivity. Qed.
Example C99_tokens_example : filling (" //x" ++ line_end) /\ spaced [TName "a"; TOp POW; TBitnot] ("a" ++ String (ascii_of_nat 9) ("" ++ ("**" ++ String (ascii_of_nat 10) (("//b" ++ line_end ++ "") ++ "~")))).
Proof.
  split; [apply f_white; [now left|]; apply (f_comment "x" ""); [cbn; intuition discriminate|constructor]|].
  apply sp_cons; [apply say_name; split; [constructor; eexists _, _; split; [reflexivity|]; split; [unfold one_of; cbn; tauto|constructor]|cbn; intuition discriminate]|unfold one_of; cbn; tauto|constructor|].
  apply sp_cons; [apply (say_op POW); discriminate|unfold one_of; cbn; tauto| |apply sp_last; constructor]. apply (f_comment "b" ""); [cbn; intuition discriminate|constructor].
Qed.
Example C99_extraction_example : ppfa "a + f(x)[0]" = Ok (GenGet (Call "+" [Name "a"; Call "f" [Name "x"]]) [Num "0"]) /\ ppfa "a + (f(x)[0])" = Ok (Call "+" [Name "a"; GenGet (Call "f" [Name "x"]) [Num "0"]]) /\
  ppfa "a + g[0]" = Ok (Call "+" [Name "a"; Get "g" [Num "0"]]).
Proof. repeat split; vm_compute; reflexivity. Qed.
Example C99_minus_example : is_name "x.y_1" /\ is_unsigned "10.5e+3" /\ ppfa "x.y_1-10.5e+3" = Raise (PyErr "PrettyPfaException") /\ ppfa "x.y_1 -10.5e+3" = Raise (PyErr "PrettyPfaException").
Proof.
  split; [|split; [|split; vm_compute; reflexivity]].
  - split; [|cbn; intuition discriminate]. apply (d_dot "x" "y_1"); [|constructor]; eexists _, _; (split; [reflexivity|]); (split; [unfold one_of; cbn; tauto|]); repeat constructor; unfold one_of; cbn; tauto.
  - exists "10", ".5", "e+3". split; [reflexivity|]. split; [|split]; right.
    + exists "1"%char, "0". split; [reflexivity|]. split; [unfold one_of; cbn; tauto|]. repeat constructor.
    + exists "5". split; [reflexivity|]. repeat constructor; unfold one_of; cbn; tauto.
    + exists "e"%char, "+", "3"%char, "". repeat split; auto; unfold one_of; cbn; try tauto. constructor.
Qed.
Example C99_chains_example : ppfa "a < b == c" = Raise (PyErr "PrettyPfaException") /\ ppfa "(a < b) == c" = Ok (Call "==" [Call "<" [Name "a"; Name "b"]; Name "c"]).
Proof. split; vm_compute; reflexivity. Qed.
Example C99_written_example : written true 0 (Call "-" [Call "-" [Name "a"; Name "b"]; Call "-" [Name "c"; Name "d"]]) ([TName "a"; TOp MINUS; TName "b"] ++ TOp MINUS :: [TL; TName "c"; TOp MINUS; TName "d"; TR]).
Proof.
  apply (w_bin true 0 MINUS); [lia| |].
  - apply (w_bin true 9 MINUS (Name "a") (Name "b") [TName "a"] [TName "b"]); [cbn; lia|constructor|constructor].
  - apply (w_group false 10 (Call "-" [Name "c"; Name "d"]) [TName "c"; TOp MINUS; TName "d"]). apply (w_bin true 0 MINUS (Name "c") (Name "d") [TName "c"] [TName "d"]); [cbn; lia|constructor|constructor].
Qed.
Print Assumptions C99_keywords.
Print Assumptions C99_lexemes.
Print Assumptions C99_tokens.
Print Assumptions C99_levels.
Print Assumptions C99_one_meaning.
Print Assumptions C99_every.
Print Assumptions C99_accepted.
Print Assumptions C99_errors.
Print Assumptions C99_chains.
Print Assumptions C99_minus_refuted.
Print Assumptions C99_sign_refuted.
Print Assumptions C99_extraction_refuted.
Print Assumptions C99_comma_refuted.
