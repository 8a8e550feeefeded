(** Proofs about tokens, and that every expression has a text. *)
From Verif Require Import Base PrettyModel PrettySpec PrettyProofs PrettyProofs2.
Import Ascii.
Open Scope string_scope.
Open Scope list_scope.

Definition among (s : string) (c : ascii) : bool := existsb (Ascii.eqb c) (list_ascii_of_string s).
Lemma one_among s c : one_of s c <-> among s c = true.
Proof. unfold one_of, among. rewrite existsb_exists. split; [intros H; exists c; split; [exact H|apply Ascii.eqb_refl]|intros (x & H & E); apply Ascii.eqb_eq in E; now subst]. Qed.
Ltac each_char c := destruct c as [[] [] [] [] [] [] [] []]; reflexivity.
Lemma letter_eq c : letter c = among letters c. Proof. each_char c. Qed.
Lemma digit_eq c : digit c = among digits c. Proof. each_char c. Qed.
Lemma both_eq c : among (letters ++ digits) c = (letter c || digit c)%bool. Proof. each_char c. Qed.
Lemma nonzero c : among "123456789" c = (digit c && negb (Ascii.eqb c "0"))%bool. Proof. each_char c. Qed.
Lemma letter_digit c : letter c = true -> digit c = false.
Proof. destruct c as [[] [] [] [] [] [] [] []]; cbv; congruence. Qed.

Lemma cons_app c a b : (String c a ++ b)%string = String c (a ++ b). Proof. reflexivity. Qed.
Lemma sapp_assoc (a b c : string) : ((a ++ b) ++ c = a ++ b ++ c)%string.
Proof. induction a as [|x a IH]; [reflexivity|]. cbn. now rewrite IH. Qed.
Lemma span_all p a : (forall c, one_of a c -> p c = true) -> forall b, match b with String c _ => p c = false | EmptyString => True end -> span p (a ++ b) = (a, b).
Proof.
  induction a as [|c a IH]; intros H b Hb; [destruct b as [|c b]; [reflexivity|]; cbn; now rewrite Hb|]. rewrite cons_app. cbn [span]. rewrite (H c) by (now left). rewrite IH; [reflexivity| |exact Hb]. intros x Hx. apply H. now right.
Qed.
Lemma all_digits d : all_of digits d -> forall c, one_of d c -> digit c = true.
Proof. unfold all_of, one_of at 2. rewrite Forall_forall. intros H c Hc. rewrite digit_eq. apply one_among. auto. Qed.

(** ** names *)
Lemma dotname_word w : all_of (letters ++ digits) w -> forall b, match b with String c _ => letter c = false /\ digit c = false | EmptyString => True end ->
  dotname true (w ++ b) = (let (x, y) := dotname true b in ((w ++ x)%string, y)).
Proof.
  unfold all_of. induction w as [|c w IH]; intros H b Hb; [cbn [append]; now destruct (dotname true b)|]. cbn [list_ascii_of_string] in H. inversion H as [|? ? Hc Hw]; subst. rewrite cons_app. cbn [dotname].
  apply one_among in Hc. rewrite both_eq in Hc. cbn [andb]. rewrite Hc, (IH Hw b Hb). now destruct (dotname true b).
Qed.
Lemma dotname_start s b : word s -> match b with String c _ => letter c = false /\ digit c = false | EmptyString => True end ->
  dotname false (s ++ b) = (let (x, y) := dotname true b in ((s ++ x)%string, y)).
Proof.
  intros (c & w & -> & Hc & Hw) Hb. rewrite cons_app. cbn [dotname]. apply one_among in Hc. rewrite <- letter_eq in Hc. rewrite Hc. cbn [orb]. rewrite (dotname_word w Hw b Hb). now destruct (dotname true b).
Qed.
Definition stop_char (b : string) : Prop := match b with String c _ => letter c = false /\ digit c = false /\ Ascii.eqb c "." = false | EmptyString => True end.
Lemma dotname_stop b : stop_char b -> dotname true b = (EmptyString, b).
Proof. destruct b as [|c b]; [reflexivity|]. intros (L & D & P). cbn [dotname andb]. now rewrite L, D, P. Qed.
Lemma sapp_nil (a : string) : (a ++ "")%string = a.
Proof. induction a as [|x a IH]; [reflexivity|]. cbn. now rewrite IH. Qed.
Lemma dotname_dotted n : dotted n -> forall b, stop_char b -> dotname false (n ++ b) = (n, b).
Proof.
  induction 1 as [s W|s n W D IH]; intros b Hb.
  - rewrite (dotname_start s b W), (dotname_stop b Hb), sapp_nil; [reflexivity|]. destruct b; [exact I|]. destruct Hb as (? & ? & ?). now split.
  - rewrite !sapp_assoc. rewrite (dotname_start s _ W) by (cbn; split; reflexivity). cbn [append].
    assert (exists c w, n = String c w /\ letter c = true) as (c & w & -> & Hc).
    { destruct D as [s' (c & w & -> & Hc & _)|s' n' (c & w & -> & Hc & _) _]; apply one_among in Hc; rewrite <- letter_eq in Hc; rewrite ?cons_app; eauto. }
    specialize (IH b Hb). rewrite cons_app in IH |- *. cbn [dotname]. change (letter ".") with false. change (digit ".") with false. cbn [orb andb]. change (Ascii.eqb "." ".") with true. cbn [andb].
    rewrite Hc. cbn [orb]. cbn [dotname] in IH. rewrite Hc in IH. cbn [orb] in IH. destruct (dotname true (w ++ b)) as [x y]. injection IH as -> ->. reflexivity.
Qed.
Lemma dotted_head n : dotted n -> exists c w, n = String c w /\ letter c = true.
Proof. intros D. destruct D as [s' (c & w & -> & Hc & _)|s' n' (c & w & -> & Hc & _) _]; apply one_among in Hc; rewrite <- letter_eq in Hc; rewrite ?cons_app; eauto. Qed.
Lemma name_is_token s : ~ In s keywords -> name_token s = Some (TName s).
Proof.
  intros N. unfold name_token. destruct (String.eqb_spec s "idiv") as [->|_]; [exfalso; apply N; now left|].
  destruct (existsb (String.eqb s) reserved) eqn:E; [|reflexivity]. apply existsb_exists in E as (x & Hx & Ex). apply String.eqb_eq in Ex as <-. exfalso. apply N. now right.
Qed.

(** ** numbers *)
Definition stop_num (b : string) : Prop := match b with String c _ => digit c = false /\ Ascii.eqb c "." = false /\ Ascii.eqb c "e" = false /\ Ascii.eqb c "E" = false | EmptyString => True end.
Lemma stop_digit b : stop_num b -> match b with String c _ => digit c = false | EmptyString => True end.
Proof. destruct b; [trivial|]. now intros (? & _). Qed.
Lemma exponent_ok e b : (e = "" \/ exists l g c d, e = (String l g ++ String c d)%string /\ one_of "eE" l /\ (g = "" \/ g = "-" \/ g = "+") /\ one_of digits c /\ all_of digits d) -> stop_num b ->
  exponent (e ++ b) = (e, b).
Proof.
  intros [->|(l & g & c & d & -> & Hl & Hg & Hc & Hd)] Hb.
  - cbn [append]. destruct b as [|x b]; [reflexivity|]. destruct Hb as (_ & _ & E1 & E2). cbn [exponent]. now rewrite E1, E2.
  - assert (El : (Ascii.eqb l "e" || Ascii.eqb l "E")%bool = true) by (destruct Hl as [<-|[<-|[]]]; reflexivity).
    assert (Dc : digit c = true) by (rewrite digit_eq; now apply one_among). assert (Sp : span digit (String c d ++ b) = (String c d, b)).
    { apply span_all; [|now apply stop_digit]. intros x [<-|Hx]; [exact Dc|]. eapply all_digits; eauto. }
    rewrite sapp_assoc, cons_app. cbn [exponent]. rewrite El. destruct Hg as [->|[->| ->]].
    + cbn [append]. cbn [append] in Sp. rewrite Sp. assert (Ec : (Ascii.eqb c "-" || Ascii.eqb c "+")%bool = false) by (revert Dc; clear; destruct c as [[] [] [] [] [] [] [] []]; cbv; congruence). rewrite Ec. reflexivity.
    + cbn [append]. cbn [append] in Sp. cbn -[span]. now rewrite Sp.
    + cbn [append]. cbn [append] in Sp. cbn -[span]. now rewrite Sp.
Qed.
Lemma exponent_head e : (e = "" \/ exists l g c d, e = (String l g ++ String c d)%string /\ one_of "eE" l /\ (g = "" \/ g = "-" \/ g = "+") /\ one_of digits c /\ all_of digits d) -> forall b, stop_num b ->
  match (e ++ b)%string with String c _ => digit c = false /\ Ascii.eqb c "." = false | EmptyString => True end.
Proof.
  intros [->|(l & g & c & d & -> & Hl & _)] b Hb; [destruct b; [exact I|]; destruct Hb as (? & ? & _); now split|]. rewrite sapp_assoc, cons_app. destruct Hl as [<-|[<-|[]]]; split; reflexivity.
Qed.
Lemma fraction_ok f r : (f = "" \/ exists d, f = ("." ++ d)%string /\ all_of digits d) -> match r with String c _ => digit c = false /\ Ascii.eqb c "." = false | EmptyString => True end ->
  fraction (f ++ r) = (f, r).
Proof.
  intros [->|(d & -> & Hd)] Hr.
  - cbn [append]. destruct r as [|c r]; [reflexivity|]. destruct Hr as [_ E]. cbn [fraction]. now rewrite E.
  - cbn [append fraction]. change (Ascii.eqb "." ".") with true. cbn iota. rewrite (span_all digit d (all_digits d Hd)); [reflexivity|]. destruct r; [exact I|]. now destruct Hr.
Qed.
Lemma unsigned_ok u : is_unsigned u -> forall b, stop_num b -> unsigned (u ++ b) = (u, b).
Proof.
  intros (w & f & e & -> & Hw & Hf & He) b Hb. rewrite !sapp_assoc. unfold unsigned.
  assert (W : whole (w ++ f ++ e ++ b) = (w, (f ++ e ++ b)%string)).
  { destruct Hw as [->|(c & d & -> & Hc & Hd)]; [reflexivity|]. apply one_among in Hc. rewrite nonzero in Hc. apply andb_prop in Hc as [Dc Zc]. apply Bool.negb_true_iff in Zc. rewrite cons_app. cbn [whole]. rewrite Zc, <- cons_app.
    apply span_all; [intros x [<-|Hx]; [exact Dc|]; eapply all_digits; eauto|]. destruct Hf as [->|(d' & -> & _)]; [|reflexivity]. cbn [append]. pose proof (exponent_head e He b Hb) as Hh. destruct (e ++ b)%string; [exact I|]. now destruct Hh. }
  rewrite W, (fraction_ok f (e ++ b) Hf (exponent_head e He b Hb)), (exponent_ok e b He Hb). reflexivity.
Qed.
Lemma unsigned_head u : is_unsigned u -> exists c r, u = String c r /\ digit c = true.
Proof.
  intros (w & f & e & -> & Hw & _). destruct Hw as [->|(c & d & -> & Hc & Hd)]; rewrite cons_app; eexists _, _; (split; [reflexivity|]); [reflexivity|]. apply one_among in Hc. rewrite nonzero in Hc. now apply andb_prop in Hc as [Dc _].
Qed.

(** ** tokens *)
Lemma span_quote s b : ~ one_of s (ascii_of_nat 39) -> span (fun x => negb (Ascii.eqb x (ascii_of_nat 39))) (s ++ String (ascii_of_nat 39) b) = (s, String (ascii_of_nat 39) b).
Proof. intros N. apply span_all; [|reflexivity]. intros c Hc. destruct (Ascii.eqb_spec c (ascii_of_nat 39)) as [->|_]; [contradiction|reflexivity]. Qed.
Lemma digit_not c : digit c = true -> (blank c || newline c)%bool = false /\ letter c = false /\ Ascii.eqb c "/" = false.
Proof. destruct c as [[] [] [] [] [] [] [] []]; cbv; repeat split; congruence. Qed.
Lemma letter_not c : letter c = true -> (blank c || newline c)%bool = false /\ Ascii.eqb c "/" = false.
Proof. destruct c as [[] [] [] [] [] [] [] []]; cbv; repeat split; congruence. Qed.
Lemma digit_first c s b : is_unsigned (String c s) -> stop_num b -> lex1 c (s ++ b) = Lexeme (TNum (String c s)) b.
Proof.
  intros U Hb. destruct (unsigned_head _ U) as (c' & r & E & D). injection E as <- <-. destruct (digit_not c D) as (B & Lc & Sc). unfold lex1. rewrite B, Sc, Lc, D. cbn [andb]. rewrite <- cons_app, (unsigned_ok _ U b Hb). reflexivity.
Qed.
Definition ended (r : string) : Prop := match r with EmptyString => True | String c _ => one_of white c end.
Lemma ended_stop r : ended r -> stop_char r /\ stop_num r.
Proof. destruct r as [|c r]; [now split|]. intros [<-|[<-|[<-|[<-|[]]]]]; repeat split. Qed.
Lemma lex1_says t x r : says t x -> ended r -> exists c s, x = String c s /\ lex1 c (s ++ r) = Lexeme t r.
Proof.
  intros H Hr. destruct (ended_stop r Hr) as [S1 S2].
  assert (OP : forall y, (exists c s, y = String c s /\ forall c' r', In c' (list_ascii_of_string white) -> lex1 c (s ++ "") = Lexeme t "" /\ lex1 c (s ++ String c' r') = Lexeme t (String c' r')) -> exists c s, y = String c s /\ lex1 c (s ++ r) = Lexeme t r).
  { intros y (c & s & -> & Q). exists c, s. split; [reflexivity|]. destruct r as [|c' r']; [exact (proj1 (Q (ascii_of_nat 32) "" ltac:(now left)))|exact (proj2 (Q c' r' Hr))]. }
  destruct H as [s [U|(u & -> & U)]|s N|s [D K]| |o No| | | | | | |];
    try (apply OP; eexists _, _; split; [reflexivity|]; intros c' r' [<-|[<-|[<-|[<-|[]]]]]; split; reflexivity).
  - destruct (unsigned_head _ U) as (c & s' & -> & _). eexists _, _. split; [reflexivity|]. now apply digit_first.
  - exists "-"%char, u. split; [reflexivity|]. destruct (unsigned_head _ U) as (c & s' & -> & Dc). unfold lex1. cbn -[unsigned digit]. rewrite Dc. rewrite <- cons_app, (unsigned_ok _ U r S2). reflexivity.
  - exists (ascii_of_nat 39), (s ++ quote)%string. split; [reflexivity|]. unfold quote. rewrite sapp_assoc. cbn [append]. unfold lex1. change (blank (ascii_of_nat 39) || newline (ascii_of_nat 39))%bool with false. change (letter (ascii_of_nat 39)) with false. change (digit (ascii_of_nat 39)) with false.
    change (Ascii.eqb (ascii_of_nat 39) "/") with false. change (Ascii.eqb (ascii_of_nat 39) "-") with false. change (Ascii.eqb (ascii_of_nat 39) (ascii_of_nat 39)) with true. cbn [andb]. cbn iota. rewrite (span_quote s r N). reflexivity.
  - destruct (dotted_head s D) as (c & w & -> & Lc). exists c, w. split; [reflexivity|]. destruct (letter_not c Lc) as (B & Sc). unfold lex1. rewrite B, Sc, Lc. cbn [andb]. rewrite <- cons_app, (dotname_dotted _ D r S1). now rewrite (name_is_token _ K).
  - apply OP. destruct o; try contradiction; eexists _, _; (split; [reflexivity|]); intros c' r' [<-|[<-|[<-|[<-|[]]]]]; split; reflexivity.
Qed.
Lemma slength a b : String.length (a ++ b)%string = (String.length a + String.length b)%nat.
Proof. induction a as [|q a IHa]; cbn; [reflexivity|now rewrite IHa]. Qed.
Lemma white_skip c s : one_of white c -> lex1 c s = Skip s.
Proof. now intros [<-|[<-|[<-|[<-|[]]]]]. Qed.
Lemma lex_filling f : filling f -> forall s ts, (forall fuel, (String.length s <= fuel)%nat -> lex fuel s = Ok ts) -> forall fuel, (String.length (f ++ s) <= fuel)%nat -> lex fuel (f ++ s) = Ok ts.
Proof.
  induction 1 as [|c f Hc F IH|x f N F IH]; intros s ts H fuel L; [now apply H| |].
  - rewrite cons_app in *. cbn [String.length] in L. destruct fuel as [|fuel]; [lia|]. cbn [lex]. rewrite (white_skip _ _ Hc). apply IH; [exact H|lia].
  - rewrite !sapp_assoc in *. cbn [append] in *. unfold line_end in *. cbn [append] in *. cbn [String.length] in L. rewrite slength in L. cbn [String.length] in L. destruct fuel as [|[|fuel]]; try lia. cbn [lex].
    assert (E : lex1 "/" (String "/" (x ++ String (ascii_of_nat 10) (f ++ s))) = Skip (String (ascii_of_nat 10) (f ++ s))).
    { unfold lex1. change (blank "/" || newline "/")%bool with false. change (Ascii.eqb "/" "/") with true. cbn [andb]. cbn iota. f_equal. rewrite <- cons_app.
      rewrite (span_all _ (String "/" x)); [reflexivity| |reflexivity]. intros c [<-|Hc]; [reflexivity|]. destruct (Nat.eqb_spec (nat_of_ascii c) 10) as [E|]; [|reflexivity]. exfalso. apply N. rewrite <- E, ascii_nat_embedding. exact Hc. }
    rewrite E. cbn [lex]. change (lex1 (ascii_of_nat 10) (f ++ s)) with (Skip (f ++ s)). cbn iota. apply IH; [exact H|lia].
Qed.
Lemma lex_spaced ts s : spaced ts s -> forall fuel, (String.length s <= fuel)%nat -> lex fuel s = Ok ts.
Proof.
  induction 1 as [|t x T|t x c f ts s T Hc F Sp IH]; intros fuel L; [now destruct fuel| |].
  - destruct (lex1_says t x "" T I) as (c & y & -> & E). rewrite sapp_nil in E. destruct fuel as [|fuel]; [cbn in L; lia|]. cbn [lex]. rewrite E. now destruct fuel.
  - destruct (lex1_says t x (String c (f ++ s)) T Hc) as (c' & y & -> & E). rewrite cons_app in L |- *. destruct fuel as [|fuel]; [cbn in L; lia|]. cbn [lex]. rewrite E.
    cbn [String.length] in L. rewrite slength in L. cbn [String.length] in L. destruct fuel as [|fuel]; [lia|]. cbn [lex]. rewrite (white_skip _ _ Hc). rewrite (lex_filling f F s ts IH) by lia. reflexivity.
Qed.

(** ** every expression has a text *)
Definition said (ts : list token) : Prop := Forall (fun t => exists x, says t x) ts.
Lemma said_spaced ts : said ts -> exists s, spaced ts s.
Proof. induction 1 as [|t ts [x H] F [s IH]]; eexists; [constructor|]. eapply sp_cons; [exact H|now left|apply f_nil|exact IH]. Qed.
Lemma said_commas tss : Forall said tss -> said (commas tss).
Proof.
  induction 1 as [|ts tss H F IH]; [constructor|]. destruct tss as [|ts' tss]; [exact H|]. change (commas (ts :: ts' :: tss)) with (ts ++ TComma :: commas (ts' :: tss)).
  apply Forall_app; split; [exact H|]. constructor; [eexists; constructor|exact IH].
Qed.
Fixpoint rank (t : tree) : nat := match t with Num _ | Str _ | Name _ => 1 | Call _ l | Get _ l => S (list_max (map rank l)) | GenGet e l => S (Nat.max (rank e) (list_max (map rank l))) end.
Lemma writable : forall n t, (rank t < n)%nat -> sayable t -> exists ts, written true 0 t ts /\ said ts.
Proof.
  induction n as [|n IH]; intros t L Y; [lia|].
  assert (A : forall l, (list_max (map rank l) < n)%nat -> Forall sayable l -> exists tss, Forall2 (written true 0) l tss /\ Forall said tss).
  { induction l as [|x l IHl]; intros H Fy; [exists []; now split|]. unfold list_max in *. cbn [map fold_right] in H. inversion Fy; subst. destruct (IH x) as (ts & W & Sd); [lia|assumption|]. destruct IHl as (tss & F & G); [lia|assumption|]. exists (ts :: tss). now split; constructor. }
  assert (G : forall f k ts x, written true 0 x ts -> said ts -> written f k x (TL :: ts ++ [TR]) /\ said (TL :: ts ++ [TR])).
  { intros f k ts x W Sd. split; [now apply w_group|]. constructor; [eexists; constructor|]. apply Forall_app. split; [exact Sd|]. repeat constructor. eexists; constructor. }
  destruct Y as [s H|s H|s H|o l r Yl Yr|u t Yt|s args N Ya|s args N Ya|t args Yt Ya].
  - exists [TNum s]. split; [constructor|]. repeat constructor. eexists; now constructor.
  - exists [TStr s]. split; [constructor|]. repeat constructor. eexists; now constructor.
  - exists [TName s]. split; [constructor|]. repeat constructor. eexists; now constructor.
  - cbn [rank map list_max fold_right] in L. unfold list_max in L. cbn [fold_right] in L. destruct (IH l) as (tl & Wl & Sl); [lia|assumption|]. destruct (IH r) as (tr & Wr & Sr); [lia|assumption|].
    destruct (G true (if comparison o then S (binds o) else binds o) tl l Wl Sl) as [Wl' Sl']. destruct (G false (S (binds o)) tr r Wr Sr) as [Wr' Sr'].
    eexists. split; [eapply w_bin; [|exact Wl'|exact Wr']; lia|]. apply Forall_app. split; [exact Sl'|]. constructor; [|exact Sr']. destruct o; eexists; try (apply say_op; discriminate). constructor.
  - cbn [rank map list_max fold_right] in L. unfold list_max in L. cbn [fold_right] in L. destruct (IH t) as (ts & W & Sd); [lia|assumption|]. destruct (G false (sign_binds u) ts t W Sd) as [W' S'].
    eexists. split; [eapply w_un; [|exact W']; lia|]. constructor; [|exact S']. destruct u; eexists; [apply say_op; discriminate|constructor|constructor].
  - cbn [rank] in L. destruct (A args) as (tss & F & Sd); [lia|assumption|]. eexists. split; [apply w_call; exact F|]. constructor; [eexists; now constructor|]. constructor; [eexists; constructor|]. apply Forall_app. split; [now apply said_commas|]. repeat constructor. eexists; constructor.
  - cbn [rank] in L. destruct (A args) as (tss & F & Sd); [lia|assumption|]. eexists. split; [apply w_get; exact F|]. constructor; [eexists; now constructor|]. constructor; [eexists; constructor|]. apply Forall_app. split; [now apply said_commas|]. repeat constructor. eexists; constructor.
  - cbn [rank] in L. destruct (A args) as (tss & F & Sd); [lia|assumption|]. destruct (IH t) as (ts & W & Sx); [lia|assumption|]. destruct (G true tight ts t W Sx) as [W' S'].
    eexists. split; [eapply w_genget; [exact W'| |exact F]; intros s; rewrite app_comm_cons, last_last; discriminate|]. apply Forall_app. split; [exact S'|]. constructor; [eexists; constructor|]. apply Forall_app. split; [now apply said_commas|]. repeat constructor. eexists; constructor.
Qed.
