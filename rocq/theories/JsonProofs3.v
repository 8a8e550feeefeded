(** Proofs about JsonModel: comparison. *)
From Verif Require Import Base PyNum PyNumProofs NumOrder ScopeModel TypeModel TypeSpec TypeProofs TypeProofs2 JsonModel JsonSpec JsonFuel JsonProofs.
Require Ascii.
Open Scope string_scope.
Open Scope list_scope.
Open Scope Z_scope.

(** compare-like results that fit together *)
Definition fit3 {A} (f : A -> A -> res Z) (x y z : A) : Prop :=
  exists a b c, f x y = Ok a /\ f y z = Ok b /\ f x z = Ok c /\ f y x = Ok (- a) /\ f x x = Ok 0 /\ transitive3 a b c.
Ltac signs :=
  repeat match goal with
  | H : transitive3 _ _ _ |- _ => destruct H as (? & ? & ? & ? & ? & ?)
  | H : sign ?a |- _ => unfold sign in H; destruct H as [H|[H|H]]; rewrite H in *; clear H
  end.
Lemma t3_intro a b c : sign a -> sign b -> sign c -> (a = 0 -> c = b) -> (b = 0 -> c = a) -> (a = b -> c = a) -> transitive3 a b c.
Proof. unfold transitive3. tauto. Qed.
Lemma t3_zero : transitive3 0 0 0.
Proof. apply t3_intro; unfold sign; auto. Qed.
(** lexicographic combination *)
Lemma t3_lex a b c a' b' c' : transitive3 a b c -> transitive3 a' b' c' ->
  transitive3 (if a =? 0 then a' else a) (if b =? 0 then b' else b) (if c =? 0 then c' else c).
Proof.
  intros (A & B & C & H1 & H2 & H3) (A' & B' & C' & H1' & H2' & H3').
  assert (Q : forall a a', sign a -> sign a' -> sign (if a =? 0 then a' else a)) by (intros u v; destruct (u =? 0); auto).
  destruct A as [-> |[-> | ->]], B as [-> |[-> | ->]]; cbn [Z.eqb] in *;
    try (rewrite (H1 eq_refl)); try (rewrite (H2 eq_refl)); try (rewrite (H3 eq_refl)); cbn [Z.eqb];
    apply t3_intro; auto; try (unfold sign; lia); intros E; try lia;
    unfold sign in A', B', C'; try subst; try lia.
Qed.
Lemma t3_neg a b c : transitive3 a b c -> transitive3 (- a) (- b) (- c).
Proof. intros (A & B & C & H1 & H2 & H3). unfold sign in *. apply t3_intro; unfold sign; lia. Qed.
Lemma sign_kcmp p q : sign (sign_of (kcmp p q)).
Proof. destruct (kcmp p q); cbn; unfold sign; auto. Qed.
Lemma kcmp_anti p q : sign_of (kcmp p q) = - sign_of (kcmp q p).
Proof.
  unfold kcmp. rewrite (Z.compare_antisym (fst q) (fst p)), (Z.compare_antisym (snd q) (snd p)).
  destruct (fst q ?= fst p), (snd q ?= snd p); reflexivity.
Qed.
Lemma kcmp_refl p : kcmp p p = Eq.
Proof. unfold kcmp. now rewrite !Z.compare_refl. Qed.
Lemma t3_Z a b c : transitive3 (sign_of (a ?= b)) (sign_of (b ?= c)) (sign_of (a ?= c)).
Proof.
  apply t3_intro; destruct (Z.compare_spec a b), (Z.compare_spec b c), (Z.compare_spec a c); cbn; unfold sign; auto; lia.
Qed.
Lemma kcmp_lex p q : sign_of (kcmp p q) = if sign_of (fst p ?= fst q) =? 0 then sign_of (snd p ?= snd q) else sign_of (fst p ?= fst q).
Proof. unfold kcmp. destruct (fst p ?= fst q); reflexivity. Qed.
Lemma t3_kcmp p q r : transitive3 (sign_of (kcmp p q)) (sign_of (kcmp q r)) (sign_of (kcmp p r)).
Proof. rewrite !kcmp_lex. apply t3_lex; apply t3_Z. Qed.
Lemma fit3_key {A} (k : A -> Z * Z) (f : A -> A -> res Z) x y z :
  (forall u v, (u = x \/ u = y \/ u = z) -> (v = x \/ v = y \/ v = z) -> f u v = Ok (sign_of (kcmp (k u) (k v)))) -> fit3 f x y z.
Proof.
  intros H. exists (sign_of (kcmp (k x) (k y))), (sign_of (kcmp (k y) (k z))), (sign_of (kcmp (k x) (k z))).
  rewrite !H by auto. rewrite kcmp_refl. split; [reflexivity|]. split; [reflexivity|]. split; [reflexivity|].
  split; [f_equal; apply kcmp_anti|]. split; [reflexivity|apply t3_kcmp].
Qed.
Lemma fit3_Z {A} (k : A -> Z) (f : A -> A -> res Z) x y z :
  (forall u v, (u = x \/ u = y \/ u = z) -> (v = x \/ v = y \/ v = z) -> f u v = Ok (sign_of (k u ?= k v))) -> fit3 f x y z.
Proof. intros H. apply fit3_key with (fun a => (0, k a)). intros u v Hu Hv. rewrite H by auto. unfold kcmp. reflexivity. Qed.

(** *** Strings *)
Lemma str_cmp_step c s d r : sign_of (str_cmp (String c s) (String d r)) =
  (if sign_of (char_code c ?= char_code d) =? 0 then sign_of (str_cmp s r) else sign_of (char_code c ?= char_code d)).
Proof. cbn [str_cmp]. unfold char_code. rewrite N2Z.inj_compare. destruct (N.compare (Ascii.N_of_ascii c) (Ascii.N_of_ascii d)); reflexivity. Qed.
Lemma str_cmp_refl s : str_cmp s s = Eq.
Proof. induction s as [|c s IH]; cbn; [reflexivity|]. now rewrite N.compare_refl. Qed.
Lemma str_cmp_anti s : forall r, sign_of (str_cmp r s) = - sign_of (str_cmp s r).
Proof.
  induction s as [|c s IH]; intros [|d r]; try reflexivity. rewrite !str_cmp_step, IH.
  rewrite (Z.compare_antisym (char_code c) (char_code d)). destruct (char_code c ?= char_code d); reflexivity.
Qed.
Lemma t3_str x : forall y z, transitive3 (sign_of (str_cmp x y)) (sign_of (str_cmp y z)) (sign_of (str_cmp x z)).
Proof.
  induction x as [|c x IH]; intros [|d y] [|e z];
    try (rewrite !str_cmp_step; apply t3_lex; [apply t3_Z|apply IH]);
    cbn; try (match goal with |- context [match ?m with Eq => _ | Lt => _ | Gt => _ end] => generalize m; intros []; cbn end);
    try match goal with |- context [sign_of ?m] => generalize m; intros [] end; unfold transitive3, sign; cbn; lia.
Qed.
Lemma fit3_str x y z : fit3 (fun a b => Ok (sign_of (str_cmp a b))) x y z.
Proof.
  exists (sign_of (str_cmp x y)), (sign_of (str_cmp y z)), (sign_of (str_cmp x z)). rewrite str_cmp_refl.
  split; [reflexivity|]. split; [reflexivity|]. split; [reflexivity|]. split; [f_equal; apply str_cmp_anti|]. split; [reflexivity|apply t3_str].
Qed.

(** *** Numbers *)
Definition dkey (E : Z) (a : num) : Z * Z := if num_nan a then (2, 0) else nkey E a.
Lemma num_sign_key E x y : vnum x -> vnum y -> num_nan x = false -> num_nan y = false -> E <= exp_of x -> E <= exp_of y ->
  num_sign x y = sign_of (kcmp (nkey E x) (nkey E y)).
Proof. intros. unfold num_sign, num_gt, num_lt. rewrite (num_cmp_key E) by auto. destruct (kcmp _ _); reflexivity. Qed.
Lemma nkey_lt2 E a : fst (nkey E a) < 2.
Proof. destruct a as [z|[s|[]| |s m e]]; cbn; lia. Qed.
Lemma float_num_num v : float_num v -> exists a, num_of v = Some a /\ vnum a /\ py_isnan a = Ok (num_nan a) /\ num_nan a = is_nan v.
Proof.
  destruct v; cbn; try tauto; intros H.
  - exists (NI z). split; [reflexivity|]. split; [exact I|]. split; [now apply py_isnan_int|reflexivity].
  - exists (NF f). split; [reflexivity|]. split; [exact H|]. split; reflexivity.
Qed.
Lemma double_sign_key E x y : vnum x -> vnum y -> py_isnan x = Ok (num_nan x) -> py_isnan y = Ok (num_nan y) ->
  E <= exp_of x -> E <= exp_of y -> double_sign x y = Ok (sign_of (kcmp (dkey E x) (dkey E y))).
Proof.
  intros Vx Vy Nx Ny Ex Ey. unfold double_sign. rewrite Nx, Ny. cbn [rbind]. unfold dkey.
  pose proof (nkey_lt2 E x). pose proof (nkey_lt2 E y).
  destruct (num_nan x) eqn:Ix, (num_nan y) eqn:Iy; f_equal.
  - unfold kcmp. cbn [fst snd]. destruct (Z.compare_spec 2 (fst (nkey E y))); [lia|lia|reflexivity].
  - unfold kcmp. cbn [fst snd]. destruct (Z.compare_spec (fst (nkey E x)) 2); [lia|reflexivity|lia].
  - now rewrite (num_sign_key E).
Qed.

(** *** Arrays and records *)
Lemma cmp_len_nil {A} (x y : list A) : cmp_len x y = sign_of (Z.of_nat (length x) ?= Z.of_nat (length y)).
Proof. unfold cmp_len. now rewrite Nat2Z.inj_compare. Qed.
Definition fit2 {A} (f : A -> A -> res Z) (x y : A) : Prop :=
  exists a, f x y = Ok a /\ sign a /\ f y x = Ok (- a) /\ f x x = Ok 0 /\ f y y = Ok 0.
Lemma zip2 (f : val -> val -> res Z) xs : forall ys, (forall x y, In x (xs ++ ys) -> In y (xs ++ ys) -> fit2 f x y) ->
  fit2 (fun a b => cmp_zip f a b (cmp_len a b)) xs ys.
Proof.
  assert (R : forall l, (forall x, In x l -> f x x = Ok 0) -> cmp_zip f l l (cmp_len l l) = Ok 0).
  { induction l as [|x l IH]; intros H; [reflexivity|]. unfold cmp_len in *. cbn [cmp_zip length Nat.compare].
    rewrite H by now left. cbn [rbind Z.eqb]. apply IH. intros; apply H; now right. }
  induction xs as [|x xs IH]; intros ys H.
  - assert (RY : cmp_zip f ys ys (cmp_len ys ys) = Ok 0) by (apply R; intros y Hy; destruct (H y y) as (a & _ & _ & _ & E & _); auto).
    destruct ys; [exists 0|exists (-1)]; unfold sign; repeat split; auto.
  - assert (RX : cmp_zip f (x :: xs) (x :: xs) (cmp_len (x :: xs) (x :: xs)) = Ok 0).
    { apply R. intros u Hu. destruct (H u u) as (a & _ & _ & _ & E & _); auto; apply in_or_app; now left. }
    assert (RY : cmp_zip f ys ys (cmp_len ys ys) = Ok 0).
    { apply R. intros u Hu. destruct (H u u) as (a & _ & _ & _ & E & _); auto; apply in_or_app; now right. }
    destruct ys as [|y ys]; [exists 1; unfold sign; repeat split; auto|].
    destruct (H x y) as (a & Ha & Sa & Hb & _ & _); [now left|apply in_or_app; right; now left|].
    destruct (IH ys) as (c & Hc & Sc & Hd & _ & _).
    { intros u v Hu Hv. apply H; right; apply in_or_app; apply in_app_or in Hu, Hv; cbn; tauto. }
    exists (if a =? 0 then c else a). unfold cmp_len in *. cbn [cmp_zip length Nat.compare] in *. rewrite Ha, Hb. cbn [rbind].
    destruct (Z.eqb_spec a 0) as [->|Na]; cbn [Z.opp Z.eqb].
    + auto.
    + replace (- a =? 0) with false by lia. auto.
Qed.
Lemma fit3_2 {A} (f : A -> A -> res Z) x y : fit3 f x y y -> fit3 f y x x -> fit2 f x y.
Proof.
  intros (a & b & c & H1 & H2 & H3 & H4 & H5 & Ht) (a' & b' & c' & G1 & G2 & G3 & G4 & G5 & Gt). exists a. destruct Ht. auto.
Qed.
Lemma fit3_zip (f : val -> val -> res Z) (xs : list val) : forall ys zs,
  (forall x y z, In x (xs ++ ys ++ zs) -> In y (xs ++ ys ++ zs) -> In z (xs ++ ys ++ zs) -> fit3 f x y z) ->
  fit3 (fun a b => cmp_zip f a b (cmp_len a b)) xs ys zs.
Proof.
  intros ys zs H.
  assert (H2 : forall x y, In x (xs ++ ys ++ zs) -> In y (xs ++ ys ++ zs) -> fit2 f x y) by (intros; apply fit3_2; auto).
  assert (XY : fit2 (fun a b => cmp_zip f a b (cmp_len a b)) xs ys) by (apply zip2; intros; apply H2; rewrite !in_app_iff in *; tauto).
  assert (YZ : fit2 (fun a b => cmp_zip f a b (cmp_len a b)) ys zs) by (apply zip2; intros; apply H2; rewrite !in_app_iff in *; tauto).
  assert (XZ : fit2 (fun a b => cmp_zip f a b (cmp_len a b)) xs zs) by (apply zip2; intros; apply H2; rewrite !in_app_iff in *; tauto).
  destruct XY as (a & E1 & S1 & E2 & E3 & _), YZ as (b & F1 & S2 & _), XZ as (c & G1 & S3 & _).
  exists a, b, c. do 5 (split; [assumption|]). clear E2 E3 H2.
  revert ys zs H a b c E1 F1 G1 S1 S2 S3. induction xs as [|x xs IH]; intros [|y ys] [|z zs] H a b c E1 F1 G1 S1 S2 S3;
    unfold cmp_len in *; cbn [cmp_zip length Nat.compare sign_of] in *;
    try (injection E1 as <-); try (injection F1 as <-); try (injection G1 as <-);
    try (unfold sign in S1, S2, S3; apply t3_intro; unfold sign; lia).
  destruct (H x y z) as (a0 & b0 & c0 & P1 & P2 & P3 & _ & _ & PT); [rewrite !in_app_iff; cbn; auto..|].
  rewrite P1, P2, P3 in *. cbn [rbind] in *.
  assert (Q : forall s1 s2 s3, cmp_zip f xs ys (sign_of (Nat.compare (length xs) (length ys))) = Ok s1 -> sign s1 ->
     cmp_zip f ys zs (sign_of (Nat.compare (length ys) (length zs))) = Ok s2 -> sign s2 ->
     cmp_zip f xs zs (sign_of (Nat.compare (length xs) (length zs))) = Ok s3 -> sign s3 -> transitive3 s1 s2 s3).
  { intros s1 s2 s3 Q1 ? Q2 ? Q3 ?. apply (IH ys zs); auto.
    intros u v w Hu Hv Hw. apply H; rewrite !in_app_iff in *; cbn; rewrite ?in_app_iff; tauto. }
  assert (TOT : forall us vs, incl us (xs ++ ys ++ zs) -> incl vs (xs ++ ys ++ zs) ->
     exists s, cmp_zip f us vs (sign_of (Nat.compare (length us) (length vs))) = Ok s /\ sign s).
  { intros us vs Hu Hv. destruct (zip2 f us vs) as (s & Q1 & Q2 & _).
    - intros u v Iu Iv. apply fit3_2; apply H;
        (assert (forall e, In e (us ++ vs) -> In e ((x :: xs) ++ (y :: ys) ++ z :: zs)) as I;
         [intros e Ie; apply in_app_or in Ie as [Ie|Ie]; [apply Hu in Ie|apply Hv in Ie]; rewrite !in_app_iff in *; cbn; tauto|auto]).
    - exists s. auto. }
  destruct (TOT xs ys) as (s1 & T1 & T1s); [apply incl_appl, incl_refl|apply incl_appr, incl_appl, incl_refl|].
  destruct (TOT ys zs) as (s2 & T2 & T2s); [apply incl_appr, incl_appl, incl_refl|apply incl_appr, incl_appr, incl_refl|].
  destruct (TOT xs zs) as (s3 & T3 & T3s); [apply incl_appl, incl_refl|apply incl_appr, incl_appr, incl_refl|].
  specialize (Q s1 s2 s3 T1 T1s T2 T2s T3 T3s). pose proof (t3_lex _ _ _ _ _ _ PT Q) as L.
  rewrite T1, T2, T3 in *.
  replace a with (if a0 =? 0 then s1 else a0) by (destruct (a0 =? 0); congruence).
  replace b with (if b0 =? 0 then s2 else b0) by (destruct (b0 =? 0); congruence).
  replace c with (if c0 =? 0 then s3 else c0) by (destruct (c0 =? 0); congruence).
  exact L.
Qed.

Lemma fit3_fields (f : ty -> val -> val -> res Z) fs : forall x y z : list (string * val),
  (forall fd, In fd fs -> f_order fd = Some "ignore" \/
     exists a b c, assoc (f_name fd) x = Some a /\ assoc (f_name fd) y = Some b /\ assoc (f_name fd) z = Some c /\ fit3 (f (f_type fd)) a b c) ->
  fit3 (cmp_fields f fs) x y z.
Proof.
  induction fs as [|fd fs IH]; intros x y z H.
  - exists 0, 0, 0. do 5 (split; [reflexivity|]). apply t3_zero.
  - destruct (IH x y z) as (a & b & c & H1 & H2 & H3 & H4 & H5 & T); [intros; apply H; now right|].
    destruct (match f_order fd with Some o => String.eqb o "ignore" | None => false end) eqn:Ig.
    { exists a, b, c. cbn [cmp_fields]. rewrite Ig. do 5 (split; [assumption|]). exact T. }
    destruct (H fd (or_introl eq_refl)) as [E|(u & v & w & X & Y & ZZ & a0 & b0 & c0 & G1 & G2 & G3 & G4 & G5 & G)];
      [rewrite E in Ig; discriminate|].
    set (d := match f_order fd with Some o => String.eqb o "descending" | None => false end).
    set (s := fun k : Z => if d then - k else k).
    assert (T0 : transitive3 (s a0) (s b0) (s c0)) by (unfold s; destruct d; [now apply t3_neg|exact G]).
    assert (S0 : forall k, s k = 0 <-> k = 0) by (intros k; unfold s; destruct d; lia).
    assert (E : forall p q p' q' k r, assoc (f_name fd) p = Some p' -> assoc (f_name fd) q = Some q' -> f (f_type fd) p' q' = Ok k ->
       cmp_fields f fs p q = Ok r -> cmp_fields f (fd :: fs) p q = Ok (if s k =? 0 then r else s k)).
    { intros p q p' q' k r A1 A2 A3 A4. cbn [cmp_fields]. rewrite Ig. unfold lookup_key. rewrite A1, A2. cbn [rbind]. rewrite A3. cbn [rbind].
      destruct (Z.eqb_spec k 0) as [->|Nk].
      - rewrite (proj2 (Z.eqb_eq (s 0) 0)) by now apply S0. exact A4.
      - rewrite (proj2 (Z.eqb_neq (s k) 0)) by now rewrite S0. unfold s. fold d. destruct d; reflexivity. }
    exists (if s a0 =? 0 then a else s a0), (if s b0 =? 0 then b else s b0), (if s c0 =? 0 then c else s c0).
    split; [now apply (E x y u v)|]. split; [now apply (E y z v w)|]. split; [now apply (E x z u w)|].
    split; [|split; [|now apply t3_lex]].
    + rewrite (E y x v u (- a0) (- a)) by assumption. f_equal.
      destruct (Z.eqb_spec (s a0) 0) as [K|K]; rewrite S0 in K.
      * subst a0. rewrite (proj2 (Z.eqb_eq _ 0)) by now apply S0. reflexivity.
      * rewrite (proj2 (Z.eqb_neq (s (- a0)) 0)) by (rewrite S0; lia). unfold s. destruct d; lia.
    + rewrite (E x x u u 0 0) by assumption. rewrite (proj2 (Z.eqb_eq (s 0) 0)) by now apply S0. reflexivity.
Qed.

(** *** Unions *)
Lemma position_In ts : forall t, NoDup (map tyname ts) -> In t ts -> exists i, position (tyname t) ts = Some (i, t) /\ 0 <= i.
Proof.
  induction ts as [|u ts IH]; intros t N I; [destruct I|]. cbn in N. inversion N as [|? ? Nu N']; subst. cbn [position].
  destruct I as [->|I]; [exists 0; rewrite String.eqb_refl; split; [reflexivity|lia]|].
  destruct (String.eqb_spec (tyname u) (tyname t)) as [E|_].
  - exfalso. apply Nu. rewrite E. now apply in_map.
  - destruct (IH t N' I) as (i & Hi & Pi). exists (i + 1). rewrite Hi. split; [reflexivity|lia].
Qed.
Lemma position_nth ts g i t : position g ts = Some (i, t) -> 0 <= i /\ nth_error ts (Z.to_nat i) = Some t.
Proof.
  revert i t. induction ts as [|u ts IH]; intros i t H; [discriminate|]. cbn [position] in H.
  destruct (String.eqb (tyname u) g); [injection H as <- <-; split; [lia|reflexivity]|].
  destruct (position g ts) as [[j t']|]; [|discriminate]. cbn in H. injection H as <- <-.
  destruct (IH j t' eq_refl) as [P Q]. split; [lia|]. replace (Z.to_nat (j + 1)) with (S (Z.to_nat j)) by lia. exact Q.
Qed.
Lemma last_null n D ts : n <> O -> (forall t, In t ts -> wf t /\ is_union t = false) -> NoDup (map tyname ts) ->
  forall i found, last_type (fun t => encode n D true t VNull) i ts found =
    Ok (match position "null" ts with Some (j, t) => if match t with TNull => true | _ => false end then Some (i + j, t) else found | None => found end)
    \/ exists t, In t ts /\ tyname t = "null" /\ t <> TNull.
Proof.
  intros Hn. destruct n as [|n]; [congruence|]. clear Hn.
  induction ts as [|t ts IH]; intros W N i found; [left; reflexivity|]. inversion N as [|? ? Nt N']; subst.
  assert (W' : forall t, In t ts -> wf t /\ is_union t = false) by (intros; apply W; now right).
  destruct (W t (or_introl eq_refl)) as [_ U].
  cbn [last_type position].
  assert (t = TNull \/ t <> TNull) as [->|Nn] by (destruct t; auto; right; discriminate).
  - change (encode (S n) D true TNull VNull) with (Ok VNull). change (String.eqb (tyname TNull) "null") with true. cbv iota. destruct (IH W' N' (i + 1) (Some (i, TNull))) as [E|(u & I & Hu & Nu)]; [|right; exists u; split; [now right|auto]].
    left. rewrite E. destruct (position "null" ts) as [[j u]|] eqn:P.
    + exfalso. apply Nt. cbn. clear - P. revert j u P. induction ts as [|w ts IH]; intros j u P; [discriminate|]. cbn [position] in P.
      destruct (String.eqb_spec (tyname w) "null") as [E|_]; [left; exact E|]. destruct (position "null" ts) as [[j' u']|]; [|discriminate]. right. eapply IH; reflexivity.
    + replace (i + 0) with i by lia. reflexivity.
  - destruct (String.eqb_spec (tyname t) "null") as [E|Ne]; [right; exists t; split; [now left|auto]|].
    assert (En : encode (S n) D true t VNull = Raise AvroErr) by (destruct t; try discriminate; try congruence; reflexivity).
    rewrite En. destruct (IH W' N' (i + 1) found) as [E|(u & I & Hu & Nu)]; [|right; exists u; split; [now right|auto]].
    left. rewrite E. destruct (position "null" ts) as [[j u]|]; cbn; [|reflexivity]. destruct u; try reflexivity. do 3 f_equal. lia.
Qed.
Lemma sign_diff i j : sign_of (i - j ?= 0) = sign_of (i ?= j).
Proof. destruct (Z.compare_spec i j), (Z.compare_spec (i - j) 0); try reflexivity; lia. Qed.
Lemma index_In s l : In s l -> exists i, index_of s l = Some i.
Proof.
  induction l as [|x l IH]; intros [].
  - subst. exists 0. cbn. now rewrite String.eqb_refl.
  - cbn. destruct (String.eqb x s); [eauto|]. destruct (IH H) as [i ->]. eexists. reflexivity.
Qed.

(** *** The order *)
Section Order.
  Variable D : defs.
  Hypothesis WD : wf_defs D.
  Hypothesis UD : defs_sat uniq D.
  Hypothesis ND : defs_sat null_names D.

  Definition branch (n : nat) (ts : list ty) (v : val) : res (Z * ty * val) :=
    match v with
    | VDict [(tag, w)] => match position tag ts with Some (i, t') => Ok (i, t', w) | None => Raise (PyErr "IndexError") end
    | _ => p <- last_type (fun t' => encode n D true t' v) 0 ts None ;;
           match p with Some (i, t') => Ok (i, t', v) | None => Raise AvroErr end
    end.
  Lemma branch_ok n ts v : wf (TUnion ts) -> uniq (TUnion ts) -> null_names (TUnion ts) -> ordered (S n) D (TUnion ts) v ->
    exists i t w, branch n ts v = Ok (i, t, w) /\ nth_error ts (Z.to_nat i) = Some t /\ 0 <= i /\ ordered n D t w.
  Proof.
    intros W U NN O. pose proof (proj1 (wf_union _) W) as W'. apply uniq_union in U as [U _]. rewrite null_names_union in NN.
    cbn [ordered] in O. destruct v; try tauto.
    - destruct O as [I Hn]. destruct (last_null n D ts Hn W' U 0 None) as [E|(t & It & Et & Nt)].
      + destruct (position_In ts TNull U I) as (i & Pi & P0). cbn [tyname] in Pi. rewrite Pi in E.
        exists (0 + i), TNull, VNull. unfold branch. rewrite E. cbn [rbind]. split; [reflexivity|].
        apply position_nth in Pi as [_ Pi]. split; [exact Pi|]. split; [lia|]. destruct n; [congruence|exact Logic.I].
      + exfalso. apply Nt. now apply (NN t It).
    - destruct d as [|[tag w] [|]]; try tauto. destruct O as (t & It & <- & Ot).
      destruct (position_In ts t U It) as (i & Pi & P0). exists i, t, w. unfold branch. rewrite Pi. split; [reflexivity|].
      apply position_nth in Pi as [_ Pi]. auto.
  Qed.

  Lemma three {A} (Q : A -> Prop) x y z : Q x -> Q y -> Q z -> forall u, u = x \/ u = y \/ u = z -> Q u.
  Proof. intros ? ? ? u [->|[->| ->]]; assumption. Qed.
  Lemma strings n t x y z : (t = TBytes \/ t = TString \/ exists nm sz, t = TFixed nm sz) ->
    (forall v, ordered (S n) D t v -> exists s, v = VStr s) -> ordered (S n) D t x -> ordered (S n) D t y -> ordered (S n) D t z -> fit3 (compare (S n) D t) x y z.
  Proof.
    intros Ht E Ox Oy Oz. destruct (E x Ox) as [r ->], (E y Oy) as [s ->], (E z Oz) as [q ->].
    destruct (fit3_str r s q) as (a & b & c & H). exists a, b, c. destruct Ht as [->|[->|(nm & sz & ->)]]; exact H.
  Qed.

  Theorem compare_fit3 n : forall t x y z, wf t -> uniq t -> null_names t ->
    ordered n D t x -> ordered n D t y -> ordered n D t z -> fit3 (compare n D t) x y z.
  Proof.
    induction n as [|n IH]; intros t x y z W U NN Ox Oy Oz; [destruct Ox|].
    destruct t as [| | | | | | | |nm sz|nm sy|it|vl|nm|ts|].
    - assert (E : forall v, ordered (S n) D TNull v -> v = VNull) by (intros [] H; cbn in H; tauto).
      rewrite (E x Ox), (E y Oy), (E z Oz). exists 0, 0, 0. do 5 (split; [reflexivity|]). apply t3_zero.
    - apply fit3_Z with (fun v => match v with VBool b => bool_z b | _ => 0 end). intros u v Hu Hv.
      assert (Ou : ordered (S n) D TBool u) by now apply (three _ x y z). assert (Ov : ordered (S n) D TBool v) by now apply (three _ x y z).
      destruct u; cbn in Ou; try contradiction; destruct v; cbn in Ov; try contradiction; reflexivity.
    - apply fit3_Z with (fun v => match v with VInt b => b | _ => 0 end). intros u v Hu Hv.
      assert (Ou : ordered (S n) D TInt u) by now apply (three _ x y z). assert (Ov : ordered (S n) D TInt v) by now apply (three _ x y z).
      destruct u; cbn in Ou; try contradiction; destruct v; cbn in Ov; try contradiction; reflexivity.
    - apply fit3_Z with (fun v => match v with VInt b => b | _ => 0 end). intros u v Hu Hv.
      assert (Ou : ordered (S n) D TLong u) by now apply (three _ x y z). assert (Ov : ordered (S n) D TLong v) by now apply (three _ x y z).
      destruct u; cbn in Ou; try contradiction; destruct v; cbn in Ov; try contradiction; reflexivity.
    - cbn [ordered] in Ox, Oy, Oz. destruct Ox as [Fx Nx], Oy as [Fy Ny], Oz as [Fz Nz].
      destruct (float_num_num _ Fx) as (a & Ea & Va & Ia & Ka), (float_num_num _ Fy) as (b & Eb & Vb & Ib & Kb), (float_num_num _ Fz) as (c & Ec & Vc & Ic & Kc).
      set (E := Z.min (exp_of a) (Z.min (exp_of b) (exp_of c))).
      apply fit3_key with (fun v => match num_of v with Some k => nkey E k | None => (0, 0) end).
      intros u v Hu Hv.
      destruct (three (fun u => exists k, num_of u = Some k /\ vnum k /\ num_nan k = false /\ E <= exp_of k) x y z) with u as (k & K1 & K2 & K3 & K4); auto;
        [exists a|exists b|exists c|]; [split; [assumption|split; [assumption|split; [congruence|lia]]]..|].
      destruct (three (fun u => exists k, num_of u = Some k /\ vnum k /\ num_nan k = false /\ E <= exp_of k) x y z) with v as (l & L1 & L2 & L3 & L4); auto;
        [exists a|exists b|exists c|]; [split; [assumption|split; [assumption|split; [congruence|lia]]]..|].
      cbn [compare]. rewrite K1, L1. f_equal. now apply num_sign_key.
    - cbn [ordered] in Ox, Oy, Oz. rename Ox into Fx, Oy into Fy, Oz into Fz.
      destruct (float_num_num _ Fx) as (a & Ea & Va & Ia & Ka), (float_num_num _ Fy) as (b & Eb & Vb & Ib & Kb), (float_num_num _ Fz) as (c & Ec & Vc & Ic & Kc).
      set (E := Z.min (exp_of a) (Z.min (exp_of b) (exp_of c))).
      apply fit3_key with (fun v => match num_of v with Some k => dkey E k | None => (0, 0) end).
      intros u v Hu Hv.
      destruct (three (fun u => exists k, num_of u = Some k /\ vnum k /\ py_isnan k = Ok (num_nan k) /\ E <= exp_of k) x y z) with u as (k & K1 & K2 & K3 & K4); auto;
        [exists a|exists b|exists c|]; [split; [assumption|split; [assumption|split; [assumption|lia]]]..|].
      destruct (three (fun u => exists k, num_of u = Some k /\ vnum k /\ py_isnan k = Ok (num_nan k) /\ E <= exp_of k) x y z) with v as (l & L1 & L2 & L3 & L4); auto;
        [exists a|exists b|exists c|]; [split; [assumption|split; [assumption|split; [assumption|lia]]]..|].
      cbn [compare]. rewrite K1, L1. now apply double_sign_key.
    - apply (strings n TBytes); auto. intros v; destruct v; cbn; try tauto; eauto.
    - apply (strings n TString); auto. intros v; destruct v; cbn; try tauto; eauto.
    - apply (strings n (TFixed nm sz)); eauto. intros v; destruct v; cbn; try tauto; eauto.
    - apply fit3_Z with (fun v => match v with VStr s => match index_of s sy with Some i => i | None => 0 end | _ => 0 end). intros u v Hu Hv.
      assert (Ou : ordered (S n) D (TEnum nm sy) u) by now apply (three _ x y z). assert (Ov : ordered (S n) D (TEnum nm sy) v) by now apply (three _ x y z).
      destruct u as [| | | |s| | |]; cbn in Ou; try tauto. destruct v as [| | | |r| | |]; cbn in Ov; try tauto.
      destruct (index_In _ _ Ou) as [i Hi], (index_In _ _ Ov) as [j Hj]. cbn [compare]. rewrite Hi, Hj. now rewrite sign_diff.
    - assert (E : forall v, ordered (S n) D (TArray it) v -> exists l, v = VArr l /\ forall e, In e l -> ordered n D it e)
        by (intros [] H; cbn in H; try tauto; eauto).
      destruct (E x Ox) as (xs & -> & Hx), (E y Oy) as (ys & -> & Hy), (E z Oz) as (zs & -> & Hz).
      destruct (fit3_zip (compare n D it) xs ys zs) as (a & b & c & H1 & H2 & H3 & H4 & H5 & T).
      { intros u v w Iu Iv Iw. rewrite !in_app_iff in *. apply IH; auto; [destruct Iu as [I|[I|I]]|destruct Iv as [I|[I|I]]|destruct Iw as [I|[I|I]]]; auto. }
      exists a, b, c. cbn [compare]. do 5 (split; [assumption|]). exact T.
    - destruct x; cbn in Ox; tauto.
    - assert (E : forall v, ordered (S n) D (TRecord nm) v -> exists d, v = VDict d /\ forall f, In f (fields_of D nm) ->
            f_order f = Some "ignore" \/ exists x, assoc (f_name f) d = Some x /\ ordered n D (f_type f) x)
        by (intros [] H; cbn in H; try tauto; eauto).
      destruct (E x Ox) as (xs & -> & Hx), (E y Oy) as (ys & -> & Hy), (E z Oz) as (zs & -> & Hz).
      destruct (fit3_fields (compare n D) (fields_of D nm) xs ys zs) as (a & b & c & H1 & H2 & H3 & H4 & H5 & T).
      { intros f If. destruct (Hx f If) as [|(u & X & Ou)]; [now left|]. destruct (Hy f If) as [|(v & Y & Ov)]; [now left|].
        destruct (Hz f If) as [|(w & ZZ & Ow)]; [now left|]. right. exists u, v, w. do 3 (split; [assumption|]).
        apply IH; auto; [apply (WD nm)|apply (UD nm)|apply (ND nm)]; exact If. }
      exists a, b, c. cbn [compare]. do 5 (split; [assumption|]). exact T.
    - destruct (branch_ok n ts x W U NN Ox) as (i & tx & u & Bx & Nx & Px & Qx).
      destruct (branch_ok n ts y W U NN Oy) as (j & ty & v & By & Ny & Py & Qy).
      destruct (branch_ok n ts z W U NN Oz) as (k & tz & w & Bz & Nz & Pz & Qz).
      assert (C : forall p q i t u j t' v, branch n ts p = Ok (i, t, u) -> branch n ts q = Ok (j, t', v) ->
         compare (S n) D (TUnion ts) p q = if i =? j then compare n D t u v else Ok (sign_of (i - j ?= 0))).
      { intros p q i0 t0 u0 j0 t1 v0 B1 B2. cbn [compare]. fold (branch n ts p). fold (branch n ts q). rewrite B1. cbn [rbind]. rewrite B2. reflexivity. }
      pose proof (proj1 (wf_union _) W) as W'. apply uniq_union in U as [_ U]. rewrite Forall_forall in U. rewrite null_names_union in NN.
      assert (SUB : forall t, In t ts -> wf t /\ uniq t /\ null_names t) by (intros t It; split; [apply W', It|split; [apply U, It|apply NN, It]]).
      assert (XX : forall t a, In t ts -> ordered n D t a -> compare n D t a a = Ok 0).
      { intros t a It Oa. destruct (SUB t It) as (S1 & S2 & S3). destruct (IH t a a a S1 S2 S3 Oa Oa Oa) as (? & ? & ? & _ & _ & _ & _ & R & _). exact R. }
      pose proof (nth_error_In _ _ Nx) as Ix. pose proof (nth_error_In _ _ Ny) as Iy. pose proof (nth_error_In _ _ Nz) as Iz.
      unfold fit3. rewrite (C _ _ _ _ _ _ _ _ Bx By), (C _ _ _ _ _ _ _ _ By Bz), (C _ _ _ _ _ _ _ _ Bx Bz), (C _ _ _ _ _ _ _ _ By Bx), (C _ _ _ _ _ _ _ _ Bx Bx).
      rewrite !sign_diff, Z.eqb_refl, (XX tx u Ix Qx).
      assert (Two : forall t a b, In t ts -> ordered n D t a -> ordered n D t b -> exists r, compare n D t a b = Ok r /\ sign r /\ compare n D t b a = Ok (- r)).
      { intros t a b It Oa Ob. destruct (SUB t It) as (S1 & S2 & S3). destruct (IH t a b b S1 S2 S3 Oa Ob Ob) as (r & ? & ? & R1 & _ & _ & R2 & _ & R3 & _). eauto. }
      destruct (Z.eqb_spec i j) as [Eij|Nij]; [|rewrite (proj2 (Z.eqb_neq j i)) by lia];
        [subst j; rewrite Z.eqb_refl; assert (ty = tx) by congruence; subst ty|];
        (destruct (Z.eqb_spec i k) as [Eik|Nik]; [subst k; assert (tz = tx) by congruence; subst tz|]).
      + destruct (SUB tx Ix) as (S1 & S2 & S3). destruct (IH tx u v w S1 S2 S3 Qx Qy Qz) as (a & b & c & H1 & H2 & H3 & H4 & H5 & T).
        exists a, b, c. do 5 (split; [assumption || reflexivity|]). exact T.
      + destruct (Two tx u v Ix Qx Qy) as (r & R1 & R2 & R3). exists r, (sign_of (i ?= k)), (sign_of (i ?= k)).
        do 3 (split; [assumption || reflexivity|]). split; [assumption|]. split; [reflexivity|].
        assert (sign_of (i ?= k) <> 0) by (destruct (Z.compare_spec i k); cbn; lia).
        apply t3_intro; auto; [destruct (i ?= k); unfold sign; auto..|lia].
      + rewrite (proj2 (Z.eqb_neq j i)) by lia. destruct (Two tx u w Ix Qx Qz) as (r & R1 & R2 & R3).
        exists (sign_of (i ?= j)), (sign_of (j ?= i)), r. do 3 (split; [assumption || reflexivity|]).
        rewrite (Z.compare_antisym i j). split; [destruct (i ?= j); reflexivity|]. split; [reflexivity|].
        destruct (Z.compare_spec i j); [lia| |]; apply t3_intro; unfold sign in *; cbn; auto; lia.
      + assert (XJ : j ?= i = CompOpp (i ?= j)) by (rewrite (Z.compare_antisym i j); reflexivity).
        destruct (Z.eqb_spec j k) as [Ejk|Njk].
        * subst k. assert (tz = ty) by congruence. subst tz. destruct (Two ty v w Iy Qy Qz) as (r & R1 & R2 & R3).
          exists (sign_of (i ?= j)), r, (sign_of (i ?= j)). do 3 (split; [assumption || reflexivity|]).
          split; [rewrite XJ; destruct (i ?= j); reflexivity|]. split; [reflexivity|].
          assert (sign_of (i ?= j) <> 0) by (destruct (Z.compare_spec i j); cbn; lia).
          apply t3_intro; auto; [destruct (i ?= j); unfold sign; auto..|lia].
        * exists (sign_of (i ?= j)), (sign_of (j ?= k)), (sign_of (i ?= k)). do 3 (split; [reflexivity|]).
          split; [rewrite XJ; destruct (i ?= j); reflexivity|]. split; [reflexivity|]. apply t3_Z.
    - destruct W.
  Qed.
End Order.
