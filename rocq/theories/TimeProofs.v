From Verif Require Import Base TimeModel TimeSpec.
Open Scope string_scope.
Open Scope list_scope.
Open Scope Z_scope.

Fixpoint all_from (k : nat) (n : Z) (p : Z -> bool) : bool :=
  match k with O => true | S k' => p n && all_from k' (n + 1) p end.
Lemma all_from_spec k : forall n p, all_from k n p = true -> forall i, n <= i < n + Z.of_nat k -> p i = true.
Proof.
  induction k as [|k IH]; intros n p H i Hi; [cbn in Hi; lia|]. cbn [all_from] in H. apply andb_prop in H as [H1 H2].
  destruct (Z.eq_dec i n) as [->|N]; [exact H1|]. apply (IH (n + 1)); [exact H2|lia].
Qed.
Definition nextb (a : Z * Z * Z) : Z * Z * Z :=
  let '(y, m, d) := a in
  if d <? days_in_month y m then (y, m, d + 1) else if m <? 12 then (y, m + 1, 1) else (y + 1, 1, 1).
Definition valid (a : Z * Z * Z) : Prop := let '(y, m, d) := a in 1 <= m <= 12 /\ 1 <= d <= days_in_month y m.

(** *** the day of the year *)
Definition dim (leap : bool) (m : Z) : Z :=
  if m =? 2 then (if leap then 29 else 28)
  else if (m =? 4) || (m =? 6) || (m =? 9) || (m =? 11) then 30 else 31.
Definition dbm (leap : bool) (m : Z) : Z := before_month m + (if (2 <? m) && leap then 1 else 0).
Definition month_day (leap : bool) (n : Z) : Z * Z :=
  let month := (n + 50) / 32 in
  let preceding := dbm leap month in
  if n <? preceding then (month - 1, n - (preceding - dim leap (month - 1)) + 1) else (month, n - preceding + 1).
Definition yday_ok (leap : bool) (n : Z) : bool :=
  let '(m, d) := month_day leap n in
  (1 <=? m) && (m <=? 12) && (1 <=? d) && (d <=? dim leap m) && (dbm leap m + d =? n + 1).
Lemma yday_checked : all_from 365 0 (yday_ok false) && all_from 366 0 (yday_ok true) = true.
Proof. vm_compute. reflexivity. Qed.
Lemma month_day_ok (leap : bool) n : 0 <= n < (if leap then 366 else 365) ->
  exists m d, month_day leap n = (m, d) /\ 1 <= m <= 12 /\ 1 <= d <= dim leap m /\ dbm leap m + d = n + 1.
Proof.
  intros H. assert (E : yday_ok leap n = true).
  { destruct (andb_prop _ _ yday_checked) as [C1 C2]. destruct leap.
    - apply (all_from_spec _ _ _ C2). change (Z.of_nat 366) with 366. lia.
    - apply (all_from_spec _ _ _ C1). change (Z.of_nat 365) with 365. lia. }
  unfold yday_ok in E. destruct (month_day leap n) as [m d]. exists m, d. rewrite !Bool.andb_true_iff, !Z.leb_le, Z.eqb_eq in E.
  split; [reflexivity|]. lia.
Qed.
Lemma dim_eq y m : days_in_month y m = dim (is_leap y) m.
Proof. reflexivity. Qed.
Lemma dbm_eq y m : days_before_month y m = dbm (is_leap y) m.
Proof. reflexivity. Qed.
Ltac month m := let C := fresh in
  assert (C : m = 1 \/ m = 2 \/ m = 3 \/ m = 4 \/ m = 5 \/ m = 6 \/ m = 7 \/ m = 8 \/ m = 9 \/ m = 10 \/ m = 11 \/ m = 12) by lia;
  repeat (destruct C as [C | C]); subst m.
Lemma dbm_step leap m : 1 <= m <= 11 -> dbm leap (m + 1) = dbm leap m + dim leap m.
Proof. intros H. month m; try lia; destruct leap; reflexivity. Qed.
Lemma dbm_first leap : dbm leap 1 = 0.
Proof. now destruct leap. Qed.
Lemma dbm_last (leap : bool) : dbm leap 12 + dim leap 12 = if leap then 366 else 365.
Proof. now destruct leap. Qed.
Lemma dbm_le leap m (k : nat) : 1 <= m -> m + Z.of_nat k <= 11 -> dbm leap m + dim leap m <= dbm leap (m + Z.of_nat k + 1).
Proof.
  intros Hm. induction k as [|k IH]; intros H.
  - cbn [Z.of_nat]. rewrite Z.add_0_r, dbm_step by lia. lia.
  - replace (m + Z.of_nat (S k) + 1) with (m + Z.of_nat k + 1 + 1) by lia. rewrite dbm_step by lia.
    assert (0 <= dim leap (m + Z.of_nat k + 1)) by (unfold dim; repeat (match goal with |- context [if ?b then _ else _] => destruct b end); lia). lia.
Qed.
Lemma dbm_lt leap m m' : 1 <= m < m' -> m' <= 12 -> dbm leap m + dim leap m <= dbm leap m'.
Proof.
  intros H H'. replace m' with (m + Z.of_nat (Z.to_nat (m' - m - 1)) + 1) by lia. apply dbm_le; lia.
Qed.
Lemma dim_bounds leap m : 28 <= dim leap m <= 31.
Proof. unfold dim. repeat (match goal with |- context [if ?b then _ else _] => destruct b end); lia. Qed.

(** *** years *)
Lemma leap_iff y : is_leap y = true <-> y mod 4 = 0 /\ (y mod 100 <> 0 \/ y mod 400 = 0).
Proof. unfold is_leap. rewrite Bool.andb_true_iff, Bool.orb_true_iff, Bool.negb_true_iff, !Z.eqb_eq, Z.eqb_neq. reflexivity. Qed.
Lemma div_step y k : 0 < k -> (y + 1) / k = y / k + (if (y + 1) mod k =? 0 then 1 else 0).
Proof.
  intros K. pose proof (Z.div_mod (y + 1) k). pose proof (Z.mod_pos_bound (y + 1) k K). destruct ((y + 1) mod k =? 0) eqn:E; [apply Z.eqb_eq in E|apply Z.eqb_neq in E].
  - assert (Q : y / k = (y + 1) / k - 1); [|lia]. symmetry. apply (Z.div_unique y k _ (k - 1)); [lia|]. rewrite Z.mul_sub_distr_l. lia.
  - assert (Q : y / k = (y + 1) / k); [|lia]. symmetry. apply (Z.div_unique y k _ ((y + 1) mod k - 1)); [lia|]. lia.
Qed.
Lemma year_step y : days_before_year (y + 1) = days_before_year y + (if is_leap y then 366 else 365).
Proof.
  unfold days_before_year. replace (y + 1 - 1) with ((y - 1) + 1) by lia. rewrite !div_step by lia. replace (y - 1 + 1) with y by lia.
  assert (C : (y mod 100 = 0 -> y mod 4 = 0) /\ (y mod 400 = 0 -> y mod 100 = 0)).
  { split; intros H; [pose proof (Z.div_mod y 100)|pose proof (Z.div_mod y 400)].
    - replace y with ((25 * (y / 100)) * 4) by lia. apply Z_mod_mult.
    - replace y with ((4 * (y / 400)) * 100) by lia. apply Z_mod_mult. }
  destruct C as [C1 C2]. unfold is_leap.
  destruct (y mod 4 =? 0) eqn:E4, (y mod 100 =? 0) eqn:E100, (y mod 400 =? 0) eqn:E400; cbn [andb orb negb]; try lia;
    rewrite ?Z.eqb_eq, ?Z.eqb_neq in *; exfalso; tauto.
Qed.
Lemma year_mono y y' : y < y' -> days_before_year (y + 1) <= days_before_year y'.
Proof.
  intros H. replace y' with (y + 1 + Z.of_nat (Z.to_nat (y' - y - 1))) by lia. induction (Z.to_nat (y' - y - 1)) as [|n IH].
  - cbn [Z.of_nat]. rewrite Z.add_0_r. lia.
  - replace (y + 1 + Z.of_nat (S n)) with (y + 1 + Z.of_nat n + 1) by lia. pose proof (year_step (y + 1 + Z.of_nat n)); destruct (is_leap _); lia.
Qed.
Lemma ymd_year y m d : valid (y, m, d) -> days_before_year y < ymd2ord y m d <= days_before_year (y + 1).
Proof.
  intros [Hm Hd]. rewrite dim_eq in Hd. unfold ymd2ord. rewrite dbm_eq, year_step. pose proof (dbm_last (is_leap y)). pose proof (dbm_first (is_leap y)).
  pose proof (dim_bounds (is_leap y) 1). pose proof (dim_bounds (is_leap y) m).
  destruct (Z.eq_dec m 12) as [->|N]; [pose proof (dbm_lt (is_leap y) 1 12); lia|].
  pose proof (dbm_lt (is_leap y) m 12). pose proof (dim_bounds (is_leap y) 12). destruct (Z.eq_dec m 1) as [->|N1]; [lia|].
  pose proof (dbm_lt (is_leap y) 1 m). lia.
Qed.
Lemma ymd_inj a b : valid a -> valid b ->
  (let '(y, m, d) := a in ymd2ord y m d) = (let '(y, m, d) := b in ymd2ord y m d) -> a = b.
Proof.
  destruct a as [[y m] d], b as [[y' m'] d']. intros A B E. pose proof (ymd_year _ _ _ A). pose proof (ymd_year _ _ _ B).
  assert (Y : y = y').
  { destruct (Z.lt_trichotomy y y') as [L|[L|L]]; [|exact L|]; apply year_mono in L; lia. }
  subst y'. destruct A as [Am Ad], B as [Bm Bd]. rewrite dim_eq in *. unfold ymd2ord in E. rewrite !dbm_eq in E.
  assert (M : m = m').
  { destruct (Z.lt_trichotomy m m') as [L|[L|L]]; [|exact L|].
    - pose proof (dbm_lt (is_leap y) m m'). lia.
    - pose proof (dbm_lt (is_leap y) m' m). lia. }
  subst m'. do 2 f_equal. lia.
Qed.
Lemma nextb_ymd a : valid a -> valid (nextb a) /\
  (let '(y, m, d) := nextb a in ymd2ord y m d) = (let '(y, m, d) := a in ymd2ord y m d) + 1.
Proof.
  destruct a as [[y m] d]. intros [Hm Hd]. cbn [nextb]. destruct (d <? days_in_month y m) eqn:E; [apply Z.ltb_lt in E|apply Z.ltb_ge in E].
  - split; [split; lia|]. unfold ymd2ord. lia.
  - rewrite !dim_eq in *. assert (d = dim (is_leap y) m) by lia. destruct (m <? 12) eqn:M; [apply Z.ltb_lt in M|apply Z.ltb_ge in M].
    + split; [split; [lia|]; rewrite dim_eq; pose proof (dim_bounds (is_leap y) (m + 1)); lia|].
      unfold ymd2ord. rewrite !dbm_eq, dbm_step by lia. lia.
    + assert (m = 12) by lia. subst m. split; [split; [lia|]; rewrite dim_eq; pose proof (dim_bounds (is_leap (y + 1)) 1); lia|].
      unfold ymd2ord. rewrite !dbm_eq, year_step, dbm_first. pose proof (dbm_last (is_leap y)). lia.
Qed.
Lemma mod_val x k q r : 0 <= r < k -> x = k * q + r -> x mod k = r.
Proof. intros. symmetry. now apply (Z.mod_unique x k q r); [left|]. Qed.
Lemma div_val x k q r : 0 <= r < k -> x = k * q + r -> x / k = q.
Proof. intros. symmetry. now apply (Z.div_unique x k q r); [left|]. Qed.

(** the four divisions of _ord2ymd *)
Lemma cycles n : exists a b c d e, n = 146097 * a + 36524 * b + 1461 * c + 365 * d + e /\
  a = n / 146097 /\ b = n mod 146097 / 36524 /\ c = n mod 146097 mod 36524 / 1461 /\
  d = n mod 146097 mod 36524 mod 1461 / 365 /\ e = n mod 146097 mod 36524 mod 1461 mod 365 /\
  0 <= b <= 4 /\ 0 <= c <= 24 /\ 0 <= d <= 4 /\ 0 <= e < 365 /\ (b = 4 -> c = 0 /\ d = 0 /\ e = 0) /\ (d = 4 -> e = 0) /\
  (c = 24 -> d < 4).
Proof.
  exists (n / 146097), (n mod 146097 / 36524), (n mod 146097 mod 36524 / 1461),
   (n mod 146097 mod 36524 mod 1461 / 365), (n mod 146097 mod 36524 mod 1461 mod 365).
  pose proof (Z.div_mod n 146097). pose proof (Z.mod_pos_bound n 146097). set (a := n / 146097) in *. set (n1 := n mod 146097) in *. clearbody a n1.
  pose proof (Z.div_mod n1 36524). pose proof (Z.mod_pos_bound n1 36524). set (b := n1 / 36524) in *. set (n2 := n1 mod 36524) in *. clearbody b n2.
  pose proof (Z.div_mod n2 1461). pose proof (Z.mod_pos_bound n2 1461). set (c := n2 / 1461) in *. set (n3 := n2 mod 1461) in *. clearbody c n3.
  pose proof (Z.div_mod n3 365). pose proof (Z.mod_pos_bound n3 365). set (d := n3 / 365) in *. set (e := n3 mod 365) in *. clearbody d e.
  repeat (split; [lia|]). lia.
Qed.

Lemma ord_valid n : valid (ord2ymd n) /\ (let '(y, m, d) := ord2ymd n in ymd2ord y m d) = n.
Proof.
  destruct (cycles (n - 1)) as (a & b & c & d & e & En & Ea & Eb & Ec & Ed & Ee & Bb & Bc & Bd & Be & B4 & D4 & C24).
  unfold ord2ymd. rewrite <- Ea, <- Eb, <- Ec, <- Ed, <- Ee. clear Ea Eb Ec Ed Ee.
  set (y := a * 400 + 1 + b * 100 + c * 4 + d).
  destruct ((d =? 4) || (b =? 4))%bool eqn:L.
  - (* the last day of a leap year *)
    apply Bool.orb_true_iff in L. rewrite !Z.eqb_eq in L.
    assert (Y : days_before_year y = n /\ is_leap (y - 1) = true).
    { split.
      - unfold days_before_year, y. destruct L as [-> | ->].
        + assert (b < 4) by (destruct (Z.eq_dec b 4); lia). assert (c < 24) by (destruct (Z.eq_dec c 24); lia). rewrite D4 in * by reflexivity.
          rewrite (div_val _ 4 (100 * a + 25 * b + c + 1) 0), (div_val _ 100 (4 * a + b) (4 * c + 4)), (div_val _ 400 a (100 * b + 4 * c + 4)); lia.
        + destruct B4 as (-> & -> & ->); [reflexivity|].
          rewrite (div_val _ 4 (100 * a + 100) 0), (div_val _ 100 (4 * a + 4) 0), (div_val _ 400 (a + 1) 0); lia.
      - apply leap_iff. unfold y. destruct L as [-> | ->].
        + assert (b < 4) by (destruct (Z.eq_dec b 4); lia). assert (c < 24) by (destruct (Z.eq_dec c 24); lia).
          rewrite (mod_val _ 4 (100 * a + 25 * b + c + 1) 0), (mod_val _ 100 (4 * a + b) (4 * c + 4)); lia.
        + destruct B4 as (-> & -> & ->); [reflexivity|].
          rewrite (mod_val _ 4 (100 * a + 100) 0), (mod_val _ 400 (a + 1) 0); lia. }
    destruct Y as [Y1 Y2]. cbn [valid]. split.
    + rewrite dim_eq, Y2. cbn. lia.
    + unfold ymd2ord. rewrite dbm_eq, Y2. pose proof (year_step (y - 1)) as S1. rewrite Y2 in S1. replace (y - 1 + 1) with y in S1 by lia.
      change (dbm true 12) with 335. lia.
  - apply Bool.orb_false_iff in L as [L1 L2]. rewrite !Z.eqb_neq in *.
    assert (Y : days_before_year y + e + 1 = n).
    { unfold days_before_year, y.
      rewrite (div_val _ 4 (100 * a + 25 * b + c) d), (div_val _ 100 (4 * a + b) (4 * c + d)), (div_val _ 400 a (100 * b + 4 * c + d)); lia. }
    set (leap := ((d =? 3) && (negb (c =? 24) || (b =? 3)))%bool).
    assert (YL : is_leap y = leap).
    { apply Bool.eq_iff_eq_true. rewrite leap_iff. unfold leap. rewrite Bool.andb_true_iff, Bool.orb_true_iff, Bool.negb_true_iff, !Z.eqb_eq, Z.eqb_neq.
      unfold y. destruct (Z.eq_dec d 3) as [-> | N].
      - rewrite (mod_val _ 4 (100 * a + 25 * b + c + 1) 0) by lia. destruct (Z.eq_dec c 24) as [-> | N24].
        + rewrite (mod_val _ 100 (4 * a + b + 1) 0) by lia. destruct (Z.eq_dec b 3) as [-> | N3].
          * rewrite (mod_val _ 400 (a + 1) 0) by lia. lia.
          * rewrite (mod_val _ 400 a (100 * b + 100)) by lia. lia.
        + rewrite (mod_val _ 100 (4 * a + b) (4 * c + 4)) by lia. lia.
      - rewrite (mod_val _ 4 (100 * a + 25 * b + c) (d + 1)) by lia. lia. }
    destruct (month_day_ok leap e) as (m & dd & E & Hm & Hd & Hs); [destruct leap; lia|].
    assert (G : (if e <? dbm leap ((e + 50) / 32) then (y, (e + 50) / 32 - 1, e - (dbm leap ((e + 50) / 32) - dim leap ((e + 50) / 32 - 1)) + 1)
                 else (y, (e + 50) / 32, e - dbm leap ((e + 50) / 32) + 1)) = (y, m, dd)).
    { unfold month_day in E. cbv zeta in E. destruct (e <? _); injection E as -> ->; reflexivity. }
    change (if e <? _ then _ else _) with (if e <? dbm leap ((e + 50) / 32) then (y, (e + 50) / 32 - 1, e - (dbm leap ((e + 50) / 32) - dim leap ((e + 50) / 32 - 1)) + 1)
                 else (y, (e + 50) / 32, e - dbm leap ((e + 50) / 32) + 1)).
    rewrite G. cbn [valid]. rewrite dim_eq, YL. split; [lia|]. unfold ymd2ord. rewrite dbm_eq, YL. lia.
Qed.
Lemma day_next n : ord2ymd (n + 1) = nextb (ord2ymd n).
Proof.
  destruct (ord_valid n) as [V E]. destruct (ord_valid (n + 1)) as [V' E']. destruct (nextb_ymd _ V) as [V'' E''].
  apply ymd_inj; [exact V'|exact V''|]. rewrite E', E'', E. reflexivity.
Qed.
Lemma ymd_inverse y m d : 1 <= m <= 12 -> 1 <= d <= days_in_month y m -> ord2ymd (ymd2ord y m d) = (y, m, d).
Proof.
  intros Hm Hd. destruct (ord_valid (ymd2ord y m d)) as [V E]. apply ymd_inj; [exact V|split; assumption|]. exact E.
Qed.

(** the rule in the specification *)
Lemma leap_spec y : is_leap y = true <-> leap_year y.
Proof.
  unfold is_leap, leap_year. rewrite Bool.andb_true_iff, Bool.orb_true_iff, Bool.negb_true_iff, !Z.eqb_eq, Z.eqb_neq. split.
  - intros [H1 H2]. split; [exists (y / 4); pose proof (Z.div_mod y 4); lia|]. intros [k Hk]. destruct H2 as [H2|H2].
    + exfalso. apply H2. subst y. replace (100 * k) with (k * 100) by lia. apply Z_mod_mult.
    + exists (y / 400). pose proof (Z.div_mod y 400); lia.
  - intros [[k ->] H]. split; [replace (4 * k) with (k * 4) by lia; apply Z_mod_mult|].
    destruct (Z.eq_dec ((4 * k) mod 100) 0) as [E|E]; [|now left]. right. destruct H as [j Hj].
    { exists (4 * k / 100). pose proof (Z.div_mod (4 * k) 100); lia. }
    rewrite Hj. replace (400 * j) with (j * 400) by lia. apply Z_mod_mult.
Qed.
Lemma month_spec y m n : month_length y m n <-> 1 <= m <= 12 /\ n = days_in_month y m.
Proof.
  split.
  - intros H. destruct H as [y m H|y m H|y H|y H].
    + split; [lia|]. unfold days_in_month. destruct H as [-> | [-> | [-> | ->]]]; reflexivity.
    + split; [lia|]. unfold days_in_month. destruct H as [-> | [-> | [-> | [-> | [-> | [-> | ->]]]]]]; reflexivity.
    + split; [lia|]. unfold days_in_month. cbn [Z.eqb Pos.eqb]. rewrite <- leap_spec in H. now destruct (is_leap y).
    + split; [lia|]. unfold days_in_month. cbn [Z.eqb Pos.eqb]. rewrite <- leap_spec in H. now rewrite H.
  - intros [Hm ->]. assert (C : m = 1 \/ m = 2 \/ m = 3 \/ m = 4 \/ m = 5 \/ m = 6 \/ m = 7 \/ m = 8 \/ m = 9 \/ m = 10 \/ m = 11 \/ m = 12) by lia.
    destruct C as [-> | [-> | C]]; [constructor 2; lia| |].
    + unfold days_in_month. cbn [Z.eqb Pos.eqb]. destruct (is_leap y) eqn:E; [constructor 4; now apply leap_spec|].
      constructor 3. rewrite <- leap_spec, E. discriminate.
    + unfold days_in_month. repeat (destruct C as [-> | C]; [cbn; first [constructor 1; lia|constructor 2; lia]|]). subst. cbn. constructor 2; lia.
Qed.
Definition of_triple (a : Z * Z * Z) : date := let '(y, m, d) := a in Date y m d.
Definition date_of (n : Z) : date := of_triple (ord2ymd n).

Lemma nextb_follows a : valid a -> follows (of_triple a) (of_triple (nextb a)).
Proof.
  destruct a as [[y m] d]. intros [Hm Hd].
  cbn [of_triple nextb]. destruct (d <? days_in_month y m) eqn:E; [apply Z.ltb_lt in E|apply Z.ltb_ge in E].
  - apply (next_day y m d (days_in_month y m)); [|lia]. apply month_spec. lia.
  - assert (d = days_in_month y m) by lia. subst d. destruct (m <? 12) eqn:M; [apply Z.ltb_lt in M|apply Z.ltb_ge in M].
    + apply next_month; [|lia]. apply month_spec. lia.
    + assert (m = 12) by lia. subst m. apply next_year.
Qed.
Lemma follows_date n : follows (date_of n) (date_of (n + 1)).
Proof. unfold date_of. rewrite day_next. apply nextb_follows. apply ord_valid. Qed.
Lemma follows_fun d d1 d2 : follows d d1 -> follows d d2 -> d1 = d2.
Proof.
  intros H1 H2.
  destruct H1 as [y m d n L B|y m n L B|y]; inversion H2; subst; try reflexivity; try (rewrite ?month_spec in *; lia);
    rewrite ?month_spec in *; cbn in *; try lia.
Qed.
Lemma follows_inj d d1 d2 : follows d1 d -> follows d2 d -> d1 = d2.
Proof.
  intros H1 H2.
  destruct H1 as [y m e n L B|y m n L B|y]; inversion H2; subst; rewrite ?month_spec in *.
  - f_equal; lia.
  - lia.
  - lia.
  - lia.
  - assert (m0 = m) by lia. subst. f_equal; lia.
  - lia.
  - lia.
  - lia.
  - f_equal; lia.
Qed.

Lemma weekday_next w : weekday_number (next_weekday w) = (weekday_number w + 1) mod 7.
Proof. destruct w; reflexivity. Qed.
Lemma weekday_inj w w' : weekday_number w = weekday_number w' -> w = w'.
Proof. destruct w, w'; cbn; congruence. Qed.
Lemma weekday_range w : 0 <= weekday_number w < 7.
Proof. destruct w; cbn; lia. Qed.

Lemma day_number_date k d w : day_number k d w -> d = date_of (k + 719163) /\ weekday_number w = (k + 719163 + 6) mod 7.
Proof.
  induction 1 as [|k d d' w H [IH1 IH2] F|k d d' w H [IH1 IH2] F].
  - split; [vm_compute; reflexivity|reflexivity].
  - subst d. split.
    + replace (k + 1 + 719163) with (k + 719163 + 1) by lia. eapply follows_fun; [exact F|apply follows_date].
    + rewrite weekday_next, IH2. rewrite Zplus_mod_idemp_l. f_equal. lia.
  - subst d. split.
    + eapply follows_inj; [exact F|]. replace (k + 719163) with (k - 1 + 719163 + 1) by lia. apply follows_date.
    + rewrite weekday_next in IH2. pose proof (weekday_range w). pose proof (Z.mod_pos_bound (k - 1 + 719163 + 6) 7).
      pose proof (Z.div_mod (k - 1 + 719163 + 6) 7). pose proof (Z.div_mod (k + 719163 + 6) 7). pose proof (Z.mod_pos_bound (k + 719163 + 6) 7).
      pose proof (Z.div_mod (weekday_number w + 1) 7). pose proof (Z.mod_pos_bound (weekday_number w + 1) 7). lia.
Qed.
Lemma weekday_exists n : exists w, weekday_number w = n mod 7.
Proof.
  pose proof (Z.mod_pos_bound n 7). set (r := n mod 7) in *.
  assert (C : r = 0 \/ r = 1 \/ r = 2 \/ r = 3 \/ r = 4 \/ r = 5 \/ r = 6) by lia.
  destruct C as [-> | [-> | [-> | [-> | [-> | [-> | ->]]]]]]; [exists Mon|exists Tue|exists Wed|exists Thu|exists Fri|exists Sat|exists Sun]; reflexivity.
Qed.
Lemma day_number_nonneg : forall j : nat, exists w, day_number (Z.of_nat j) (date_of (Z.of_nat j + 719163)) w.
Proof.
  induction j as [|j [w IH]].
  - exists Thu. replace (date_of (Z.of_nat 0 + 719163)) with (Date 1970 1 1) by (vm_compute; reflexivity). constructor.
  - exists (next_weekday w). replace (Z.of_nat (S j)) with (Z.of_nat j + 1) by lia. eapply later; [exact IH|].
    replace (Z.of_nat j + 1 + 719163) with (Z.of_nat j + 719163 + 1) by lia. apply follows_date.
Qed.
Definition prev_weekday (w : weekday) : weekday :=
  match w with Mon => Sun | Tue => Mon | Wed => Tue | Thu => Wed | Fri => Thu | Sat => Fri | Sun => Sat end.
Lemma prev_next w : next_weekday (prev_weekday w) = w.
Proof. now destruct w. Qed.
Lemma day_number_neg : forall j : nat, exists w, day_number (- Z.of_nat j) (date_of (- Z.of_nat j + 719163)) w.
Proof.
  induction j as [|j [w IH]].
  - exists Thu. replace (date_of (- Z.of_nat 0 + 719163)) with (Date 1970 1 1) by (vm_compute; reflexivity). constructor.
  - exists (prev_weekday w). replace (- Z.of_nat (S j)) with (- Z.of_nat j - 1) by lia. eapply earlier; [rewrite prev_next; exact IH|].
    replace (- Z.of_nat j + 719163) with ((- Z.of_nat j - 1 + 719163) + 1) by lia. apply follows_date.
Qed.
Lemma day_number_total k : exists w, day_number k (date_of (k + 719163)) w.
Proof.
  destruct (Z_le_gt_dec 0 k) as [H|H].
  - rewrite <- (Z2Nat.id k H). apply day_number_nonneg.
  - replace k with (- Z.of_nat (Z.to_nat (- k))) by (rewrite Z2Nat.id; lia). apply day_number_neg.
Qed.

Lemma date_of_fields t : date_of (ordinal t) = Date (dt_year t) (dt_month t) (dt_day t).
Proof. unfold date_of, dt_year, dt_month, dt_day. destruct (ord2ymd (ordinal t)) as [[y m] d]. reflexivity. Qed.
Lemma clock_split t : let u := us_of_day t in
  t = ((((t / day_us) * 24 + u / 3600000000) * 60 + u / 60000000 mod 60) * 60 + u / 1000000 mod 60) * 1000000 + u mod 1000000 /\
  0 <= u / 3600000000 < 24 /\ 0 <= u / 60000000 mod 60 < 60 /\ 0 <= u / 1000000 mod 60 < 60 /\ 0 <= u mod 1000000 < 1000000.
Proof.
  intros u. unfold u, us_of_day. set (r := t mod day_us).
  assert (R : 0 <= r < day_us) by (apply Z.mod_pos_bound; unfold day_us; lia).
  assert (T : t = (t / day_us) * day_us + r) by (pose proof (Z.div_mod t day_us); unfold r, day_us in *; lia).
  set (k := t / day_us) in *. clearbody r k.
  unfold day_us in *.
  pose proof (Z.div_mod r 1000000). pose proof (Z.mod_pos_bound r 1000000). set (a := r / 1000000) in *. set (us := r mod 1000000) in *.
  assert (E1 : r / 60000000 = a / 60) by (unfold a; rewrite Z.div_div by lia; reflexivity).
  assert (E2 : r / 3600000000 = a / 60 / 60) by (unfold a; rewrite !Z.div_div by lia; reflexivity).
  rewrite E1, E2. clearbody a us. clear E1 E2.
  pose proof (Z.div_mod a 60). pose proof (Z.mod_pos_bound a 60). set (b := a / 60) in *. set (s := a mod 60) in *. clearbody b s.
  pose proof (Z.div_mod b 60). pose proof (Z.mod_pos_bound b 60). set (h := b / 60) in *. set (m := b mod 60) in *. clearbody h m.
  lia.
Qed.
Lemma shows_time_model t : exists w, weekday_number w = dt_weekday t /\
  shows_time t (Date (dt_year t) (dt_month t) (dt_day t)) w (dt_hour t) (dt_minute t) (dt_second t) (t mod 1000000).
Proof.
  destruct (day_number_total (t / day_us)) as [w H]. exists w. destruct (day_number_date _ _ _ H) as [_ W]. split; [exact W|].
  exists (t / day_us). change (t / day_us + 719163) with (ordinal t) in H. rewrite date_of_fields in H. split; [exact H|].
  destruct (clock_split t) as (E & B1 & B2 & B3 & B4).
  assert (M : us_of_day t mod 1000000 = t mod 1000000).
  { unfold us_of_day, day_us. rewrite (Z.div_mod t 86400000000) at 2 by lia.
    replace (86400000000 * (t / 86400000000) + t mod 86400000000) with (t mod 86400000000 + (86400 * (t / 86400000000)) * 1000000) by lia.
    now rewrite Z_mod_plus_full. }
  rewrite <- M. split; [exact B1|]. split; [exact B2|]. split; [exact B3|]. split; [exact B4|]. exact E.
Qed.
Lemma shows_time_unique t d w h mi s us : shows_time t d w h mi s us ->
  d = Date (dt_year t) (dt_month t) (dt_day t) /\ weekday_number w = dt_weekday t /\ h = dt_hour t /\ mi = dt_minute t /\ s = dt_second t /\ us = t mod 1000000.
Proof.
  intros (k & H & Bh & Bm & Bs & Bu & E). destruct (shows_time_model t) as (w' & W & k' & H' & Bh' & Bm' & Bs' & Bu' & E').
  set (y' := Date (dt_year t) (dt_month t) (dt_day t)) in *. set (h' := dt_hour t) in *. set (m' := dt_minute t) in *. set (s' := dt_second t) in *.
  set (u' := t mod 1000000) in *. assert (K : k = k' /\ h = h' /\ mi = m' /\ s = s' /\ us = u') by lia.
  destruct K as (-> & -> & -> & -> & ->). apply day_number_date in H as [-> Hw]. apply day_number_date in H' as [Hd Hw']. repeat split; congruence.
Qed.
