From Coq Require Import QArith.
From Verif Require Import Base TimeModel TimeSpec TimeProofs.
Open Scope string_scope.
Open Scope list_scope.
Open Scope Z_scope.

(** the seconds that the library accepts, from 0001-01-01T00:00:00 to 9999-12-31T23:59:59, in microseconds *)
Definition accepted (t : Z) : Prop := -62135596800000000 <= t <= 253402300799000000.
Lemma tscheck_ok t c : accepted t -> tscheck (Some t) c = Ok t.
Proof.
  unfold accepted, tscheck. intros H. replace (t <? -62135596800 * 1000000) with false by (symmetry; apply Z.ltb_ge; lia).
  replace (253402300799 * 1000000 <? t) with false by (symmetry; apply Z.ltb_ge; lia). reflexivity.
Qed.
Lemma tscheck_err ts c : (forall t, ts = Some t -> ~ accepted t) -> tscheck ts c = Raise (PFAErr c).
Proof.
  destruct ts as [t|]; [|reflexivity]. intros H. specialize (H t eq_refl). unfold accepted in H. unfold tscheck.
  destruct (t <? -62135596800 * 1000000) eqn:E1; [reflexivity|]. destruct (253402300799 * 1000000 <? t) eqn:E2; [reflexivity|].
  apply Z.ltb_ge in E1. apply Z.ltb_ge in E2. lia.
Qed.

Section Zones.
  Variable offset : string -> option (Z -> Z).
  Variable localize : string -> option (Z -> Z).

  (** The clocks of the zone show [l] at the time [t]: with no zone they show UTC. *)
  Definition clocks (zone : string) (t l : Z) : Prop :=
    (zone = "" /\ l = t) \/
    (zone <> "" /\ exists f, offset zone = Some f /\ l = t + f t /\ -62135596800000000 <= l <= 253402300799999999).
  Lemma tz_ok t l zone c : clocks zone t l -> tz offset t zone c = Ok l.
  Proof.
    intros [[-> ->] | [N (f & E & -> & B)]]; [reflexivity|]. unfold tz. destruct (String.eqb_spec zone ""); [contradiction|]. rewrite E.
    unfold in_datetime, min_us, max_us. rewrite (proj2 (Z.leb_le _ _)) by lia. rewrite (proj2 (Z.leb_le _ _)) by lia. reflexivity.
  Qed.
  Lemma accessor_ok base get t l zone : accepted t -> clocks zone t l -> accessor offset base get (Some t) zone = Ok (get l).
  Proof. intros A C. unfold accessor, local. rewrite tscheck_ok by exact A. cbn [rbind]. now rewrite (tz_ok t l). Qed.
  Lemma between_ok base get t l zone low high : accepted t -> clocks zone t l -> (low < high)%Q ->
    is_between offset base get (Some t) zone low high = Ok (Qle_bool low (inject_Z (get l)) && negb (Qle_bool high (inject_Z (get l)))).
  Proof.
    intros A C L. unfold is_between. replace (Qle_bool high low) with false.
    - rewrite tscheck_ok by exact A. cbn [rbind]. now rewrite (tz_ok t l).
    - symmetry. apply Bool.not_true_iff_false. rewrite Qle_bool_iff. now apply Qlt_not_le.
  Qed.

  (** C72: on every accepted timestamp and in every zone, the accessors read off the date and the clock that the
      calendar defines by counting days from 1970-01-01. *)
  Theorem C72_accessors : forall t zone l, accepted t -> clocks zone t l ->
    exists d w h mi s us, shows_time l d w h mi s us /\ exists_date d /\
      t_year offset (Some t) zone = Ok (year d) /\
      t_monthOfYear offset (Some t) zone = Ok (month d) /\
      t_dayOfMonth offset (Some t) zone = Ok (day d) /\
      t_dayOfWeek offset (Some t) zone = Ok (weekday_number w) /\
      t_hourOfDay offset (Some t) zone = Ok h /\
      t_minuteOfHour offset (Some t) zone = Ok mi /\
      t_secondOfMinute offset (Some t) zone = Ok s.
  Proof.
    intros t zone l A C. destruct (shows_time_model l) as (w & W & H).
    exists (Date (dt_year l) (dt_month l) (dt_day l)), w, (dt_hour l), (dt_minute l), (dt_second l), (l mod 1000000).
    split; [exact H|]. split.
    { destruct (ord_valid (ordinal l)) as [V _]. unfold dt_year, dt_month, dt_day. destruct (ord2ymd (ordinal l)) as [[y m] d].
      destruct V as [Vm Vd]. split; [cbn; lia|]. exists (days_in_month y m). split; [cbn; apply month_spec; lia|cbn; lia]. }
    cbn [year month day]. rewrite W. repeat split; now apply accessor_ok.
  Qed.

  (** the readings are unique, so "the" date is meant *)
  Theorem C72_readings_unique : forall t d w h mi s us d' w' h' mi' s' us',
    shows_time t d w h mi s us -> shows_time t d' w' h' mi' s' us' ->
    d = d' /\ w = w' /\ h = h' /\ mi = mi' /\ s = s' /\ us = us'.
  Proof.
    intros * H H'. apply shows_time_unique in H as (-> & W & -> & -> & -> & ->). apply shows_time_unique in H' as (-> & W' & -> & -> & -> & ->).
    repeat split. apply weekday_inj. congruence.
  Qed.

  (** dayOfYear counts from 1 on the first of January *)
  Theorem C72_day_of_year : forall t zone l d w h mi s us k0 w0 k1 w1, accepted t -> clocks zone t l -> shows_time l d w h mi s us ->
    day_number k0 (Date (year d) 1 1) w0 -> day_number k1 d w1 ->
    t_dayOfYear offset (Some t) zone = Ok (k1 - k0 + 1) /\ 1 <= k1 - k0 + 1 <= 366.
  Proof.
    intros * A C H H0 H1. destruct (shows_time_unique _ _ _ _ _ _ _ H) as (-> & _). cbn [year] in H0.
    unfold t_dayOfYear. rewrite (accessor_ok _ _ t l) by assumption.
    apply day_number_date in H0 as [D0 _]. apply day_number_date in H1 as [D1 _].
    assert (E1 : k1 + 719163 = ordinal l).
    { destruct (ord_valid (k1 + 719163)) as [_ O]. destruct (ord_valid (ordinal l)) as [_ O'].
      rewrite <- date_of_fields in D1. unfold date_of in D1.
      destruct (ord2ymd (k1 + 719163)) as [[? ?] ?], (ord2ymd (ordinal l)) as [[? ?] ?]. injection D1 as -> -> ->. congruence. }
    assert (E0 : k0 + 719163 = ymd2ord (dt_year l) 1 1).
    { destruct (ord_valid (k0 + 719163)) as [_ O]. unfold date_of in D0. destruct (ord2ymd (k0 + 719163)) as [[? ?] ?]. injection D0 as <- <- <-. congruence. }
    assert (B : ymd2ord (dt_year l) 1 1 <= ordinal l < ymd2ord (dt_year l) 1 1 + 366).
    { destruct (ord_valid (ordinal l)) as [V O]. unfold dt_year. destruct (ord2ymd (ordinal l)) as [[y m] d0]. cbn [fst].
      pose proof (ymd_year _ _ _ V) as Y. rewrite O in Y. pose proof (year_step y). unfold ymd2ord. rewrite dbm_eq, dbm_first. destruct (is_leap y); lia. }
    split; [|lia]. unfold dt_yday. f_equal. lia.
  Qed.

  (** a timestamp that is nan or out of range, and an unknown zone, are the documented errors *)
  Theorem C72_out_of_range : forall ts zone, (forall t, ts = Some t -> ~ accepted t) ->
    t_year offset ts zone = Raise (PFAErr 40001) /\ t_monthOfYear offset ts zone = Raise (PFAErr 40011) /\
    t_dayOfYear offset ts zone = Raise (PFAErr 40021) /\ t_dayOfMonth offset ts zone = Raise (PFAErr 40031) /\
    t_dayOfWeek offset ts zone = Raise (PFAErr 40041) /\ t_hourOfDay offset ts zone = Raise (PFAErr 40051) /\
    t_minuteOfHour offset ts zone = Raise (PFAErr 40061) /\ t_secondOfMinute offset ts zone = Raise (PFAErr 40071) /\
    t_isWeekend offset ts zone = Raise (PFAErr 40161) /\ t_isWorkHours offset ts zone = Raise (PFAErr 40171).
  Proof.
    intros ts zone H.
    repeat split; unfold t_year, t_monthOfYear, t_dayOfYear, t_dayOfMonth, t_dayOfWeek, t_hourOfDay, t_minuteOfHour, t_secondOfMinute, t_isWeekend, t_isWorkHours, accessor, local;
      rewrite tscheck_err by exact H; reflexivity.
  Qed.
  Theorem C72_unknown_zone : forall t zone, accepted t -> zone <> "" -> offset zone = None ->
    t_year offset (Some t) zone = Raise (PFAErr 40000) /\ t_monthOfYear offset (Some t) zone = Raise (PFAErr 40010) /\
    t_dayOfYear offset (Some t) zone = Raise (PFAErr 40020) /\ t_dayOfMonth offset (Some t) zone = Raise (PFAErr 40030) /\
    t_dayOfWeek offset (Some t) zone = Raise (PFAErr 40040) /\ t_hourOfDay offset (Some t) zone = Raise (PFAErr 40050) /\
    t_minuteOfHour offset (Some t) zone = Raise (PFAErr 40060) /\ t_secondOfMinute offset (Some t) zone = Raise (PFAErr 40070) /\
    t_isWeekend offset (Some t) zone = Raise (PFAErr 40160) /\ t_isWorkHours offset (Some t) zone = Raise (PFAErr 40170).
  Proof.
    intros t zone A N E.
    assert (Z0 : forall c, tz offset t zone c = Raise (PFAErr c)) by (intros c; unfold tz; destruct (String.eqb_spec zone ""); [contradiction|]; now rewrite E).
    repeat split; unfold t_year, t_monthOfYear, t_dayOfYear, t_dayOfMonth, t_dayOfWeek, t_hourOfDay, t_minuteOfHour, t_secondOfMinute, t_isWeekend, t_isWorkHours, accessor, local;
      rewrite tscheck_ok by exact A; cbn [rbind]; rewrite Z0; reflexivity.
  Qed.

  (** the interval tests: low included, high excluded *)
  Theorem C72_intervals : forall t zone l d w h mi s us low high, accepted t -> clocks zone t l -> shows_time l d w h mi s us ->
    (low < high)%Q ->
    exists b1 b2 b3 b4 b5 b6,
      t_isSecondOfMinute offset (Some t) zone low high = Ok b1 /\ (b1 = true <-> (low <= inject_Z s < high)%Q) /\
      t_isMinuteOfHour offset (Some t) zone low high = Ok b2 /\ (b2 = true <-> (low <= inject_Z mi < high)%Q) /\
      t_isHourOfDay offset (Some t) zone low high = Ok b3 /\ (b3 = true <-> (low <= inject_Z h < high)%Q) /\
      t_isDayOfWeek offset (Some t) zone low high = Ok b4 /\ (b4 = true <-> (low <= inject_Z (weekday_number w) < high)%Q) /\
      t_isDayOfMonth offset (Some t) zone low high = Ok b5 /\ (b5 = true <-> (low <= inject_Z (day d) < high)%Q) /\
      t_isMonthOfYear offset (Some t) zone low high = Ok b6 /\ (b6 = true <-> (low <= inject_Z (month d) < high)%Q).
  Proof.
    intros * A C H L. destruct (shows_time_unique _ _ _ _ _ _ _ H) as (-> & -> & -> & -> & -> & ->). cbn [month day].
    assert (G : forall n, (Qle_bool low (inject_Z n) && negb (Qle_bool high (inject_Z n)))%bool = true <-> (low <= inject_Z n < high)%Q).
    { intros n. rewrite Bool.andb_true_iff, Bool.negb_true_iff, Qle_bool_iff, <- Bool.not_true_iff_false, Qle_bool_iff.
      split; intros [H1 H2]; split; try assumption; [now apply Qnot_le_lt|now apply Qlt_not_le]. }
    do 6 eexists.
    split; [now apply (between_ok _ _ t l)|]. split; [apply G|].
    split; [now apply (between_ok _ _ t l)|]. split; [apply G|].
    split; [now apply (between_ok _ _ t l)|]. split; [apply G|].
    split; [now apply (between_ok _ _ t l)|]. split; [apply G|].
    split; [now apply (between_ok _ _ t l)|]. split; [apply G|].
    split; [now apply (between_ok _ _ t l)|]. apply G.
  Qed.
  Theorem C72_day_of_year_interval : forall t zone n low high, t_dayOfYear offset (Some t) zone = Ok n -> (low < high)%Q ->
    exists b, t_isDayOfYear offset (Some t) zone low high = Ok b /\ (b = true <-> (low <= inject_Z n < high)%Q).
  Proof.
    intros t zone n low high H L. unfold t_dayOfYear, accessor, local in H. unfold t_isDayOfYear, is_between.
    replace (Qle_bool high low) with false.
    2:{ symmetry. apply Bool.not_true_iff_false. rewrite Qle_bool_iff. now apply Qlt_not_le. }
    assert (T : tscheck (Some t) (40150 + 2) = Ok t).
    { unfold tscheck in *. destruct (_ || _)%bool; [discriminate|reflexivity]. }
    rewrite T. cbn [rbind]. unfold tscheck in H. destruct (_ || _)%bool; [discriminate|]. cbn [rbind] in H.
    unfold tz in *. destruct (String.eqb zone "").
    - cbn [rbind] in *. injection H as H. eexists. split; [reflexivity|]. rewrite H.
      rewrite Bool.andb_true_iff, Bool.negb_true_iff, Qle_bool_iff, <- Bool.not_true_iff_false, Qle_bool_iff.
      split; intros [H1 H2]; split; try assumption; [now apply Qnot_le_lt|now apply Qlt_not_le].
    - destruct (offset zone) as [f|]; [|discriminate]. destruct (in_datetime _); [|discriminate].
      cbn [rbind] in *. injection H as H. eexists. split; [reflexivity|]. rewrite H.
      rewrite Bool.andb_true_iff, Bool.negb_true_iff, Qle_bool_iff, <- Bool.not_true_iff_false, Qle_bool_iff.
      split; intros [H1 H2]; split; try assumption; [now apply Qnot_le_lt|now apply Qlt_not_le].
  Qed.
  Theorem C72_bad_interval : forall ts zone low high, (high <= low)%Q ->
    t_isSecondOfMinute offset ts zone low high = Raise (PFAErr 40090) /\ t_isMinuteOfHour offset ts zone low high = Raise (PFAErr 40100) /\
    t_isHourOfDay offset ts zone low high = Raise (PFAErr 40110) /\ t_isDayOfWeek offset ts zone low high = Raise (PFAErr 40120) /\
    t_isDayOfMonth offset ts zone low high = Raise (PFAErr 40130) /\ t_isMonthOfYear offset ts zone low high = Raise (PFAErr 40140) /\
    t_isDayOfYear offset ts zone low high = Raise (PFAErr 40150).
  Proof.
    intros ts zone low high H. apply Qle_bool_iff in H.
    repeat split; unfold t_isSecondOfMinute, t_isMinuteOfHour, t_isHourOfDay, t_isDayOfWeek, t_isDayOfMonth, t_isMonthOfYear, t_isDayOfYear, is_between; now rewrite H.
  Qed.

  (** makeTimestamp on an existing date and time of the years 1-9999 *)
  Definition sane (y mo d h mi s ms : Z) : Prop :=
    1 <= y <= 9999 /\ exists_date (Date y mo d) /\ 0 <= h < 24 /\ 0 <= mi < 60 /\ 0 <= s < 60 /\ 0 <= ms < 1000.
  Lemma sane_valid y mo d h mi s ms : sane y mo d h mi s ms <-> valid_datetime y mo d h mi s (ms * 1000) = true.
  Proof.
    unfold valid_datetime, sane, exists_date. cbn [year month day]. rewrite !Bool.andb_true_iff, !Z.leb_le. split.
    - intros (Y & (D1 & n & L & D2) & H1 & H2 & H3 & H4). apply month_spec in L as [M ->]. repeat split; try lia.
    - intros H. split; [lia|]. split; [|lia]. split; [lia|]. exists (days_in_month y mo). split; [apply month_spec; lia|lia].
  Qed.
  Lemma datetime_ok y mo d h mi s ms : sane y mo d h mi s ms ->
    exists l, datetime y mo d h mi s (ms * 1000) = Ok l /\ exists w, shows_time l (Date y mo d) w h mi s (ms * 1000).
  Proof.
    intros Sn. pose proof Sn as V. apply sane_valid in V. destruct Sn as (Y & (D1 & n & L & D2) & H1 & H2 & H3 & H4).
    cbn [year month day] in *. apply month_spec in L as [M ->].
    unfold datetime. rewrite V. replace (negb _) with false.
    2:{ symmetry. rewrite Bool.negb_false_iff. cbn [forallb]. unfold c_int. pose proof (dim_bounds (is_leap y) mo). rewrite dim_eq in D2.
        rewrite !Bool.andb_true_iff, !Z.leb_le. repeat split; lia. }
    eexists. split; [reflexivity|]. destruct (day_number_total (ymd2ord y mo d - 719163)) as [w W]. exists w.
    exists (ymd2ord y mo d - 719163). replace (ymd2ord y mo d - 719163 + 719163) with (ymd2ord y mo d) in W by lia.
    unfold date_of in W. rewrite ymd_inverse in W by lia. split; [exact W|]. repeat split; try lia. unfold day_us. lia.
  Qed.
  Theorem C72_make : forall y mo d h mi s ms, sane y mo d h mi s ms ->
    exists t w, makeTimestamp localize y mo d h mi s ms "" = Ok t /\ shows_time t (Date y mo d) w h mi s (ms * 1000).
  Proof.
    intros * Sn. destruct (datetime_ok _ _ _ _ _ _ _ Sn) as (l & E & w & H). exists l, w. split; [|exact H].
    unfold makeTimestamp. now rewrite E.
  Qed.
  (** in a zone: the moment that the zone's clocks show that time, by the zone's own rule for reading clocks *)
  Theorem C72_make_zone : forall y mo d h mi s ms zone f, sane y mo d h mi s ms -> zone <> "" -> localize zone = Some f ->
    exists l w, shows_time l (Date y mo d) w h mi s (ms * 1000) /\
      (-62135596800000000 <= l - f l <= 253402300799999999 -> makeTimestamp localize y mo d h mi s ms zone = Ok (l - f l)).
  Proof.
    intros * Sn N E. destruct (datetime_ok _ _ _ _ _ _ _ Sn) as (l & El & w & H). exists l, w. split; [exact H|]. intros B.
    unfold makeTimestamp. destruct (String.eqb_spec zone ""); [contradiction|]. rewrite El, E. cbn [rbind].
    unfold in_datetime, min_us, max_us. rewrite (proj2 (Z.leb_le _ _)) by lia. rewrite (proj2 (Z.leb_le _ _)) by lia. reflexivity.
  Qed.
  (** then the accessors give back what was put in, when the zone's two rules agree at that moment *)
  Theorem C72_round_trip : forall y mo d h mi s ms zone t, sane y mo d h mi s ms ->
    makeTimestamp localize y mo d h mi s ms zone = Ok t -> accepted t ->
    (zone <> "" -> exists f g, localize zone = Some f /\ offset zone = Some g /\ forall l, t = l - f l -> g t = f l) ->
    t_year offset (Some t) zone = Ok y /\ t_monthOfYear offset (Some t) zone = Ok mo /\ t_dayOfMonth offset (Some t) zone = Ok d /\
    t_hourOfDay offset (Some t) zone = Ok h /\ t_minuteOfHour offset (Some t) zone = Ok mi /\ t_secondOfMinute offset (Some t) zone = Ok s.
  Proof.
    intros * Sn E A Zn. destruct (datetime_ok _ _ _ _ _ _ _ Sn) as (l & El & w & H).
    assert (B : -62135596800000000 <= l <= 253402300799999999).
    { destruct Sn as (Y & (D1 & n & L & D2) & _). cbn [year month day] in *. apply month_spec in L as [M ->].
      destruct H as (k & K & R & R1 & R2 & R3 & ->).
      apply day_number_date in K as [K _]. destruct (ord_valid (k + 719163)) as [_ O]. unfold date_of in K.
      destruct (ord2ymd (k + 719163)) as [[y' m'] d']. injection K as -> -> ->.
      assert (V : valid (y', m', d')) by (split; lia). apply ymd_year in V. rewrite O in V.
      assert (Y1 : days_before_year 1 <= days_before_year y').
      { destruct (Z.eq_dec y' 1) as [->|Ny]; [lia|]. pose proof (year_mono 1 y'). pose proof (year_step 1). destruct (is_leap 1); lia. }
      assert (Y2 : days_before_year (y' + 1) <= days_before_year 10000) by (apply year_mono; lia).
      change (days_before_year 1) with 0 in Y1. change (days_before_year 10000) with 3652059 in Y2. lia. }
    assert (C : clocks zone t l).
    { unfold makeTimestamp in E. destruct (String.eqb_spec zone "") as [->|N].
      - left. split; [reflexivity|]. rewrite El in E. congruence.
      - right. split; [exact N|]. destruct (Zn N) as (f & g & F & G & R). rewrite F, El in E. cbn [rbind] in E.
        destruct (in_datetime (l - f l)); [|discriminate]. injection E as E. exists g. split; [exact G|]. split; [|exact B].
        rewrite (R l) by lia. lia. }
    apply shows_time_unique in H as (D & _ & -> & -> & -> & _). injection D as -> -> ->.
    repeat split; now apply (accessor_ok _ _ t l).
  Qed.
  (** and a timestamp of whole milliseconds is made again from its own readings *)
  Theorem C72_make_inverse : forall t d w h mi s us, accepted t -> shows_time t d w h mi s (us * 1000) ->
    makeTimestamp localize (year d) (month d) (day d) h mi s us "" = Ok t.
  Proof.
    intros * A H.
    assert (Sn : sane (year d) (month d) (day d) h mi s us).
    { pose proof H as (k & K & R1 & R2 & R3 & R4 & T). unfold sane. split; [|split; [|lia]].
      - apply day_number_date in K as [K _]. destruct (ord_valid (k + 719163)) as [V O]. unfold date_of in K.
        destruct (ord2ymd (k + 719163)) as [[y' m'] d']. subst d. cbn [of_triple year]. apply ymd_year in V. rewrite O in V.
        unfold accepted in A.
        assert (Y1 : 1 <= y').
        { destruct (Z_le_gt_dec 1 y') as [?|G]; [assumption|]. pose proof (year_mono y' 1). change (days_before_year 1) with 0 in *. lia. }
        assert (Y2 : y' <= 9999).
        { destruct (Z_le_gt_dec y' 9999) as [?|G]; [assumption|]. pose proof (year_mono 9999 y') as Y. change (days_before_year (9999 + 1)) with 3652059 in Y. lia. }
        lia.
      - apply shows_time_unique in H as (-> & _). destruct (ord_valid (ordinal t)) as [V _]. unfold dt_year, dt_month, dt_day. destruct (ord2ymd (ordinal t)) as [[y m] d'].
        destruct V as [Vm Vd]. split; [cbn; lia|]. exists (days_in_month y m). split; [cbn; apply month_spec; lia|cbn; lia]. }
    destruct (C72_make _ _ _ _ _ _ _ Sn) as (t' & w' & E & H'). rewrite E. f_equal.
    destruct d as [y m d]. cbn [year month day] in *.
    destruct H as (k & K & _ & _ & _ & _ & ->), H' as (k' & K' & _ & _ & _ & _ & ->).
    apply day_number_date in K as [K _]. apply day_number_date in K' as [K' _].
    destruct (ord_valid (k + 719163)) as [_ O]. destruct (ord_valid (k' + 719163)) as [_ O']. unfold date_of in *.
    destruct (ord2ymd (k + 719163)) as [[? ?] ?], (ord2ymd (k' + 719163)) as [[? ?] ?]. injection K as -> -> ->. injection K' as -> -> ->. lia.
  Qed.
  (** impossible dates and times are the documented error, for arguments of moderate size *)
  Theorem C72_make_impossible : forall y mo d h mi s ms, ~ sane y mo d h mi s ms -> -2147483 <= ms <= 2147483 ->
    Forall (fun z => -2147483648 <= z <= 2147483647) [y; mo; d; h; mi; s] ->
    makeTimestamp localize y mo d h mi s ms "" = Raise (PFAErr 40081) /\
    forall zone f, zone <> "" -> localize zone = Some f -> makeTimestamp localize y mo d h mi s ms zone = Raise (PFAErr 40081).
  Proof.
    intros * Ns B F. assert (E : datetime y mo d h mi s (ms * 1000) = Raise (PyErr "ValueError")).
    { unfold datetime. replace (negb _) with false.
      - rewrite sane_valid in Ns. apply Bool.not_true_iff_false in Ns. now rewrite Ns.
      - symmetry. rewrite Bool.negb_false_iff. cbn [forallb]. unfold c_int. rewrite !Forall_cons_iff in F.
        rewrite !Bool.andb_true_iff, !Z.leb_le. repeat split; lia. }
    unfold makeTimestamp. rewrite E. split; [reflexivity|]. intros zone f N L. destruct (String.eqb_spec zone ""); [contradiction|]. now rewrite L.
  Qed.
  (** Without that restriction it is false: a number of milliseconds of 2147484 or more, an int like any other, gives a
      Python OverflowError. *)
  Theorem C72_make_overflow_refuted : exists ms, -2147483648 <= ms <= 2147483647 /\
    makeTimestamp localize 2015 1 1 0 0 0 ms "" = Raise (PyErr "OverflowError").
  Proof. exists 2147484. split; [lia|reflexivity]. Qed.
  (** The declared result is an int, the returned number of seconds need not be whole. *)
  Theorem C72_make_int_refuted : exists t, makeTimestamp localize 1970 1 1 0 0 0 1 "" = Ok t /\ ~ exists seconds, t = seconds * 1000000.
  Proof. exists 1000. split; [reflexivity|]. intros [n H]. lia. Qed.
  (** An accepted timestamp in a known zone can still fail, with a Python error: just before year 1 or after 9999 there. *)
  Theorem C72_zone_overflow_refuted : forall zone f, zone <> "" -> offset zone = Some f -> f (-62135596800000000) < 0 ->
    accepted (-62135596800000000) /\ t_year offset (Some (-62135596800000000)) zone = Raise (PyErr "OverflowError").
  Proof.
    intros zone f N E L. split; [unfold accepted; lia|]. unfold t_year, accessor, local. rewrite tscheck_ok by (unfold accepted; lia). cbn [rbind].
    unfold tz. destruct (String.eqb_spec zone ""); [contradiction|]. rewrite E. unfold in_datetime, min_us.
    replace (_ <=? _) with false; [reflexivity|]. symmetry. apply Z.leb_gt. lia.
  Qed.

  (** C54 *)
  Theorem C54_weekend : forall t zone l d w h mi s us, accepted t -> clocks zone t l -> shows_time l d w h mi s us ->
    exists b, t_isWeekend offset (Some t) zone = Ok b /\ (b = true <-> w = Sat \/ w = Sun).
  Proof.
    intros * A C H. unfold t_isWeekend, local. rewrite tscheck_ok by exact A. cbn [rbind]. rewrite (tz_ok t l) by exact C. cbn [rbind].
    eexists. split; [reflexivity|]. apply shows_time_unique in H as (_ & W & _). rewrite <- W.
    destruct w; cbn; intuition discriminate.
  Qed.
  Theorem C54_work_hours_partial : forall t zone l d w h mi s us, accepted t -> clocks zone t l -> shows_time l d w h mi s us ->
    w <> Sat -> w <> Sun ->
    exists b, t_isWorkHours offset (Some t) zone = Ok b /\ (b = true <-> 9 <= h < 17).
  Proof.
    intros * A C H N1 N2. unfold t_isWorkHours, local. rewrite tscheck_ok by exact A. cbn [rbind]. rewrite (tz_ok t l) by exact C. cbn [rbind].
    eexists. split; [reflexivity|]. apply shows_time_unique in H as (_ & W & -> & _). rewrite <- W.
    rewrite !Bool.andb_true_iff, Z.leb_le, Z.ltb_lt. destruct w; cbn; try contradiction; intuition.
  Qed.
  (** The full claim is false: on every Saturday and Sunday the working hours count too. *)
  Theorem C54_refuted : forall t zone l d w h mi s us, accepted t -> clocks zone t l -> shows_time l d w h mi s us ->
    w = Sat \/ w = Sun -> 9 <= h < 17 ->
    t_isWeekend offset (Some t) zone = Ok true /\ t_isWorkHours offset (Some t) zone = Ok true.
  Proof.
    intros * A C H W B. apply shows_time_unique in H as (_ & E & -> & _). unfold t_isWeekend, t_isWorkHours, local. rewrite !tscheck_ok by exact A. cbn [rbind].
    rewrite !(tz_ok t l) by exact C. cbn [rbind]. rewrite <- E. replace ((9 <=? dt_hour l) && (dt_hour l <? 17))%bool with true.
    2:{ symmetry. rewrite Bool.andb_true_iff, Z.leb_le, Z.ltb_lt. lia. }
    destruct W as [-> | ->]; split; reflexivity.
  Qed.
End Zones.

(** *** examples *)
Definition zones (z : string) : option (Z -> Z) :=
  if String.eqb z "Asia/Tokyo" then Some (fun _ => 9 * 3600000000) else if String.eqb z "Etc/GMT+2" then Some (fun _ => -2 * 3600000000) else None.
(** 2015-02-28T22:30:15.250 UTC, a Saturday; in Tokyo it is already Sunday, 1 March *)
Definition moment : Z := 1425162615250000.
Example C72_example :
  accepted moment /\ clocks zones "" moment moment /\ clocks zones "Asia/Tokyo" moment (moment + 9 * 3600000000) /\
  map (fun f => f (Some moment) "") [t_year zones; t_monthOfYear zones; t_dayOfMonth zones; t_dayOfYear zones; t_dayOfWeek zones;
    t_hourOfDay zones; t_minuteOfHour zones; t_secondOfMinute zones] = [Ok 2015; Ok 2; Ok 28; Ok 59; Ok 5; Ok 22; Ok 30; Ok 15] /\
  map (fun f => f (Some moment) "Asia/Tokyo") [t_year zones; t_monthOfYear zones; t_dayOfMonth zones; t_dayOfYear zones; t_dayOfWeek zones;
    t_hourOfDay zones; t_minuteOfHour zones; t_secondOfMinute zones] = [Ok 2015; Ok 3; Ok 1; Ok 60; Ok 6; Ok 7; Ok 30; Ok 15] /\
  makeTimestamp zones 2015 3 1 7 30 15 250 "Asia/Tokyo" = Ok moment /\
  makeTimestamp zones 2015 2 29 0 0 0 0 "" = Raise (PFAErr 40081) /\
  t_year zones (Some moment) "Mars" = Raise (PFAErr 40000) /\
  t_isMonthOfYear zones (Some moment) "" 2 (5 # 2) = Ok true /\ t_isHourOfDay zones (Some moment) "" 3 3 = Raise (PFAErr 40110) /\
  t_year zones (Some (-62135596800000000)) "Etc/GMT+2" = Raise (PyErr "OverflowError").
Proof.
  split; [unfold accepted, moment; lia|]. split; [now left|]. split.
  { right. split; [discriminate|]. eexists. split; [reflexivity|]. cbn. unfold moment. lia. }
  repeat split; vm_compute; reflexivity.
Qed.
Example C72_spec_example : exists w, shows_time moment (Date 2015 2 28) w 22 30 15 250000 /\ w = Sat.
Proof.
  destruct (shows_time_model moment) as (w & W & H). exists w. split; [exact H|]. apply weekday_inj. rewrite W. reflexivity.
Qed.
(** Saturday 2015-02-28T10:00 UTC *)
Example C54_example : t_isWeekend zones (Some 1425117600000000) "" = Ok true /\ t_isWorkHours zones (Some 1425117600000000) "" = Ok true /\
  t_isWorkHours zones (Some 1425031200000000) "" = Ok true /\ t_isWorkHours zones (Some 1425060000000000) "" = Ok false.
Proof. repeat split; vm_compute; reflexivity. Qed.

Print Assumptions C72_accessors.
Print Assumptions C72_readings_unique.
Print Assumptions C72_day_of_year.
Print Assumptions C72_out_of_range.
Print Assumptions C72_unknown_zone.
Print Assumptions C72_intervals.
Print Assumptions C72_day_of_year_interval.
Print Assumptions C72_bad_interval.
Print Assumptions C72_make.
Print Assumptions C72_make_zone.
Print Assumptions C72_round_trip.
Print Assumptions C72_make_inverse.
Print Assumptions C72_make_impossible.
Print Assumptions C72_make_overflow_refuted.
Print Assumptions C72_make_int_refuted.
Print Assumptions C72_zone_overflow_refuted.
Print Assumptions C54_weekend.
Print Assumptions C54_work_hours_partial.
Print Assumptions C54_refuted.
