(** Model of titus/lib/pfatime.py and of the part of Python's datetime that it uses.

    A timestamp is a whole number of microseconds since 1970-01-01T00:00:00 UTC, which is what
    datetime.fromtimestamp makes of the float [ts] (it rounds; the rounding is not modelled); [None] is nan. *)
From Coq Require Import QArith.
From Verif Require Import Base.
Open Scope string_scope.
Open Scope list_scope.
Open Scope Z_scope.

(** *** datetime (Lib/datetime.py of CPython, _ord2ymd and _ymd2ord) *)
Definition is_leap (y : Z) : bool := (y mod 4 =? 0) && (negb (y mod 100 =? 0) || (y mod 400 =? 0)).
Definition days_in_month (y m : Z) : Z :=
  if m =? 2 then (if is_leap y then 29 else 28)
  else if (m =? 4) || (m =? 6) || (m =? 9) || (m =? 11) then 30 else 31.
(** _DAYS_BEFORE_MONTH *)
Definition before_month (m : Z) : Z :=
  nth (Z.to_nat m) [-1; 0; 31; 59; 90; 120; 151; 181; 212; 243; 273; 304; 334] 0.
Definition days_before_month (y m : Z) : Z := before_month m + (if (2 <? m) && is_leap y then 1 else 0).
Definition days_before_year (y : Z) : Z := let y := y - 1 in y * 365 + y / 4 - y / 100 + y / 400.
Definition ymd2ord (y m d : Z) : Z := days_before_year y + days_before_month y m + d.
Definition ord2ymd (n : Z) : Z * Z * Z :=
  let n := n - 1 in
  let n400 := n / 146097 in let n := n mod 146097 in
  let year := n400 * 400 + 1 in
  let n100 := n / 36524 in let n := n mod 36524 in
  let n4 := n / 1461 in let n := n mod 1461 in
  let n1 := n / 365 in let n := n mod 365 in
  let year := year + n100 * 100 + n4 * 4 + n1 in
  if (n1 =? 4) || (n100 =? 4) then (year - 1, 12, 31)
  else
    let leap := (n1 =? 3) && (negb (n4 =? 24) || (n100 =? 3)) in
    let month := (n + 50) / 32 in
    let preceding := before_month month + (if (2 <? month) && leap then 1 else 0) in
    if n <? preceding then
      let month' := month - 1 in
      let preceding' := preceding - (if month' =? 2 then (if leap then 29 else 28)
                                     else if (month' =? 4) || (month' =? 6) || (month' =? 9) || (month' =? 11) then 30 else 31) in
      (year, month', n - preceding' + 1)
    else (year, month, n - preceding + 1).

(** A datetime: the ordinal of its day and the microsecond of the day; 719163 is 1970-01-01. *)
Definition day_us : Z := 86400000000.
Definition ordinal (t : Z) : Z := t / day_us + 719163.
Definition us_of_day (t : Z) : Z := t mod day_us.
Definition dt_year t := fst (fst (ord2ymd (ordinal t))).
Definition dt_month t := snd (fst (ord2ymd (ordinal t))).
Definition dt_day t := snd (ord2ymd (ordinal t)).
Definition dt_hour t := us_of_day t / 3600000000.
Definition dt_minute t := us_of_day t / 60000000 mod 60.
Definition dt_second t := us_of_day t / 1000000 mod 60.
Definition dt_weekday t := (ordinal t + 6) mod 7.
Definition dt_yday t := ordinal t - ymd2ord (dt_year t) 1 1 + 1.
(** years 1 to 9999 *)
Definition min_us : Z := -62135596800 * 1000000.
Definition max_us : Z := 253402300800 * 1000000 - 1.
Definition in_datetime (t : Z) : bool := (min_us <=? t) && (t <=? max_us).

(** *** pfatime.py *)
Section Time.
  (** The pytz package: the offset from UTC, in microseconds, of a named zone at a time given in UTC, and the one that
      localize assumes for a time given on the zone's clocks. [None]: UnknownTimeZoneError. *)
  Variable offset : string -> option (Z -> Z).
  Variable localize : string -> option (Z -> Z).

  (** 59-62 *)
  Definition tscheck (ts : option Z) (code : Z) : res Z :=
    match ts with
    | None => Raise (PFAErr code)
    | Some t => if (t <? -62135596800 * 1000000) || (253402300799 * 1000000 <? t) then Raise (PFAErr code) else Ok t
    end.
  (** 50-57. The result is the time on the zone's clocks; astimezone raises OverflowError outside the years 1-9999. *)
  Definition tz (t : Z) (zone : string) (code : Z) : res Z :=
    if String.eqb zone "" then Ok t
    else match offset zone with
         | None => Raise (PFAErr code)
         | Some f => if in_datetime (t + f t) then Ok (t + f t) else Raise (PyErr "OverflowError")
         end.
  (** 69 and the like; [base] is errcodeBase *)
  Definition local (base : Z) (ts : option Z) (zone : string) : res Z := t <- tscheck ts (base + 1) ;; tz t zone base.
  Definition accessor (base : Z) (get : Z -> Z) (ts : option Z) (zone : string) : res Z :=
    l <- local base ts zone ;; Ok (get l).
  Definition t_year := accessor 40000 dt_year.                                   (* 64-70 *)
  Definition t_monthOfYear := accessor 40010 dt_month.                           (* 72-78 *)
  Definition t_dayOfYear := accessor 40020 dt_yday.                              (* 80-86 *)
  Definition t_dayOfMonth := accessor 40030 dt_day.                              (* 88-94 *)
  Definition t_dayOfWeek := accessor 40040 dt_weekday.                           (* 96-102 *)
  Definition t_hourOfDay := accessor 40050 dt_hour.                              (* 104-110 *)
  Definition t_minuteOfHour := accessor 40060 dt_minute.                         (* 112-118 *)
  Definition t_secondOfMinute := accessor 40070 dt_second.                       (* 120-126 *)

  (** datetime.datetime(...): arguments beyond a C int raise OverflowError, others out of range ValueError *)
  Definition c_int (z : Z) : bool := (-2147483648 <=? z) && (z <=? 2147483647).
  Definition valid_datetime (y mo d h mi s us : Z) : bool :=
    (1 <=? y) && (y <=? 9999) && (1 <=? mo) && (mo <=? 12) && (1 <=? d) && (d <=? days_in_month y mo) &&
    (0 <=? h) && (h <=? 23) && (0 <=? mi) && (mi <=? 59) && (0 <=? s) && (s <=? 59) && (0 <=? us) && (us <=? 999999).
  Definition datetime (y mo d h mi s us : Z) : res Z :=
    if negb (forallb c_int [y; mo; d; h; mi; s; us]) then Raise (PyErr "OverflowError")
    else if valid_datetime y mo d h mi s us
    then Ok ((ymd2ord y mo d - 719163) * day_us + h * 3600000000 + mi * 60000000 + s * 1000000 + us)
    else Raise (PyErr "ValueError").
  (** 128-146. The result in microseconds; the code returns it as a float number of seconds. millisecond * 1000.0 is
      exact for an int. In a zone, localize comes after the datetime is made but pytz.timezone before. *)
  Definition makeTimestamp (y mo d h mi s ms : Z) (zone : string) : res Z :=
    let made := match datetime y mo d h mi s (ms * 1000) with
                | Raise (PyErr e) => if String.eqb e "ValueError" then Raise (PFAErr 40081) else Raise (PyErr e)
                | r => r
                end in
    if String.eqb zone "" then made
    else match localize zone with
         | None => Raise (PFAErr 40080)
         | Some f => l <- made ;; (if in_datetime (l - f l) then Ok (l - f l) else Raise (PyErr "OverflowError"))
         end.

  (** 148-223. low and high are finite doubles, so rational; Python compares an int with a float exactly. *)
  Definition is_between (base : Z) (get : Z -> Z) (ts : option Z) (zone : string) (low high : Q) : res bool :=
    if Qle_bool high low then Raise (PFAErr base)
    else t <- tscheck ts (base + 2) ;; l <- tz t zone (base + 1) ;; Ok (Qle_bool low (inject_Z (get l)) && negb (Qle_bool high (inject_Z (get l)))).
  Definition t_isSecondOfMinute := is_between 40090 dt_second.
  Definition t_isMinuteOfHour := is_between 40100 dt_minute.
  Definition t_isHourOfDay := is_between 40110 dt_hour.
  Definition t_isDayOfWeek := is_between 40120 dt_weekday.
  Definition t_isDayOfMonth := is_between 40130 dt_day.
  Definition t_isMonthOfYear := is_between 40140 dt_month.
  Definition t_isDayOfYear := is_between 40150 dt_yday.
  (** 225-232 *)
  Definition t_isWeekend (ts : option Z) (zone : string) : res bool :=
    l <- local 40160 ts zone ;; let day := dt_weekday l in Ok ((day =? 5) || (day =? 6)).
  (** 234-243 *)
  Definition t_isWorkHours (ts : option Z) (zone : string) : res bool :=
    l <- local 40170 ts zone ;;
    let day := dt_weekday l in
    let hour := dt_hour l in
    Ok ((negb (day =? 5) || negb (day =? 6)) && ((9 <=? hour) && (hour <? 17))).
End Time.
