(** The civil calendar, by succession: each day follows the one before; and clocks. *)
From Verif Require Import Base.
Open Scope Z_scope.

Record date := Date { year : Z; month : Z; day : Z }.
Inductive weekday := Mon | Tue | Wed | Thu | Fri | Sat | Sun.

(** the Gregorian rule *)
Definition leap_year (y : Z) : Prop := (exists k, y = 4 * k) /\ ((exists k, y = 100 * k) -> exists k, y = 400 * k).
Inductive month_length : Z -> Z -> Z -> Prop :=
| thirty y m : m = 4 \/ m = 6 \/ m = 9 \/ m = 11 -> month_length y m 30
| thirty_one y m : m = 1 \/ m = 3 \/ m = 5 \/ m = 7 \/ m = 8 \/ m = 10 \/ m = 12 -> month_length y m 31
| february y : ~ leap_year y -> month_length y 2 28
| february_leap y : leap_year y -> month_length y 2 29.
(** an existing date *)
Definition exists_date (d : date) : Prop := 1 <= day d /\ exists n, month_length (year d) (month d) n /\ day d <= n.
(** the day after *)
Inductive follows : date -> date -> Prop :=
| next_day y m d n : month_length y m n -> 1 <= d < n -> follows (Date y m d) (Date y m (d + 1))
| next_month y m n : month_length y m n -> m < 12 -> follows (Date y m n) (Date y (m + 1) 1)
| next_year y : follows (Date y 12 31) (Date (y + 1) 1 1).
Definition next_weekday (w : weekday) : weekday :=
  match w with Mon => Tue | Tue => Wed | Wed => Thu | Thu => Fri | Fri => Sat | Sat => Sun | Sun => Mon end.
(** the numbers of pfatime: Monday is 0 *)
Definition weekday_number (w : weekday) : Z :=
  match w with Mon => 0 | Tue => 1 | Wed => 2 | Thu => 3 | Fri => 4 | Sat => 5 | Sun => 6 end.
(** [k] days after Thursday 1970-01-01 is this date *)
Inductive day_number : Z -> date -> weekday -> Prop :=
| epoch : day_number 0 (Date 1970 1 1) Thu
| later k d d' w : day_number k d w -> follows d d' -> day_number (k + 1) d' (next_weekday w)
| earlier k d d' w : day_number k d (next_weekday w) -> follows d' d -> day_number (k - 1) d' w.
(** what the clock and the calendar show [t] microseconds after the beginning of 1970-01-01 *)
Definition shows_time (t : Z) (d : date) (w : weekday) (h mi s us : Z) : Prop :=
  exists k, day_number k d w /\ 0 <= h < 24 /\ 0 <= mi < 60 /\ 0 <= s < 60 /\ 0 <= us < 1000000 /\
    t = (((k * 24 + h) * 60 + mi) * 60 + s) * 1000000 + us.
