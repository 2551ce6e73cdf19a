(** * Model of src/oresat_adcs/classes/jday.py *)
From Coq Require Import Reals ZArith List Bool.
From Flocq Require Import Core.
From Verif Require Import Num Vec M_quaternion S_cal.
Import ListNotations.

(** ** class Clock, jday.py:4-233 *)
Section Clock.
Context {T : Type} `{NT : Num T}.
(** jday.py:18-27: the fields.  Simplified: year..minute are integers; second and absolute are numbers. *)
Record Clock := mkClock {
  absolute : T; year : Z; month : Z; day : Z; hour : Z; minute : Z; second : T;
  leap_year : bool; leap_second : bool }.
(** A target time [year, month, day, hour, minute, second] as the code passes it. *)
Record Date := mkDate { d_year : Z; d_month : Z; d_day : Z; d_hour : Z; d_minute : Z; d_second : T }.

(** jday.py:112-128 [is_leap_year]; Python's % is floor mod, as is [Z.modulo]. *)
Definition is_leap_year (y : Z) : bool :=
  if negb (y mod 4 =? 0)%Z then false
  else if negb (y mod 100 =? 0)%Z then true
  else if negb (y mod 400 =? 0)%Z then false
  else true.

(** jday.py:130-148 [days_in_month] *)
Definition days_in_month (month : Z) (leap_year : bool) : Z :=
  if existsb (Z.eqb month) [1; 3; 5; 7; 8; 10; 12]%Z then 31%Z
  else if existsb (Z.eqb month) [4; 6; 9; 11]%Z then 30%Z
  else if leap_year then 29%Z
  else 28%Z.

(** jday.py:18-27 [__init__] *)
Definition Clock_init (y mo d h mi : Z) (s : T) : Clock :=
  mkClock n0 y mo d h mi s (is_leap_year y) false.

(** jday.py:29-52 [is_after] *)
Definition is_after (c : Clock) (t : Date) : bool :=
  if (year c <? d_year t)%Z then false
  else if (month c <? d_month t)%Z then false
  else if (day c <? d_day t)%Z then false
  else if (hour c <? d_hour t)%Z then false
  else if (minute c <? d_minute t)%Z then false
  else if (second c <? d_second t)%num then false
  else true.

(** jday.py:78-90: the local [setup_time] of [is_minutes_away].  [minutes] is an integer. *)
Definition setup_time (c : Clock) (t : Date) (minutes : Z) : Date :=
  if (d_minute t <? minutes)%Z then
    let '(y, mo, d, h) :=
      if (d_hour t =? 0)%Z then
        let '(y, mo, d) :=
          if (d_day t =? 1)%Z then
            let '(y, mo) :=
              if (d_month t =? 1)%Z then ((d_year t - 1)%Z, 12%Z) else (d_year t, (d_month t - 1)%Z) in
            (y, mo, days_in_month mo (leap_year c))
          else (d_year t, d_month t, (d_day t - 1)%Z) in
        (y, mo, d, 23%Z)
      else (d_year t, d_month t, d_day t, (d_hour t - 1)%Z) in
    mkDate y mo d h (d_minute t + (60 - minutes))%Z (d_second t)
  else mkDate (d_year t) (d_month t) (d_day t) (d_hour t) (d_minute t - minutes)%Z (d_second t).

(** jday.py:54-91 [is_minutes_away] *)
Definition is_minutes_away (c : Clock) (t : Date) (minutes : Z) : bool :=
  if is_after c t then false else is_after c (setup_time c t minutes).

(** jday.py:150-179 [tick]: each [if] of the source is one step below, in order. *)
Definition tick (dt : T) (c : Clock) : Clock :=
  let second := (second c + dt)%num in
  let absolute := (absolute c + dt)%num in
  let '(second, minute) :=
    if (negb (leap_second c) && (nabs (second - nofZ 60) <? ndec 1 100000)
        || leap_second c && (nabs (second - nofZ 61) <? ndec 1 100000))%num
    then (nofZ 0, (minute c + 1)%Z) else (second, minute c) in
  let '(minute, hour) := if (minute =? 60)%Z then (0%Z, (hour c + 1)%Z) else (minute, hour c) in
  let '(hour, day) := if (hour =? 24)%Z then (0%Z, (day c + 1)%Z) else (hour, day c) in
  let '(day, month) :=
    if (days_in_month (month c) (leap_year c) <? day)%Z then (1%Z, (month c + 1)%Z) else (day, month c) in
  let '(month, year, leap_year) :=
    if (month =? 13)%Z then (1%Z, (year c + 1)%Z, is_leap_year (year c + 1)) else (month, year c, leap_year c) in
  mkClock absolute year month day hour minute second leap_year (leap_second c).

Definition ticks (dts : list T) (c : Clock) : Clock := fold_left (fun c dt => tick dt c) dts c.
End Clock.
Arguments Clock : clear implicits.
Arguments Date : clear implicits.

Local Open Scope R_scope.
(** jday.py:181-198 [julian_date], over R.  [7/4 * n] is exact in binary64 for the integers involved and [int] truncates
    towards zero, hence [Z.quot]; [int(275*month/9)] likewise. *)
Definition julian_date (c : Clock R) (h mi : Z) (s : R) : R :=
  let term1 := Z.quot (7 * (year c + Z.quot (month c + 9) 12)) 4 in
  let term2 := Z.quot (275 * month c) 9 in
  let term3 := (60 * IZR h + IZR mi + s / (60 + (if leap_second c then 1 else 0))) / 1440 in
  1721013.5 + 367 * IZR (year c) + IZR (day c) - IZR term1 + IZR term2 + term3.

(** jday.py:200-208 [centuries_elapsed] *)
Definition centuries_elapsed (c : Clock R) : R := (julian_date c 0 0 0 - 2451545) / 36525.

(** jday.py:219-220 and 304-305: the sidereal polynomial *)
Definition gmst_poly (centuries : R) : R :=
  8640184.812866 * centuries + 0.093104 * centuries ^ 2 - 6.2 / 10 ^ 6 * centuries ^ 3.

(** jday.py:211-222 [gmst_seconds] *)
Definition gmst_seconds (c : Clock R) : R :=
  let term1 := gmst_poly (centuries_elapsed c) in
  let term2 := 1.002737909350795 * (3600 * IZR (hour c) + 60 * IZR (minute c) + second c) in
  24110.54841 + term1 + term2.

(** Python's float % : x - y*floor(x/y) *)
Definition Rmod (x y : R) : R := x - y * IZR (Zfloor (x / y)).

(** jday.py:224-233 [theta_gmst] *)
Definition theta_gmst (c : Clock R) : R := radians (Rmod (gmst_seconds c) 86400 / 240).

(** ** class JClock, jday.py:237-311 *)
(** A Python [datetime] is modelled by the number of microseconds since 0001-01-01T00:00:00 (proleptic Gregorian), which is
    what datetime arithmetic and comparison are defined by. *)
Definition us_per_day : Z := 86400 * 1000000.
Record JClock := mkJ { j_us : Z; j_absolute : R }.

(** First instant after datetime.max (9999-12-31T23:59:59.999999). *)
Definition datetime_end : Z := day_number 10000 1 1 * us_per_day.
Definition datetime_ok (us : Z) : bool := (0 <=? us)%Z && (us <? datetime_end)%Z.

(** datetime(year, month, day, hour, minute, second): ValueError on any field out of range. *)
Definition datetime_make (y mo d h mi s : Z) : res Z :=
  if ((1 <=? y) && (y <=? 9999) && (1 <=? mo) && (mo <=? 12) && (1 <=? d) && (d <=? month_len y mo)
      && (0 <=? h) && (h <=? 23) && (0 <=? mi) && (mi <=? 59) && (0 <=? s) && (s <=? 59))%Z
  then Ok ((minute_number y mo d h mi * 60 + s) * 1000000)%Z else Raise ValueError.
(** datetime fields needed below *)
Definition dt_hour (us : Z) : Z := (us / 3600000000) mod 24.
Definition dt_minute (us : Z) : Z := (us / 60000000) mod 60.
Definition dt_second (us : Z) : Z := (us / 1000000) mod 60.

(** jday.py:252-256 [__init__] (with [set_datetime] 275-277) *)
Definition JClock_init (y mo d h mi s : Z) : res JClock :=
  rbind (datetime_make y mo d h mi s) (fun us => Ok (mkJ us 0)).

(** jday.py:255: ref_datetime = datetime(2000, 1, 1, 12, 0, 0) *)
Definition ref_us : Z := minute_number 2000 1 1 12 0 * 60 * 1000000.

(** jday.py:264-267 [tick]: datetime + timedelta(seconds=dt); timedelta rounds to the nearest microsecond, ties to even;
    the addition raises OverflowError outside the datetime range.  [absolute] is not touched. *)
Definition jtick (dt : R) (c : JClock) : res JClock :=
  let us := (j_us c + ZnearestE (dt * 1000000))%Z in
  if datetime_ok us then Ok (mkJ us (j_absolute c)) else Raise OverflowError.
Fixpoint jticks (dts : list R) (c : JClock) : res JClock :=
  match dts with [] => Ok c | dt :: r => rbind (jtick dt c) (jticks r) end.

(** jday.py:269-273 [sync]: [now] is what datetime.now() returns; the result is the elapsed time in seconds *)
Definition jsync (now : Z) (c : JClock) : JClock * R := (mkJ now (j_absolute c), IZR (now - j_us c) / 1000000).
(** jday.py:261-262 [__eq__] *)
Definition j_eq (c other : JClock) : bool := (j_us c =? j_us other)%Z.
(** jday.py:279-281 [is_after] *)
Definition j_is_after (c : JClock) (other : Z) : bool := (other <? j_us c)%Z.
(** jday.py:283-285 [minutes_away] *)
Definition minutes_away (c : JClock) (other : Z) : R := IZR (other - j_us c) / 1000000 / 60.
(** jday.py:287-290 [is_minutes_away] *)
Definition j_is_minutes_away (c : JClock) (other : Z) (minutes : R) : bool :=
  Rltb (Rabs (IZR (other - j_us c) / 1000000 / 60 - minutes)) 1.
(** jday.py:292-295 [julian_date] *)
Definition j_julian_date (c : JClock) : R := IZR (j_us c - ref_us) / 1000000 / 86400 + 2451545.
(** jday.py:297-300 [centuries_elapsed]: microseconds of the current second are not subtracted *)
Definition j_centuries_elapsed (c : JClock) : R :=
  (IZR (j_us c - ref_us) / 1000000 - 3600 * IZR (dt_hour (j_us c)) - 60 * IZR (dt_minute (j_us c))
     - IZR (dt_second (j_us c))) / (86400 * 36525).
(** jday.py:302-307 [gmst_seconds] *)
Definition j_gmst_seconds (c : JClock) : R :=
  let gmst_zero := 24110.54841 + gmst_poly (j_centuries_elapsed c) in
  let earth_rotation := 1.002737909350795 * (3600 * IZR (dt_hour (j_us c)) + 60 * IZR (dt_minute (j_us c)) + IZR (dt_second (j_us c))) in
  gmst_zero + earth_rotation.
(** jday.py:309-311 [theta_gmst] *)
Definition j_theta_gmst (c : JClock) : R := radians (Rmod (j_gmst_seconds c) 86400 / 240).
