(** * JClock as computed in binary64: jday.py:292-311.
    Every float operation of the source is one rounded operation here, in the order Python evaluates them.  Integer
    subexpressions ([3600*hour], [86400*36525], ...) are Python ints and exact. *)
From Coq Require Import Reals ZArith.
From Flocq Require Import Core BinarySingleNaN.
From Verif Require Import Num Flt M_jday.

(** timedelta.total_seconds(): the integer number of microseconds divided by 10**6 with int/int true division, which is
    correctly rounded.  Converting the dividend first is exact up to 2^53 microseconds (285 years); beyond that this
    definition would round twice and is not used. *)
Definition f_total_seconds (us : Z) : b64 := fdiv (fofZ (us - ref_us)) (fofZ 1000000).
(** jday.py:292-295 [julian_date] *)
Definition f_julian_date (us : Z) : b64 := fadd (fdiv (f_total_seconds us) (fofZ 86400)) (fofZ 2451545).
(** jday.py:297-300 [centuries_elapsed] *)
Definition f_centuries (us : Z) : b64 :=
  fdiv (fsub (fsub (fsub (f_total_seconds us) (fofZ (3600 * dt_hour us))) (fofZ (60 * dt_minute us))) (fofZ (dt_second us)))
       (fofZ (86400 * 36525)).
(** jday.py:302-307 [gmst_seconds]; [pw] is the C library's pow, which Python calls for [centuries**2], [centuries**3] and
    [10**(-6)] and whose accuracy is a hypothesis of the theorems, not part of the model. *)
Definition f_gmst (pw : b64 -> Z -> b64) (us : Z) : b64 :=
  let c := f_centuries us in
  let gmst_zero :=
    fsub (fadd (fadd (fdec 2411054841 100000) (fmul (fdec 8640184812866 1000000) c)) (fmul (fdec 93104 1000000) (pw c 2%Z)))
         (fmul (fmul (fdec 62 10) (pw (fofZ 10) (-6)%Z)) (pw c 3%Z)) in
  let earth_rotation := fmul (fdec 1002737909350795 1000000000000000) (fofZ (3600 * dt_hour us + 60 * dt_minute us + dt_second us)) in
  fadd gmst_zero earth_rotation.
(** Python's float % by a positive integer float: the C fmod is exact and, when its sign is that of a negative dividend, the
    divisor is added with one rounding; that is the exact floor-remainder of the dividend m*2^e, rounded once.  The sign of a
    zero result is not modelled. *)
Definition f_mod (x : b64) (y : Z) : b64 :=
  match x with
  | B754_zero s => B754_zero s
  | B754_finite s m e _ =>
      let a := (if s then Z.neg m else Z.pos m) in
      let d := Z.min e 0 in
      binary_normalize 53 1024 b64_prec b64_emax mode_NE ((a * 2 ^ (e - d)) mod (y * 2 ^ (- d)))%Z d false
  | _ => B754_nan
  end.
(** math.pi / NPY_PI: the float 0x400921FB54442D18 *)
Definition f_pi : b64 := binary_normalize 53 1024 b64_prec b64_emax mode_NE 7074237752028440 (-51) false.
(** np.radians: one multiplication by the constant pi/180 *)
Definition f_radians (x : b64) : b64 := fmul x (fdiv f_pi (fofZ 180)).
(** jday.py:309-311 [theta_gmst] *)
Definition f_theta (pw : b64 -> Z -> b64) (us : Z) : b64 := f_radians (fdiv (f_mod (f_gmst pw us) 86400) (fofZ 240)).
