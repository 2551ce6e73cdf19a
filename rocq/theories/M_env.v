(** * Model of src/oresat_adcs/configuration/environment.py

    The file holds two classes, [Environment] (6-189) and [OrbitalEnvironment] (193-376), with the same formulas; the second
    reads its arguments from a state object.  Line numbers below are those of [OrbitalEnvironment]. *)
From Coq Require Import Reals ZArith List Bool.
From Verif Require Import Num Vec M_vector M_quaternion M_jday M_frame.
Import ListNotations.
Local Open Scope R_scope.

(** environment.py:194-212: constants *)
Definition AU : R := 149600000000.
Definition EARTH_ROTATION : R := 7.2921158553 / 10 ^ 5.
Definition G_NEWTON : R := 6.6743 / 10 ^ 11.
Definition EARTH_RAD : R := 6378137.
Definition EARTH_MASS : R := 5.9733328 * 10 ^ 24.
Definition J2 : R := 1.08262668355 / 10 ^ 3.
Definition J3 : R := - (2.53265648533 / 10 ^ 6).
Definition J4 : R := - (1.61962159137 / 10 ^ 6).
Definition MAG_REF_RADIUS : R := 6371200.
Definition G_1_1 : R := -1450.9.
Definition H_1_1 : R := 4652.5.
Definition G_1_0 : R := -29404.8.
(** environment.py:218-223 [__init__] *)
Definition MU : R := G_NEWTON * EARTH_MASS.
Definition dipole : v3 := scale3 (MAG_REF_RADIUS ^ 3 * (1 / 10 ^ 9)) (mk3 G_1_1 H_1_1 G_1_0).
Definition SRP_coeff : R := 1362 * AU ^ 2 / 299792458.

(** environment.py:226-239 [relative_vel] *)
Definition relative_vel (x v : v3) : v3 :=
  mk3 (x3 v + EARTH_ROTATION * y3 x) (y3 v + EARTH_ROTATION * x3 x) (z3 v).

(** environment.py:254-262: direction of the sun for a Julian date.  [state.clock.julian_date()] works for a JClock; with a
    Clock it lacks three arguments and raises TypeError. *)
Definition earth_to_sun (jd : R) : v3 :=
  let T_UT1 := (jd - 2451545) / 36525 in
  let mean_long := Rmod (280.46 + 36000.771 * T_UT1) 360 in
  let mean_anom := radians (Rmod (357.5277233 + 35999.05034 * T_UT1) 360) in
  let ecl_long := radians (mean_long + 1.914666471 * sin mean_anom + 0.019994643 * sin (2 * mean_anom)) in
  let ecl_oblq := radians (23.439291 - 0.0130042 * T_UT1) in
  mk3 (cos ecl_long) (cos ecl_oblq * sin ecl_long) (sin ecl_oblq * sin ecl_long).
(** environment.py:268, on any number type: [xe] is x . earth_to_sun, [xx] is x . x, [rr] is EARTH_RAD**2 *)
Definition shadow_test {T} `{Num T} (xe xx rr : T) : bool := (xe <? nopp (nsqrt (xx - rr)))%num.
(** environment.py:241-271 [SRP_info]: pressure, shadow flag, unit vector to the sun.  Over R the square root of a negative
    number is 0 where the code gets NaN; the theorems keep the two apart. *)
Definition SRP_info (jd : R) (x : v3) : R * bool * v3 :=
  let e := earth_to_sun jd in
  let sat_to_sun := sub3 (scale3 AU e) x in
  (SRP_coeff / dot3 sat_to_sun sat_to_sun, shadow_test (dot3 x e) (dot3 x x) (EARTH_RAD ^ 2), normalize3 sat_to_sun).

(** environment.py:285-307 [atmo_density]; the final [else] prints and then reads an unbound local *)
Definition atmo_density (h : R) : res R :=
  let dens rho_0 h_0 H := Ok (rho_0 * exp ((h_0 - h) / H)) in
  if Rleb 250000 h && Rltb h 300000 then dens (7.248 * (1 / 10 ^ 11)) 250000 46900
  else if Rleb 300000 h && Rltb h 350000 then dens (2.418 * (1 / 10 ^ 11)) 300000 52500
  else if Rleb 350000 h && Rltb h 400000 then dens (9.158 * (1 / 10 ^ 12)) 350000 56400
  else if Rleb 400000 h && Rltb h 450000 then dens (3.727 * (1 / 10 ^ 12)) 400000 59400
  else if Rleb 450000 h && Rltb h 500000 then dens (1.585 * (1 / 10 ^ 12)) 400000 62200
  else Raise UnboundLocalError.

(** environment.py:310-339 [hi_fi_gravity] *)
Definition hi_fi_gravity (p : v3) (len coeff : R) : v3 :=
  let xoverr := x3 p / len in
  let yoverr := y3 p / len in
  let zoverr := z3 p / len in
  let z2 := zoverr ^ 2 in
  let zc := zoverr * z2 in
  let z4 := z2 ^ 2 in
  let rr := EARTH_RAD / len in
  let a := div3 p len in
  let aj2 := scale3 (3 / 2 * J2 * rr ^ 2) (mk3 ((1 - 5 * z2) * xoverr) ((1 - 5 * z2) * yoverr) ((3 - 5 * z2) * zoverr)) in
  let aj3 := scale3 (1 / 2 * J3 * rr ^ 3) (mk3 (5 * (7 * zc - 3 * zoverr) * xoverr) (5 * (7 * zc - 3 * zoverr) * yoverr)
                                               (3 * (10 * z2 - 35 / 3 * z4 - 1))) in
  let aj4 := scale3 (5 / 8 * J4 * rr ^ 4) (mk3 ((3 - 42 * z2 + 63 * z4) * xoverr) ((3 - 42 * z2 + 63 * z4) * yoverr)
                                               (- (15 - 70 * z2 + 63 * z4) * zoverr)) in
  scale3 (- coeff) (add3 (add3 (add3 a aj2) aj3) aj4).
(** environment.py:342-359 [gravity_accel]; [len] is the state's cached |position| *)
Definition gravity_accel (hi_fi : bool) (p : v3) (len : R) : v3 :=
  let coeff := MU / len ^ 2 in
  if hi_fi then hi_fi_gravity p len coeff else div3 (scale3 (- coeff) p) len.

(** environment.py:361-376 [magnetic_field] *)
Definition magnetic_field (r_ecef : v3) (len : R) (GCI_to_ECEF : m3) : v3 :=
  let r := div3 (sub3 (scale3 (3 * dot3 dipole r_ecef) r_ecef) (scale3 (len ^ 2) dipole)) (len ^ 5) in
  mv (tr3 GCI_to_ECEF) r.
