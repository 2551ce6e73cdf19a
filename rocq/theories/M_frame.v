(** * Model of src/oresat_adcs/functions/frame.py *)
From Coq Require Import Reals ZArith List Bool Lra.
From Verif Require Import Num Vec M_vector M_quaternion M_jday.
Local Open Scope R_scope.

(** frame.py:23-28: the matrix for a sidereal angle [gmst] *)
Definition ecef_matrix (gmst : R) : m3 :=
  let C := cos gmst in
  let S := sin gmst in
  mkm (mk3 C S 0) (mk3 (- S) C 0) (mk3 0 0 1).
(** frame.py:9-28 [inertial_to_ecef], called with a Clock ... *)
Definition inertial_to_ecef (clock : Clock R) : m3 := ecef_matrix (theta_gmst clock).
(** ... or with a JClock *)
Definition inertial_to_ecef_j (clock : JClock) : m3 := ecef_matrix (j_theta_gmst clock).

(** frame.py:30-51 [lvlh_to_inertial] *)
Definition lvlh_to_inertial (r_I v_I : v3) : m3 :=
  let o_3I := opp3 (normalize3 r_I) in
  let o_2I := opp3 (normalize3 (cross3 r_I v_I)) in
  let o_1I := cross3 o_2I o_3I in
  mkm (mk3 (x3 o_1I) (x3 o_2I) (x3 o_3I))
      (mk3 (y3 o_1I) (y3 o_2I) (y3 o_3I))
      (mk3 (z3 o_1I) (z3 o_2I) (z3 o_3I)).

(** frame.py:53-79 [geodetic_to_ECEF] (lat, long in radians) *)
Definition geodetic_to_ECEF (lat long h : R) : v3 :=
  let a := 6378137.0 in
  let e := 0.0818 in
  let N := a / sqrt (1 - (e * sin lat) ^ 2) in
  let temp := (N + h) * cos lat in
  mk3 (temp * cos long) (temp * sin long) ((N * (1 - e ^ 2) + h) * sin lat).

(** frame.py:82-92: module constants *)
Definition wa : R := 6378137.
Definition wf : R := 1 / 298.257223563.
Definition e2 : R := wf * (2 - wf).
Definition a1 : R := wa * e2.
Definition a2 : R := a1 * a1.
Definition a3 : R := a1 * e2 / 2.
Definition a4 : R := 2.5 * a2.
Definition a5 : R := a1 + a3.
Definition a6 : R := 1 - e2.

(** math.sqrt, math.asin, math.acos raise ValueError outside their domain; a float division by zero raises. *)
Definition msqrt (x : R) : res R := if Rltb x 0 then Raise ValueError else Ok (sqrt x).
Definition masin (x : R) : res R := if Rltb 1 (Rabs x) then Raise ValueError else Ok (asin x).
Definition macos (x : R) : res R := if Rltb 1 (Rabs x) then Raise ValueError else Ok (acos x).
Definition mdiv (x y : R) : res R := if Reqb y 0 then Raise ZeroDivisionError else Ok (x / y).

(** frame.py:118-134: the initial guess; result (lat, s, c, ss) *)
Definition lla_initial (w z : R) : res (R * R * R * R) :=
  let zp := Rabs z in
  let w2 := w * w in
  let r2 := z * z + w2 in
  let r := sqrt r2 in
  rbind (mdiv (z * z) r2) (fun s2 =>
  rbind (mdiv w2 r2) (fun c2 =>
  rbind (mdiv a2 r) (fun u =>
  rbind (mdiv a4 r) (fun a4r =>
  let v := a3 - a4r in
  if Rltb 0.3 c2 then
    let s := (zp / r) * (1 + c2 * (a1 + u + s2 * v) / r) in
    rbind (masin s) (fun lat =>
    let ss := s * s in
    rbind (msqrt (1 - ss)) (fun c => Ok (lat, s, c, ss)))
  else
    let c := (w / r) * (1 - s2 * (a5 - u - c2 * v) / r) in
    rbind (macos c) (fun lat =>
    let ss := 1 - c * c in
    rbind (msqrt ss) (fun s => Ok (lat, s, c, ss))))))).

(** frame.py:135-143 and the height of 146: the correction; result (lat, height) *)
Definition lla_correct (w zp lat s c ss : R) : res (R * R) :=
  let g := 1 - e2 * ss in
  rbind (msqrt g) (fun sg =>
  rbind (mdiv wa sg) (fun rg =>
  let rf := a6 * rg in
  let u := w - rg * c in
  let v := zp - rf * s in
  let f := c * u + s * v in
  let m := c * v - s * u in
  rbind (mdiv rf g) (fun rfg =>
  rbind (mdiv m (rfg + f)) (fun p => Ok (lat + p, f + m * p / 2))))).

(** frame.py:94-146 [ecef_to_lla]: (latitude in degrees, longitude in degrees, height).  math.atan2 with signed zeros
    not represented. *)
Definition ecef_to_lla (ecef : v3) : res (R * R * R) :=
  let w := sqrt (x3 ecef * x3 ecef + y3 ecef * y3 ecef) in
  let z := z3 ecef in
  rbind (lla_initial w z) (fun '(lat, s, c, ss) =>
  rbind (lla_correct w (Rabs z) lat s c ss) (fun '(lat, h) =>
  let lat := if Rltb z 0 then - lat else lat in
  Ok (degrees lat, degrees (atan2 (y3 ecef) (x3 ecef)), h))).
