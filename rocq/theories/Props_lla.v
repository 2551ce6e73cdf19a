(** * How accurate functions/frame.py:ecef_to_lla is *)
From Coq Require Import Reals Lra.
From Verif Require Import Num Vec M_vector M_quaternion M_frame S_frame P_equat P_frame P_lla5.
Local Open Scope R_scope.

(** C78.  For every place on or above the WGS-84 ellipsoid (and down to 10 km below it), at every latitude and longitude and
    at any distance, the closed form returns the geodetic latitude to within 2e-14 degrees and the height to within 3e-23 of
    the distance from the centre (2e-16 m in low orbit), in exact arithmetic. *)
Theorem C78_lla_accurate : forall phi lam h : R,
  - (PI / 2) <= phi <= PI / 2 -> - PI < lam <= PI -> -10000 <= h ->
  let p := mk3 (geodetic_w phi h * cos lam) (geodetic_w phi h * sin lam) (geodetic_z phi h) in
  exists lat lon hh, ecef_to_lla p = Ok (lat, lon, hh) /\
    Rabs (lat - phi * (180 / PI)) <= 2 / 10 ^ 14 /\
    Rabs (hh - h) <= 3 / 10 ^ 23 * sqrt (dot3 p p) /\
    (phi <> PI / 2 -> phi <> - (PI / 2) -> lon = lam * (180 / PI)).
Proof. exact lla_accurate. Qed.
Print Assumptions C78_lla_accurate.
(** the ground station's neighbourhood: 45 degrees north, 123 degrees west, orbit at 400 km *)
Example C78_ex : - (PI / 2) <= PI / 4 <= PI / 2 /\ - PI < - (123 / 180 * PI) <= PI /\ -10000 <= 400000.
Proof. assert (P := PI_RGT_0). lra. Qed.
