(** * Properties of functions/frame.py *)
From Coq Require Import Reals ZArith List Bool Lra Psatz.
From Verif Require Import Num Vec M_vector M_quaternion M_jday M_frame S_rot S_frame P_quat P_vec2 P_equat P_jday2 P_frame.
Import ListNotations.
Local Open Scope R_scope.

(** C11.  The ECEF rotation, for every clock. *)
Theorem C11_ecef_rotation : forall (m : m3) (theta : R),
  (exists c : Clock R, m = inertial_to_ecef c /\ theta = theta_gmst c) \/
  (exists c : JClock, m = inertial_to_ecef_j c /\ theta = j_theta_gmst c) ->
  0 <= theta < 2 * PI /\
  (forall v, mv m v = rodrigues ez (- theta) v) /\
  mm m (tr3 m) = id3 /\ mm (tr3 m) m = id3 /\ det3 m = 1 /\ mv m ez = ez /\
  (forall v, norm3 (mv m v) = norm3 v) /\ (forall v, mv (tr3 m) (mv m v) = v /\ mv m (mv (tr3 m) v) = v).
Proof.
  intros m th H. assert (E : m = ecef_matrix th /\ 0 <= th < 2 * PI).
  { destruct H as [[c [-> ->]]|[c [-> ->]]]; (split; [reflexivity|apply theta_of]). }
  destruct E as [-> E]. destruct (ecef_orth th) as (O1 & O2 & O3). destruct (ecef_fixes_z th) as [Z _].
  repeat match goal with |- _ /\ _ => split end; try assumption; try exact (proj1 E); try exact (proj2 E).
  - intros v. apply ecef_rot.
  - intros v. unfold norm3. rewrite (orth_dot _ _ _ O2). reflexivity.
  - intros v. exact (ecef_inverse th v).
Qed.
Print Assumptions C11_ecef_rotation.
(** a Greenwich sidereal angle of a quarter turn takes the inertial x axis to minus the Earth-fixed y axis *)
Example C11_ex : mv (ecef_matrix (PI / 2)) (mk3 1 0 0) = mk3 0 (-1) 0.
Proof. unfold ecef_matrix. rewrite cos_PI2, sin_PI2. vunfold; rnum; apply mk3_c; ring. Qed.

(** C12.  The local-vertical local-horizontal frame. *)
Theorem C12_lvlh : forall r v : v3, cross3 r v <> zero3 ->
  let m := lvlh_to_inertial r v in
  mm (tr3 m) m = id3 /\ det3 m = 1 /\
  mv m ez = opp3 (normalize3 r) /\ mv m ey = opp3 (normalize3 (cross3 r v)) /\
  dot3 (mv m ey) v = 0 /\ 0 < dot3 (mv m ex) v.
Proof.
  intros r v H m. destruct (lvlh_ok r v H) as (A & B & C & D & E & F). fold m in A, B, C, D, E, F.
  assert (X : mv m ex = col1 m) by (unfold ex, col1; generalize m; vring).
  assert (Y : mv m ey = col2 m) by (unfold ey, col2; generalize m; vring).
  assert (Z : mv m ez = col3 m) by (unfold ez, col3; generalize m; vring).
  rewrite X, Y, Z. exact (conj A (conj B (conj C (conj D (conj E F))))).  
Qed.
Print Assumptions C12_lvlh.
Theorem C12_lvlh_parallel_refuted : forall r v : v3, cross3 r v = zero3 ->
  let m := lvlh_to_inertial r v in mv m ex = zero3 /\ mv m ey = zero3 /\ det3 m = 0.
Proof.
  intros r v H m. destruct (lvlh_parallel r v H) as [A B]. fold m in A, B.
  assert (X : mv m ex = col1 m) by (unfold ex, col1; generalize m; vring).
  assert (Y : mv m ey = col2 m) by (unfold ey, col2; generalize m; vring).
  rewrite X, Y. split; [exact A|split; [exact B|]].
  transitivity (dot3 (col1 m) (cross3 (col2 m) (col3 m))); [unfold col1, col2, col3; generalize m; vring|].
  rewrite A. generalize (cross3 (col2 m) (col3 m)). vring.
Qed.
Print Assumptions C12_lvlh_parallel_refuted.
Example C12_ex : cross3 (mk3 7000000 0 0) (mk3 0 7500 0) <> zero3.
Proof. vunfold; rnum; intros E; injection E; lra. Qed.
Example C12_parallel_ex : cross3 (mk3 7000000 0 0) (mk3 3 0 0) = zero3.
Proof. vunfold; rnum; apply mk3_c; ring. Qed.

(** C13.  Geodetic coordinates. *)
Theorem C13_lla_zero : ecef_to_lla (mk3 0 0 0) = Raise ZeroDivisionError.
Proof. exact lla_zero. Qed.
Print Assumptions C13_lla_zero.
(** latitude and height do not depend on the longitude; longitude is atan2 *)
Theorem C13_lla_symmetry : forall (p : v3) lat lon h, ecef_to_lla p = Ok (lat, lon, h) ->
  lon = degrees (atan2 (y3 p) (x3 p)) /\ -180 < lon <= 180 /\
  (forall q : v3, x3 p * x3 p + y3 p * y3 p = x3 q * x3 q + y3 q * y3 q -> z3 p = z3 q ->
     exists lon', ecef_to_lla q = Ok (lat, lon', h)) /\
  (z3 p <> 0 -> ecef_to_lla (mk3 (x3 p) (y3 p) (- z3 p)) = Ok (- lat, lon, h)).
Proof.
  intros p lat lon h H. destruct (lla_lon p lat lon h H) as [A B].
  exact (conj A (conj B (conj (fun q E1 E2 => lla_rot_invariant p q lat lon h E1 E2 H) (fun Z => lla_odd p lat lon h Z H)))).
Qed.
Print Assumptions C13_lla_symmetry.
(** exact on the equator (except on the circle of radius a*e^2, 42.7 km from the axis, where it divides by zero) *)
Theorem C13_lla_equator : forall p : v3, z3 p = 0 -> p <> zero3 ->
  x3 p * x3 p + y3 p * y3 p <> (wgs_a * wgs_e2) * (wgs_a * wgs_e2) ->
  ecef_to_lla p = Ok (0, degrees (atan2 (y3 p) (x3 p)), sqrt (x3 p * x3 p + y3 p * y3 p) - wgs_a).
Proof. exact lla_equator_full. Qed.
Print Assumptions C13_lla_equator.
(** exact on the polar axis: the polar radius is a*sqrt(1-e^2) *)
Theorem C13_lla_pole : forall z : R, z <> 0 ->
  ecef_to_lla (mk3 0 0 z) = Ok (if Rltb z 0 then -90 else 90, 0, Rabs z - wgs_a * sqrt (1 - wgs_e2)).
Proof. exact lla_pole_full. Qed.
Print Assumptions C13_lla_pole.
(** the correction step leaves an exact guess alone and returns the exact height *)
Theorem C13_lla_fixpoint : forall phi h, meridian_radius phi + h <> 0 ->
  lla_correct (geodetic_w phi h) (geodetic_z phi h) phi (sin phi) (cos phi) (sin phi * sin phi) = Ok (phi, h).
Proof. exact lla_correct_exact. Qed.
Print Assumptions C13_lla_fixpoint.
(** geodetic_to_ECEF uses another eccentricity: the pole comes back 9 to 11 m too high *)
Theorem C13_not_inverse_refuted : exists h', ecef_to_lla (geodetic_to_ECEF (PI / 2) 0 0) = Ok (90, 0, h') /\ 9 < h' < 11.
Proof. exact geodetic_not_inverse. Qed.
Print Assumptions C13_not_inverse_refuted.
Example C13_ex : let p := mk3 6778137 0 0 in z3 p = 0 /\ p <> zero3 /\ ecef_to_lla p = Ok (0, 0, 400000).
Proof.
  assert (E := e2_range). assert (N : mk3 6778137 0 0 <> zero3 (T:=R)) by (unfold zero3; rnumg; intros H; injection H; lra).
  cbv zeta. split; [reflexivity|]. split; [exact N|]. rewrite lla_equator_full; [|reflexivity|exact N|].
  - cbn [x3 y3 z3]. replace (6778137 * 6778137 + 0 * 0) with (6778137 * 6778137) by ring. rewrite sqrt_square by lra.
    f_equal. f_equal; [f_equal|unfold wa; lra]. unfold atan2. destruct (Rlt_dec 0 6778137); [|lra]. unfold Rdiv; rewrite Rmult_0_l, atan_0. unfold degrees; lra.
  - cbn [x3 y3 z3]. unfold a1, wa. nra.
Qed.
Example C13_fixpoint_ex : meridian_radius 0 + 400000 <> 0.
Proof.
  unfold meridian_radius. rewrite sin_0. replace (1 - wgs_e2 * 0 ^ 2) with 1 by ring. rewrite sqrt_1. assert (E := e2_range).
  change (wgs_a * (1 - e2) / 1 ^ 3 + 400000 <> 0). unfold wgs_a. lra.
Qed.
