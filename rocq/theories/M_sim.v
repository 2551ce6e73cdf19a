(** * Model of simulation/Quaternions.py, simulation/FlightSoftwareModule.py and parts of the other simulation files *)
From Coq Require Import Reals ZArith List Bool.
From Verif Require Import Num Vec M_struct.
Import ListNotations.

(** a quaternion in scalar-last order [x, y, z, s] *)
Record S4 (T : Type) := mks { sx : T; sy : T; sz : T; ss : T }.
Arguments mks {T} _ _ _ _. Arguments sx {T} _. Arguments sy {T} _. Arguments sz {T} _. Arguments ss {T} _.

Section GEN.
Local Open Scope num_scope.
Context {T : Type} `{NT : Num T}.
(** simulation/Quaternions.py:9-11 [quat_conjugate] *)
Definition quat_conjugate (q : S4 T) : S4 T := mks (- sx q) (- sy q) (- sz q) (ss q).
(** simulation/Quaternions.py:13-15 [hemi] *)
Definition hemi (q : S4 T) : S4 T := if n0 <=? ss q then q else mks (- sx q) (- sy q) (- sz q) (- ss q).
(** np.linalg.norm of four entries *)
Definition snorm (q : S4 T) : T := nsqrt (sx q * sx q + sy q * sy q + sz q * sz q + ss q * ss q).
(** simulation/Quaternions.py:17-19 [normalize]; numpy divides by zero without raising *)
Definition snormalize (q : S4 T) : S4 T := let n := snorm q in mks (sx q / n) (sy q / n) (sz q / n) (ss q / n).
(** simulation/Quaternions.py:21-32 [quat_mult] *)
Definition quat_raw (a b : S4 T) : S4 T :=
  mks (ss a * sx b + sx a * ss b + sy a * sz b - sz a * sy b)
      (ss a * sy b - sx a * sz b + sy a * ss b + sz a * sx b)
      (ss a * sz b + sx a * sy b - sy a * sx b + sz a * ss b)
      (ss a * ss b - sx a * sx b - sy a * sy b - sz a * sz b).
Definition quat_mult (q_rot q_init : S4 T) : S4 T := snormalize (quat_raw (snormalize q_rot) (snormalize q_init)).
(** simulation/Quaternions.py:34-35 [quat_error] *)
Definition quat_error (q_target q_current : S4 T) : S4 T := quat_mult q_target (quat_conjugate q_current).
(** simulation/Quaternions.py:37-38 [to_scalar_last] *)
Definition to_scalar_last (q : Q4 T) : S4 T := mks (qx q) (qy q) (qz q) (qw q).

(** Python's two-argument min and max *)
Definition pymin2 (a b : T) : T := if b <? a then b else a.
Definition pymax2 (a b : T) : T := if a <? b then b else a.
(** simulation/FlightSoftwareModule.py:37-38, 29-30: the constants of the object that the clamp uses *)
Record Wheels := mkWh { wh_maxT : T; wh_maxS : T; wh_J : T; wh_dt : T }.
(** simulation/FlightSoftwareModule.py:171, 172, 177 *)
Definition clamp (m x : T) : T := pymax2 (- m) (pymin2 x m).
(** simulation/FlightSoftwareModule.py:162-172: one wheel *)
Definition wheel_clamp (p : Wheels) (torque speed : T) : T :=
  let projected := speed + (torque / wh_J p) * wh_dt p in
  if wh_maxS p <? nabs projected then
    let sign := if negb (speed =? n0) then nsign speed else nsign torque in
    clamp (wh_maxT p) ((sign * wh_maxS p - speed) * wh_J p / wh_dt p)
  else clamp (wh_maxT p) torque.
(** simulation/FlightSoftwareModule.py:159-172 [check_torque_vals] on the array torque_vals; a missing entry raises after the earlier
    ones were written, which is simplified here to no result *)
Fixpoint clamp_all (n : nat) (p : Wheels) (torque speed vals : list T) : res (list T) :=
  match n, vals with
  | O, _ | _, [] => Ok vals
  | S n, _ :: vals =>
      match torque, speed with
      | t :: torque, s :: speed => rbind (clamp_all n p torque speed vals) (fun r => Ok (wheel_clamp p t s :: r))
      | _, _ => Raise IndexError
      end
  end.
Definition check_torque_vals (p : Wheels) (torque speed vals : list T) : res (list T) := clamp_all 4 p torque speed vals.
(** simulation/FlightSoftwareModule.py:174-179 [zero_wheel_speeds]: one wheel *)
Definition zero_torque (p : Wheels) (speed : T) : T := clamp (wh_maxT p) (- wh_J p * speed / wh_dt p).
End GEN.
Arguments Wheels : clear implicits.

(** simulation/FlightSoftwareModule.py:181-187 [mode_check] *)
Inductive Mode := Slew | Precise.
Definition mode_check {T} `{Num T} (angle : T) (m : Mode) : Mode :=
  match m with
  | Slew => if nltb angle (nofZ 30) then Precise else Slew
  | Precise => if nltb (nofZ 40) angle then Slew else Precise
  end.

Local Open Scope R_scope.
(** simulation/FlightSoftwareModule.py:62-70 [check_hemi]: the quaternion and the flag sign_flipped *)
Definition check_hemi (q : S4 R) : S4 R * nat := if Rleb 0 (ss q) then (q, 0%nat) else (mks (- sx q) (- sy q) (- sz q) (- ss q), 1%nat).
(** simulation/FlightSoftwareModule.py:189-193 [quaternion_controller]; the gain K is [Kq Kw] *)
Definition quaternion_controller (Kq Kw : m3) (omega_target : v3) (flipped : nat) (q_error : S4 R) (omega : v3) : v3 :=
  let f := (-1) ^ flipped in
  let qv := mk3 (sx q_error * f) (sy q_error * f) (sz q_error * f) in
  opp3 (add3 (mv Kq qv) (mv Kw (sub3 omega omega_target))).
(** simulation/FlightSoftwareModule.py:100-101, 118: the part of UpdateState from the error quaternion to the torque *)
Definition controller_step (Kq Kw : m3) (omega_target : v3) (q_error : S4 R) (omega : v3) : v3 :=
  let '(q, f) := check_hemi q_error in quaternion_controller Kq Kw omega_target f q omega.

(** simulation/Quaternions.py:40-47 [axis_angle_to_quaternion] *)
Definition sradians (d : R) : R := d * (PI / 180).
Definition sdegrees (r : R) : R := r * (180 / PI).
Definition axis_angle_to_quaternion (axis : v3) (angle_deg : R) : S4 R :=
  let a := sradians angle_deg in
  let u := div3 axis (norm3 axis) in
  snormalize (mks (x3 u * sin (a / 2)) (y3 u * sin (a / 2)) (z3 u * sin (a / 2)) (cos (a / 2))).
(** simulation/Quaternions.py:49-57 [quat_to_axis] *)
Definition quat_to_axis (q_error : S4 R) : v3 :=
  let q := snormalize q_error in
  let s := sqrt (1 - ss q ^ 2) in
  if Rltb s (1 / 10 ^ 6) then mk3 1 0 0 else mk3 (sx q / s) (sy q / s) (sz q / s).
(** simulation/Quaternions.py:59-70 [error_angle]; outside [-1, 1] numpy's acos gives NaN and Coq's 0 or PI *)
Definition error_angle (q_error : S4 R) : R := 2 * acos (Rabs (ss q_error)) * 180 / PI.
(** simulation/Quaternions.py:72-101 [rotation_sequence_to_quaternion]; [order] is given by the three axes.  Over the reals the final
    assertion always holds unless the norm is zero; see [final_norm] for binary64. *)
Definition rotation_sequence (angles : R * R * R) (order : v3 * v3 * v3) : S4 R :=
  let '(a0, a1, a2) := angles in let '(o0, o1, o2) := order in
  let q := axis_angle_to_quaternion o2 a2 in
  let q := quat_mult q (axis_angle_to_quaternion o1 a1) in
  let q := quat_mult q (axis_angle_to_quaternion o0 a0) in
  snormalize q.
(** simulation/Quaternions.py:98-99: what the assertion compares with 1 *)
Definition final_norm {T} `{Num T} (q : S4 T) : T := snorm (snormalize q).
(** simulation/Quaternions.py:103-122 [get_rotation_angle_from_quaternion] (radians) *)
Definition clip (x lo hi : R) : R := Rmin (Rmax x lo) hi.
Definition get_rotation_angle (q : S4 R) : R := let q := snormalize q in 2 * acos (clip (ss q) (-1) 1).

(** simulation/ADCS_Simulation_Basilisk.py:48-84 [get_nadir_pointing_quaternion]; scipy's Rotation.from_rotvec(v).as_quat() is
    (v/|v| sin(|v|/2), cos(|v|/2)) for v <> 0 *)
Definition from_rotvec (v : v3) : S4 R :=
  let n := norm3 v in if Reqb n 0 then mks 0 0 0 1
  else let k := sin (n / 2) / n in mks (k * x3 v) (k * y3 v) (k * z3 v) (cos (n / 2)).
Definition nadir_quaternion (r body_axis : v3) : S4 R :=
  let r_hat := div3 (opp3 r) (norm3 r) in
  let b_hat := div3 body_axis (norm3 body_axis) in
  let cr := cross3 b_hat r_hat in
  let dot := dot3 b_hat r_hat in
  let nc := norm3 cr in
  if Rltb nc (1 / 10 ^ 8) then
    if Rltb 0 dot then mks 0 0 0 1
    else let axis := if Rltb (Rabs (x3 b_hat)) 0.9 then mk3 1 0 0 else mk3 0 1 0 in
         let perp := cross3 b_hat axis in
         let perp := div3 perp (norm3 perp) in
         mks (x3 perp * sin (PI / 2)) (y3 perp * sin (PI / 2)) (z3 perp * sin (PI / 2)) (cos (PI / 2))
  else from_rotvec (scale3 (acos (clip dot (-1) 1)) (div3 cr nc)).
