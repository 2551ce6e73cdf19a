(** * Model of FlightSoftware.UpdateState of simulation/FlightSoftwareModule.py *)
From Coq Require Import Reals List Bool.
From Verif Require Import Num Vec M_struct M_sim M_lqr.
Import ListNotations.
Local Open Scope R_scope.

(** simulation/FlightSoftwareModule.py:22, 30, 45, 57: the attributes that UpdateState writes *)
Record Fsw := mkFs { fs_target : S4 R; fs_flipped : nat; fs_errors : list (S4 R); fs_vals : list R }.
Definition fsw_start : Fsw := mkFs (mks 0 0 0 1) 0 [] (repeat 0 36).
(** the three messages read in lines 77-92; None: not written yet *)
Record Fmsg := mkFm { m_star : option (Q4 R); m_imu : option v3; m_rw : option (list R) }.
(** simulation/FlightSoftwareModule.py:107 [omega == \[0,0,0\]] *)
Definition v3_zerob (v : v3) : bool := Reqb (x3 v) 0 && Reqb (y3 v) 0 && Reqb (z3 v) 0.
(** simulation/FlightSoftwareModule.py:97, 104-105 [t2] *)
Definition fsw_t2 : S4 R := quat_mult (axis_angle_to_quaternion (mk3 0 1 0) 180) (axis_angle_to_quaternion (mk3 0 1 0) 90).
(** simulation/FlightSoftwareModule.py:72-152 [UpdateState] with exit = False, output_states = False and controllerStartTime = 0 as the
    constructor sets them.  A message not written leaves its local variable unbound.  omega_target is zero (line 32).  A call that
    raises is given no state; q_target and error may have been written before. *)
Definition update_state (Kq Kw : m3) (axes : list v3) (p : Wheels R) (s : Fsw) (m : Fmsg) : res Fsw :=
  match m_star m with
  | None => Raise UnboundLocalError
  | Some q0 =>
      let q := snormalize (to_scalar_last q0) in
      let '(q_error, f) := check_hemi (quat_error (fs_target s) q) in
      match m_imu m with
      | None => Raise UnboundLocalError
      | Some omega =>
          let target := if Reqb (error_angle q_error) 0 && v3_zerob omega then fsw_t2 else fs_target s in
          let desired := quaternion_controller Kq Kw zero3 f q_error omega in
          match m_rw m with
          | None => Raise UnboundLocalError
          | Some speeds =>
              rbind (check_torque_vals p (convert_torque_to_wheels axes desired) speeds (fs_vals s)) (fun vals =>
              Ok (mkFs target f (fs_errors s ++ [q_error]) vals))
          end
      end
  end.
(** the calls that the simulation makes one after another *)
Fixpoint fsw_run (Kq Kw : m3) (axes : list v3) (p : Wheels R) (s : Fsw) (ms : list Fmsg) : res Fsw :=
  match ms with [] => Ok s | m :: ms => rbind (update_state Kq Kw axes p s m) (fun s => fsw_run Kq Kw axes p s ms) end.
