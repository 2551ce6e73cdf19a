(** * Specification: trajectories and their derivatives *)
From Coq Require Import Reals List.
From Verif Require Import Num Vec M_quaternion M_struct M_dyn.
Local Open Scope R_scope.

Definition deriv3 (f : R -> v3) (t : R) (d : v3) : Prop :=
  derivable_pt_lim (fun u => x3 (f u)) t (x3 d) /\ derivable_pt_lim (fun u => y3 (f u)) t (y3 d) /\ derivable_pt_lim (fun u => z3 (f u)) t (z3 d).
Definition derivq (f : R -> quat) (t : R) (d : quat) : Prop :=
  derivable_pt_lim (fun u => qw (f u)) t (qw d) /\ derivable_pt_lim (fun u => qx (f u)) t (qx d) /\
  derivable_pt_lim (fun u => qy (f u)) t (qy d) /\ derivable_pt_lim (fun u => qz (f u)) t (qz d).
Definition derivl (f : R -> list R) (t : R) (d : list R) : Prop := forall i, derivable_pt_lim (fun u => nth i (f u) 0) t (nth i d 0).
Definition deriv_sv (y : R -> SVec) (t : R) (d : SVec) : Prop :=
  deriv3 (fun u => v_pos (y u)) t (v_pos d) /\ deriv3 (fun u => v_vel (y u)) t (v_vel d) /\ derivq (fun u => v_att (y u)) t (v_att d) /\
  deriv3 (fun u => v_rate (y u)) t (v_rate d) /\ derivl (fun u => v_whl (y u)) t (v_whl d).
(** [y] solves the equation of motion on (a, b) under time-varying clock and commands *)
Definition solution (hi_fi : bool) (sat : Satellite) (mt : list (Torquer R)) (a b : R) (clock : R -> AClock) (cur accl : R -> list R) (y : R -> SVec) : Prop :=
  forall t, a < t < b -> exists st d,
    make_state (fun _ => clock t) 0 (y t) = Ok st /\ vector_field hi_fi sat mt (fun _ => clock t) st (cur t) (accl t) = Ok d /\ deriv_sv y t d.
(** the external torque the code uses at time t *)
Definition external_torque (hi_fi : bool) (sat : Satellite) (mt : list (Torquer R)) (clock : R -> AClock) (cur : R -> list R) (y : R -> SVec) (t : R) (T : v3) : Prop :=
  exists st m F, make_state (fun _ => clock t) 0 (y t) = Ok st /\ sys_actuate mt (cur t) = Ok m /\ env_F_and_T hi_fi sat (fun _ => clock t) st m = Ok (F, T).
(** total angular momentum in inertial coordinates: body (with wheels locked) plus wheel spin, rotated out of the body frame *)
Definition inertial_momentum (sat : Satellite) (v : SVec) : v3 :=
  sandwich_opp (v_att v) (add3 (mv (s_total_moment sat) (v_rate v)) (rw_momentum (s_rw sat) (v_whl v))).
Definition rotational_energy (sat : Satellite) (v : SVec) : R := / 2 * dot3 (v_rate v) (mv (s_total_moment sat) (v_rate v)).
