(** * The whole feedback loop: satellite, sensors, attitude filter and tracking controller *)
From Coq Require Import Reals List.
From Verif Require Import Num Vec Mat6 M_vector M_quaternion M_jday M_struct M_dyn M_ctrl M_obs S_rot S_dyn S_ctrl P_ctrl2.
Local Open Scope R_scope.

(** the controller in state w is called once, for the target attitude qc at rest, with the state m; it ends in state w', and from t0 to t1 the satellite moves by the code's
    equations under that one command and the external torque T.  The motion of the period is the restriction of one defined on a little more than the period *)
Definition held_given (w : WhlCtl) (m : SVec) (qc : quat) (F T : R -> v3) (y : R -> SVec) (t0 t1 : R) (w' : WhlCtl) : Prop :=
  exists u acc z a b, tracking w m zero3 zero3 qc = Ok (w', u) /\ unsaturated (s_rw (wc_sat w)) (opp3 u) /\ whl_actuator_commands w' u = Ok acc /\
    a < t0 /\ t1 < b /\ (forall t, t0 <= t <= t1 -> y t = z t) /\
    forall t, a < t < b -> deriv_sv z t (derivative (wc_sat w) (z t) (F t) (T t) (rw_torque (s_rw (wc_sat w)) acc) (rw_momentum (s_rw (wc_sat w)) (v_whl (z t))) acc).
(** g is within d of the mean rate of the body over the period, plus the bias bs: a rate-integrating gyro *)
Definition reads_mean (y : R -> SVec) (t0 t1 : R) (bs g : v3) (d : R) : Prop :=
  exists a : R -> v3, (forall t, t0 <= t <= t1 -> deriv3 a t (v_rate (y t))) /\ norm3 (sub3 g (add3 (scale3 (/ (t1 - t0)) (sub3 (a t1) (a t0))) bs)) <= d.
(** one cycle, from t0 to t1, with every sensor wrong by at most d:
    - the state m given to the controller has the attitude of the filter f, a gyro reading less the bias of the filter, and wheel speeds that give the momentum of the wheels up to d;
    - the command is held until t1, and the torques of the surroundings are at most d;
    - at t1 the filter takes the gyro's mean reading over the cycle and the star tracker's reading, and becomes f' *)
Definition loop_cycle (qc : quat) (F T : R -> v3) (y : R -> SVec) (bs : v3) (d t0 t1 : R) (w w' : WhlCtl) (m : SVec) (f f' : AttF) : Prop :=
  v_att m = a_q f /\ (exists g, norm3 (sub3 g (add3 (v_rate (y t0)) bs)) <= d /\ v_rate m = sub3 g (a_b f)) /\
  norm3 (sub3 (rw_momentum (s_rw (wc_sat w)) (v_whl m)) (rw_momentum (s_rw (wc_sat w)) (v_whl (y t0)))) <= d /\
  held_given w m qc F T y t0 t1 w' /\ (forall t, t0 <= t <= t1 -> norm3 (T t) <= d) /\
  exists g z, reads_mean y t0 t1 bs g d /\ normq (subq z (v_att (y t1))) <= d /\ af_measurement z (af_propagate g (t1 - t0) f) = Ok f'.
(** the loop: cycle after cycle of length h *)
Definition whole_loop (qc : quat) (F T : R -> v3) (y : R -> SVec) (bs : v3) (d h : R) (c : nat -> WhlCtl) (m : nat -> SVec) (f : nat -> AttF) : Prop :=
  forall k, loop_cycle qc F T y bs d (INR k * h) (INR (S k) * h) (c k) (c (S k)) (m k) (f k) (f (S k)).
