(** * Model of src/oresat_adcs/classes/controller.py *)
From Coq Require Import Reals ZArith List Bool.
From Verif Require Import Num Vec M_vector M_quaternion M_jday M_struct M_env M_dyn.
Import ListNotations.

Section TRIG.
Local Open Scope num_scope.
Context {T : Type} `{NT : Num T}.
(** controller.py:5-23 [MayhewTrigger]: memory_state and half_width *)
Record Trigger := mkTr { tr_mem : T; tr_hw : T }.
(** controller.py:20-23 [__init__]; [sign != 0] is true of NaN *)
Definition trig_new (x half_width : T) : Trigger :=
  let sign := nsign x in mkTr (if negb (sign =? n0) then sign else n1) half_width.
(** controller.py:25-38 [step] *)
Definition trig_step (x : T) (t : Trigger) : Trigger :=
  if x * tr_mem t <=? - tr_hw t then
    let sign := nsign x in mkTr (if negb (sign =? n0) then sign else tr_mem t) (tr_hw t)
  else t.
(** controller.py:40-55 [sign]: step, then read the memory *)
Definition trig_sign (x : T) (t : Trigger) : Trigger * T := let t' := trig_step x t in (t', tr_mem t').
(** a history of calls of [sign] *)
Definition trig_run (xs : list T) (t : Trigger) : Trigger := fold_left (fun t x => trig_step x t) xs t.
End TRIG.
Arguments Trigger : clear implicits.

Local Open Scope R_scope.
(** the [state] arrays handed to the controllers: the five entries of the dynamical state and the measured field state[5] *)
Record CState := mkCS { cs_v : SVec; cs_mag : v3 }.
(** indexing a Python list by a non-negative index *)
Definition nthr {A} (l : list A) (j : nat) : res A := match nth_error l j with Some a => Ok a | None => Raise IndexError end.

(** controller.py:71-91, 197-215: constants of both controllers *)
Definition BBQ : v3 := scale3 4 (mk3 0 0 0.00733).
Definition EPS : R := radians 23.439291.
Definition ECL : quat := mkq (cos (0.5 * EPS)) (sin (0.5 * EPS)) 0 0.
Definition K_BBQ : R := 1.72192143 * 4 * PI / 5560.8.

(** controller.py:58-91 [MagnetorquerController]: satellite, torquers, bang_bang and the three triggers *)
Record MagCtl := mkMC { mc_sat : Satellite; mc_torquers : list (Torquer R); mc_bang : bool; mc_trig : list (Trigger R) }.
Definition mag_new (sat : Satellite) (ts : list (Torquer R)) (bang : bool) : MagCtl :=
  mkMC sat ts bang (if bang then [trig_new 1 0.3; trig_new 1 0.3; trig_new 1 0.3] else []).
Definition hd_body (sat : Satellite) : v3 := mv (s_total_moment sat) BBQ.
Definition Hd_intl (sat : Satellite) : v3 := scale3 (norm3 (hd_body sat)) (sandwich_opp ECL (mk3 0 0 1)).
(** controller.py:110: the magnetic moment for a torque; a zero field divides 0 by 0 (NaN in the code, 0 here) *)
Definition mag_moment_cmd (B torque : v3) : v3 := div3 (cross3 B torque) (dot3 B B).
(** controller.py:112-114: the bang-bang variant: each trigger's sign times the third torquer's max_m *)
Definition bang_cmd (ts : list (Torquer R)) (trs : list (Trigger R)) (m : list R) : res (list (Trigger R) * list R) :=
  match trs with
  | [] => Ok ([], [])
  | _ => rbind (nthr ts 2) (fun t2 =>
         let trs' := zip_with (fun tr x => trig_step x tr) trs m in
         Ok (trs', map (fun tr => tr_mem tr * max_m t2) trs'))
  end.
(** controller.py:93-117 [actuator_commands] *)
Definition mag_actuator_commands (c : MagCtl) (x : CState) (torque : v3) : res (MagCtl * list R) :=
  let m := mag_moment_cmd (cs_mag x) torque in
  let m := [x3 m; y3 m; z3 m] in
  rbind (if mc_bang c then bang_cmd (mc_torquers c) (mc_trig c) m else Ok (mc_trig c, m)) (fun '(trs, m) =>
  rbind (distribute (mc_torquers c) m) (fun cur => Ok (mkMC (mc_sat c) (mc_torquers c) (mc_bang c) trs, cur))).
(** controller.py:119-125 [desaturate] *)
Definition desaturate_torque (c : MagCtl) (x : CState) (wheel_ref : list R) : res v3 :=
  rbind (rw_momentum_r (s_rw (mc_sat c)) (v_whl (cs_v x))) (fun h_w =>
  rbind (rw_momentum_r (s_rw (mc_sat c)) wheel_ref) (fun h_r => Ok (scale3 (- K_BBQ) (sub3 h_w h_r)))).
Definition desaturate (c : MagCtl) (x : CState) (wheel_ref : list R) : res (MagCtl * list R) :=
  rbind (desaturate_torque c x wheel_ref) (mag_actuator_commands c x).
(** controller.py:127-152 [detumble] *)
Definition detumble_torque (sat : Satellite) (w : v3) : v3 := scale3 (- K_BBQ) (mv (s_total_moment sat) w).
Definition detumble (c : MagCtl) (x : CState) : res (MagCtl * list R) :=
  mag_actuator_commands c x (detumble_torque (mc_sat c) (v_rate (cs_v x))).
(** controller.py:177-182 [check]: norm of the error below; 154-175 [no_q_bbq_roll] *)
Definition roll_error (sat : Satellite) (q : quat) (w : v3) : v3 :=
  let h := mv (s_total_moment sat) w in
  let Hd := sandwich q (Hd_intl sat) in
  add3 (sub3 h (hd_body sat)) (sub3 h Hd).
Definition mag_check (sat : Satellite) (q : quat) (w : v3) : R := norm3 (roll_error sat q w).
Definition no_q_bbq_roll (c : MagCtl) (x : CState) : res (MagCtl * list R) :=
  mag_actuator_commands c x (scale3 (- K_BBQ) (roll_error (mc_sat c) (v_att (cs_v x)) (v_rate (cs_v x)))).

(** structure.py:24-35: an instrument together with what [set_gains] stored in it *)
Record CInstr := mkCI { ci : Instrument; ci_stop : R; ci_gains : list R }.
(** structure.py:37-38 [cares_about] ([i in obj_ids and psi < sigma[i]]) *)
Definition cares_about (c : CInstr) (j : nat) (psi : R) : res bool :=
  if existsb (Z.eqb (Z.of_nat j)) (i_ids (ci c)) then rbind (nthr (i_sigma (ci c) (ci_stop c)) j) (fun sg => Ok (Rltb psi sg)) else Ok false.

(** controller.py:185-236 [ReactionWheelsController]: satellite, gains, the trigger, the flag obj_avoidance, the
    instruments after set_gains.  [wc_sun] is the environment's [sun_vector(clock, position)]; neither environment class
    of environment.py has that method, so for them it is [None] and reading it raises AttributeError. *)
Record WhlCtl := mkWC { wc_sat : Satellite; wc_alpha : R; wc_gamma : R; wc_trig : Trigger R; wc_avoid : bool; wc_instr : list CInstr;
  wc_sun : option (v3 -> v3) }.
Definition whl_new (sat : Satellite) (instr : list Instrument) (sun : option (v3 -> v3)) (damping nat_freq : R) : res WhlCtl :=
  let alpha := 2 * nat_freq ^ 2 in
  if forallb (fun i => Nat.leb (length (i_bounds i)) (length (i_forbidden i))) instr
  then Ok (mkWC sat alpha (2 * damping * nat_freq) (trig_new 1 0.3) true (map (fun i => mkCI i PI [alpha * 1; alpha * 1]) instr) sun)
  else Raise IndexError.
(** controller.py:204-205, 366: the directions of the sun (body frame) and of the Earth's centre (as written, inertial) *)
Definition objects (sun : option (v3 -> v3)) (v : SVec) : res (list v3) :=
  match sun with None => Raise AttributeError | Some f => Ok [sandwich (v_att v) (f (v_pos v)); opp3 (normalize3 (v_pos v))] end.

(** controller.py:439-462: one pass of the inner loop over (c, constraint_axis, nudge_term).  [del_q[1:] is not np.zeros(3)]
    compares identities of fresh arrays, so it is always true and [z is np.zeros(3)] always false. *)
Definition zone_acc := (R * v3 * v3)%type.
Definition zone_step (s : R) (dq : quat) (dw : v3) (k : CInstr) (j : nat) (obj : v3) (acc : zone_acc) : res zone_acc :=
  let '(c, axis, nudge) := acc in
  rbind (nthr (i_forbidden (ci k)) j) (fun fb =>
  rbind (nthr (i_cos_psi (ci k)) j) (fun cp =>
  let sgn := i_sign fb in
  let psi := 0.5 * sgn * (dot3 (i_boresight (ci k)) obj - cp) in
  rbind (cares_about k j psi) (fun care =>
  if care : bool then
    let psi := if Rleb psi 0 then 1 / 10000 else psi in
    rbind (nthr (ci_gains k) j) (fun g =>
    let c := c - g * ln psi in
    let perp := cross3 (i_boresight (ci k)) obj in
    let axis := add3 axis (scale3 (g * sgn / psi) perp) in
    rbind (nthr (i_iota (ci k) (ci_stop k)) j) (fun io =>
    if Rltb psi io then
      let z := normalize3 (scale3 s (cross3 (vec dq) perp)) in
      let dir := nsign (dot3 dw z) in
      let dir := if negb (Reqb dir 0) then dir else sgn in
      Ok (c, axis, sub3 nudge (scale3 (0.5 * g * dir) z))
    else Ok (c, axis, nudge)))
  else Ok acc))).
Fixpoint zone_objs (s : R) (dq : quat) (dw : v3) (k : CInstr) (j : nat) (objs : list v3) (acc : zone_acc) : res zone_acc :=
  match objs with [] => Ok acc | o :: r => rbind (zone_step s dq dw k j o acc) (zone_objs s dq dw k (S j) r) end.
Fixpoint zone_loop (s : R) (dq : quat) (dw : v3) (ks : list CInstr) (objs : list v3) (acc : zone_acc) : res zone_acc :=
  match ks with [] => Ok acc | k :: r => rbind (zone_objs s dq dw k 0 objs acc) (zone_loop s dq dw r objs) end.
(** controller.py:464-470: the three terms *)
Definition zone_result (s : R) (dq : quat) (acc : zone_acc) : v3 :=
  let '(c, axis, nudge) := acc in
  add3 (add3 (scale3 (- s * c) (vec dq)) (scale3 (0.5 * (1 - s * qw dq)) axis)) nudge.
(** controller.py:415-470 [allowable_zone] (q_cmd and q_act are unused) *)
Definition allowable_zone (w : WhlCtl) (dq : quat) (dw : v3) (objs : list v3) : res (Trigger R * v3) :=
  let '(tr, s) := trig_sign (qw dq) (wc_trig w) in
  rbind (zone_loop s dq dw (wc_instr w) objs (wc_alpha w, zero3, zero3)) (fun acc => Ok (tr, zone_result s dq acc)).

Definition set_trig (w : WhlCtl) (tr : Trigger R) : WhlCtl :=
  mkWC (wc_sat w) (wc_alpha w) (wc_gamma w) tr (wc_avoid w) (wc_instr w) (wc_sun w).
(** controller.py:348-395 [tracking]; the desired state is (rate_cmd, rate_cmd_dot, q_cmd) *)
Definition tracking (w : WhlCtl) (v : SVec) (rate_cmd rate_cmd_dot : v3) (q_cmd : quat) : res (WhlCtl * v3) :=
  let J := s_total_moment (wc_sat w) in
  rbind (objects (wc_sun w) v) (fun objs =>
  rbind (rw_momentum_r (s_rw (wc_sat w)) (v_whl v)) (fun h_w =>
  let attitude_error := error_quat (v_att v) q_cmd in
  let rate_cmd_B := sandwich attitude_error rate_cmd in
  let rate_error := sub3 (v_rate v) rate_cmd_B in
  let del_H := mv J rate_error in
  let gyro_term := cross3 (v_rate v) (add3 (mv J (v_rate v)) h_w) in
  let feedforward := opp3 (mv J (add3 (cross3 (v_rate v) rate_cmd_B) (sandwich attitude_error rate_cmd_dot))) in
  rbind (if wc_avoid w
         then rbind (allowable_zone w attitude_error rate_error objs) (fun '(tr, z) => Ok (tr, mv J z))
         else let '(tr, s) := trig_sign (qw attitude_error) (wc_trig w) in
              Ok (tr, scale3 (- s * wc_alpha w) (mv J (vec attitude_error)))) (fun '(tr, quat_term) =>
  let rate_term := scale3 (- 1 * wc_gamma w) del_H in
  Ok (set_trig w tr, add3 (add3 (add3 gyro_term quat_term) rate_term) feedforward)))).
(** controller.py:397-413 [actuator_commands] *)
Definition whl_actuator_commands (w : WhlCtl) (control_law : v3) : res (list R) := rw_accelerations (s_rw (wc_sat w)) (opp3 control_law).
(** controller.py:238-242 [track_and_desaturate]; [magnetorque] is the magnetic moment *)
Definition track_and_desaturate (w : WhlCtl) (x : CState) (magnetorque rate_cmd rate_cmd_dot : v3) (q_cmd : quat) : res (WhlCtl * list R) :=
  rbind (tracking w (cs_v x) rate_cmd rate_cmd_dot q_cmd) (fun '(w', u) =>
  rbind (whl_actuator_commands w' (add3 u (cross3 (cs_mag x) magnetorque))) (fun a => Ok (w', a))).
(** [clock.absolute] for either clock class *)
Definition clk_absolute (c : AClock) : R := match c with CClock c => absolute c | CJ c => j_absolute c end.
(** controller.py:244-264 [ecliptic_attitude] *)
Definition ecliptic_attitude (clock : AClock) (roll : bool) : quat :=
  if roll then
    let t := clk_absolute clock in
    let rot := mkq (cos (0.5 * (z3 BBQ * t))) 0 0 (sin (0.5 * (z3 BBQ * t))) in
    product ECL rot
  else ECL.
(** controller.py:266-283 [induce_bbq_roll_attitude] *)
Definition induce_bbq_roll_attitude (w : WhlCtl) (clock : AClock) (x : CState) (magnetorque : v3) : res (WhlCtl * list R) :=
  track_and_desaturate w x magnetorque BBQ zero3 (ecliptic_attitude clock true).
(** controller.py:285-310 [acquire_target] *)
Definition acquire_target (position : v3) (attitude : quat) (boresight target : v3) : quat :=
  let direction := pointing_vector position target in
  let direction_B := sandwich attitude direction in
  let '(r, theta) := R_axis_angle boresight direction_B in
  axisangle_to_quat r theta.
(** controller.py:334-337: the rate reference of [point_and_stare] (NaN when the satellite is at the target) *)
Definition stare_rate_intl (position velocity target : v3) : v3 :=
  let h := sub3 position target in div3 (cross3 h velocity) (dot3 h h).
(** controller.py:342-343: the commanded attitude *)
Definition stare_attitude (position : v3) (attitude : quat) (boresight target : v3) : quat :=
  product attitude (acquire_target position attitude boresight target).
(** controller.py:312-346 [point_and_stare]; mission_data[1] is the boresight and mission_data[2] the target *)
Definition point_and_stare (w : WhlCtl) (x : CState) (boresight target : v3) : res (WhlCtl * list R) :=
  let v := cs_v x in
  let w_ref := sandwich (v_att v) (stare_rate_intl (v_pos v) (v_vel v) target) in
  let q_cmd := stare_attitude (v_pos v) (v_att v) boresight target in
  rbind (tracking w v w_ref zero3 q_cmd) (fun '(w', u) =>
  rbind (whl_actuator_commands w' u) (fun a => Ok (w', a))).
