(** * Model of src/oresat_adcs/classes/dynamics.py: state, forces, vector field *)
From Coq Require Import Reals ZArith List Bool Arith.
From Verif Require Import Num Vec M_vector M_quaternion M_jday M_frame M_struct M_env.
Import ListNotations.
Local Open Scope R_scope.

(** numpy [a + b] for 1-d arrays: equal lengths, or one of them of length 1 (broadcast); otherwise ValueError *)
Definition np_add (a b : list R) : res (list R) :=
  if Nat.eqb (length a) (length b) then Ok (zip_with Rplus a b)
  else match a, b with
       | [x], _ => Ok (map (fun y => x + y) b)
       | _, [y] => Ok (map (fun x => x + y) a)
       | _, _ => Raise ValueError
       end.

(** dynamics.py:10-21: the five entries of the object array: position, velocity, attitude, body rate, wheel speeds *)
Record SVec := mkSV { v_pos : v3; v_vel : v3; v_att : quat; v_rate : v3; v_whl : list R }.
(** elementwise arithmetic of such object arrays *)
Definition sv_add (a b : SVec) : res SVec :=
  rbind (np_add (v_whl a) (v_whl b)) (fun w =>
  Ok (mkSV (add3 (v_pos a) (v_pos b)) (add3 (v_vel a) (v_vel b)) (addq (v_att a) (v_att b)) (add3 (v_rate a) (v_rate b)) w)).
Definition sv_mul (a : SVec) (k : R) : SVec :=
  mkSV (scale3 k (v_pos a)) (scale3 k (v_vel a)) (scaleq k (v_att a)) (scale3 k (v_rate a)) (map (fun x => x * k) (v_whl a)).
Definition sv_div (a : SVec) (k : R) : SVec :=
  mkSV (div3 (v_pos a) k) (div3 (v_vel a) k) (divq (v_att a) k) (div3 (v_rate a) k) (map (fun x => x / k) (v_whl a)).

(** the clock attached to a state: either class of jday.py *)
Inductive AClock := CClock (c : Clock R) | CJ (c : JClock).
Definition clk_theta (c : AClock) : R := match c with CClock c => theta_gmst c | CJ c => j_theta_gmst c end.
(** [clock.julian_date()] without arguments: Clock's method requires three (jday.py:181), so the call raises TypeError *)
Definition clk_julian (c : AClock) : res R := match c with CClock _ => Raise TypeError | CJ c => Ok (j_julian_date c) end.
Definition clk_tick (dt : R) (c : AClock) : res AClock :=
  match c with CClock c => Ok (CClock (tick dt c)) | CJ c => rbind (jtick dt c) (fun c => Ok (CJ c)) end.

(** clocks are objects: states hold a reference (an address) into this store *)
Definition store := nat -> AClock.
Definition set_clk (h : store) (a : nat) (c : AClock) : store := fun b => if Nat.eqb b a then c else h b.

(** dynamics.py:10-66 [SatelliteState]: the array, the clock reference, and the values cached by [update] *)
Record SatState := mkSS {
  sv : SVec; clk : nat;
  c_ecef : m3;           (* GCI_to_ECEF *)
  c_r_ecef : v3;
  c_length : R;
  c_lat : R; c_long : R; c_h : R }.
(** dynamics.py:45-66 [update]; also the effect of [__new__] (23-30) *)
Definition make_state (h : store) (a : nat) (v : SVec) : res SatState :=
  let m := ecef_matrix (clk_theta (h a)) in
  let r := mv m (v_pos v) in
  rbind (ecef_to_lla r) (fun '(lat, long, alt) => Ok (mkSS v a m r (norm3 (v_pos v)) lat long alt)).
(** dynamics.py:37-41 [__add__] *)
Definition state_add (h : store) (s : SatState) (d : SVec) : res SatState :=
  rbind (sv_add (sv s) d) (fun v => make_state h (clk s) v).

Definition state_att (s : SatState) : quat := v_att (sv s).
(** dynamics.py:177-201 [solar_F_and_T] *)
Definition solar_F_and_T (sat : Satellite) (h : store) (s : SatState) : res (v3 * v3) :=
  rbind (clk_julian (h (clk s))) (fun jd =>
  let '(SRP, in_shadow, S_inertial) := SRP_info jd (v_pos (sv s)) in
  if in_shadow : bool then Ok (zero3, zero3)
  else let '(F, T) := total_srp sat SRP S_inertial in Ok (sandwich_opp (state_att s) F, T)).
(** dynamics.py:205-224 [drag_F_and_T].  When v_rel is zero the code divides 0 by 0 and gets NaN; here the quotient is 0. *)
Definition drag_F_and_T (sat : Satellite) (s : SatState) : res (v3 * v3) :=
  let v_rel := relative_vel (v_pos (sv s)) (v_vel (sv s)) in
  let n := norm3 v_rel in
  let v_ref := sandwich (state_att s) (div3 v_rel n) in
  rbind (atmo_density (c_h s)) (fun rho =>
  let p := -0.5 * rho * s_drag sat * n ^ 2 in
  let '(F, T) := total_drag sat p v_ref in Ok (sandwich_opp (state_att s) F, T)).
(** dynamics.py:227-245 [gravity_F_and_T] *)
Definition gravity_F_and_T (hi_fi : bool) (sat : Satellite) (s : SatState) : v3 * v3 :=
  let accel := gravity_accel hi_fi (v_pos (sv s)) (c_length s) in
  let n := sandwich (state_att s) (div3 (opp3 (v_pos (sv s))) (c_length s)) in
  let T := scale3 (3 * MU / c_length s ^ 3) (cross3 n (mv (s_total_moment sat) n)) in
  (scale3 (s_mass sat) accel, T).
Definition add_FT (a b : v3 * v3) : v3 * v3 := (add3 (fst a) (fst b), add3 (snd a) (snd b)).
(** dynamics.py:275-278: the magnetic part of [env_F_and_T] *)
Definition magnetic_F_and_T (s : SatState) (mag_moment : v3) : v3 * v3 :=
  let B := magnetic_field (c_r_ecef s) (c_length s) (c_ecef s) in
  (zero3, cross3 mag_moment (sandwich (state_att s) B)).
(** dynamics.py:249-286 [env_F_and_T] *)
Definition env_F_and_T (hi_fi : bool) (sat : Satellite) (h : store) (s : SatState) (mag_moment : v3) : res (v3 * v3) :=
  rbind (solar_F_and_T sat h s) (fun S =>
  rbind (drag_F_and_T sat s) (fun D =>
  let G := gravity_F_and_T hi_fi sat s in
  let M := magnetic_F_and_T s mag_moment in
  Ok (add_FT (add_FT (add_FT D G) M) S))).

(** structure.py:352-391: indexing the wheel list by position raises IndexError when the array is too short *)
Definition rw_torque_r (s : RWS) (accls : list R) : res v3 :=
  if Nat.ltb (length accls) (length (rw_wheels s)) then Raise IndexError else Ok (rw_torque s accls).
Definition rw_momentum_r (s : RWS) (vels : list R) : res v3 :=
  if Nat.ltb (length vels) (length (rw_wheels s)) then Raise IndexError else Ok (rw_momentum s vels).
(** dynamics.py:313-317: the derivative once the external force and torque, the wheel torque and momentum are known *)
Definition derivative (sat : Satellite) (v : SVec) (F_env T_env T_whl H_whl : v3) (whl_accl : list R) : SVec :=
  mkSV (v_vel v) (div3 F_env (s_mass sat))
       (scaleq 0.5 (product (v_att v) (mkq 0 (x3 (v_rate v)) (y3 (v_rate v)) (z3 (v_rate v)))))
       (mv (s_inv_tot sat) (sub3 (sub3 T_env T_whl) (cross3 (v_rate v) (add3 H_whl (mv (s_total_moment sat) (v_rate v))))))
       whl_accl.
(** dynamics.py:289-319 [vector_field] *)
Definition vector_field (hi_fi : bool) (sat : Satellite) (mt : list (Torquer R)) (h : store) (s : SatState) (cur_cmd whl_accl : list R) : res SVec :=
  rbind (sys_actuate mt cur_cmd) (fun mag_moment =>
  rbind (rw_torque_r (s_rw sat) whl_accl) (fun T_whl =>
  rbind (rw_momentum_r (s_rw sat) (v_whl (sv s))) (fun H_whl =>
  rbind (env_F_and_T hi_fi sat h s mag_moment) (fun '(F_env, T_env) =>
  Ok (derivative sat (sv s) F_env T_env T_whl H_whl whl_accl))))).

(** dynamics.py:342-362 [RK4_step], for any type of states and derivatives with their arithmetic *)
Definition RK4_step {S D} (add : S -> D -> res S) (addD : D -> D -> res D) (mul div : D -> R -> D) (f : S -> res D) (dt : R) (state : S) : res S :=
  rbind (f state) (fun k1 =>
  rbind (rbind (add state (div (mul k1 dt) 2)) f) (fun k2 =>
  rbind (rbind (add state (div (mul k2 dt) 2)) f) (fun k3 =>
  rbind (rbind (add state (mul k3 dt)) f) (fun k4 =>
  rbind (rbind (rbind (addD k1 (mul k2 2)) (fun a => addD a (mul k3 2))) (fun a => addD a k4)) (fun a =>
  let change := div a 6 in
  add state (mul change dt)))))).
(** dynamics.py:342-362 on satellite states *)
Definition RK4_sat (h : store) (f : SatState -> res SVec) (dt : R) (s : SatState) : res SatState :=
  RK4_step (state_add h) sv_add sv_mul sv_div f dt s.
