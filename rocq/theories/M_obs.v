(** * Model of src/oresat_adcs/classes/observers.py: the two Kalman filters *)
From Coq Require Import Reals List Bool.
From Verif Require Import Num Vec Mat6 M_vector M_quaternion M_jday M_frame M_env M_dyn.
Local Open Scope R_scope.

(** ** observers.py:10-171 [DiscreteAttitudeStartrackerKalman] *)
(** observers.py:23-25, 30 *)
Definition GYRO_VAR : R := (2.79 / 10 ^ 4) ^ 2.
Definition DRIFT_VAR : R := (8.73 / 10 ^ 7) ^ 2.
Definition INITIAL_BIAS : R := 3.15 / 10 ^ 5.
Definition SENSOR_SIGMA : R := 0.75 / 10 ^ 7.
(** observers.py:33-46: dq, db, q, b, P *)
Record AttF := mkAF { a_dq : v3; a_db : v3; a_q : quat; a_b : v3; a_P : M6 }.
Definition af_init (q : quat) : AttF := mkAF zero3 zero3 q zero3 (diag6 (SENSOR_SIGMA ^ 2) (INITIAL_BIAS ^ 2)).
(** observers.py:43: G = diag(-1,-1,-1,1,1,1); 46: R *)
Definition af_G : M6 := diag6 (-1) 1.
Definition af_R : m3 := scalem (SENSOR_SIGMA ^ 2) id3.
(** observers.py:66-73 [reset] *)
Definition af_reset (f : AttF) : AttF :=
  mkAF zero3 zero3 (normalizeq (addq (a_q f) (scaleq 0.5 (xi_mul (xi (a_q f)) (a_dq f))))) (add3 (a_b f) (a_db f)) (a_P f).
(** observers.py:48-64 [measurement].  The gain is two 3x3 blocks; the innovation matrix R + P11 is inverted (LinAlgError when
    singular). *)
Definition af_gain (P : M6) : m3 * m3 := let Si := inv3 (addm af_R (b11 P)) in (mm (b11 P) Si, mm (b21 P) Si).
Definition af_measurement (q_ref : quat) (f : AttF) : res AttF :=
  if Reqb (det3 (addm af_R (b11 (a_P f)))) 0 then Raise LinAlgError
  else
    let '(K1, K2) := af_gain (a_P f) in
    let temp := subm6 id6 (mkB K1 zerom K2 zerom) in
    let P := mm6 temp (a_P f) in
    let y := sub3 (vec (error_quat q_ref (a_q f))) (a_dq f) in
    Ok (af_reset (mkAF (mv K1 y) (mv K2 y) (a_q f) (a_b f) P)).
(** observers.py:75-141 [state_transition]: process noise, covariance transition, attitude transition.  Over R the tests on
    norm_w, norm_w**2 and norm_w**3 agree. *)
Definition af_Q (dt : R) : M6 :=
  let Q11 := GYRO_VAR * dt + 0.3333333 * DRIFT_VAR * dt ^ 3 in
  let Q12 := -0.5 * DRIFT_VAR * dt ^ 2 in
  let Q22 := DRIFT_VAR * dt in
  mkB (scalem Q11 id3) (scalem Q12 id3) (scalem Q12 id3) (scalem Q22 id3).
Definition phi_11 (w : v3) (dt : R) : m3 :=
  let n := norm3 w in let X := crossm w in let s := sin (n * dt) in let c := cos (n * dt) in
  if negb (Reqb (n ^ 2) 0) then addm (subm id3 (scalem (s / n) X)) (scalem ((1 - c) / n ^ 2) (mm X X))
  else if negb (Reqb n 0) then subm id3 (scalem (s / n) X) else id3.
Definition phi_12 (w : v3) (dt : R) : m3 :=
  let n := norm3 w in let X := crossm w in let s := sin (n * dt) in let c := cos (n * dt) in
  if negb (Reqb (n ^ 2) 0) then
    let base := addm (scalem (- dt) id3) (scalem ((1 - c) / n ^ 2) X) in
    if negb (Reqb (n ^ 3) 0) then subm base (scalem ((n * dt - s) / n ^ 3) (mm X X)) else base
  else scalem (- dt) id3.
Definition af_phi (w : v3) (dt : R) : M6 := mkB (phi_11 w dt) (phi_12 w dt) zerom id3.
Definition af_psi (w : v3) (dt : R) : v3 :=
  let n := norm3 w in if negb (Reqb n 0) then scale3 (sin (n * dt * 0.5) / n) w else zero3.
(** omega.dot(q): first column (c, psi), the rest [-psi; eye(3) - cross(psi)] *)
Definition af_omega_mul (w : v3) (dt : R) (q : quat) : quat :=
  let c := cos (norm3 w * dt * 0.5) in
  let psi := af_psi w dt in
  mkqv (c * qw q + dot3 (opp3 psi) (vec q)) (add3 (scale3 (qw q) psi) (mv (subm id3 (crossm psi)) (vec q))).
(** observers.py:143-158 [propagate] *)
Definition af_propagate (w_sensor : v3) (dt : R) (f : AttF) : AttF :=
  let w := sub3 w_sensor (a_b f) in
  let Q := af_Q dt in let phi := af_phi w dt in
  let GQG := mm6 af_G (mm6 Q (tr6 af_G)) in
  mkAF (a_dq f) (a_db f) (af_omega_mul w dt (a_q f)) (a_b f) (addm6 (mm6 phi (mm6 (a_P f) (tr6 phi))) GQG).

(** ** observers.py:180-328 [DiscretePositionKalman] *)
(** observers.py:191-207 *)
Definition x_sigma : R := 10.0598.
Definition v_sigma : R := 0.52038.
Definition a_sigma : R := 0.018166.
Definition pf_Q : M6 := diag6 0 (a_sigma ^ 2).
Definition pf_R : M6 := diag6 (x_sigma ^ 2) (v_sigma ^ 2).
Definition pf_a : R := 1.28 / 10 ^ 6.
Definition pf_b : R := 1.618 / 10 ^ 10.
(** the estimate, its covariance and the state object shared with the environment *)
Record PosF := mkPF { p_x : V6; p_P : M6; p_st : SatState }.
(** observers.py:203-214 *)
Definition pf_init (s : SatState) : PosF := mkPF (mk6 (v_pos (sv s)) (v_vel (sv s))) id6 s.
(** observers.py:240-262 [F_continuous].  A position of zero length divides by zero (NaN in the code); the theorems about
    propagation assume it is not. *)
Definition grad_block (p : v3) : m3 :=
  let mu := - MU in
  let r := norm3 p in
  let r3 := -1 / r ^ 3 in
  let r5 := 3 / r ^ 5 in
  let x := x3 p in let y := y3 p in let z := z3 p in
  let g12 := mu * (r5 * x * y) in
  let g13 := mu * (r5 * x * z) in
  let g23 := mu * r5 * z * y in
  mkm (mk3 (mu * (r3 + r5 * x ^ 2)) g12 g13) (mk3 g12 (mu * (r3 + r5 * y ^ 2)) g23) (mk3 g13 g23 (mu * (r3 + r5 * z ^ 2))).
Definition F_continuous (p : v3) : M6 := mkB zerom id3 (grad_block p) (scalem pf_b id3).
(** observers.py:265-289 [state_transition] *)
Definition F_discrete (p : v3) (dt : R) : M6 :=
  let F := F_continuous p in
  addm6 (addm6 id6 (scalem6 dt F)) (scalem6 (dt ^ 2) (scalem6 0.5 (mm6 F F))).
Definition A_discrete (dt : R) : M6 :=
  let t2 := dt ^ 2 in
  let A11 := 1 - 0.5 * pf_a * t2 in
  let A12 := dt - 0.5 * pf_b * t2 - 0.1666 * pf_a * dt * t2 in
  let A21 := - pf_a * dt in
  let A22 := A11 - pf_b * dt in
  mkB (scalem A11 id3) (scalem A12 id3) (scalem A21 id3) (scalem A22 id3).
(** dynamics.py:45-66 on an existing state object whose entries 0 and 1 were replaced: everything before the latitude is
    assigned, then [ecef_to_lla] may raise *)
Definition refresh (h : store) (s : SatState) (pos vel : v3) : SatState * option exn :=
  let v := mkSV pos vel (v_att (sv s)) (v_rate (sv s)) (v_whl (sv s)) in
  let m := ecef_matrix (clk_theta (h (clk s))) in
  let r := mv m pos in
  match ecef_to_lla r with
  | Ok (lat, long, alt) => (mkSS v (clk s) m r (norm3 pos) lat long alt, None)
  | Raise e => (mkSS v (clk s) m r (norm3 pos) (c_lat s) (c_long s) (c_h s), Some e)
  end.
(** observers.py:292-307 [update]: returns the filter (already changed when the state object raises) and the exception *)
Definition pf_update (h : store) (x_ref v_ref : v3) (f : PosF) : PosF * option exn :=
  match inv6 (addm6 (p_P f) pf_R) with
  | Raise e => (f, Some e)
  | Ok N =>
      let K := mm6 (p_P f) N in
      let P := mm6 (subm6 id6 K) (p_P f) in
      let x := add6 (p_x f) (mv6 K (sub6 (mk6 x_ref v_ref) (p_x f))) in
      let '(st, e) := refresh h (p_st f) (u1 x) (u2 x) in
      (mkPF x P st, e)
  end.
(** observers.py:310-318 [propagate] *)
Definition pf_propagate (dt : R) (f : PosF) : PosF :=
  let F := F_discrete (u1 (p_x f)) dt in
  mkPF (mv6 (A_discrete dt) (p_x f)) (addm6 (mm6 F (mm6 (p_P f) (tr6 F))) pf_Q) (p_st f).

(** sequences of calls *)
Inductive AOp := AMeas (q_ref : quat) | AProp (w : v3) (dt : R).
Definition af_step (f : AttF) (o : AOp) : res AttF := match o with AMeas q => af_measurement q f | AProp w dt => Ok (af_propagate w dt f) end.
Fixpoint af_run (ops : list AOp) (f : AttF) : res AttF := match ops with nil => Ok f | o :: r => rbind (af_step f o) (af_run r) end.
(** a call may be made after an earlier one raised: the object survives *)
Inductive POp := PUpd (h : store) (x v : v3) | PProp (dt : R).
Definition pf_step (f : PosF) (o : POp) : PosF * option exn :=
  match o with PUpd h x v => pf_update h x v f | PProp dt => (pf_propagate dt f, None) end.
Definition pf_run (ops : list POp) (f : PosF) : PosF := fold_left (fun f o => fst (pf_step f o)) ops f.
