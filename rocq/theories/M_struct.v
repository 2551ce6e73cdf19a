(** * Model of src/oresat_adcs/configuration/structure.py *)
From Coq Require Import Reals ZArith List Bool.
From Verif Require Import Num Vec M_vector.
Import ListNotations.
Local Open Scope num_scope.

(** structure.py:54-64: the three magnetorquer types.  Any other string raises in the constructor (no [self.R], and
    [actuate] reads an unbound local), so no such object exists. *)
Inductive mt_type := Square | Rod | LinearRod.

Section MT.
Context {T : Type} `{NT : Num T}.
(** np.sign; NaN stays NaN *)
Definition nsign (x : T) : T := if x <? n0 then nopp n1 else if n0 <? x then n1 else if x =? n0 then n0 else x.

(** structure.py:86-91: moment along the torquer's own axis (the vector is [axis] times this) *)
Definition mt_moment (t : mt_type) (I : T) : T :=
  match t with
  | Square => I * ndec 1584 1000
  | Rod => (ndec 236 100 * nabs I - ndec 11 10 * (I * I)) * nsign I
  | LinearRod => ndec 187 100 * I
  end.
(** structure.py:69-93 [Magnetorquer.actuate] *)
Definition mt_actuate (t : mt_type) (axis : V3 T) (I : T) : V3 T :=
  match t with
  | Square => scale3 (ndec 1584 1000) (scale3 I axis)
  | Rod => scale3 (nsign I) (scale3 (ndec 236 100 * nabs I - ndec 11 10 * (I * I)) axis)
  | LinearRod => scale3 (ndec 187 100 * I) axis
  end.
(** structure.py:95-116 [Magnetorquer.getCurrent]; [m] is the scalar moment commanded of this torquer.  Over R the square
    root of a negative number is 0 instead of NaN; theorems over R exclude that range. *)
Definition getCurrent (t : mt_type) (m : T) : T :=
  match t with
  | Square => m * ndec 631313 1000000
  | Rod => nsign m * ndec 181818 10000000 * (nofZ 59 - nsqrt (nofZ 3481 - nofZ 2750 * nabs m))
  | LinearRod => m * ndec 5347593 10000000
  end.
(** structure.py:59-64, 118-132 [Magnetorquer.power] *)
Definition mt_power (t : mt_type) (I : T) : T :=
  (match t with Square => ndec 149 10 | Rod => ndec 628 100 | LinearRod => ndec 628 100 end) * (I * I).

(** structure.py:40-67: a magnetorquer *)
Record Torquer := mkT { t_type : mt_type; t_axis : V3 T; t_maxA : T }.
(** structure.py:67 *)
Definition max_m (t : Torquer) : T := norm3 (mt_actuate (t_type t) (t_axis t) (t_maxA t)).

(** structure.py:173-176: with the factor known, scale and convert to currents.  [None] stands for +inf. *)
Definition scaled_command (factor : option T) (m : list T) : list T :=
  match factor with
  | Some f => if f <? n1 then map (fun x => x * f) m else m
  | None => m
  end.
Fixpoint currents (ts : list Torquer) (m : list T) : res (list T) :=
  match ts, m with
  | [], _ => Ok []
  | t :: ts, x :: m => rbind (currents ts m) (fun r => Ok (getCurrent (t_type t) x :: r))
  | _ :: _, [] => Raise IndexError
  end.
Fixpoint ratios {A} (dv : T -> T -> A) (ts : list Torquer) (m : list T) : res (list A) :=
  match ts, m with
  | [], _ => Ok []
  | t :: ts, x :: m => rbind (ratios dv ts m) (fun r => Ok (dv (max_m t) x :: r))
  | _ :: _, [] => Raise IndexError
  end.
(** structure.py:150-176 [MagnetorquerSystem.distribute] with the element type's own division (used for binary64, where
    a division by zero gives an infinity) *)
Definition distribute_f (ts : list Torquer) (m : list T) : res (list T) :=
  rbind (ratios ndiv ts m) (fun rs => rbind (pymin rs) (fun f => currents ts (scaled_command (Some f) m))).

(** structure.py:178-192 [MagnetorquerSystem.actuate] *)
Fixpoint sys_actuate (ts : list Torquer) (cur : list T) : res (V3 T) :=
  match ts, cur with
  | [], _ => Ok zero3
  | t :: ts, x :: cur => rbind (sys_actuate ts cur) (fun r => Ok (add3 (mt_actuate (t_type t) (t_axis t) x) r))
  | _ :: _, [] => Raise IndexError
  end.
(** structure.py:194-208 [MagnetorquerSystem.power] *)
Fixpoint sys_power (ts : list Torquer) (cur : list T) : res T :=
  match ts, cur with
  | [], _ => Ok n0
  | t :: ts, x :: cur => rbind (sys_power ts cur) (fun r => Ok (mt_power (t_type t) x + r))
  | _ :: _, [] => Raise IndexError
  end.
End MT.
Arguments Torquer : clear implicits.

(** structure.py:172 over the reals, for positive maxima: [max_m / m[i]] is +inf ([None]) when m[i] = 0 (a positive
    zero; a negative zero is treated in the binary64 theorem), and Python's [min] picks the least. *)
Definition ext_ratio (a x : R) : option R := if Reqb x 0 then None else Some (a / x)%R.
Definition ext_ltb (a b : option R) : bool :=
  match a, b with Some a, Some b => Rltb a b | Some _, None => true | None, _ => false end.
Definition ext_min (l : list (option R)) : res (option R) :=
  match l with [] => Raise ValueError | a :: r => Ok (fold_left (fun m x => if ext_ltb x m then x else m) r a) end.
(** structure.py:150-176 [MagnetorquerSystem.distribute] over the reals *)
Definition distribute (ts : list (Torquer R)) (m : list R) : res (list R) :=
  rbind (ratios ext_ratio ts m) (fun rs => rbind (ext_min rs) (fun f => currents ts (scaled_command f m))).

Local Open Scope R_scope.
(** structure.py:210-234 [Wheel] *)
Record Wheel := mkW { w_axis : v3; w_par : R; w_orth : R }.
Definition w_par_moment (w : Wheel) : m3 := scalem (w_par w) (outer3 (w_axis w) (w_axis w)).
Definition w_orth_moment (w : Wheel) : m3 := scalem (w_orth w) (subm id3 (outer3 (w_axis w) (w_axis w))).
(** structure.py:237-253 [Wheel.acceleration] *)
Definition w_acceleration (w : Wheel) (torque : R) : R := torque / w_par w.
(** structure.py:255-271 [Wheel.momentum] *)
Definition w_momentum (w : Wheel) (velocity : R) : v3 := scale3 (w_par w) (scale3 velocity (w_axis w)).
(** structure.py:273-289 [Wheel.torque] *)
Definition w_torque (w : Wheel) (accl : R) : v3 := scale3 (w_par w) (scale3 accl (w_axis w)).

(** sums of vectors and matrices ([sum] of a list, starting from 0) *)
Definition sum3 (l : list v3) : v3 := fold_right add3 zero3 l.
Definition summ (l : list m3) : m3 := fold_right addm zerom l.

(** structure.py:311-327 [ReactionWheelSystem.__init__] *)
Record RWS := mkRWS { rw_wheels : list Wheel; rw_maxT : R; rw_limited : bool }.
Definition rw_parallel (s : RWS) : m3 := summ (map w_par_moment (rw_wheels s)).
Definition rw_orthogonal (s : RWS) : m3 := summ (map w_orth_moment (rw_wheels s)).
(** [np.linalg.inv(self.parallel_moment)] raises for a singular matrix, so construction fails *)
Definition make_rws (wheels : list Wheel) (maxT : R) (limited : bool) : res RWS :=
  let s := mkRWS wheels maxT limited in
  if Reqb (det3 (rw_parallel s)) 0 then Raise LinAlgError else Ok s.
(** A A^T for the 3 x n matrix A whose columns are the wheel axes (structure.py:318) *)
Definition rw_gram (s : RWS) : m3 := summ (map (fun w => outer3 (w_axis w) (w_axis w)) (rw_wheels s)).
(** structure.py:324: [np.linalg.pinv(axes)] applied to a vector.  Contract: for A of full row rank the pseudo-inverse is
    A^T (A A^T)^-1 (the Moore-Penrose conditions are proved in P_wheel.v). *)
Definition rw_distribute (s : RWS) (torque : v3) : list R :=
  let y := mv (inv3 (rw_gram s)) torque in map (fun w => dot3 (w_axis w) y) (rw_wheels s).
Fixpoint zip_with {A B C} (f : A -> B -> C) (l : list A) (r : list B) : list C :=
  match l, r with a :: l, b :: r => f a b :: zip_with f l r | _, _ => [] end.
(** structure.py:331-350 [ReactionWheelSystem.accelerations]; [saturation] is vector.saturation *)
Definition rw_accelerations (s : RWS) (torque : v3) : res (list R) :=
  let T := rw_distribute s torque in
  rbind (if rw_limited s then saturation T (rw_maxT s) else Ok T) (fun T =>
  Ok (zip_with w_acceleration (rw_wheels s) T)).
(** structure.py:352-368 [momentum] and 370-391 [torque]; a list shorter than the wheels raises IndexError in the code *)
Definition rw_momentum (s : RWS) (velocities : list R) : v3 := sum3 (zip_with w_momentum (rw_wheels s) velocities).
Definition rw_torque (s : RWS) (accls : list R) : v3 := sum3 (zip_with w_torque (rw_wheels s) accls).

(** structure.py:409-417 [Wall] *)
Record Wall := mkWall { wl_dist : R; wl_normal : v3; wl_len : R; wl_wid : R; wl_abs : R }.
Definition wl_area (w : Wall) : R := wl_len w * wl_wid w.
Definition wl_centroid (w : Wall) : v3 := scale3 (wl_dist w) (wl_normal w).
Definition wl_refl (w : Wall) : R := 1 - wl_abs w.
(** Python's [max(0, x)]: keeps 0 unless x is greater *)
Definition pymax0 (x : R) : R := if Rltb 0 x then x else 0.
(** structure.py:419-435 [Wall.projected_area] *)
Definition projected_area (w : Wall) (v_ref : v3) : R := pymax0 (dot3 (wl_normal w) v_ref) * wl_area w.
(** structure.py:437-453 [Wall.center_of_pressure] *)
Definition center_of_pressure (w : Wall) (v_ref : v3) : R * v3 :=
  let A := projected_area w v_ref in (A, scale3 A (wl_centroid w)).
(** structure.py:455-475 [Wall.srp_force] *)
Definition srp_force (w : Wall) (SRP : R) (S : v3) : v3 * v3 :=
  let c_beta := dot3 (wl_normal w) S in
  let '(A, cp) := center_of_pressure w S in
  let F := scale3 (- SRP * A) (add3 (scale3 (2 * wl_refl w * c_beta) (wl_normal w)) (scale3 (wl_abs w) S)) in
  (F, cross3 cp F).
(** structure.py:477-497 [Wall.drag_force] *)
Definition drag_force (w : Wall) (drag_pressure : R) (v : v3) : v3 * v3 :=
  let '(A, cp) := center_of_pressure w v in
  let F := scale3 (drag_pressure * A) v in
  (F, cross3 cp F).

(** structure.py:513-551 [Satellite.__init__]: the parts used by the dynamics.  Sensors, instruments and magnetorquers are
    kept elsewhere. *)
Record Satellite := mkSat {
  s_length : R; s_width : R; s_height : R; s_absorption : R; s_drag : R; s_mass : R;
  s_rw : RWS; s_principal : v3; s_products : v3; s_reduced : bool }.
(** structure.py:516-524 *)
Definition s_walls (s : Satellite) : list Wall :=
  let l := s_length s in let w := s_width s in let h := s_height s in let a := s_absorption s in
  [mkWall (l / 2) (mk3 1 0 0) w h a; mkWall (l / 2) (mk3 (-1) 0 0) w h a;
   mkWall (w / 2) (mk3 0 1 0) l h a; mkWall (w / 2) (mk3 0 (-1) 0) l h a;
   mkWall (h / 2) (mk3 0 0 1) w l a; mkWall (h / 2) (mk3 0 0 (-1)) w l a].
(** structure.py:538 *)
Definition s_wheel_moment (s : Satellite) : m3 := rw_parallel (s_rw s).
(** structure.py:544: entry (j, i) off the diagonal is product_moments[i + j - 1] *)
Definition product_matrix (p : v3) : m3 :=
  mkm (mk3 0 (x3 p) (y3 p)) (mk3 (x3 p) 0 (z3 p)) (mk3 (y3 p) (z3 p) 0).
(** structure.py:541-544 *)
Definition s_reduced_moment (s : Satellite) : m3 :=
  let base := addm (diag3 (x3 (s_principal s)) (y3 (s_principal s)) (z3 (s_principal s))) (rw_orthogonal (s_rw s)) in
  if s_reduced s then addm base (product_matrix (s_products s)) else base.
(** structure.py:547 *)
Definition s_total_moment (s : Satellite) : m3 := addm (s_reduced_moment s) (s_wheel_moment s).
(** structure.py:549-550; a singular matrix raises LinAlgError *)
Definition s_inv_red (s : Satellite) : m3 := inv3 (s_reduced_moment s).
Definition s_inv_tot (s : Satellite) : m3 := inv3 (s_total_moment s).
Definition make_sat_ok (s : Satellite) : bool :=
  negb (Reqb (det3 (s_reduced_moment s)) 0) && negb (Reqb (det3 (s_total_moment s)) 0).

(** dynamics.py:171 and 220: sums over the six walls *)
Definition total_area (s : Satellite) (v : v3) : R := fold_right (fun w a => projected_area w v + a) 0 (s_walls s).
Definition total_drag (s : Satellite) (p : R) (v : v3) : v3 * v3 :=
  (sum3 (map (fun w => fst (drag_force w p v)) (s_walls s)), sum3 (map (fun w => snd (drag_force w p v)) (s_walls s))).
(** dynamics.py:195 *)
Definition total_srp (s : Satellite) (p : R) (v : v3) : v3 * v3 :=
  (sum3 (map (fun w => fst (srp_force w p v)) (s_walls s)), sum3 (map (fun w => snd (srp_force w p v)) (s_walls s))).
(** dynamics.py:160-173 [Dynamics.area_and_cop] *)
Definition area_and_cop (s : Satellite) (v : v3) : R * v3 :=
  let A := total_area s v in (A, div3 (sum3 (map (fun w => snd (center_of_pressure w v)) (s_walls s))) A).

(** structure.py:24-38 [SensitiveInstrument]: sign, bounds in radians, cosines, and the gains *)
Record Instrument := mkI { i_boresight : v3; i_bounds : list R; i_forbidden : list bool; i_ids : list Z }.
Definition i_sign (b : bool) : R := if b then -1 else 1.
Definition i_rad (deg : R) : R := deg * (PI / 180).
Definition i_cos_psi (i : Instrument) : list R := map (fun b => cos (i_rad b)) (i_bounds i).
Definition i_sigma1 (stop : R) (b : R) (f : bool) : R := 0.5 * Rabs (cos (i_rad b - i_sign f * stop) - cos (i_rad b)).
Definition i_sigma (i : Instrument) (stop : R) : list R := zip_with (i_sigma1 stop) (i_bounds i) (i_forbidden i).
Definition i_iota (i : Instrument) (stop : R) : list R := map (fun s => 0.25 * s) (i_sigma i stop).

(** examples/utility/template_objects.py:50-52 (and the other examples): the four-wheel pyramid of axes *)
Definition pyramid_axis (inc az : R) (k : nat) : v3 :=
  mk3 (sin inc * cos (az + INR k * PI / 2)) (sin inc * sin (az + INR k * PI / 2)) (cos inc).
Definition pyramid (inc az par orth : R) : list Wheel := map (fun k => mkW (pyramid_axis inc az k) par orth) [0; 1; 2; 3]%nat.
