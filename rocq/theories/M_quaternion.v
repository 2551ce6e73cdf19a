(** * Model of src/oresat_adcs/functions/quaternion.py *)
From Coq Require Import Reals ZArith List Bool Lra.
From Verif Require Import Num Vec M_vector.
Local Open Scope num_scope.

Section Q.
Context {T : Type} `{NT : Num T}.

(** quaternion.py:6-22 [metric] *)
Definition metric (p q : Q4 T) : T := n1 - dotq p q.

(** quaternion.py:24-40 [xi]: 4x3 matrix; modelled as its first row (-q[1:]) and its lower 3x3 block
    q[0]*eye(3) + cross(q[1:]). *)
Definition xi (q : Q4 T) : V3 T * M3 T :=
  (opp3 (vec q), addm (scalem (qw q) id3) (crossm (vec q))).
(** Matrix-vector product with a 4x3 matrix in that representation ([xi(q) @ v] / [.dot]). *)
Definition xi_mul (m : V3 T * M3 T) (v : V3 T) : Q4 T :=
  mkqv (dot3 (fst m) v) (mv (snd m) v).

(** quaternion.py:42-55 [conjugate] *)
Definition conjugate (q : Q4 T) : Q4 T := mkq (qw q) (- qx q) (- qy q) (- qz q).

(** quaternion.py:57-77 [product] *)
Definition product (a b : Q4 T) : Q4 T :=
  let v := add3 (add3 (scale3 (qw b) (vec a)) (scale3 (qw a) (vec b))) (cross3 (vec a) (vec b)) in
  mkq (qw a * qw b - dot3 (vec a) (vec b)) (x3 v) (y3 v) (z3 v).

(** quaternion.py:79-96 [sandwich] *)
Definition sandwich (q : Q4 T) (v : V3 T) : V3 T :=
  vec (product (conjugate q) (product (mkq n0 (x3 v) (y3 v) (z3 v)) q)).

(** quaternion.py:98-115 [sandwich_opp] *)
Definition sandwich_opp (q : Q4 T) (v : V3 T) : V3 T := sandwich (conjugate q) v.

(** quaternion.py:117-132 [error_quat] *)
Definition error_quat (q q_ref : Q4 T) : Q4 T := product (conjugate q_ref) q.
End Q.

Local Open Scope R_scope.
(** quaternion.py:134-150 [axisangle_to_quat] (over R: sin, cos) *)
Definition axisangle_to_quat (r : v3) (theta : R) : quat :=
  let v := scale3 (sin (theta / 2)) r in
  mkq (cos (theta / 2)) (x3 v) (y3 v) (z3 v).

(** np.radians / np.degrees *)
Definition radians (x : R) : R := x * (PI / 180).
Definition degrees (x : R) : R := x * (180 / PI).

(** quaternion.py:152-182 [eulerangle_to_quat] *)
Definition eulerangle_to_quat (RA dec roll : R) : quat :=
  let RA := radians RA / 2 in
  let dec := radians dec / 2 in
  let roll := radians roll / 2 in
  let c_phi := cos RA in
  let s_phi := sin RA in
  let c_theta := cos dec in
  let s_theta := sin dec in
  let c_psi := cos roll in
  let s_psi := sin roll in
  mkq (c_phi * c_theta * c_psi + s_phi * s_theta * s_psi)
      (c_phi * c_theta * s_psi - s_phi * s_theta * c_psi)
      (c_phi * s_theta * c_psi + s_phi * c_theta * s_psi)
      (s_phi * c_theta * c_psi - c_phi * s_theta * s_psi).

(** np.arctan2 over R (arctan2(0,0) = 0; signed zeros are not represented). *)
Definition atan2 (y x : R) : R :=
  if Rlt_dec 0 x then atan (y / x)
  else if Rlt_dec x 0 then (if Rle_dec 0 y then atan (y / x) + PI else atan (y / x) - PI)
  else if Rlt_dec 0 y then PI / 2
  else if Rlt_dec y 0 then - (PI / 2) else 0.

(** quaternion.py:184-222 [_quat2equatorial], for a single quaternion (N = 1).  The array indices are taken
    literally: q[0] is [qw], q[3] is [qz].  Simplified: the [np.array([ra, dec, roll])] of one-element arrays is a
    triple. *)
Definition quat2equatorial (q : quat) : res (R * R * R) :=
  let a0 := qw q in let a1 := qx q in let a2 := qy q in let a3 := qz q in
  let xa := a0 ^ 2 - a1 ^ 2 - a2 ^ 2 + a3 ^ 2 in
  let xb := 2 * (a0 * a1 + a2 * a3) in
  let xn := 2 * (a0 * a2 - a1 * a3) in
  let yn := 2 * (a1 * a2 + a0 * a3) in
  let zn := a3 ^ 2 + a2 ^ 2 - a0 ^ 2 - a1 ^ 2 in
  let m := 1 - xn ^ 2 in
  let finish (m : R) :=
    let ra := degrees (atan2 xb xa) in
    let dec := degrees (atan2 xn (sqrt m)) in
    let roll := degrees (atan2 yn zn) in
    Ok (if Rltb ra 0 then ra + 360 else ra, dec, if Rltb roll 0 then roll + 360 else roll) in
  if Rltb m 0 then
    (if Rltb m (- (1 / 10 ^ 12)) then Raise ValueError else finish 0)
  else finish m.

(** quaternion.py:224-252 [path_lift] *)
Definition path_lift (RA dec roll : R) (q_ref : quat) : quat :=
  let q := eulerangle_to_quat RA dec roll in
  if Rltb (metric q q_ref) (metric (oppq q) q_ref) then q else oppq q.
