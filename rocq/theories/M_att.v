(** * Model of src/oresat_adcs/functions/attitude_estimation.py *)
From Coq Require Import Reals ZArith List Bool Lra.
From Verif Require Import Num Vec M_vector.
Import ListNotations.
Local Open Scope num_scope.

Section Att.
Context {T : Type} `{NT : Num T}.

(** attitude_estimation.py:10-49 [triad_algorithm].  The tests [r3 is np.zeros(3)], [b3 is np.zeros(3)] and
    [b1 is -r1] compare with a freshly created array, so they are always False and the [return False] lines are dead. *)
Definition triad_algorithm (r1 r2 b1 b2 : V3 T) : Q4 T :=
  let r3 := cross3 r1 r2 in
  let b3 := cross3 b1 b2 in
  let dot_term := n1 + dot3 b1 r1 in
  let mu := dot_term * dot3 b3 r3 - dot3 b1 r3 * dot3 r1 b3 in
  let sum_term := add3 b1 r1 in
  let nu := dot3 sum_term (cross3 b3 r3) in
  let rho := nsqrt (mu * mu + nu * nu) in
  let half := ndec 1 2 in
  if nofZ 0 <=? mu then
    let rhoplusmu := rho + mu in
    let rhomudot := rhoplusmu * dot_term in
    let mult := half * n1 / nsqrt (rho * rhomudot) in
    let v := add3 (scale3 rhoplusmu (cross3 b1 r1)) (scale3 nu sum_term) in
    scaleq mult (mkqv rhomudot v)
  else
    let rhominmu := rho - mu in
    let mult := half * n1 / nsqrt (rho * rhominmu * dot_term) in
    let v := add3 (scale3 nu (cross3 b1 r1)) (scale3 rhominmu sum_term) in
    scaleq mult (mkqv (nu * dot_term) v).

(** 4x4 matrices as four rows *)
Record M4 := mkm4 { r0 : Q4 T; r1' : Q4 T; r2' : Q4 T; r3' : Q4 T }.

(** attitude_estimation.py:54-55, 63-69: the three sums H[i][j] = sum_k a[k]*r_hat[k][i]*b_hat[k][j].
    Simplified: a, r and b are given as one list of triples (equal lengths). *)
Definition sum_across (l : list (T * V3 T * V3 T)) (ci cj : V3 T -> T) : T :=
  fold_left (fun s '(a, r, b) => s + a * ci r * cj b) l (nofZ 0).
Definition Hrow (l : list (T * V3 T * V3 T)) (ci : V3 T -> T) : V3 T :=
  mk3 (sum_across l ci x3) (sum_across l ci y3) (sum_across l ci z3).

(** attitude_estimation.py:71-74: the matrix W *)
Definition flae_W (Hx Hy Hz : V3 T) : M4 :=
  mkm4 (mkq (x3 Hx + y3 Hy + z3 Hz) (- z3 Hy + y3 Hz) (- x3 Hz + z3 Hx) (- y3 Hx + x3 Hy))
       (mkq (- z3 Hy + y3 Hz) (x3 Hx - y3 Hy - z3 Hz) (y3 Hx + x3 Hy) (z3 Hx + x3 Hz))
       (mkq (- x3 Hz + z3 Hx) (y3 Hx + x3 Hy) (y3 Hy - x3 Hx - z3 Hz) (z3 Hy + y3 Hz))
       (mkq (- y3 Hx + x3 Hy) (z3 Hx + x3 Hz) (z3 Hy + y3 Hz) (z3 Hz - y3 Hy - x3 Hx)).

(** np.linalg.det of a 4x4 matrix (contract: the determinant; here by cofactors of the first row) *)
Definition minor3 (a b c : V3 T) : T := dot3 a (cross3 b c).
Definition det4 (m : M4) : T :=
  let d0 (q : Q4 T) := mk3 (qx q) (qy q) (qz q) in
  let d1 (q : Q4 T) := mk3 (qw q) (qy q) (qz q) in
  let d2 (q : Q4 T) := mk3 (qw q) (qx q) (qz q) in
  let d3 (q : Q4 T) := mk3 (qw q) (qx q) (qy q) in
  qw (r0 m) * minor3 (d0 (r1' m)) (d0 (r2' m)) (d0 (r3' m)) - qx (r0 m) * minor3 (d1 (r1' m)) (d1 (r2' m)) (d1 (r3' m))
  + qy (r0 m) * minor3 (d2 (r1' m)) (d2 (r2' m)) (d2 (r3' m)) - qz (r0 m) * minor3 (d3 (r1' m)) (d3 (r2' m)) (d3 (r3' m)).

(** attitude_estimation.py:76-79: the coefficients of the quartic *)
Definition tau1 (Hx Hy Hz : V3 T) : T := nopp (nofZ 2) * (dot3 Hx Hx + dot3 Hy Hy + dot3 Hz Hz).
Definition tau2 (Hx Hy Hz : V3 T) : T := nofZ 8 * dot3 Hx (cross3 Hz Hy).
Definition tau3 (Hx Hy Hz : V3 T) : T := det4 (flae_W Hx Hy Hz).
(** attitude_estimation.py:57-61: f and f' *)
Definition quartic (t1 t2 t3 x : T) : T := x * x * x * x + t1 * (x * x) + t2 * x + t3.
Definition quartic' (t1 t2 x : T) : T := nofZ 4 * (x * x * x) + nofZ 2 * t1 * x + t2.

(** scipy.optimize.newton(f, x0, fprime, maxiter, tol=1.48e-8, rtol) as documented: returns p0 when f(p0) == 0,
    raises RuntimeError on a zero derivative or when maxiter steps do not converge. *)
Fixpoint newton (f f' : T -> T) (rtol tol : T) (maxiter : nat) (p0 : T) : res T :=
  match maxiter with
  | O => Raise RuntimeError
  | S k =>
    let fval := f p0 in
    if fval =? nofZ 0 then Ok p0 else
    let fder := f' p0 in
    if fder =? nofZ 0 then Raise RuntimeError else
    let p := p0 - fval / fder in
    if nabs (p - p0) <=? tol + rtol * nabs p0 then Ok p else newton f f' rtol tol k p
  end.

Definition sub4 (s : T) (a b : Q4 T) : Q4 T := subq a (scaleq s b).
(** attitude_estimation.py:106: W - eye(4)*lam *)
Definition shift (W : M4) (lam : T) : M4 :=
  mkm4 (subq (r0 W) (mkq lam n0 n0 n0)) (subq (r1' W) (mkq n0 lam n0 n0))
       (subq (r2' W) (mkq n0 n0 lam n0)) (subq (r3' W) (mkq n0 n0 n0 lam)).
(** attitude_estimation.py:108-124: Gauss-Jordan elimination on the first three columns, without pivoting *)
Definition elim0 (N : M4) : M4 :=
  let row0 := divq (r0 N) (qw (r0 N)) in
  mkm4 row0 (sub4 (qw (r1' N)) (r1' N) row0) (sub4 (qw (r2' N)) (r2' N) row0) (sub4 (qw (r3' N)) (r3' N) row0).
Definition elim1 (N : M4) : M4 :=
  let row1 := divq (r1' N) (qx (r1' N)) in
  mkm4 (sub4 (qx (r0 N)) (r0 N) row1) row1 (sub4 (qx (r2' N)) (r2' N) row1) (sub4 (qx (r3' N)) (r3' N) row1).
Definition elim2 (N : M4) : M4 :=
  let row2 := divq (r2' N) (qy (r2' N)) in
  mkm4 (sub4 (qy (r0 N)) (r0 N) row2) (sub4 (qy (r1' N)) (r1' N) row2) row2 (sub4 (qy (r3' N)) (r3' N) row2).
(** the three pivots met on the way *)
Definition pivots (N : M4) : T * T * T :=
  (qw (r0 N), qx (r1' (elim0 N)), qy (r2' (elim1 (elim0 N)))).
(** attitude_estimation.py:106-127: from W and lam to the quaternion *)
Definition kernel_quat (W : M4) (lam : T) : Q4 T :=
  let N := elim2 (elim1 (elim0 (shift W lam))) in
  normalizeq (mkq (qz (r0 N)) (qz (r1' N)) (qz (r2' N)) (nopp (nofZ 1))).

(** attitude_estimation.py:51-127 [flae] *)
Definition flae (l : list (T * V3 T * V3 T)) : res (Q4 T) :=
  let l := map (fun '(a, r, b) => (a, normalize3 r, normalize3 b)) l in
  let Hx := Hrow l x3 in let Hy := Hrow l y3 in let Hz := Hrow l z3 in
  let t1 := tau1 Hx Hy Hz in let t2 := tau2 Hx Hy Hz in let t3 := tau3 Hx Hy Hz in
  rbind (newton (quartic t1 t2 t3) (quartic' t1 t2) (ndec 1 100000) (ndec 148 10000000000) 4 (nofZ 1)) (fun lam =>
  Ok (kernel_quat (flae_W Hx Hy Hz) lam)).
End Att.
Arguments M4 : clear implicits.
