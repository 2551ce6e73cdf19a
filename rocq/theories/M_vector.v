(** * Model of src/oresat_adcs/functions/vector.py *)
From Coq Require Import Reals ZArith List Bool.
From Verif Require Import Num Vec.
Import ListNotations.
Local Open Scope num_scope.

Section V.
Context {T : Type} `{NT : Num T}.

(** vector.py:3-23 [saturation].  [np.max(np.abs(x))] raises ValueError on an empty array; otherwise if the largest
    magnitude exceeds [x_max] every component becomes [x_max * x / largest_x] (left to right: product first). *)
Definition saturation (x : list T) (x_max : T) : res (list T) :=
  rbind (npmax (map nabs x)) (fun largest_x =>
    Ok (if x_max <? largest_x then map (fun xi => x_max * xi / largest_x) x else x)).

(** vector.py:25-41 [cross]: the matrix of v x . *)
Definition crossm (v : V3 T) : M3 T :=
  mkm (mk3 n0 (- z3 v) (y3 v))
      (mk3 (z3 v) n0 (- x3 v))
      (mk3 (- y3 v) (x3 v) n0).

(** np.linalg.norm of a 1-d array: sqrt of the sum of squares (summed left to right; numpy may reassociate). *)
Definition norml (x : list T) : T := nsqrt (fold_left (fun s xi => s + xi * xi) x n0).

(** vector.py:43-61 [normalize], for arrays of any length ... *)
Definition normalize (q : list T) : list T :=
  let norm := norml q in
  if norm =? n0 then q else map (fun qi => qi / norm) q.
(** ... and the same function on 3-vectors and on quaternions. *)
Definition normalize3 (q : V3 T) : V3 T :=
  let norm := norm3 q in
  if norm =? n0 then q else div3 q norm.
Definition normalizeq (q : Q4 T) : Q4 T :=
  let norm := normq q in
  if norm =? n0 then q else divq q norm.

(** vector.py:63-81 [pointing_vector] *)
Definition pointing_vector (position target : V3 T) : V3 T := normalize3 (sub3 target position).
End V.

(** np.clip(x, lo, hi) = minimum(maximum(x, lo), hi) over R. *)
Definition npclip (x lo hi : R) : R := Rmin (Rmax x lo) hi.

(** vector.py:83-104 [R_axis_angle] (uses arccos, so written over R). *)
Definition R_axis_angle (boresight point : v3) : v3 * R :=
  (normalize3 (cross3 boresight point), acos (npclip (dot3 boresight point) (-1) 1)).
