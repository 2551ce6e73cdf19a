(** * Specifications for the simulation directory *)
From Coq Require Import Reals List.
From Verif Require Import Num Vec S_rot M_sim.
Import ListNotations.
Local Open Scope R_scope.

(** A scalar-last quaternion read as scalar-first. *)
Definition scalar_first (q : S4 R) : quat := mkq (ss q) (sx q) (sy q) (sz q).
Definition sscale (k : R) (q : S4 R) : S4 R := mks (k * sx q) (k * sy q) (k * sz q) (k * ss q).
Definition slen2 (q : S4 R) : R := sx q ^ 2 + sy q ^ 2 + sz q ^ 2 + ss q ^ 2.
Definition svec (q : S4 R) : v3 := mk3 (sx q) (sy q) (sz q).
(** The rotation of space that a unit quaternion (u, s) stands for: v + 2 s (u x v) + 2 u x (u x v). *)
Definition turns (q : S4 R) (v : v3) : v3 :=
  let u := svec q in add3 v (scale3 2 (add3 (scale3 (ss q) (cross3 u v)) (cross3 u (cross3 u v)))).

(** The mode after a history of error angles, most recent first: decided by the last angle outside [30, 40]. *)
Inductive last_outside : list R -> R -> Prop :=
| lo_here a h : a < 30 \/ 40 < a -> last_outside (a :: h) a
| lo_there a b h : 30 <= a <= 40 -> last_outside h b -> last_outside (a :: h) b.

(** A wheel under a torque held for one step. *)
Definition wheel_next (J dt s tau : R) : R := s + tau * dt / J.
