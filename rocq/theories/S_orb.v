(** * Specification: the true orbit of a satellite *)
From Coq Require Import Reals.
From Verif Require Import Num Vec S_rot S_dyn.
Local Open Scope R_scope.

(** Newton's constant times the mass of the Earth as the program has it, m^3 / s^2 *)
Definition earth_mu : R := 6.6743 / 10 ^ 11 * (5.9733328 * 10 ^ 24).
(** the acceleration by a point mass (or a ball) at the origin: towards it, falling with the square of the distance *)
Definition attraction (p : v3) : v3 := scale3 (- (earth_mu / norm3 p ^ 3)) p.
(** p and v are the position and the velocity during [0, len] of a body that is accelerated by acc *)
Definition orbit_motion (acc : R -> v3) (len : R) (p v : R -> v3) : Prop :=
  forall t, 0 <= t <= len -> deriv3 p t (v t) /\ deriv3 v t (acc t).
