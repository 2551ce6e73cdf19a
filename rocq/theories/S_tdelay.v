(** * Specification: an axis of the attitude loop with a true delay *)
From Coq Require Import Reals.
Local Open Scope R_scope.

(** z is a motion of z'' = - a z' - b z with both terms T seconds late *)
Definition late_motion (T a b : R) (z : R -> R) : Prop :=
  exists z' z'' : R -> R, (forall t, derivable_pt_lim z t (z' t)) /\ (forall t, derivable_pt_lim z' t (z'' t)) /\
    forall t, z'' t = - (a * z' (t - T) + b * z (t - T)).
(** an oscillation of the frequency y that grows or decays as exp (x t); y = 0 is no oscillation *)
Definition wave (x y c d : R) (t : R) : R := exp (x * t) * (c * cos (y * t) + d * sin (y * t)).
