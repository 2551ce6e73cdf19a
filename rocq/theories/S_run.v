(** * Specification: orbits between two distances *)
From Coq Require Import Reals.
From Verif Require Import Num Vec S_rot S_dyn S_orb.
Local Open Scope R_scope.

(** twice the energy per mass of a body at p0 with velocity v0 *)
Definition energy2 (p0 v0 : v3) : R := dot3 v0 v0 - 2 * earth_mu / norm3 p0.
(** The body is between the distances lo and hi from the Earth's centre and cannot pass either: there its energy would not suffice
    for the speed across that its angular momentum demands. *)
Definition trapped (p0 v0 : v3) (lo hi : R) : Prop :=
  lo < norm3 p0 < hi /\
  forall r, r = lo \/ r = hi -> energy2 p0 v0 + 2 * earth_mu / r < dot3 (cross3 p0 v0) (cross3 p0 v0) / (r * r).
(** the speed it would have at the distance lo *)
Definition top_speed (p0 v0 : v3) (lo : R) : R := sqrt (energy2 p0 v0 + 2 * earth_mu / lo).
