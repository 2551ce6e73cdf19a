(** * Specification: potentials and gradients *)
From Coq Require Import Reals.
From Verif Require Import Num Vec.
Local Open Scope R_scope.

(** Legendre polynomials *)
Definition legendre2 (s : R) : R := (3 * s ^ 2 - 1) / 2.
Definition legendre3 (s : R) : R := (5 * s ^ 3 - 3 * s) / 2.
Definition legendre4 (s : R) : R := (35 * s ^ 4 - 30 * s ^ 2 + 3) / 8.
(** The zonal geopotential (per unit mass, attractive sign convention: acceleration is its gradient) *)
Definition zonal (mu re j2 j3 j4 : R) (p : v3) : R :=
  let r := sqrt (x3 p ^ 2 + y3 p ^ 2 + z3 p ^ 2) in
  let s := z3 p / r in
  mu / r * (1 - j2 * (re / r) ^ 2 * legendre2 s - j3 * (re / r) ^ 3 * legendre3 s - j4 * (re / r) ^ 4 * legendre4 s).
(** g is the gradient of U at p (partial derivatives along the three axes) *)
Definition gradient (U : v3 -> R) (p g : v3) : Prop :=
  derivable_pt_lim (fun t => U (mk3 t (y3 p) (z3 p))) (x3 p) (x3 g) /\
  derivable_pt_lim (fun t => U (mk3 (x3 p) t (z3 p))) (y3 p) (y3 g) /\
  derivable_pt_lim (fun t => U (mk3 (x3 p) (y3 p) t)) (z3 p) (z3 g).
