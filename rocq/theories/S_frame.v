(** * Independent specifications for frames: WGS-84 geodetic coordinates *)
From Coq Require Import Reals Lra.
Local Open Scope R_scope.
(** WGS-84: semi-major axis (m) and flattening, and the first eccentricity squared *)
Definition wgs_a : R := 6378137.
Definition wgs_f : R := 1 / 298.257223563.
Definition wgs_e2 : R := wgs_f * (2 - wgs_f).
(** radius of curvature in the prime vertical, and in the meridian, at geodetic latitude phi *)
Definition prime_vertical (phi : R) : R := wgs_a / sqrt (1 - wgs_e2 * (sin phi) ^ 2).
Definition meridian_radius (phi : R) : R := wgs_a * (1 - wgs_e2) / (sqrt (1 - wgs_e2 * (sin phi) ^ 2)) ^ 3.
(** the point at geodetic latitude phi and height h: distance from the polar axis, and distance above the equatorial plane *)
Definition geodetic_w (phi h : R) : R := (prime_vertical phi + h) * cos phi.
Definition geodetic_z (phi h : R) : R := (prime_vertical phi * (1 - wgs_e2) + h) * sin phi.
