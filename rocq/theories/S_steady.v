(** * Specification: the steady state of a gyro-and-attitude-sensor filter about one axis *)
From Coq Require Import Reals.
Local Open Scope R_scope.
(** The two errors are an angle and a gyro bias; over a step of length h the angle error loses h times the bias error, noise with
    covariance (a c; c d) is added, and the angle is then measured with variance v.  [st_p st_q st_r] are the entries of the
    covariance right after a measurement, once it no longer changes (Farrenkopf's steady state, in terms of the standard deviation
    [st_u] of the innovation). *)
Definition st_m (h a c d v : R) := (h * sqrt d + sqrt (h * h * d + 4 * (4 * v + a + h * c))) / 2.
Definition st_u (h a c d v : R) := (st_m h a c d v + sqrt (st_m h a c d v * st_m h a c d v - 4 * v)) / 2.
Definition st_p (h a c d v : R) := v * (1 - v / (st_u h a c d v * st_u h a c d v)).
Definition st_q (h a c d v : R) := - sqrt d * v / st_u h a c d v.
Definition st_r (h a c d v : R) := (c + sqrt d * (st_u h a c d v - v / st_u h a c d v)) / h.
(** one such step, from the entries (p q r) right after a measurement to those right after the next *)
Definition cycle (h a c d v p q r p' q' r' : R) : Prop :=
  let P := p - 2 * h * q + h * h * r + a in let Q := q - h * r + c in
  p' * (P + v) = P * v /\ q' * (P + v) = Q * v /\ r' * (P + v) = (r + d) * (P + v) - Q * Q.
