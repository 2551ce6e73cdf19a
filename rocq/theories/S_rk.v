(** * Specification: the true rotation of a satellite with wheels under a given torque *)
From Coq Require Import Reals List.
From Verif Require Import Num Vec M_quaternion M_struct S_rot S_dyn.
Import ListNotations.
Local Open Scope R_scope.

(** the angular momentum of wheels that started at the speeds u and have gained speed at the rates a for the time t *)
Fixpoint spun (ws : list Wheel) (u a : list R) (t : R) : v3 :=
  match ws, u, a with
  | w :: ws, x :: u, y :: a => add3 (scale3 (w_par w * (x + t * y)) (w_axis w)) (spun ws u a t)
  | _, _, _ => zero3
  end.
(** q and w are the attitude and the body rate of the satellite during [0, len]: the attitude turns at the rate w, and the angular
    momentum (body and wheels, in inertial coordinates) changes by the external torque tau, which is given in body coordinates *)
Definition rigid_motion (sat : Satellite) (u a : list R) (tau : R -> v3) (len : R) (q : R -> quat) (w : R -> v3) : Prop :=
  (forall t, unitq (q t)) /\
  forall t, 0 <= t <= len ->
    derivq q t (scaleq (1 / 2) (product (q t) (mkq 0 (x3 (w t)) (y3 (w t)) (z3 (w t))))) /\
    deriv3 (fun s => sandwich_opp (q s) (add3 (mv (s_total_moment sat) (w s)) (spun (rw_wheels (s_rw sat)) u a s))) t (sandwich_opp (q t) (tau t)).
