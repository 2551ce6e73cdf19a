(** * Specification: Wahba's problem *)
From Coq Require Import Reals ZArith List Bool Lra.
From Verif Require Import Num Vec M_quaternion S_rot.
Import ListNotations.
Local Open Scope R_scope.

(** a measurement is a weight, a direction in the reference frame and the same direction seen in the body frame *)
Definition direction (v : v3) : v3 := mk3 (x3 v / sqrt (x3 v * x3 v + y3 v * y3 v + z3 v * z3 v)) (y3 v / sqrt (x3 v * x3 v + y3 v * y3 v + z3 v * z3 v)) (z3 v / sqrt (x3 v * x3 v + y3 v * y3 v + z3 v * z3 v)).
Definition distance2 (a b : v3) : R := (x3 a - x3 b) ^ 2 + (y3 a - y3 b) ^ 2 + (z3 a - z3 b) ^ 2.
(** Wahba's loss of the attitude x: half the weighted sum of the squared misfits of the directions *)
Definition wahba (l : list (R * v3 * v3)) (x : quat) : R :=
  fold_right (fun '(a, r, b) s => a / 2 * distance2 (direction b) (sandwich x (direction r)) + s) 0 l.
(** weights that are not negative and add up to one, directions that exist *)
Definition weighted (l : list (R * v3 * v3)) : Prop :=
  Forall (fun '(a, r, b) => 0 <= a /\ r <> zero3 /\ b <> zero3) l /\ fold_right (fun '(a, r, b) s => a + s) 0 l = 1.
Definition optimum (l : list (R * v3 * v3)) (v : quat) : Prop := unitq v /\ forall x, unitq x -> wahba l v <= wahba l x.
(** up to sign there is no other optimum *)
Definition sole (l : list (R * v3 * v3)) (v : quat) : Prop := forall x, unitq x -> wahba l x <= wahba l v -> x = v \/ x = oppq v.
(** attitudes half a turn away from v lose at least g more *)
Definition gap (l : list (R * v3 * v3)) (v : quat) (g : R) : Prop := forall x, unitq x -> dotq v x = 0 -> wahba l v + g <= wahba l x.
