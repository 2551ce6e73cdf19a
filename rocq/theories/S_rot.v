(** * Independent specifications for rotations *)
From Coq Require Import Reals.
From Verif Require Import Num Vec.
Local Open Scope R_scope.

(** Hamilton's units. *)
Definition q1 : quat := mkq 1 0 0 0.
Definition qi : quat := mkq 0 1 0 0.
Definition qj : quat := mkq 0 0 1 0.
Definition qk : quat := mkq 0 0 0 1.

(** A bilinear operation on quaternions. *)
Definition bilinear (f : quat -> quat -> quat) : Prop :=
  (forall a b c, f (addq a b) c = addq (f a c) (f b c)) /\
  (forall a b c, f a (addq b c) = addq (f a b) (f a c)) /\
  (forall s a b, f (scaleq s a) b = scaleq s (f a b)) /\
  (forall s a b, f a (scaleq s b) = scaleq s (f a b)).

(** Hamilton's multiplication table: i^2 = j^2 = k^2 = ijk = -1 with 1 neutral. *)
Definition hamilton_table (f : quat -> quat -> quat) : Prop :=
  f qi qi = oppq q1 /\ f qj qj = oppq q1 /\ f qk qk = oppq q1 /\
  f qi qj = qk /\ f qj qk = qi /\ f qk qi = qj /\
  f qj qi = oppq qk /\ f qk qj = oppq qi /\ f qi qk = oppq qj.

(** Rodrigues' formula: the active, right-handed rotation of v by the angle theta about the unit axis r. *)
Definition rodrigues (r : v3) (theta : R) (v : v3) : v3 :=
  add3 (add3 (scale3 (cos theta) v) (scale3 (sin theta) (cross3 r v)))
       (scale3 ((1 - cos theta) * dot3 r v) r).

(** A map of space that keeps lengths, angles and handedness. *)
Definition rigid (f : v3 -> v3) : Prop :=
  (forall v w, dot3 (f v) (f w) = dot3 v w) /\
  (forall v w, cross3 (f v) (f w) = f (cross3 v w)) /\
  (forall v w, f (add3 v w) = add3 (f v) (f w)) /\
  (forall s v, f (scale3 s v) = scale3 s (f v)).

Definition ex : v3 := mk3 1 0 0.
Definition ey : v3 := mk3 0 1 0.
Definition ez : v3 := mk3 0 0 1.
