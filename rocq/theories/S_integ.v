(** * Specification helpers: iterating a step that may raise; vectors as functions *)
From Coq Require Import Reals.
From Coq Require Import List.
From Verif Require Import Num Vec M_dyn.
Import ListNotations.
Local Open Scope R_scope.

Fixpoint riter {W} (n : nat) (step : W -> res W) (w : W) : res W :=
  match n with O => Ok w | S n => match step w with Ok w' => riter n step w' | Raise e => Raise e end end.
(** the k at which the while loop of [integrate] still runs *)
Definition fits (dt duration : R) (k : nat) : Prop := INR k * dt < duration \/ Rabs (INR k * dt - duration) < 0.001.
(** vectors with any number of components *)
Definition vecn := nat -> R.
Definition vadd (a b : vecn) : vecn := fun i => a i + b i.
Definition vscale (k : R) (a : vecn) : vecn := fun i => k * a i.
Definition linear (L : vecn -> vecn) : Prop := (forall a b, L (vadd a b) = vadd (L a) (L b)) /\ (forall k a, L (vscale k a) = vscale k (L a)).
(** the four states at which RK4 evaluates the vector field, and its four values *)
Definition rk4_stages (h : store) (f : SatState -> res SVec) (dt : R) (s s2 s3 s4 : SatState) (k1 k2 k3 k4 : SVec) : Prop :=
  f s = Ok k1 /\ state_add h s (sv_div (sv_mul k1 dt) 2) = Ok s2 /\
  f s2 = Ok k2 /\ state_add h s (sv_div (sv_mul k2 dt) 2) = Ok s3 /\
  f s3 = Ok k3 /\ state_add h s (sv_mul k3 dt) = Ok s4 /\ f s4 = Ok k4.
(** a state whose cached values are those of its own clock and position *)
Definition fresh (h : store) (s : SatState) : Prop := make_state h (clk s) (sv s) = Ok s.
