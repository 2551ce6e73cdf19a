(** * Specifications for the simulation's attitude loop *)
From Coq Require Import Reals List.
From Verif Require Import Num Vec Mat6 S_obs M_lqr M_sim S_sim.
Import ListNotations.
Local Open Scope R_scope.

(** the vector function f has the derivative d at t *)
Definition deriv3 (f : R -> v3) (t : R) (d : v3) : Prop :=
  derivable_pt_lim (fun t => x3 (f t)) t (x3 d) /\ derivable_pt_lim (fun t => y3 (f t)) t (y3 d) /\ derivable_pt_lim (fun t => z3 (f t)) t (z3 d).
(** P is the matrix that a solver of the discrete algebraic Riccati equation promises:
    P = A'PA - A'PB (R + B'PB)^-1 B'PA + Q, symmetric and positive semidefinite *)
Definition riccati (A : M6) (B : M63) (Q : M6) (Rm : m3) (P : M6) : Prop :=
  symm6 P /\ psd6 P /\
  exists Si : m3, (forall u, mv Si (add3 (mv Rm u) (mv36 (tr63 B) (mv6 P (mv63 B u)))) = u) /\
    forall x, mv6 P x =
      add6 (sub6 (mv6 (tr6 A) (mv6 P (mv6 A x))) (mv6 (tr6 A) (mv6 P (mv63 B (mv Si (mv36 (tr63 B) (mv6 P (mv6 A x)))))))) (mv6 Q x).
(** the state after n steps under the inputs u *)
Fixpoint driven (A : M6) (B : M63) (u : nat -> v3) (x : V6) (n : nat) : V6 :=
  match n with O => x | S n => add6 (mv6 A (driven A B u x n)) (mv63 B (u n)) end.
(** the state after n steps under the feedback u = - K x *)
Fixpoint looped (A : M6) (B : M63) (K : M36) (x : V6) (n : nat) : V6 :=
  match n with O => x | S n => let y := looped A B K x n in add6 (mv6 A y) (mv63 B (opp3 (mv36 K y))) end.
(** the quadratic cost of the first n steps *)
Fixpoint cost (Q : M6) (Rm : m3) (x : nat -> V6) (u : nat -> v3) (n : nat) : R :=
  match n with O => 0 | S n => cost Q Rm x u n + (dot6 (x n) (mv6 Q (x n)) + dot3 (u n) (mv Rm (u n))) end.
(** every motion dies out *)
Definition dies_out (f : V6 -> nat -> V6) : Prop := forall x, Un_cv (fun n => dot6 (f x n) (f x n)) 0.
(** one sample of e' = - w / 2, J w' = u with u held: the matrices of the exact flow (theorem C80_flow) *)
Definition turned_A (Ts : R) : M6 := mkB id3 (scalem (- (Ts / 2)) id3) zerom id3.
Definition turned_B (Ts : R) (Jinv : m3) : M63 := mkC (scalem (- (Ts ^ 2 / 4)) Jinv) (scalem Ts Jinv).
(** the attitude q turns with the body rate w at time t: q' = q (w, 0) / 2, the kinematics of every frame that moves with the body *)
Definition turning (q : R -> S4 R) (t : R) (w : v3) : Prop :=
  deriv3 (fun t => svec (q t)) t (scale3 (1 / 2) (add3 (scale3 (ss (q t)) w) (cross3 (svec (q t)) w))) /\
  derivable_pt_lim (fun t => ss (q t)) t (- (dot3 (svec (q t)) w / 2)).
(** the torque on the body when the motors put the torques u on the wheels spinning about [axes]: the reaction *)
Fixpoint reaction (axes : list v3) (u : list R) : v3 :=
  match axes, u with a :: axes, x :: u => sub3 (reaction axes u) (scale3 x a) | _, _ => zero3 end.
