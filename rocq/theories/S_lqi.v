(** * Specifications for the design with integrators *)
From Coq Require Import Reals List.
From Verif Require Import Num Vec Mat6 S_obs M_lqr M_lqi S_lqr.
Local Open Scope R_scope.

Definition symm9 (m : M9) : Prop := tr9 m = m.
Definition psd9 (m : M9) : Prop := forall x, 0 <= dot9 x (mv9 m x).
(** a solution of the discrete algebraic Riccati equation, as in S_lqr *)
Definition riccati9 (A : M9) (B : M93) (Q : M9) (Rm : m3) (P : M9) : Prop :=
  symm9 P /\ psd9 P /\
  exists Si : m3, (forall u, mv Si (add3 (mv Rm u) (mv39 (tr93 B) (mv9 P (mv93 B u)))) = u) /\
    forall x, mv9 P x =
      add9 (sub9 (mv9 (tr9 A) (mv9 P (mv9 A x))) (mv9 (tr9 A) (mv9 P (mv93 B (mv Si (mv39 (tr93 B) (mv9 P (mv9 A x)))))))) (mv9 Q x).
Fixpoint driven9 (A : M9) (B : M93) (u : nat -> v3) (x : V9) (n : nat) : V9 :=
  match n with O => x | S n => add9 (mv9 A (driven9 A B u x n)) (mv93 B (u n)) end.
Fixpoint looped9 (A : M9) (B : M93) (K : M39) (x : V9) (n : nat) : V9 :=
  match n with O => x | S n => let y := looped9 A B K x n in add9 (mv9 A y) (mv93 B (opp3 (mv39 K y))) end.
Fixpoint cost9 (Q : M9) (Rm : m3) (x : nat -> V9) (u : nat -> v3) (n : nat) : R :=
  match n with O => 0 | S n => cost9 Q Rm x u n + (dot9 (x n) (mv9 Q (x n)) + dot3 (u n) (mv Rm (u n))) end.
Definition dies_out9 (f : V9 -> nat -> V9) : Prop := forall x, Un_cv (fun n => dot9 (f x n) (f x n)) 0.
(** the motion when a constant torque d acts besides the feedback, without and with integrators *)
Fixpoint pushed (A : M6) (B : M63) (K : M36) (d : v3) (x : V6) (n : nat) : V6 :=
  match n with O => x | S n => let y := pushed A B K d x n in add6 (mv6 A y) (mv63 B (sub3 d (mv36 K y))) end.
Fixpoint pushed9 (A : M9) (B : M93) (K : M39) (d : v3) (x : V9) (n : nat) : V9 :=
  match n with O => x | S n => let y := pushed9 A B K d x n in add9 (mv9 A y) (mv93 B (sub3 d (mv39 K y))) end.
(** one sample of e' = s w / 2, w' = J^-1 u, z' = - e with u held (theorems C92_zoh and C92_flow) *)
Definition held_A (s Ts : R) : M9 :=
  mkE (mkB id3 (scalem (s * (Ts / 2)) id3) zerom id3) zero63 (mkK (scalem (- Ts) id3) (scalem (- (s * (Ts ^ 2 / 4))) id3)) id3.
Definition held_B (s Ts : R) (Jinv : m3) : M93 :=
  mkF (mkC (scalem (s * (Ts ^ 2 / 4)) Jinv) (scalem Ts Jinv)) (scalem (- (s * (Ts ^ 3 / 12))) Jinv).
