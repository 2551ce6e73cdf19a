(** * Model of simulation/ADCS_Discrete_State_Space_Calculator.py and of the wheel torques of simulation/FlightSoftwareModule.py *)
From Coq Require Import Reals List.
From Verif Require Import Num Vec Mat6 M_struct M_sim.
Import ListNotations.
Local Open Scope R_scope.

(** A 6x3 matrix as two 3x3 blocks, one above the other; a 3x6 matrix as two blocks side by side. *)
Record M63 := mkC { c1 : m3; c2 : m3 }.
Record M36 := mkK { k1 : m3; k2 : m3 }.
Definition mv63 (B : M63) (u : v3) : V6 := mk6 (mv (c1 B) u) (mv (c2 B) u).
Definition mv36 (K : M36) (x : V6) : v3 := add3 (mv (k1 K) (u1 x)) (mv (k2 K) (u2 x)).
Definition tr63 (B : M63) : M36 := mkK (tr3 (c1 B)) (tr3 (c2 B)).
Definition mm_6_63 (A : M6) (B : M63) : M63 :=
  mkC (addm (mm (b11 A) (c1 B)) (mm (b12 A) (c2 B))) (addm (mm (b21 A) (c1 B)) (mm (b22 A) (c2 B))).
Definition mm_36_6 (K : M36) (A : M6) : M36 :=
  mkK (addm (mm (k1 K) (b11 A)) (mm (k2 K) (b21 A))) (addm (mm (k1 K) (b12 A)) (mm (k2 K) (b22 A))).
Definition mm_36_63 (K : M36) (B : M63) : m3 := addm (mm (k1 K) (c1 B)) (mm (k2 K) (c2 B)).
Definition mm_63_36 (B : M63) (K : M36) : M6 := mkB (mm (c1 B) (k1 K)) (mm (c1 B) (k2 K)) (mm (c2 B) (k1 K)) (mm (c2 B) (k2 K)).
Definition mm_3_36 (m : m3) (K : M36) : M36 := mkK (mm m (k1 K)) (mm m (k2 K)).
Definition addm63 (a b : M63) : M63 := mkC (addm (c1 a) (c1 b)) (addm (c2 a) (c2 b)).
Definition scalem63 (k : R) (a : M63) : M63 := mkC (scalem k (c1 a)) (scalem k (c2 a)).

(** ADCS_Discrete_State_Space_Calculator.py:58 [A] and 59 [B] *)
Definition lqr_A : M6 := mkB zerom (scalem 0.5 id3) zerom zerom.
Definition lqr_B (Jinv : m3) : M63 := mkC zerom Jinv.
(** ADCS_Discrete_State_Space_Calculator.py:54, 77 [Q[:6, :6]] and 55 [R]; 0.04 is max_input (line 52).  Python's float division raises for a
    zero max_error or max_rate. *)
Definition lqr_Q (max_error max_rate : R) : M6 := diag6 (1 / max_error ^ 2) (1 / max_rate ^ 2).
Definition lqr_R : m3 := scalem (1 / 0.04 ^ 2) id3.

(** ADCS_Discrete_State_Space_Calculator.py:76 [cont2discrete((A, B, C, D), Ts)], method 'zoh': scipy takes the first six rows of
    exp(Ts [[A, B], [0, 0]]).  The k-th power of [[A, B], [0, 0]] has the first rows [A^k, A^(k-1) B], so the partial sums of the
    exponential series are these. *)
Fixpoint pow6 (A : M6) (k : nat) : M6 := match k with O => id6 | S k => mm6 (pow6 A k) A end.
Fixpoint expm_A (A : M6) (Ts : R) (n : nat) : M6 :=
  match n with
  | O => id6
  | S m => addm6 (expm_A A Ts m) (scalem6 (Ts ^ n / INR (fact n)) (pow6 A n))
  end.
Fixpoint expm_B (A : M6) (B : M63) (Ts : R) (n : nat) : M63 :=
  match n with
  | O => mkC zerom zerom
  | S m => addm63 (expm_B A B Ts m) (scalem63 (Ts ^ n / INR (fact n)) (mm_6_63 (pow6 A m) B))
  end.
(** The series ends after two terms for this A (theorem C79_zoh), so the sum of two terms is the whole of it. *)
Definition cont2discrete (A : M6) (B : M63) (Ts : R) : M6 * M63 := (expm_A A Ts 2, expm_B A B Ts 2).

(** ADCS_Discrete_State_Space_Calculator.py:78: np.linalg.inv(R + Bd.T @ P @ Bd) @ Bd.T @ P @ Ad *)
Definition lqr_S (Bd : M63) (Rm : m3) (P : M6) : m3 := addm Rm (mm_36_63 (mm_36_6 (tr63 Bd) P) Bd).
Definition lqr_K (Ad : M6) (Bd : M63) (Rm : m3) (P : M6) : res M36 :=
  let Sm := lqr_S Bd Rm P in
  if Reqb (det3 Sm) 0 then Raise LinAlgError
  else Ok (mm_36_6 (mm_36_6 (mm_3_36 (inv3 Sm) (tr63 Bd)) P) Ad).
(** ADCS_Discrete_State_Space_Calculator.py:45-88 [get_gain_matrix] with use_integrator = False, as both callers have it.  [dare] is
    scipy.linalg.solve_discrete_are, whose contract the theorems state.  The eigenvalues are only printed. *)
Definition get_gain_matrix (dare : M6 -> M63 -> M6 -> m3 -> res M6) (J : m3) (Ts max_error max_rate : R) : res M36 :=
  if Reqb max_error 0 then Raise ZeroDivisionError
  else if Reqb max_rate 0 then Raise ZeroDivisionError
  else if Reqb (det3 J) 0 then Raise LinAlgError
  else let '(Ad, Bd) := cont2discrete lqr_A (lqr_B (inv3 J)) Ts in
       rbind (dare Ad Bd (lqr_Q max_error max_rate) lqr_R) (fun P => lqr_K Ad Bd lqr_R P).

(** simulation/ADCS_Simulation_Basilisk.py:180-185 [G]: its columns are the wheel axes *)
Definition g_xy : R := cos (52.238756 * PI / 180).
Definition g_z : R := cos (60 * PI / 180).
Definition sim_wheels : list v3 :=
  [mk3 g_xy g_xy (- g_z); mk3 g_xy (- g_xy) (- g_z); mk3 (- g_xy) (- g_xy) (- g_z); mk3 (- g_xy) g_xy (- g_z)].
(** simulation/FlightSoftwareModule.py:24 [G_pinv] and 154-157 [convert_torque_to_wheels], for G with the columns [axes]: the
    pseudo-inverse of a G of full row rank is G^T (G G^T)^-1 *)
Definition g_gram (axes : list v3) : m3 := fold_right (fun a m => addm (outer3 a a) m) zerom axes.
Definition convert_torque_to_wheels (axes : list v3) (torque : v3) : list R :=
  map (fun a => - dot3 a (mv (inv3 (g_gram axes)) torque)) axes.
