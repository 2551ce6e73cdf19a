(** * Model of the integrator design of simulation/ADCS_Discrete_State_Space_Calculator.py (use_integrator = True) *)
From Coq Require Import Reals List.
From Verif Require Import Num Vec Mat6 M_struct M_sim M_lqr.
Local Open Scope R_scope.

(** Nine-vectors and the matrices between them, as blocks of the six-dimensional ones: the state of the plant and the three
    integrators, in the order in which [np.block] stacks them. *)
Record V9 := mk9 { v6 : V6; vz : v3 }.
Record M9 := mkE { e11 : M6; e12 : M63; e21 : M36; e22 : m3 }.
Record M93 := mkF { ft : M63; fz : m3 }.
Record M39 := mkL { lk : M36; lz : m3 }.
Definition add9 (a b : V9) : V9 := mk9 (add6 (v6 a) (v6 b)) (add3 (vz a) (vz b)).
Definition sub9 (a b : V9) : V9 := mk9 (sub6 (v6 a) (v6 b)) (sub3 (vz a) (vz b)).
Definition scale9 (k : R) (a : V9) : V9 := mk9 (scale6 k (v6 a)) (scale3 k (vz a)).
Definition dot9 (a b : V9) : R := dot6 (v6 a) (v6 b) + dot3 (vz a) (vz b).
Definition zero9 : V9 := mk9 zero6 zero3.
Definition mv9 (m : M9) (x : V9) : V9 :=
  mk9 (add6 (mv6 (e11 m) (v6 x)) (mv63 (e12 m) (vz x))) (add3 (mv36 (e21 m) (v6 x)) (mv (e22 m) (vz x))).
Definition mv93 (B : M93) (u : v3) : V9 := mk9 (mv63 (ft B) u) (mv (fz B) u).
Definition mv39 (K : M39) (x : V9) : v3 := add3 (mv36 (lk K) (v6 x)) (mv (lz K) (vz x)).
Definition mm_63_3 (B : M63) (m : m3) : M63 := mkC (mm (c1 B) m) (mm (c2 B) m).
Definition subm63 (a b : M63) : M63 := mkC (subm (c1 a) (c1 b)) (subm (c2 a) (c2 b)).
Definition addm36 (a b : M36) : M36 := mkK (addm (k1 a) (k1 b)) (addm (k2 a) (k2 b)).
Definition subm36 (a b : M36) : M36 := mkK (subm (k1 a) (k1 b)) (subm (k2 a) (k2 b)).
Definition scalem36 (k : R) (a : M36) : M36 := mkK (scalem k (k1 a)) (scalem k (k2 a)).
Definition tr36 (K : M36) : M63 := mkC (tr3 (k1 K)) (tr3 (k2 K)).
Definition zero66 : M6 := mkB zerom zerom zerom zerom.
Definition zero63 : M63 := mkC zerom zerom.
Definition zero36 : M36 := mkK zerom zerom.
Definition mm9 (a b : M9) : M9 :=
  mkE (addm6 (mm6 (e11 a) (e11 b)) (mm_63_36 (e12 a) (e21 b))) (addm63 (mm_6_63 (e11 a) (e12 b)) (mm_63_3 (e12 a) (e22 b)))
      (addm36 (mm_36_6 (e21 a) (e11 b)) (mm_3_36 (e22 a) (e21 b))) (addm (mm_36_63 (e21 a) (e12 b)) (mm (e22 a) (e22 b))).
Definition addm9 (a b : M9) : M9 := mkE (addm6 (e11 a) (e11 b)) (addm63 (e12 a) (e12 b)) (addm36 (e21 a) (e21 b)) (addm (e22 a) (e22 b)).
Definition subm9 (a b : M9) : M9 := mkE (subm6 (e11 a) (e11 b)) (subm63 (e12 a) (e12 b)) (subm36 (e21 a) (e21 b)) (subm (e22 a) (e22 b)).
Definition scalem9 (k : R) (a : M9) : M9 := mkE (scalem6 k (e11 a)) (scalem63 k (e12 a)) (scalem36 k (e21 a)) (scalem k (e22 a)).
Definition tr9 (a : M9) : M9 := mkE (tr6 (e11 a)) (tr36 (e21 a)) (tr63 (e12 a)) (tr3 (e22 a)).
Definition id9 : M9 := mkE id6 zero63 zero36 id3.
Definition tr93 (B : M93) : M39 := mkL (tr63 (ft B)) (tr3 (fz B)).
Definition mm_9_93 (A : M9) (B : M93) : M93 :=
  mkF (addm63 (mm_6_63 (e11 A) (ft B)) (mm_63_3 (e12 A) (fz B))) (addm (mm_36_63 (e21 A) (ft B)) (mm (e22 A) (fz B))).
Definition mm_39_9 (K : M39) (A : M9) : M39 :=
  mkL (addm36 (mm_36_6 (lk K) (e11 A)) (mm_3_36 (lz K) (e21 A))) (addm (mm_36_63 (lk K) (e12 A)) (mm (lz K) (e22 A))).
Definition mm_39_93 (K : M39) (B : M93) : m3 := addm (mm_36_63 (lk K) (ft B)) (mm (lz K) (fz B)).
Definition mm_93_39 (B : M93) (K : M39) : M9 := mkE (mm_63_36 (ft B) (lk K)) (mm_63_3 (ft B) (lz K)) (mm_3_36 (fz B) (lk K)) (mm (fz B) (lz K)).
Definition mm_3_39 (m : m3) (K : M39) : M39 := mkL (mm_3_36 m (lk K)) (mm m (lz K)).
Definition addm93 (a b : M93) : M93 := mkF (addm63 (ft a) (ft b)) (addm (fz a) (fz b)).
Definition scalem93 (k : R) (a : M93) : M93 := mkF (scalem63 k (ft a)) (scalem k (fz a)).

(** ADCS_Discrete_State_Space_Calculator.py:5-43 [add_integrators]; the two shape checks (lines 21-24) hold for the 6x6, 6x3 and 3x6
    matrices of line 65 *)
Definition add_integrators (A : M6) (B : M63) (C : M36) : M9 * M93 := (mkE A zero63 (scalem36 (-1) C) zerom, mkF B zerom).
(** ADCS_Discrete_State_Space_Calculator.py:61 [C_aug = np.eye(3, 6)] *)
Definition lqi_C : M36 := mkK id3 zerom.
(** ADCS_Discrete_State_Space_Calculator.py:51, 54: the weights, with max_integrator = 0.1 *)
Definition lqi_Q (max_error max_rate : R) : M9 := mkE (lqr_Q max_error max_rate) zero63 zero36 (scalem (1 / 0.1 ^ 2) id3).
(** ADCS_Discrete_State_Space_Calculator.py:69 [cont2discrete((A_aug, B_aug, C_aug, D_aug), Ts)]: as in M_lqr, the partial sums of
    the exponential series.  scipy does not look at the shape of C_aug, which is 3x6 beside a 9x9 A_aug. *)
Fixpoint pow9 (A : M9) (k : nat) : M9 := match k with O => id9 | S k => mm9 (pow9 A k) A end.
Fixpoint expm9_A (A : M9) (Ts : R) (n : nat) : M9 :=
  match n with
  | O => id9
  | S m => addm9 (expm9_A A Ts m) (scalem9 (Ts ^ n / INR (fact n)) (pow9 A n))
  end.
Fixpoint expm9_B (A : M9) (B : M93) (Ts : R) (n : nat) : M93 :=
  match n with
  | O => mkF zero63 zerom
  | S m => addm93 (expm9_B A B Ts m) (scalem93 (Ts ^ n / INR (fact n)) (mm_9_93 (pow9 A m) B))
  end.
(** The series ends after three terms for this A (theorem C92_zoh). *)
Definition cont2discrete9 (A : M9) (B : M93) (Ts : R) : M9 * M93 := (expm9_A A Ts 3, expm9_B A B Ts 3).
(** ADCS_Discrete_State_Space_Calculator.py:71: np.linalg.inv(R + Bd.T @ P @ Bd) @ Bd.T @ P @ Ad *)
Definition lqi_S (Bd : M93) (Rm : m3) (P : M9) : m3 := addm Rm (mm_39_93 (mm_39_9 (tr93 Bd) P) Bd).
Definition lqi_K (Ad : M9) (Bd : M93) (Rm : m3) (P : M9) : res M39 :=
  let Sm := lqi_S Bd Rm P in
  if Reqb (det3 Sm) 0 then Raise LinAlgError
  else Ok (mm_39_9 (mm_39_9 (mm_3_39 (inv3 Sm) (tr93 Bd)) P) Ad).
(** ADCS_Discrete_State_Space_Calculator.py:45-71, 88 [get_gain_matrix] with use_integrator = True *)
Definition get_gain_matrix_int (dare : M9 -> M93 -> M9 -> m3 -> res M9) (J : m3) (Ts max_error max_rate : R) : res M39 :=
  if Reqb max_error 0 then Raise ZeroDivisionError
  else if Reqb max_rate 0 then Raise ZeroDivisionError
  else if Reqb (det3 J) 0 then Raise LinAlgError
  else let '(A, B) := add_integrators lqr_A (lqr_B (inv3 J)) lqi_C in
       let '(Ad, Bd) := cont2discrete9 A B Ts in
       rbind (dare Ad Bd (lqi_Q max_error max_rate) lqr_R) (fun P => lqi_K Ad Bd lqr_R P).

(** What [self.K] can be: FlightSoftwareModule.py:39-42 *)
Inductive Gain := Plain (K : M36) | WithIntegrator (K : M39).
Definition get_gain (dare : M6 -> M63 -> M6 -> m3 -> res M6) (dare9 : M9 -> M93 -> M9 -> m3 -> res M9) (use_integrator : bool)
    (J : m3) (Ts max_error max_rate : R) : res Gain :=
  if use_integrator then rbind (get_gain_matrix_int dare9 J Ts max_error max_rate) (fun K => Ok (WithIntegrator K))
  else rbind (get_gain_matrix dare J Ts max_error max_rate) (fun K => Ok (Plain K)).
(** FlightSoftwareModule.py:189-193 [quaternion_controller], and 100-101, 118 of UpdateState, for either gain: the state vector has six
    entries whatever the gain, and [@] raises ValueError when the number of columns is not the number of entries. *)
Definition controller_with (K : Gain) (omega_target : v3) (q_error : S4 R) (omega : v3) : res v3 :=
  match K with
  | Plain K => Ok (controller_step (k1 K) (k2 K) omega_target q_error omega)
  | WithIntegrator _ => Raise ValueError
  end.
