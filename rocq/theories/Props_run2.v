(** * Properties of classes/dynamics.py and system/simulator.py: C102 (a simulated flight goes through to its end, close to the true motion in position, velocity, attitude, rate and wheel speeds) *)
From Coq Require Import Reals ZArith List Bool Arith Lra Psatz Lia.
From Flocq Require Import Core.
From Verif Require Import Num Vec M_vector M_quaternion M_jday M_frame M_struct M_env M_dyn M_sensor M_integ.
From Verif Require Import S_rot S_integ S_dyn S_frame S_rk S_orb S_run P_quat P_wheel P_integ2 P_dyn P_dyn2 P_frame P_struct P_rk P_rk3 P_tot1 P_tot2 P_tot3 P_orb3 P_orb5 P_exist3 P_run1 P_run2 P_run3 P_run4 P_run5 Props_spin Props_tot Props_orb Props_rk Props_exist Props_run.
Import ListNotations.
Local Open Scope R_scope.

(** ** C102 *)
(** What is asked of the torques, in the same states as of the forces: they are within delta of a constant torque T0. *)
Definition torques_near (hi_fi : bool) (sat : Satellite) (mt : list (Torquer R)) (cur : list R) (V : R) (T0 : v3) (delta : R) : Prop :=
  forall h s m F T, fresh h s -> 6628138 <= norm3 (v_pos (sv s)) <= 6856752 -> norm3 (v_vel (sv s)) <= V + 2 -> 1 / 2 <= normq (v_att (sv s)) <= 3 / 2 ->
  sys_actuate mt cur = Ok m -> env_F_and_T hi_fi sat h s m = Ok (F, T) -> norm3 (sub3 T T0) <= delta.

Lemma norm3_swap (a b : v3) : norm3 (sub3 a b) = norm3 (sub3 b a).
Proof. unfold norm3. f_equal. destruct a as [a1 a2 a3], b as [b1 b2 b3]. vunfoldg. rnumg. ring. Qed.

(** Every step of the flight succeeds, and everything the state vector holds stays by the true motion. *)
Theorem C102_flight : forall lo hi V len hi_fi sat mt cur accl j W U (T0 : v3), 6628138 < lo -> hi < 6856752 -> 0 <= V -> 0 <= len ->
  definite sat j -> (length mt <= length cur)%nat -> (length (rw_wheels (s_rw sat)) <= length accl)%nat -> exists C r, 0 < C /\ 0 < r /\
  forall delta, 0 <= delta <= r -> forces_near hi_fi sat mt cur V delta -> torques_near hi_fi sat mt cur V T0 delta -> exists dt0, 0 < dt0 /\
  forall acc p v tau q w eta stream dt N wd, 0 < dt <= dt0 -> 0 <= eta <= r -> INR N * dt <= len ->
  orbit_motion acc len p v ->
  (forall t, 0 <= t <= len -> lo <= norm3 (p t) <= hi /\ norm3 (v t) <= V /\ norm3 (sub3 (acc t) (attraction (p t))) <= delta) ->
  rigid_motion sat (v_whl (sv (w_state wd))) accl tau len q w -> (forall t, 0 <= t <= len -> norm3 (sub3 (tau t) T0) <= delta) ->
  ready accl W U dt N wd ->
  norm3 (sub3 (v_pos (sv (w_state wd))) (p 0)) <= eta -> norm3 (sub3 (v_vel (sv (w_state wd))) (v 0)) <= eta ->
  normq (subq (v_att (sv (w_state wd))) (q 0)) <= eta -> norm3 (sub3 (v_rate (sv (w_state wd))) (w 0)) <= eta ->
  exists wd', updates (fun h s => vector_field hi_fi sat mt h s cur accl) stream true dt N wd = Ok wd' /\
  norm3 (sub3 (v_pos (sv (w_state wd'))) (p (INR N * dt))) <= C * (eta + dt ^ 4 + delta) /\
  norm3 (sub3 (v_vel (sv (w_state wd'))) (v (INR N * dt))) <= C * (eta + dt ^ 4 + delta) /\
  normq (subq (v_att (sv (w_state wd'))) (q (INR N * dt))) <= C * (eta + dt ^ 4 + delta) /\
  norm3 (sub3 (v_rate (sv (w_state wd'))) (w (INR N * dt))) <= C * (eta + dt ^ 4 + delta) /\
  v_whl (sv (w_state wd')) = zip_with (fun x y => x + INR N * dt * y) (v_whl (sv (w_state wd))) accl.
Proof.
  intros lo hi V len hi_fi sat mt cur accl j W U T0 HLO HHI V0 L0 DF LM LA. destruct DF as [J0 PD]. assert (DJ : det3 (s_total_moment sat) <> 0) by (apply (definite_det _ j J0 PD), total_symm).
  destruct (flight_run lo hi V len HLO HHI V0 L0) as (C1 & r1 & PC1 & Pr1 & R1). destruct (momentum_bound (rw_wheels (s_rw sat)) (Rabs U) (Rabs_pos U)) as (H0 & H00 & HH).
  set (M := Rabs W + 1 + H0). assert (M0 : 0 <= M) by (unfold M; assert (X := Rabs_pos W); lra).
  destruct (C93_converges sat T0 accl len M DJ L0 M0) as (C2 & r2 & PC2 & Pr2 & R2). set (r := Rmin 1 (Rmin r1 r2)).
  assert (Q1 : r <= 1) by apply Rmin_l. assert (Q2 : r <= r1) by (eapply Rle_trans; [apply Rmin_r|apply Rmin_l]). assert (Q3 : r <= r2) by (eapply Rle_trans; [apply Rmin_r|apply Rmin_r]). assert (Pr : 0 < r) by (unfold r; repeat apply Rmin_pos; lra). clearbody r.
  exists (C1 + C2), r. split; [lra|]. split; [exact Pr|]. intros delta Hd HF HT.
  destruct (R1 hi_fi sat mt cur accl j W U delta (conj J0 PD) LM LA ltac:(lra) HF) as (W' & H & dt1 & D1 & R1'). assert (A1 := Rmin_l dt1 r). assert (A2 := Rmin_r dt1 r). exists (Rmin dt1 r). split; [apply Rmin_pos; assumption|].
  intros acc p v tau q w eta stream dt N wd DT HE HN OM HO RM HTau RD EP EV EQ EW.
  destruct (R1' acc p v eta stream dt N wd ltac:(lra) ltac:(lra) HN OM HO RD EP EV) as (wd' & UP & BP & BV & _ & _). destruct RD as (_ & FR & UQ & RW & WU & LW).
  set (f := fun h s => vector_field hi_fi sat mt h s cur accl) in *. exists wd'. split. { revert UP. apply updates_mono. intros h s d FD. apply confined_ok in FD. apply FD. }
  apply (updates_newly _ stream true dt N wd wd' FR) in UP.
  destruct (R2 (v_whl (sv (w_state wd))) tau q w eta delta hi_fi mt cur (newly (confined sat V W' H f)) stream dt N wd wd') as (_ & BQ & BW & BU); try assumption; try lra; try reflexivity.
  - assert (X := norm3_gap (v_rate (sv (w_state wd))) (w 0)). apply Rabs_le_inv in X. assert (Y := Rle_abs W). assert (norm3 (w 0) <= Rabs W + 1); [|unfold M; lra].
    assert (Z := norm3_triangle (v_rate (sv (w_state wd))) (sub3 (w 0) (v_rate (sv (w_state wd))))). replace (add3 (v_rate (sv (w_state wd))) (sub3 (w 0) (v_rate (sv (w_state wd))))) with (w 0) in Z by (generalize (w 0) (v_rate (sv (w_state wd))); clear; intros; vring).
    rewrite (norm3_swap (w 0)) in Z. lra.
  - eapply Rle_trans; [apply norm3_n1|]. apply Rle_trans with H0; [|unfold M; assert (X := Rabs_pos W); lra]. apply HH. eapply Forall_impl; [|exact WU]. cbv beta. intros x Hx. assert (Q := Rle_abs U). lra.
  - intros h s d FD. apply newly_ok in FD. destruct FD as [FS FD]. apply confined_ok in FD. destruct FD as [(B1 & B2 & B3 & _) FD]. split; [exact FD|]. intros m F T A E. exact (HT h s m F T FS B1 B2 B3 A E).
  - assert (P4 : 0 <= dt ^ 4) by (apply pow_le; lra). assert (C1 * (eta + dt ^ 4 + delta) <= (C1 + C2) * (eta + dt ^ 4 + delta)) by (apply Rmult_le_compat_r; lra). assert (C2 * (eta + dt ^ 4 + delta) <= (C1 + C2) * (eta + dt ^ 4 + delta)) by (apply Rmult_le_compat_r; lra).
    split; [lra|]. split; [lra|]. split; [lra|]. split; [lra|exact BU].
Qed.
Print Assumptions C102_flight.

(** The true motion from the starting point exists, and every simulation from there with short enough steps follows it to its end. *)
Theorem C102_followed : forall p0 v0 q0 w0 u lo hi len sat mt cur accl j (T0 : v3), 6628138 < lo -> hi < 6856752 -> trapped p0 v0 lo hi -> 0 <= len -> unitq q0 -> length u = length accl ->
  definite sat j -> (length mt <= length cur)%nat -> (length (rw_wheels (s_rw sat)) <= length accl)%nat ->
  exists p v q w, p 0 = p0 /\ v 0 = v0 /\ q 0 = q0 /\ w 0 = w0 /\ orbit_motion (fun t => attraction (p t)) len p v /\ rigid_motion sat u accl (fun _ => T0) len q w /\
  (forall t, 0 <= t <= len -> lo < norm3 (p t) < hi) /\
  exists C r, 0 < C /\ 0 < r /\ forall delta, 0 <= delta <= r -> forces_near false sat mt cur (top_speed p0 v0 lo) delta -> torques_near false sat mt cur (top_speed p0 v0 lo) T0 delta -> exists dt0, 0 < dt0 /\
  forall W U stream dt N wd, 0 < dt <= dt0 -> INR N * dt <= len -> ready accl W U dt N wd ->
  v_pos (sv (w_state wd)) = p0 -> v_vel (sv (w_state wd)) = v0 -> v_att (sv (w_state wd)) = q0 -> v_rate (sv (w_state wd)) = w0 -> v_whl (sv (w_state wd)) = u ->
  exists wd', updates (fun h s => vector_field false sat mt h s cur accl) stream true dt N wd = Ok wd' /\
  norm3 (sub3 (v_pos (sv (w_state wd'))) (p (INR N * dt))) <= C * (dt ^ 4 + delta) /\
  norm3 (sub3 (v_vel (sv (w_state wd'))) (v (INR N * dt))) <= C * (dt ^ 4 + delta) /\
  normq (subq (v_att (sv (w_state wd'))) (q (INR N * dt))) <= C * (dt ^ 4 + delta) /\
  norm3 (sub3 (v_rate (sv (w_state wd'))) (w (INR N * dt))) <= C * (dt ^ 4 + delta) /\
  v_whl (sv (w_state wd')) = zip_with (fun x y => x + INR N * dt * y) u accl.
Proof.
  intros p0 v0 q0 w0 u lo hi len sat mt cur accl j T0 HLO HHI TR L0 UQ LU DF LM LA. assert (DJ : det3 (s_total_moment sat) <> 0) by (destruct DF as [J0 PD]; apply (definite_det _ j J0 PD), total_symm).
  destruct (orbit_exists p0 v0 (trapped_momentum p0 v0 lo hi ltac:(lra) TR)) as (p & v & EP & EV & OD).
  assert (OM : orbit_motion (fun t => attraction (p t)) len p v) by (intros t _; rewrite <- kep_attraction; apply OD).
  assert (TR' : trapped (p 0) (v 0) lo hi) by (rewrite EP, EV; exact TR). assert (OT := orbit_trapped p v len lo hi L0 ltac:(lra) OM TR'). rewrite EP, EV in OT.
  destruct (C97_rotation sat u accl (fun _ => T0) 0 len q0 w0 DJ L0 LU) as (q & w & RM & Q0 & W0 & _); [intros s t _ _; rewrite norm3_self'; lra|exact UQ|].
  exists p, v, q, w. split; [exact EP|]. split; [exact EV|]. split; [exact Q0|]. split; [exact W0|]. split; [exact OM|]. split; [exact RM|]. split; [intros t Ht; apply OT, Ht|].
  assert (UB : exists U, Forall (fun x => Rabs x <= U) u).
  { clear. induction u as [|x u [U IH]]; [exists 0; constructor|]. exists (Rmax (Rabs x) U). constructor; [apply Rmax_l|]. eapply Forall_impl; [|exact IH]. cbv beta. intros y Hy. eapply Rle_trans; [exact Hy|apply Rmax_r]. }
  destruct UB as (U0 & HU0).
  destruct (C102_flight lo hi (top_speed p0 v0 lo) len false sat mt cur accl j (norm3 w0) U0 T0 HLO HHI (sqrt_pos _) L0 DF LM LA) as (C & r & PC & Pr & H). exists C, r. split; [exact PC|]. split; [exact Pr|].
  intros delta Hd HF HT. destruct (H delta Hd HF HT) as (dt0 & D0 & H'). exists dt0. split; [exact D0|]. intros W U stream dt N wd DT HN RD P0 V0 A0 R0 U0'.
  assert (RD' : ready accl (norm3 w0) U0 dt N wd). { destruct RD as (CK & FR & UQ' & _ & _ & LW). split; [exact CK|]. split; [exact FR|]. split; [exact UQ'|]. split; [rewrite R0; lra|]. split; [rewrite U0'; exact HU0|exact LW]. }
  destruct (H' (fun t => attraction (p t)) p v (fun _ => T0) q w 0 stream dt N wd) as (wd' & UP & B1 & B2 & B3 & B4 & B5); try assumption; try lra.
  - intros t Ht. destruct (OT t Ht) as [G1 G2]. split; [lra|]. split; [exact G2|]. rewrite norm3_self'. lra.
  - rewrite U0'. exact RM.
  - intros t _. rewrite norm3_self'. lra.
  - rewrite P0, EP, norm3_self'. lra.
  - rewrite V0, EV, norm3_self'. lra.
  - rewrite A0, Q0, normq_self. lra.
  - rewrite R0, W0, norm3_self'. lra.
  - rewrite Rplus_0_l in B1, B2, B3, B4. rewrite U0' in B5. exists wd'. split; [exact UP|]. split; [exact B1|]. split; [exact B2|]. split; [exact B3|]. split; [exact B4|exact B5].
Qed.
Print Assumptions C102_followed.

(** ** example: the ball on its circle, its third wheel being sped up, for 90 minutes in steps of a twentieth of a second; no torque acts on it *)
Example C102_ex : exists wd, trapped (v_pos (circle 0)) (v_vel (circle 0)) 6700000 6800000 /\ definite ball 4 /\ unitq (v_att (circle 0)) /\
  forces_near false ball [] [] (top_speed (v_pos (circle 0)) (v_vel (circle 0)) 6700000) 0 /\ torques_near false ball [] [] (top_speed (v_pos (circle 0)) (v_vel (circle 0)) 6700000) zero3 0 /\
  (length (rw_wheels (s_rw ball)) <= length [0; 0; 2])%nat /\ ready [0; 0; 2] 4 10 0.05 (Z.to_nat 108000) wd /\ sv (w_state wd) = circle 0.
Proof.
  set (h := fun _ : nat => CJ (mkJ 0 0)). 
  assert (N : norm3 (v_pos (circle 0)) = orbit_r) by apply circle_norm.
  destruct (state_made h 0 (circle 0)) as (s & E & CA & SV & CL & _); [rewrite N; unfold orbit_r; lra|].
  destruct C100_ex as (wd0 & TR & DF & FN & LE & RD & _). exists (mkWorld s h (gyro_init 0 0 zero3) 0). cbn [w_state w_store].
  assert (UQ : unitq (v_att (circle 0))) by (unfold circle, unitq; cbn [v_att]; rewrite Rmult_0_r, cos_0, sin_0; vunfoldg; rnumg; ring).
  split; [exact TR|]. split; [exact DF|]. split; [exact UQ|]. split; [exact FN|].
  split. { intros h' s' m F T _ _ _ _ A E'. rewrite (ball_no_torque h' s' m F T A E'), norm3_self'. lra. }
  split; [exact LE|]. split; [|exact SV]. unfold ready. cbn [w_state w_store]. rewrite SV, CL.
  assert (ZN : ZnearestE (0.05 * 1000000) = 50000%Z). { replace (0.05 * 1000000) with 50000 by lra. apply (Znearest_imp _ 50000 50000). replace (50000 - 50000) with 0 by ring. rewrite Rabs_R0. lra. }
  split. { exists (mkJ 0 0). split; [reflexivity|]. rewrite ZN. cbn [j_us]. split; [lia|]. replace datetime_end with 315537897600000000%Z by (vm_compute; reflexivity). rewrite <- (Z2Nat.id 108000) by lia. lia. }
  split; [unfold fresh; rewrite CL, SV; exact E|]. split; [exact UQ|].
  split. { apply Rle_trans with (n1 (v_rate (circle 0))); [apply norm3_n1|]. unfold circle, n1, spin. cbn [v_rate x3 y3 z3]. rewrite Rabs_R0, Rabs_pos_eq; lra. }
  split; [|reflexivity]. unfold circle. cbn [v_whl]. repeat constructor; rewrite Rabs_pos_eq; lra.
Qed.
