(** * Properties of classes/dynamics.py and system/simulator.py: C97 (every start has exactly one true motion, and the simulation converges to it) *)
From Coq Require Import Reals ZArith List Bool Arith Lra Psatz Lia.
From Verif Require Import Num Vec M_vector M_quaternion M_jday M_frame M_struct M_env M_dyn M_sensor M_integ.
From Verif Require Import S_rot S_integ S_dyn S_rk S_orb P_quat P_struct P_wheel P_integ P_integ2 P_dyn P_dyn2 P_rk P_rk3 P_tot2 P_orb3 P_orb5 P_exist1 P_exist2 P_exist3 Props_spin Props_rk Props_orb.
Import ListNotations.
Local Open Scope R_scope.

(** ** C97: orbits *)
Theorem C97_orbit : forall p0 v0, cross3 p0 v0 <> zero3 -> exists p v, p 0 = p0 /\ v 0 = v0 /\
  forall len, 0 <= len -> orbit_motion (fun t => attraction (p t)) len p v /\
  (forall p' v', p' 0 = p0 -> v' 0 = v0 -> orbit_motion (fun t => attraction (p' t)) len p' v' -> forall t, 0 <= t <= len -> p' t = p t /\ v' t = v t) /\
  exists C r, 0 < C /\ 0 < r /\
    forall sat mt delta f stream sim dt N wd wd',
    s_mass sat <> 0 -> 0 < dt <= r -> 0 <= delta <= r -> INR N * dt <= len ->
    (forall h s d, fresh h s -> f h s = Ok d -> exists cur accl, vector_field false sat mt h s cur accl = Ok d /\
      forall Fd Td Fs Ts, drag_F_and_T sat s = Ok (Fd, Td) -> solar_F_and_T sat h s = Ok (Fs, Ts) -> norm3 (add3 Fd Fs) <= delta * Rabs (s_mass sat)) ->
    fresh (w_store wd) (w_state wd) -> v_pos (sv (w_state wd)) = p0 -> v_vel (sv (w_state wd)) = v0 ->
    updates f stream sim dt N wd = Ok wd' ->
    norm3 (sub3 (v_pos (sv (w_state wd'))) (p (INR N * dt))) <= C * (dt ^ 4 + delta) /\
    norm3 (sub3 (v_vel (sv (w_state wd'))) (v (INR N * dt))) <= C * (dt ^ 4 + delta).
Proof.
  intros p0 v0 HM. destruct (orbit_exists p0 v0 HM) as (p & v & P0 & V0 & D). exists p, v. split; [exact P0|]. split; [exact V0|]. intros len HL.
  assert (OM : orbit_motion (fun t => attraction (p t)) len p v) by (intros t _; rewrite <- kep_attraction; apply D). split; [exact OM|].
  assert (HM' : cross3 (p 0) (v 0) <> zero3) by (rewrite P0, V0; exact HM). split.
  - intros p' v' E1 E2 OM' t Ht. destruct (orbit_unique p v p' v' len HL OM OM' HM' ltac:(congruence) ltac:(congruence) t Ht) as [A B]. split; symmetry; assumption.
  - destruct (peri_spec _ _ HM') as (SP & _). assert (B := orbit_bounds p v len HL OM HM'). set (rho := peri (p 0) (v 0)) in *. clearbody rho. assert (MP := MU_pos).
    set (VB := 1 + dot3 (v 0) (v 0) + 2 * MU / rho) in *. assert (VP : 0 < VB) by (unfold VB; assert (A := dot3_pos' (v 0)); assert (0 < 2 * MU / rho) by (apply Rdiv_lt_0_compat; lra); lra).
    set (PB := norm3 (p 0) + 3 * (len * (3 * VB))) in *. assert (PP : 0 <= PB) by (unfold PB; assert (A := proj1 (norm3_sq (p 0))); assert (0 <= len * (3 * VB)) by (apply Rmult_le_pos; lra); lra).
    destruct (C96_two_body rho (PB + VB) len SP ltac:(lra) HL) as (C & r & PC & Pr & H). exists C, r. split; [exact PC|]. split; [exact Pr|].
    intros sat mt delta f stream sim dt N wd wd' MS Hdt Hd HN HF FR EP EV UP.
    apply (H sat mt p v delta f stream sim dt N wd wd' MS Hdt Hd HN OM); try assumption; try congruence.
    intros t Ht. destruct (B t Ht) as (B1 & B2 & B3). lra.
Qed.
Print Assumptions C97_orbit.

(** ** C97: rotations *)
Theorem C97_rotation : forall sat u a (tau : R -> v3) k len q0 w0, det3 (s_total_moment sat) <> 0 -> 0 <= len -> length u = length a ->
  (forall s t, 0 <= s <= len -> 0 <= t <= len -> norm3 (sub3 (tau s) (tau t)) <= k * Rabs (s - t)) -> unitq q0 ->
  exists q w, rigid_motion sat u a tau len q w /\ q 0 = q0 /\ w 0 = w0 /\
  forall q' w', rigid_motion sat u a tau len q' w' -> q' 0 = q0 -> w' 0 = w0 -> forall t, 0 <= t <= len -> q' t = q t /\ w' t = w t.
Proof.
  intros sat u a tau k len q0 w0 DJ HL HU HT UQ.
  assert (HK : exists k, 0 <= k /\ forall s t, 0 <= s <= len -> 0 <= t <= len -> n1 (sub3 (tau s) (tau t)) <= k * Rabs (s - t)).
  { exists (3 * Rabs k). split; [assert (A := Rabs_pos k); lra|]. intros s t Hs Ht. eapply Rle_trans; [apply n1_norm3|]. assert (X := HT s t Hs Ht). assert (Y : k * Rabs (s - t) <= Rabs k * Rabs (s - t)) by (apply Rmult_le_compat_r; [apply Rabs_pos|apply Rle_abs]). lra. }
  destruct (rotation_exists sat u a tau len q0 w0 DJ HL HU HK UQ) as (q & w & RM & Q0 & W0). exists q, w. split; [exact RM|]. split; [exact Q0|]. split; [exact W0|].
  destruct HK as (kk & K0 & HK).
  assert (HB : forall s, 0 <= s <= len -> n1 (tau s) <= n1 (tau 0) + kk * len).
  { intros s Hs. replace (tau s) with (add3 (tau 0) (sub3 (tau s) (tau 0))) by (generalize (tau s) (tau 0); clear; intros; vring). eapply Rle_trans; [apply n1_add|]. apply Rplus_le_compat_l. eapply Rle_trans; [apply HK; lra|]. apply Rmult_le_compat_l; [exact K0|]. rewrite Rminus_0_r, Rabs_pos_eq; lra. }
  intros q' w' RM' Q0' W0' t Ht. apply (rotation_unique sat u a tau len q' w' q w _ DJ HU HB RM' RM); [congruence|congruence|exact Ht].
Qed.
Print Assumptions C97_rotation.
Theorem C97_rotation_simulated : forall sat (T0 : v3) u a len q0 w0, det3 (s_total_moment sat) <> 0 -> 0 <= len -> length u = length a -> unitq q0 ->
  exists q w, rigid_motion sat u a (fun _ => T0) len q w /\ q 0 = q0 /\ w 0 = w0 /\ exists C r, 0 < C /\ 0 < r /\
    forall hi_fi mt cur stream dt N wd wd', 0 < dt <= r -> INR N * dt <= len ->
    (forall h s m F T, sys_actuate mt cur = Ok m -> env_F_and_T hi_fi sat h s m = Ok (F, T) -> T = T0) ->
    v_whl (sv (w_state wd)) = u -> v_att (sv (w_state wd)) = q0 -> v_rate (sv (w_state wd)) = w0 ->
    updates (fun h s => vector_field hi_fi sat mt h s cur a) stream true dt N wd = Ok wd' ->
    normq (subq (v_att (sv (w_state wd'))) (q (INR N * dt))) <= C * dt ^ 4 /\
    norm3 (sub3 (v_rate (sv (w_state wd'))) (w (INR N * dt))) <= C * dt ^ 4.
Proof.
  intros sat T0 u a len q0 w0 DJ HL HU UQ.
  destruct (C97_rotation sat u a (fun _ => T0) 0 len q0 w0 DJ HL HU) as (q & w & RM & Q0 & W0 & _); [intros s t _ _; rewrite norm3_self'; lra|exact UQ|].
  exists q, w. split; [exact RM|]. split; [exact Q0|]. split; [exact W0|].
  assert (A := proj1 (norm3_sq w0)). assert (B := proj1 (norm3_sq (rw_momentum (s_rw sat) u))).
  destruct (C93_order_four sat T0 a len (norm3 w0 + norm3 (rw_momentum (s_rw sat) u)) DJ HL (Rplus_le_le_0_compat _ _ A B)) as (C & r & PC & Pr & H). exists C, r. split; [exact PC|]. split; [exact Pr|].
  intros hi_fi mt cur stream dt N wd wd' Hdt HN HE EU EQ EW UP. apply (H u q w hi_fi mt cur stream dt N wd wd' Hdt HN HU RM); try assumption; try congruence; [rewrite W0|]; lra.
Qed.
Print Assumptions C97_rotation_simulated.

(** a start on the circular orbit of [C96_ex] has momentum, and the ball of [C93_ex] with spinning wheels an invertible inertia; an eccentric start *)
Example C97_ex : cross3 (v_pos (circle 0)) (v_vel (circle 0)) <> zero3 /\ cross3 (mk3 6800000 0 0) (mk3 100 7000 (-3000)) <> zero3 /\
  det3 (s_total_moment ball) <> 0 /\ length [0; 0; 7] = length [0; 0; 1] /\ unitq (mkq 0.6 0 0.8 0) /\
  (forall s t, 0 <= s <= 1 -> 0 <= t <= 1 -> norm3 (sub3 (mk3 s 0 0) (mk3 t 0 0)) <= 1 * Rabs (s - t)).
Proof.
  split. { intros E. apply (f_equal z3) in E. revert E. unfold circle. cbn [v_pos v_vel]. rewrite Rmult_0_r, cos_0, sin_0. vunfoldg. cbn [x3 y3 z3]. rnumg. assert (N := orbit_n_sq). assert (MP := MU_pos). intros E.
    assert (Z : orbit_n * orbit_n = 0) by (assert (orbit_n = 0) by (unfold orbit_r in E; lra); rewrite H; ring). rewrite Z in N. assert (0 < MU / orbit_r ^ 3) by (apply Rdiv_lt_0_compat; [lra|apply pow_lt; unfold orbit_r; lra]). lra. }
  split. { intros E. apply (f_equal z3) in E. revert E. vunfoldg. rnumg. lra. }
  split; [exact ball_det|]. split; [reflexivity|]. split; [unfold unitq; vunfoldg; rnumg; lra|].
  intros s t _ _. unfold norm3. vunfoldg. rnumg. replace ((s - t) * (s - t) + (0 - 0) * (0 - 0) + (0 - 0) * (0 - 0)) with (Rsqr (s - t)) by (unfold Rsqr; ring). rewrite sqrt_Rsqr_abs. lra.
Qed.
