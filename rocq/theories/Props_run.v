(** * Properties of classes/dynamics.py and system/simulator.py: C100 (a simulated flight goes through to its end, close to the true orbit) *)
From Coq Require Import Reals ZArith List Bool Arith Lra Psatz Lia.
From Flocq Require Import Core.
From Verif Require Import Num Vec M_vector M_quaternion M_jday M_frame M_struct M_env M_dyn M_sensor M_integ.
From Verif Require Import S_rot S_integ S_dyn S_frame S_orb S_run P_quat P_wheel P_integ2 P_dyn P_dyn2 P_frame P_struct P_rk P_rk3 P_tot1 P_tot2 P_tot3 P_orb3 P_orb5 P_exist3 P_run1 P_run2 P_run3 P_run4 Props_spin Props_tot Props_orb.
Import ListNotations.
Local Open Scope R_scope.

(** ** C100 *)
(** What is asked of the forces: at every state in the band of the density table, at most 2 m/s faster than V and with an attitude of
    about unit length, the force per mass is within delta of the Earth's attraction. *)
Definition forces_near (hi_fi : bool) (sat : Satellite) (mt : list (Torquer R)) (cur : list R) (V delta : R) : Prop :=
  forall h s m F T, fresh h s -> 6628138 <= norm3 (v_pos (sv s)) <= 6856752 -> norm3 (v_vel (sv s)) <= V + 2 -> 1 / 2 <= normq (v_att (sv s)) <= 3 / 2 ->
  sys_actuate mt cur = Ok m -> env_F_and_T hi_fi sat h s m = Ok (F, T) -> norm3 (sub3 (div3 F (s_mass sat)) (attraction (v_pos (sv s)))) <= delta.
(** What is asked of the world at the start: the state was made by SatelliteState on a JulianClock whose date, after N steps of dt, is still
    one of datetime's; the attitude is a unit quaternion, the rates and wheel speeds are within W and U, one wheel speed per command. *)
Definition ready (accl : list R) (W U dt : R) (N : nat) (wd : World) : Prop :=
  let v := sv (w_state wd) in
  (exists c, w_store wd (clk (w_state wd)) = CJ c /\ (0 <= j_us c /\ j_us c + Z.of_nat N * ZnearestE (dt * 1000000) < datetime_end)%Z) /\
  fresh (w_store wd) (w_state wd) /\ unitq (v_att v) /\ norm3 (v_rate v) <= W /\ Forall (fun x => Rabs x <= U) (v_whl v) /\ length (v_whl v) = length accl.
(** the satellite resists turning about every axis at least by j *)
Definition definite (sat : Satellite) (j : R) : Prop := 0 < j /\ forall w : v3, j * dot3 w w <= dot3 w (mv (s_total_moment sat) w).

(** the run of the field confined to the box *)
Lemma flight_run : forall lo hi V len, 6628138 < lo -> hi < 6856752 -> 0 <= V -> 0 <= len -> exists C r, 0 < C /\ 0 < r /\
  forall hi_fi sat mt cur accl j W U delta, definite sat j -> (length mt <= length cur)%nat -> (length (rw_wheels (s_rw sat)) <= length accl)%nat ->
  0 <= delta <= r -> forces_near hi_fi sat mt cur V delta -> exists W' H dt0, 0 < dt0 /\
  forall acc p v eta stream dt N wd, 0 < dt <= dt0 -> 0 <= eta <= r -> INR N * dt <= len ->
  orbit_motion acc len p v ->
  (forall t, 0 <= t <= len -> lo <= norm3 (p t) <= hi /\ norm3 (v t) <= V /\ norm3 (sub3 (acc t) (attraction (p t))) <= delta) ->
  ready accl W U dt N wd ->
  norm3 (sub3 (v_pos (sv (w_state wd))) (p 0)) <= eta -> norm3 (sub3 (v_vel (sv (w_state wd))) (v 0)) <= eta ->
  exists wd', updates (confined sat V W' H (fun h s => vector_field hi_fi sat mt h s cur accl)) stream true dt N wd = Ok wd' /\
  norm3 (sub3 (v_pos (sv (w_state wd'))) (p (INR N * dt))) <= C * (eta + dt ^ 4 + delta) /\
  norm3 (sub3 (v_vel (sv (w_state wd'))) (v (INR N * dt))) <= C * (eta + dt ^ 4 + delta) /\
  unitq (v_att (sv (w_state wd'))) /\ norm3 (v_rate (sv (w_state wd'))) <= W'.
Proof.
  intros lo hi V len HLO HHI V0 L0. set (M := 6856752 + V). destruct (orun_true lo M len ltac:(lra) ltac:(unfold M; lra) L0) as (C & r & PC & Pr & OT).
  set (mar := Rmin (1 / 2) (Rmin ((lo - 6628138) / 2) ((6856752 - hi) / 2))).
  assert (M1 : 0 < mar) by (unfold mar; apply Rmin_pos; [lra|apply Rmin_pos; lra]). assert (M2 : mar <= 1 / 2) by apply Rmin_l.
  assert (M3 : mar <= (lo - 6628138) / 2) by (eapply Rle_trans; [apply Rmin_r|apply Rmin_l]). assert (M4 : mar <= (6856752 - hi) / 2) by (eapply Rle_trans; [apply Rmin_r|apply Rmin_r]). clearbody mar.
  set (r' := Rmin (r / 6) (mar / (18 * C))). assert (R1 : 0 < r'). { apply Rmin_pos; [lra|]. apply Rdiv_lt_0_compat; lra. } assert (R2 : r' <= r / 6) by apply Rmin_l. assert (R3 : 18 * C * r' <= mar). { apply Rle_trans with (18 * C * (mar / (18 * C))); [apply Rmult_le_compat_l; [lra|apply Rmin_r]|]. right. field. lra. } clearbody r'.
  exists (6 * C), r'. split; [lra|]. split; [exact R1|]. intros hi_fi sat mt cur accl j W U delta [J0 PD] LM LA Hd HF.
  destruct (proj2 (actuate_ok mt cur) LM) as (m & EM). assert (DJ : det3 (s_total_moment sat) <> 0) by (apply (definite_det _ j J0 PD), total_symm).
  destruct (momentum_bound (rw_wheels (s_rw sat)) (Rabs U) (Rabs_pos U)) as (H0 & H00 & HH). destruct (env_bound hi_fi sat m (3 * (V + 2)) 6 ltac:(lra) ltac:(lra)) as (Tb & Tb0 & TB).
  set (Tw := n1 (rw_torque (s_rw sat) accl)). assert (PTw : 0 <= Tw) by apply n1_pos. set (J := s_total_moment sat) in *. assert (PJ := nm_pos J). assert (PW := Rabs_pos W).
  set (E0 := 3 * Rabs W * (nm J * (3 * Rabs W))). assert (E00 : 0 <= E0) by (unfold E0; repeat apply Rmult_le_pos; lra).
  set (X := E0 + 1 + 2 * len * (Tb + Tw)). assert (X0 : 0 <= 2 * len * (Tb + Tw)) by (repeat apply Rmult_le_pos; lra). set (Wm := 1 + X / j). assert (XJ : 0 < X / j) by (apply Rdiv_lt_0_compat; unfold X; lra). assert (W1 : 1 <= Wm) by (unfold Wm; lra).
  assert (EN : E0 + len * (2 * Wm * (Tb + Tw)) + 1 <= j * (Wm * Wm)).
  { replace (j * (Wm * Wm)) with (Wm * (j + X)) by (unfold Wm; field; lra). assert (Wm * 0 <= Wm * j) by (apply Rmult_le_compat_l; lra). assert (1 * (E0 + 1) <= Wm * (E0 + 1)) by (apply Rmult_le_compat_r; lra). replace (Wm * (j + X)) with (Wm * j + Wm * (E0 + 1) + len * (2 * Wm * (Tb + Tw))) by (unfold X; ring). lra. }
  clearbody Wm. set (H := H0 + len * Tw + Tw). assert (LT : 0 <= len * Tw) by (apply Rmult_le_pos; lra).
  destruct (field_bound hi_fi sat mt cur accl m (3 * (V + 2)) 6 (3 * (Wm + 1)) H ltac:(lra) ltac:(lra) ltac:(lra) ltac:(unfold H; lra) EM) as (D & D1 & DB).
  assert (GP : 0 <= 2 * gyr sat Wm H D + nm J * (D * D)).
  { assert (0 <= nm J * (D * D)) by (apply Rmult_le_pos; [exact PJ|apply Rmult_le_pos; lra]). assert (0 <= gyr sat Wm H D). { unfold gyr. fold J. apply Rmult_le_pos; [lra|]. apply Rmult_le_pos; [lra|]. assert (0 <= nm J * (3 * (Wm + 1))) by (apply Rmult_le_pos; lra). unfold H. lra. } lra. }
  set (G := 2 * gyr sat Wm H D + nm J * (D * D)) in *. assert (LG : 0 <= len * G) by (apply Rmult_le_pos; lra).
  set (dt0 := Rmin r' (Rmin (mar / D) (/ (1 + len * G)))). assert (MD : 0 < mar / D) by (apply Rdiv_lt_0_compat; lra). assert (IG : 0 < / (1 + len * G)) by (apply Rinv_0_lt_compat; lra).
  assert (T0 : 0 < dt0) by (unfold dt0; repeat apply Rmin_pos; lra). assert (T1 : dt0 <= r') by apply Rmin_l. assert (T2 : dt0 <= mar / D) by (eapply Rle_trans; [apply Rmin_r|apply Rmin_l]). assert (T3 : dt0 <= / (1 + len * G)) by (eapply Rle_trans; [apply Rmin_r|apply Rmin_r]). clearbody dt0.
  exists Wm, H, dt0. split; [exact T0|]. intros acc p v eta stream dt N wd DT HE HN OM HT ((cc & HC & CAL) & FR & UQ & RW & WU & LW) EP EV.
  set (ep := n1 (sub3 (v_pos (sv (w_state wd))) (p 0))). set (ev := n1 (sub3 (v_vel (sv (w_state wd))) (v 0))). assert (N1 : ep <= 3 * eta) by (unfold ep; eapply Rle_trans; [apply n1_norm3|]; lra). assert (N2 : ev <= 3 * eta) by (unfold ev; eapply Rle_trans; [apply n1_norm3|]; lra).
  assert (Pep : 0 <= ep) by apply n1_pos. assert (Pev : 0 <= ev) by apply n1_pos. assert (h4 : 0 <= dt ^ 4 <= r') by (split; [apply pow_le; lra|apply pow4_le; lra]).
  assert (OR : forall n q' w', INR n * dt <= len -> orun (3 * delta) dt n (v_pos (sv (w_state wd))) (v_vel (sv (w_state wd))) q' w' ->
    n1 (sub3 q' (p (INR n * dt))) + n1 (sub3 w' (v (INR n * dt))) <= C * (ep + ev + dt ^ 4 + 3 * delta)).
  { intros n q' w' Hn RUN. apply (OT p v acc dt (3 * delta) n (v_pos (sv (w_state wd))) (v_vel (sv (w_state wd))) q' w'); try assumption; try lra.
    - intros t Ht. destruct (OM t Ht) as [D2 D3]. destruct (HT t Ht) as (G1 & G2 & G3). split; [exact D2|]. split; [exact D3|]. split; [split; [apply G1|unfold M; split; lra]|]. eapply Rle_trans; [apply n1_norm3|]. rewrite kep_attraction. lra.
    - fold ep ev. lra. }
  assert (SM : C * (ep + ev + dt ^ 4 + 3 * delta) <= mar). { apply Rle_trans with (C * (18 * r')); [apply Rmult_le_compat_l; lra|lra]. }
  assert (FO : forall h s d, fresh h s -> confined sat V Wm H (fun h s => vector_field hi_fi sat mt h s cur accl) h s = Ok d -> orbits (3 * delta) (sv s) d).
  { intros h s d FS FD. apply confined_ok in FD. destruct FD as [(B1 & B2 & B3 & _) FD]. apply vf_inv in FD. destruct FD as (m' & F & T & A & E & ->). split; [reflexivity|]. cbn [derivative v_vel]. eapply Rle_trans; [apply n1_norm3|]. assert (Q := HF h s m' F T FS B1 B2 B3 A E). rewrite kep_attraction. lra. }
  destruct (run_ok hi_fi sat mt cur accl m lo hi V Wm H0 D Tb j mar len delta E0 EM LA ltac:(lra) ltac:(lra) ltac:(lra) D1 L0 J0 ltac:(lra) DJ PD) with (p := p) (v := v) (dt := dt) (wd := wd) (cc := cc) (stream := stream) (N := N) (k := N) as (wd' & UP & _ & _ & UQ' & _ & _ & _ & RW' & _); try assumption; try lra.
  - intros h s d CA NB. apply (DB h s d CA), near_box_box, NB.
  - intros h s F T CA NB ET. apply (TB (3 * (Wm + 1)) H h s F T CA (near_box_box _ _ _ _ _ NB) ET).
  - intros n q' w' Hn RUN. assert (Q := OR n q' w' Hn RUN). lra.
  - intros t Ht. destruct (HT t Ht) as (G1 & G2 & _). split; assumption.
  - apply Rle_trans with (mar / D * D); [apply Rmult_le_compat_r; lra|]. right. field. lra.
  - fold Tw. fold H. fold J. fold G. replace (len * (dt * G)) with (dt * (len * G)) by ring. apply Rle_trans with (/ (1 + len * G) * (1 + len * G)); [apply Rmult_le_compat; lra|]. right. field. lra.
  - fold Tw. lra.
  - eapply Rle_trans; [apply dot_n1|unfold E0; apply Rle_refl]. + assert (Q := n1_norm3 (v_rate (sv (w_state wd)))). assert (Q2 := Rle_abs W). lra.
    + eapply Rle_trans; [apply n1_mv|]. apply Rmult_le_compat_l; [exact PJ|]. assert (Q := n1_norm3 (v_rate (sv (w_state wd)))). assert (Q2 := Rle_abs W). lra.
  - apply HH. eapply Forall_impl; [|exact WU]. cbv beta. intros x Hx. assert (Q := Rle_abs U). lra.
  - lia.
  - exists wd'. split; [exact UP|].
    assert (RUN := updates_orun _ stream true dt (3 * delta) N FO wd wd' FR UP). assert (Q := OR N _ _ HN RUN).
    assert (B : C * (ep + ev + dt ^ 4 + 3 * delta) <= 6 * C * (eta + dt ^ 4 + delta)). { replace (6 * C * (eta + dt ^ 4 + delta)) with (C * (6 * (eta + dt ^ 4 + delta))) by ring. apply Rmult_le_compat_l; lra. }
    assert (Z1 := norm3_n1 (sub3 (v_pos (sv (w_state wd'))) (p (INR N * dt)))). assert (Z2 := norm3_n1 (sub3 (v_vel (sv (w_state wd'))) (v (INR N * dt)))).
    assert (Y1 := n1_pos (sub3 (v_pos (sv (w_state wd'))) (p (INR N * dt)))). assert (Y2 := n1_pos (sub3 (v_vel (sv (w_state wd'))) (v (INR N * dt)))). split; [lra|]. split; [lra|]. split; [exact UQ'|exact RW'].
Qed.
(** No step raises, however long the flight: the bounds on the forces, on the satellite and on the start are enough. *)
Theorem C100_completes : forall lo hi V len, 6628138 < lo -> hi < 6856752 -> 0 <= V -> 0 <= len -> exists C r, 0 < C /\ 0 < r /\
  forall hi_fi sat mt cur accl j W U delta, definite sat j -> (length mt <= length cur)%nat -> (length (rw_wheels (s_rw sat)) <= length accl)%nat ->
  0 <= delta <= r -> forces_near hi_fi sat mt cur V delta -> exists W' dt0, 0 < dt0 /\
  forall acc p v eta stream dt N wd, 0 < dt <= dt0 -> 0 <= eta <= r -> INR N * dt <= len ->
  orbit_motion acc len p v ->
  (forall t, 0 <= t <= len -> lo <= norm3 (p t) <= hi /\ norm3 (v t) <= V /\ norm3 (sub3 (acc t) (attraction (p t))) <= delta) ->
  ready accl W U dt N wd ->
  norm3 (sub3 (v_pos (sv (w_state wd))) (p 0)) <= eta -> norm3 (sub3 (v_vel (sv (w_state wd))) (v 0)) <= eta ->
  exists wd', updates (fun h s => vector_field hi_fi sat mt h s cur accl) stream true dt N wd = Ok wd' /\
  norm3 (sub3 (v_pos (sv (w_state wd'))) (p (INR N * dt))) <= C * (eta + dt ^ 4 + delta) /\
  norm3 (sub3 (v_vel (sv (w_state wd'))) (v (INR N * dt))) <= C * (eta + dt ^ 4 + delta) /\
  unitq (v_att (sv (w_state wd'))) /\ norm3 (v_rate (sv (w_state wd'))) <= W'.
Proof.
  intros lo hi V len HLO HHI V0 L0. destruct (flight_run lo hi V len HLO HHI V0 L0) as (C & r & PC & Pr & R). exists C, r. split; [exact PC|]. split; [exact Pr|].
  intros hi_fi sat mt cur accl j W U delta DF LM LA Hd HF. destruct (R hi_fi sat mt cur accl j W U delta DF LM LA Hd HF) as (W' & H & dt0 & T0 & R'). exists W', dt0. split; [exact T0|].
  intros acc p v eta stream dt N wd DT HE HN OM HT RD EP EV. destruct (R' acc p v eta stream dt N wd DT HE HN OM HT RD EP EV) as (wd' & UP & REST). exists wd'. split; [|exact REST].
  revert UP. apply updates_mono. intros h s d FD. apply confined_ok in FD. apply FD.
Qed.
Print Assumptions C100_completes.

Lemma low_force sat h s m F T : fresh h s -> s_mass sat <> 0 -> env_F_and_T false sat h s m = Ok (F, T) -> exists Fd Td Fs Ts, drag_F_and_T sat s = Ok (Fd, Td) /\ solar_F_and_T sat h s = Ok (Fs, Ts) /\
  sub3 (div3 F (s_mass sat)) (attraction (v_pos (sv s))) = scale3 (/ s_mass sat) (add3 Fd Fs).
Proof.
  intros FR HM E. unfold env_F_and_T in E. apply rbind_ok in E. destruct E as ([Fs Ts] & ES & E). apply rbind_ok in E. destruct E as ([Fd Td] & EDr & E). exists Fd, Td, Fs, Ts. split; [exact EDr|]. split; [exact ES|].
  unfold add_FT, gravity_F_and_T, magnetic_F_and_T in E. cbn [fst snd] in E. rewrite (fresh_length _ _ FR), gravity_low in E. injection E as E _.
  rewrite <- E. generalize (attraction (v_pos (sv s))). clear - HM. generalize dependent (s_mass sat). intros m HM [x y z]. destruct Fd as [? ? ?], Fs as [? ? ?]. vunfoldg; rnumg; apply mk3_c; field; exact HM.
Qed.
(** With the low-fidelity gravity the air and the sunlight are all that is to be bounded, and they are bounded in terms of the walls and
    the drag coefficient: the more massive the satellite, the smaller their effect. *)
Theorem C100_forces : forall walls drag V, 0 <= V -> exists K, 0 <= K /\
  forall sat mt cur delta, s_walls sat = walls -> s_drag sat = drag -> s_mass sat <> 0 -> K <= delta * Rabs (s_mass sat) -> forces_near false sat mt cur V delta.
Proof.
  intros walls drag V V0. destruct (surface_bound walls drag (3 * (V + 2)) 6 ltac:(lra) ltac:(lra)) as (K & K0 & HK). exists (2 * K). split; [lra|].
  intros sat mt cur delta EW ED HM HD h s m F T FR B1 B2 B3 A E. assert (X := n1_norm3 (v_vel (sv s))). assert (Z := nq_normq (v_att (sv s))). destruct (HK sat h s EW ED ltac:(lra) ltac:(lra) ltac:(lra)) as [HS HDr].
  destruct (low_force sat h s m F T FR HM E) as (Fd & Td & Fs & Ts & EDr & ES & ->). destruct (HS _ _ ES) as [S1 _]. destruct (HDr _ _ EDr) as [D1 _].
  eapply Rle_trans; [apply norm3_n1|]. rewrite n1_scale, Rabs_inv. assert (P : 0 < Rabs (s_mass sat)) by (apply Rabs_pos_lt, HM). apply Rmult_le_reg_l with (Rabs (s_mass sat)); [exact P|]. rewrite <- Rmult_assoc, Rinv_r by lra. assert (Q := n1_add Fd Fs). lra.
Qed.
Print Assumptions C100_forces.

(** A starting point whose orbit cannot leave the band: then the true orbit exists, stays in the band, and every simulation of it with
    short enough steps goes through to the end and stays as close to it as the fourth power of the step and the disturbance allow. *)
Theorem C100_flight : forall p0 v0 lo hi len, 6628138 < lo -> hi < 6856752 -> trapped p0 v0 lo hi -> 0 <= len ->
  exists p v, p 0 = p0 /\ v 0 = v0 /\ orbit_motion (fun t => attraction (p t)) len p v /\ (forall t, 0 <= t <= len -> lo < norm3 (p t) < hi) /\
  exists C r, 0 < C /\ 0 < r /\ forall sat mt cur accl j W U delta, definite sat j -> (length mt <= length cur)%nat -> (length (rw_wheels (s_rw sat)) <= length accl)%nat ->
  0 <= delta <= r -> forces_near false sat mt cur (top_speed p0 v0 lo) delta -> exists dt0, 0 < dt0 /\
  forall stream dt N wd, 0 < dt <= dt0 -> INR N * dt <= len -> ready accl W U dt N wd -> v_pos (sv (w_state wd)) = p0 -> v_vel (sv (w_state wd)) = v0 ->
  exists wd', updates (fun h s => vector_field false sat mt h s cur accl) stream true dt N wd = Ok wd' /\
  norm3 (sub3 (v_pos (sv (w_state wd'))) (p (INR N * dt))) <= C * (dt ^ 4 + delta) /\
  norm3 (sub3 (v_vel (sv (w_state wd'))) (v (INR N * dt))) <= C * (dt ^ 4 + delta).
Proof.
  intros p0 v0 lo hi len HLO HHI TR L0. destruct (orbit_exists p0 v0 (trapped_momentum p0 v0 lo hi ltac:(lra) TR)) as (p & v & EP & EV & OD).
  assert (OM : orbit_motion (fun t => attraction (p t)) len p v) by (intros t _; rewrite <- kep_attraction; apply OD).
  assert (TR' : trapped (p 0) (v 0) lo hi) by (rewrite EP, EV; exact TR). assert (OT := orbit_trapped p v len lo hi L0 ltac:(lra) OM TR'). rewrite EP, EV in OT.
  exists p, v. split; [exact EP|]. split; [exact EV|]. split; [exact OM|]. split; [intros t Ht; apply OT, Ht|].
  destruct (C100_completes lo hi (top_speed p0 v0 lo) len HLO HHI (sqrt_pos _) L0) as (C & r & PC & Pr & H). exists C, r. split; [exact PC|]. split; [exact Pr|].
  intros sat mt cur accl j W U delta DF LM LA Hd HF. destruct (H false sat mt cur accl j W U delta DF LM LA Hd HF) as (W' & dt0 & T0 & H'). exists dt0. split; [exact T0|].
  intros stream dt N wd DT HN RD P0 Q0. destruct (H' (fun t => attraction (p t)) p v 0 stream dt N wd) as (wd' & UP & E1 & E2 & _); try assumption; try lra.
  - intros t Ht. destruct (OT t Ht) as [G1 G2]. split; [lra|]. split; [exact G2|]. rewrite norm3_self'. lra.
  - rewrite P0, EP, norm3_self'. lra.
  - rewrite Q0, EV, norm3_self'. lra.
  - rewrite Rplus_0_l in E1, E2. exists wd'. split; [exact UP|]. split; assumption.
Qed.
Print Assumptions C100_flight.

(** ** examples *)
(** the ball on its circle, its third wheel being sped up: 90 minutes in steps of a twentieth of a second *)
Example C100_ex : exists wd, trapped (v_pos (circle 0)) (v_vel (circle 0)) 6700000 6800000 /\ definite ball 4 /\ forces_near false ball [] [] (top_speed (v_pos (circle 0)) (v_vel (circle 0)) 6700000) 0 /\
  (length (rw_wheels (s_rw ball)) <= length [0; 0; 2])%nat /\ ready [0; 0; 2] 4 10 0.05 (Z.to_nat 108000) wd /\ v_pos (sv (w_state wd)) = v_pos (circle 0) /\ v_vel (sv (w_state wd)) = v_vel (circle 0).
Proof.
  set (h := fun _ : nat => CJ (mkJ 0 0)). assert (OR : 0 < orbit_r) by (unfold orbit_r; lra). assert (MV := MU_pos).
  assert (P : v_pos (circle 0) = mk3 orbit_r 0 0) by (unfold circle; cbn [v_pos]; rewrite Rmult_0_r, cos_0, sin_0; apply mk3_c; ring).
  assert (Q : v_vel (circle 0) = mk3 0 (orbit_r * orbit_n) 0) by (unfold circle; cbn [v_vel]; rewrite Rmult_0_r, cos_0, sin_0; apply mk3_c; ring).
  assert (N : norm3 (v_pos (circle 0)) = orbit_r) by apply circle_norm.
  destruct (state_made h 0 (circle 0)) as (s & E & CA & SV & CL & _); [rewrite N; unfold orbit_r; lra|]. exists (mkWorld s h (gyro_init 0 0 zero3) 0). unfold ready. cbn [w_state w_store]. rewrite SV, CL.
  assert (ZN : ZnearestE (0.05 * 1000000) = 50000%Z). { replace (0.05 * 1000000) with 50000 by lra. apply (Znearest_imp _ 50000 50000). replace (50000 - 50000) with 0 by ring. rewrite Rabs_R0. lra. }
  split; [|split; [|split; [|split; [|split; [|split; reflexivity]]]]].
  - split; [rewrite N; unfold orbit_r; lra|]. intros r Hr. assert (R0 : 0 < r) by (destruct Hr as [-> | ->]; lra). assert (NE : r - orbit_r <> 0) by (destruct Hr as [-> | ->]; unfold orbit_r; lra).
    unfold energy2. rewrite N. change earth_mu with MU. rewrite P, Q.
    replace (dot3 (mk3 0 (orbit_r * orbit_n) 0) (mk3 0 (orbit_r * orbit_n) 0)) with (MU / orbit_r). 2:{ unfold dot3. cbn [x3 y3 z3]. rnumg. replace (0 * 0 + orbit_r * orbit_n * (orbit_r * orbit_n) + 0 * 0) with (orbit_r * orbit_r * (orbit_n * orbit_n)) by ring. rewrite orbit_n_sq. field. lra. }
    replace (dot3 (cross3 (mk3 orbit_r 0 0) (mk3 0 (orbit_r * orbit_n) 0)) (cross3 (mk3 orbit_r 0 0) (mk3 0 (orbit_r * orbit_n) 0))) with (MU * orbit_r). 2:{ unfold cross3, dot3. cbn [x3 y3 z3]. rnumg. transitivity (orbit_r * orbit_r * (orbit_r * orbit_r) * (orbit_n * orbit_n)); [rewrite orbit_n_sq; field; lra|ring]. }
    assert (SQ : 0 < (r - orbit_r) * (r - orbit_r)) by (assert (X := Rlt_0_sqr _ NE); exact X).
    apply Rminus_gt_0_lt. replace (MU * orbit_r / (r * r) - (MU / orbit_r - 2 * MU / orbit_r + 2 * MU / r)) with (MU / orbit_r * ((r - orbit_r) * (r - orbit_r)) / (r * r)) by (field; lra).
    apply Rdiv_lt_0_compat; [apply Rmult_lt_0_compat; [apply Rdiv_lt_0_compat; lra|exact SQ]|apply Rmult_lt_0_compat; exact R0].
  - split; [lra|]. intros w. rewrite ball_total. right. destruct w as [a b c]. unfold id3. vunfoldg. rnumg. ring.
  - intros h' s' m F T FR _ _ _ _ EF. destruct (low_force ball h' s' m F T FR ltac:(unfold ball; cbn [s_mass]; lra) EF) as (Fd & Td & Fs & Ts & EDr & ES & ->). destruct (ball_no_surface _ _ _ _ _ _ EDr ES) as [-> ->].
    replace (scale3 (/ s_mass ball) (add3 zero3 zero3)) with (sub3 (mk3 0 0 0) (mk3 0 0 0)) by (unfold zero3; vunfoldg; rnumg; apply mk3_c; ring). rewrite norm3_self'. lra.
  - cbn. lia.
  - split. { exists (mkJ 0 0). split; [reflexivity|]. rewrite ZN. cbn [j_us]. split; [lia|]. replace datetime_end with 315537897600000000%Z by (vm_compute; reflexivity). rewrite <- (Z2Nat.id 108000) by lia. lia. }
    split; [unfold fresh; rewrite CL, SV; exact E|]. split; [unfold circle, unitq; cbn [v_att]; rewrite Rmult_0_r, cos_0, sin_0; vunfoldg; rnumg; ring|].
    split. { apply Rle_trans with (n1 (v_rate (circle 0))); [apply norm3_n1|]. unfold circle, n1, spin. cbn [v_rate x3 y3 z3]. rewrite Rabs_R0, Rabs_pos_eq; lra. }
    split; [|reflexivity]. unfold circle. cbn [v_whl]. repeat constructor; rewrite Rabs_pos_eq; lra.
Qed.
