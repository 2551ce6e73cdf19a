(** * C117: the daemon's filter subtracts the gyro bias twice and so learns half of it *)
From Coq Require Import Reals ZArith List Bool Lra Psatz Lia.
From Verif Require Import Num Vec Mat6 M_vector M_quaternion M_frame M_jday S_frame P_spin P_qf M_struct M_dyn M_integ M_obs M_ctrl M_fsm M_mgr S_rot S_integ S_obs S_steady P_quat P_wheel P_dyn P_dyn2 P_integ P_obs P_obs3 P_steady Props_obs Props_frame Props_dyn Props_mgr P_farr P_est1 P_est2 P_est3 P_tot3 P_orb3 Props_est P_tri1 P_tri2 P_tri3 P_tri4 P_tri5 Props_tri P_half1 P_half2.
Import ListNotations.
Local Open Scope R_scope.

(** one call of the daemon after another, each given fresh data: any mission, any position data, any clock *)
Record Call := mkCall { i_fuel : nat; i_store : store; i_clock : AClock; i_meas : CState; i_dur : R; i_id : Z; i_bore : v3; i_tgt : v3; i_pos : v3; i_vel : v3; i_att : quat }.
Definition calls (model : bool) (i : nat -> Call) (m : nat -> Mgr) : Prop :=
  forall k, mgr_propagate model (i_fuel (i k)) (i_store (i k)) (i_clock (i k)) (i_meas (i k)) (i_dur (i k)) (i_id (i k)) (i_bore (i k)) (i_tgt (i k)) (Some (i_pos (i k), i_vel (i k), i_att (i k))) (m k) = Some (Ok (m (S k))).
(** what the gyro reads, and the attitude and rate the controllers are given in a call: those of the filters after the measurement update *)
Definition gyro (c : Call) : v3 := v_rate (cs_v (i_meas c)).
Definition given (c : Call) (m : Mgr) : CState := shown (i_meas c) (g_filter (fst (sensor_input (i_store c) (Some (i_pos c, i_vel c, i_att c)) m))).

Lemma steps_fixed {W} fuel (step : W -> res W) dt dur w w' : step w = Ok w -> integrate fuel step dt dur w = Some (Ok w') -> w' = w.
Proof.
  intros F. unfold integrate. generalize dt at 2. induction fuel as [|fuel IH]; intros t; [discriminate|]. cbn [int_loop]. destruct (loop_cond dur t); [rewrite F; apply IH|]. intros E. injection E as <-. reflexivity.
Qed.
Lemma steps_keep {W} (I : W -> Prop) fuel (step : W -> W) dt dur w w' : (forall w, I w -> I (step w)) -> I w -> integrate fuel (fun w => Ok (step w)) dt dur w = Some (Ok w') -> I w'.
Proof.
  intros F. unfold integrate. generalize dt at 2. revert w. induction fuel as [|fuel IH]; intros w t IW; [discriminate|]. cbn [int_loop]. destruct (loop_cond dur t); [apply IH, F, IW|]. intros E. injection E as <-. exact IW.
Qed.
Lemma still_q dt (q : quat) : af_omega_mul zero3 dt q = q.
Proof.
  replace (zero3 (T:=R)) with (scale3 0 (mk3 1 0 0)) by vring. assert (P := psi_axis (mk3 1 0 0) 0 dt ltac:(unfold unit3; vunfoldg; cbn [x3 y3 z3]; rnumg; ring)). replace (0 * dt / 2) with 0 in P by field. rewrite sin_0 in P.
  change (af_omega_mul (scale3 0 (mk3 1 0 0)) dt q) with (moved_q (cos (norm3 (scale3 0 (mk3 1 0 0)) * dt * 0.5)) (af_psi (scale3 0 (mk3 1 0 0)) dt) q). rewrite P, nscale, Rabs_R0. replace (0 * norm3 (mk3 1 0 0) * dt * 0.5) with 0 by lra. rewrite cos_0. clear. destruct q as [q0 qa qb qc]. unfold moved_q, mkqv, vec. vunfoldg. cbn. rnumg. f_equal; ring.
Qed.
(** ** the filter that knows the attitude and half the bias stays there: any covariance, any step size, any number of gyro steps per call *)
Theorem C117_stuck : forall model i m qs bs, calls model i m -> unitq qs -> (forall k, gyro (i k) = bs /\ i_att (i k) = qs) ->
  a_q (kf_att (g_filter (m O))) = qs -> a_b (kf_att (g_filter (m O))) = scale3 (1 / 2) bs -> a_dq (kf_att (g_filter (m O))) = zero3 ->
  forall k, a_q (kf_att (g_filter (m k))) = qs /\ a_b (kf_att (g_filter (m k))) = scale3 (1 / 2) bs /\ v_att (cs_v (given (i k) (m k))) = qs /\ v_rate (cs_v (given (i k) (m k))) = scale3 (1 / 2) bs.
Proof.
  intros model i m qs bs C U S Q0 B0 D0.
  set (I := fun f => a_q f = qs /\ a_b f = scale3 (1 / 2) bs /\ a_dq f = zero3). assert (UQ : dotq qs qs = 1) by exact U.
  assert (HB : sub3 bs (scale3 (1 / 2) bs) = scale3 (1 / 2) bs) by (destruct bs as [b1 b2 b3]; vunfoldg; cbn [x3 y3 z3]; rnumg; f_equal; lra).
  assert (ME : forall f g, I f -> af_measurement qs f = Ok g -> I g).
  { intros f g (A & B & D). unfold af_measurement. destruct (Reqb (det3 (addm af_R (b11 (a_P f)))) 0); [discriminate|]. destruct (af_gain (a_P f)) as [K1 K2]. rewrite A, D, err_self, sub3_0_r, !mv_zero3. intros E. injection E as <-. unfold I, af_reset. cbn [a_q a_b a_dq a_db]. rewrite B, add3_0_r. split; [|split; reflexivity].
    replace (addq qs (scaleq 0.5 (xi_mul (xi qs) zero3))) with (scaleq 1 qs) by (destruct qs as [q0 qa qb qc]; unfold xi_mul, xi, vec; vunfoldg; cbn; rnumg; f_equal; lra). apply P_spin.normalize_scaled; [lra|exact UQ]. }
  assert (PR : forall dt f, I f -> I (af_propagate (scale3 (1 / 2) bs) dt f)). { intros dt f (A & B & D). unfold I, af_propagate. cbv zeta. cbn [a_q a_b a_dq]. rewrite A, B, D. replace (sub3 (scale3 (1 / 2) bs) (scale3 (1 / 2) bs)) with (zero3 (T:=R)) by (clear; vring). rewrite still_q. repeat split. }
  assert (INV : forall k, I (kf_att (g_filter (m k)))).
  { induction k as [|k IH]; [split; [exact Q0|split; [exact B0|exact D0]]|]. destruct (call_att _ _ _ _ _ _ _ _ _ _ _ _ _ _ (C k)) as (g & E1 & _ & _ & E2). destruct (S k) as [SG SQ]. rewrite SQ in E1. unfold gyro in SG. assert (IG := ME _ _ IH E1). destruct IG as (GA & GB & GD). rewrite SG, GB, HB in E2. exact (steps_keep I _ _ _ _ _ _ (PR _) (conj GA (conj GB GD)) E2). }
  intros k. destruct (INV k) as (A & B & D). split; [exact A|]. split; [exact B|]. destruct (call_att _ _ _ _ _ _ _ _ _ _ _ _ _ _ (C k)) as (g & E1 & E3 & _). destruct (S k) as [SG SQ]. rewrite SQ in E1. unfold given, shown. rewrite E3. unfold gyro in SG. destruct (ME _ _ (INV k) E1) as (GA & GB & GD). cbn [cs_v v_att v_rate]. rewrite SG, GA, GB. split; [reflexivity|exact HB].
Qed.
Print Assumptions C117_stuck.

(** ** from the filter's own start, calls of one gyro step: the attitude is found, the rate given to the controllers keeps half the bias *)
Theorem C117_half : forall dt, 0.001 <= dt -> exists eps K rho, 0 < eps /\ 0 < K /\ 0 < rho < 1 /\
  forall model i m q0 qs bs r d, calls model i m -> (forall k, i_dur (i k) = dt) -> kf_gyro_dt (g_filter (m O)) = dt -> kf_att (g_filter (m O)) = af_init q0 ->
  unitq q0 -> unitq (qs O) -> 0 <= r <= eps -> 0 <= d <= eps -> normq (subq (i_att (i O)) (qs O)) <= d -> turning dt qs bs r d (fun k => gyro (i k)) (fun k => i_att (i (S k))) ->
  let e0 := normq (subq q0 (qs O)) + norm3 bs in e0 <= eps ->
  forall k, normq (subq (v_att (cs_v (given (i k) (m k)))) (qs k)) <= K * (rho ^ k * e0 + d + r ^ 2) /\
    norm3 (sub3 (v_rate (cs_v (given (i k) (m k)))) (sub3 (gyro (i k)) (scale3 (1 / 2) bs))) <= K * (rho ^ k * e0 + d + r ^ 2) /\
    norm3 (sub3 (a_b (kf_att (g_filter (m (S k))))) (scale3 (1 / 2) bs)) <= K * (rho ^ k * e0 + d + r ^ 2).
Proof.
  intros dt H. destruct (twice_run dt (SENSOR_SIGMA ^ 2 / 2) 0 (INITIAL_BIAS ^ 2)) as (eps & K & rho & E0 & K0 & R0 & T); [lra| |].
  { intros x y. assert (0 <= SENSOR_SIGMA ^ 2 * (x * x)) by (apply Rmult_le_pos; [left; apply R_pos|apply sq0]). assert (0 <= INITIAL_BIAS ^ 2 * (y * y)) by (apply Rmult_le_pos; [apply pow2_ge_0|apply sq0]). lra. }
  exists (eps / 4), (3 * K), rho. split; [lra|]. split; [lra|]. split; [exact R0|]. intros model i m q0 qs bs r d C HD HG HA U0 Us HR HDd TR0 TU e0 HE.
  assert (GD : forall k, kf_gyro_dt (g_filter (m k)) = dt) by (induction k as [|k IH]; [exact HG|]; destruct (call_att _ _ _ _ _ _ _ _ _ _ _ _ _ _ (C k)) as (g & _ & _ & E & _); rewrite E; exact IH).
  set (G := fun k => kf_att (g_filter (fst (sensor_input (i_store (i k)) (Some (i_pos (i k), i_vel (i k), i_att (i k))) (m k))))).
  assert (ST : forall k, af_measurement (i_att (i k)) (kf_att (g_filter (m k))) = Ok (G k) /\ kf_att (g_filter (m (S k))) = af_propagate (sub3 (gyro (i k)) (a_b (G k))) dt (G k)).
  { intros k. destruct (call_att _ _ _ _ _ _ _ _ _ _ _ _ _ _ (C k)) as (g & E1 & E3 & _ & E2). fold (G k) in E3. subst g. split; [exact E1|]. rewrite GD, HD in E2. apply one_step in E2; [|exact H]. injection E2 as E2. symmetry. exact E2. }
  assert (CY : forall k, af_measurement (i_att (i (S k))) (af_propagate (sub3 (gyro (i k)) (a_b (G k))) dt (G k)) = Ok (G (S k))). { intros k. rewrite <- (proj2 (ST k)). apply ST. }
  assert (M0 := proj1 (ST O)). rewrite HA in M0. destruct (first_meas _ _ _ U0 M0) as (F1 & F2 & F3 & F4 & F5).
  assert (N0 := normq0 (subq q0 (qs O))). assert (NB := n3pos bs).
  assert (TRI : forall a b c : quat, normq (subq a c) <= normq (subq a b) + normq (subq b c)). { intros a b c. replace (subq a c) with (addq (subq a b) (subq b c)) by vring. apply P_qf.normq_triangle. }
  assert (SYM : forall a b : quat, normq (subq a b) = normq (subq b a)). { intros a b. unfold normq. f_equal. rnumg. vring. }
  assert (EM : missed (qs O) (scale3 (1 / 2) bs) (G O) <= 2 * e0 + d). { unfold missed. rewrite F2. replace (sub3 zero3 (scale3 (1 / 2) bs)) with (scale3 (- (1 / 2)) bs) by (clear; vring). rewrite nscale, Rabs_Ropp, Rabs_pos_eq by lra. assert (A := TRI (a_q (G O)) q0 (qs O)). assert (B := TRI (i_att (i O)) (qs O) q0). rewrite (SYM (qs O) q0) in B. unfold e0. lra. }
  assert (X := T qs bs r d (fun k => gyro (i k)) (fun k => i_att (i (S k))) G Us F4 F3 F1 ltac:(lra) ltac:(lra) ltac:(lra) TU CY).
  intros k. assert (Y := X k). set (M := missed (qs O) (scale3 (1 / 2) bs) (G O)) in *. assert (RK : 0 < rho ^ k <= 1) by (split; [apply pow_lt; lra|rewrite <- (pow1 k); apply pow_incr; lra]).
  assert (BN : K * (rho ^ k * M + d + r ^ 2) <= 3 * K * (rho ^ k * e0 + d + r ^ 2)). { replace (3 * K * (rho ^ k * e0 + d + r ^ 2)) with (K * (3 * (rho ^ k * e0 + d + r ^ 2))) by ring. apply Rmult_le_compat_l; [lra|]. assert (rho ^ k * M <= rho ^ k * (2 * e0 + d)) by (apply Rmult_le_compat_l; lra). assert (rho ^ k * d <= 1 * d) by (apply Rmult_le_compat_r; lra). assert (0 <= rho ^ k * e0) by (apply Rmult_le_pos; unfold e0; lra). assert (0 <= r ^ 2) by apply pow2_ge_0. lra. }
  unfold missed in Y. assert (N1 := n3pos (sub3 (a_b (G k)) (scale3 (1 / 2) bs))). assert (N2 := normq0 (subq (a_q (G k)) (qs k))).
  assert (BB : norm3 (sub3 (a_b (G k)) (scale3 (1 / 2) bs)) <= 3 * K * (rho ^ k * e0 + d + r ^ 2)) by lra. split; [|split].
  - change (v_att (cs_v (given (i k) (m k)))) with (a_q (G k)). lra.
  - change (v_rate (cs_v (given (i k) (m k)))) with (sub3 (gyro (i k)) (a_b (G k))). replace (sub3 (sub3 (gyro (i k)) (a_b (G k))) (sub3 (gyro (i k)) (scale3 (1 / 2) bs))) with (scale3 (-1) (sub3 (a_b (G k)) (scale3 (1 / 2) bs))) by (generalize (gyro (i k)) (a_b (G k)); clear; vring). rewrite nscale, Rabs_left by lra. lra.
  - rewrite (proj2 (ST k)). change (a_b (af_propagate (sub3 (gyro (i k)) (a_b (G k))) dt (G k))) with (a_b (G k)). exact BB.
Qed.
Print Assumptions C117_half.
(** the body at rest, sensors exact: the controllers are shown, in the end, a body turning at half the gyro's bias *)
Theorem C117_rest : forall dt, 0.001 <= dt -> exists eps K rho, 0 < eps /\ 0 < K /\ 0 < rho < 1 /\
  forall model i m qs bs, calls model i m -> (forall k, i_dur (i k) = dt) -> kf_gyro_dt (g_filter (m O)) = dt -> kf_att (g_filter (m O)) = af_init qs ->
  unitq qs -> norm3 bs <= eps -> (forall k, gyro (i k) = bs /\ i_att (i k) = qs) ->
  forall k, norm3 (sub3 (v_rate (cs_v (given (i k) (m k)))) (scale3 (1 / 2) bs)) <= K * rho ^ k * norm3 bs.
Proof.
  intros dt H. destruct (C117_half dt H) as (eps & K & rho & E0 & K0 & R0 & T). exists eps, K, rho. split; [exact E0|]. split; [exact K0|]. split; [exact R0|]. intros model i m qs bs C HD HG HA U HB S k.
  assert (ZQ : normq (subq qs qs) = 0). { unfold normq. rnumg. replace (dotq (subq qs qs) (subq qs qs)) with 0 by vring. apply sqrt_0. }
  assert (TU : turning dt (fun _ => qs) bs 0 0 (fun k => gyro (i k)) (fun k => i_att (i (Datatypes.S k)))). { apply rest_turning. intros j. split; [rewrite (proj1 (S j)); replace (sub3 bs bs) with (zero3 (T:=R)) by (clear; vring); rewrite nzero; lra|rewrite (proj2 (S (Datatypes.S j))), ZQ; lra]. }
  destruct (T model i m qs (fun _ => qs) bs 0 0 C HD HG HA U U ltac:(lra) ltac:(lra) ltac:(cbv beta; rewrite (proj2 (S O)), ZQ; lra) TU ltac:(cbv beta zeta; rewrite ZQ; lra) k) as (_ & X & _). cbv beta in X.
  rewrite (proj1 (S k)), ZQ in X. replace (sub3 bs (scale3 (1 / 2) bs)) with (scale3 (1 / 2) bs) in X by (clear; destruct bs as [b1 b2 b3]; vunfoldg; cbn [x3 y3 z3]; rnumg; f_equal; lra). eapply Rle_trans; [exact X|]. right. ring.
Qed.
Print Assumptions C117_rest.
(** ** such runs exist: SLEEP, a fixed position above the equator, a position filter whose step is longer than the call *)
Definition day0 : Clock R := mkClock 0%R 2023%Z 6%Z 15%Z 12%Z 30%Z 30%R false false.
Definition rest_call (bs : v3) (qs : quat) (dt a : R) (c : AClock) : Call := mkCall 2 (fun _ => c) c (mkCS (mkSV zero3 zero3 qs bs []) zero3) dt 1 zero3 zero3 (mk3 a 0 0) zero3 qs.
Lemma rest_step bs qs dt a c m : 0.001 <= dt -> wgs_a <= a -> let i := rest_call bs qs dt a c in let ok m := cov_ok (a_P (kf_att (g_filter m))) /\ symm6 (p_P (kf_pos (g_filter m))) /\ psd6 (p_P (kf_pos (g_filter m))) /\ p_x (kf_pos (g_filter m)) = mk6 (mk3 a 0 0) zero3 /\
    kf_gyro_dt (g_filter m) = dt /\ dt + 0.001 <= kf_gps_dt (g_filter m) in
  ok m -> exists m', mgr_propagate false (i_fuel i) (i_store i) (i_clock i) (i_meas i) (i_dur i) (i_id i) (i_bore i) (i_tgt i) (Some (i_pos i, i_vel i, i_att i)) m = Some (Ok m') /\ ok m'.
Proof.
  intros H HA i ok (O1 & O2 & O3 & O4 & O5 & O6). unfold i, rest_call. cbn [i_fuel i_store i_clock i_meas i_dur i_id i_bore i_tgt i_pos i_vel i_att]. unfold mgr_propagate, sensor_input, kf_update.
  assert (WA : 0 < wgs_a /\ wgs_a * wgs_e2 < wgs_a /\ 0 <= wgs_a * wgs_e2) by (assert (FF : 0.003 < wgs_f < 0.004) by (unfold wgs_f; lra); assert (E2 : 0 < wgs_e2 < 1) by (unfold wgs_e2; nra); unfold wgs_a; lra). destruct WA as (W1 & W2 & W3).
  assert (PU : exists p, pf_update (fun _ => c) (mk3 a 0 0) zero3 (kf_pos (g_filter m)) = (p, None) /\ symm6 (p_P p) /\ psd6 (p_P p) /\ p_x p = mk6 (mk3 a 0 0) zero3).
  { destruct (pf_step_cov (kf_pos (g_filter m)) (PUpd (fun _ => c) (mk3 a 0 0) zero3) O2 O3) as [S1 S2]. cbn [pf_step] in S1, S2. destruct (pf_inv _ O2 O3) as (N & EN & _). revert S1 S2. unfold pf_update. rewrite EN, O4. cbv zeta.
    assert (XE : add6 (mk6 (mk3 a 0 0) zero3) (mv6 (mm6 (p_P (kf_pos (g_filter m))) N) (sub6 (mk6 (mk3 a 0 0) zero3) (mk6 (mk3 a 0 0) zero3))) = mk6 (mk3 a 0 0) zero3).
    { replace (sub6 (mk6 (mk3 a 0 0) zero3) (mk6 (mk3 a 0 0) zero3)) with zero6 by (unfold sub6, zero6; cbn [u1 u2]; f_equal; vunfoldg; cbn [x3 y3 z3]; rnumg; f_equal; ring). rewrite mv6_zero. unfold add6, zero6. cbn [u1 u2]. rewrite !add3_0_r. reflexivity. }
    rewrite XE. cbn [u1 u2]. unfold refresh. cbv zeta. set (th := clk_theta c). rewrite (C13_lla_equator (mv (ecef_matrix th) (mk3 a 0 0))).
    - intros S1 S2. eexists. split; [reflexivity|]. cbn [fst p_P p_x] in *. split; [exact S1|]. split; [exact S2|reflexivity].
    - unfold ecef_matrix. vunfoldg. cbn. rnumg. ring.
    - intros Z. assert (D : dot3 (mv (ecef_matrix th) (mk3 a 0 0)) (mv (ecef_matrix th) (mk3 a 0 0)) = a * a). { assert (X := sin2_cos2 th). unfold Rsqr in X. transitivity (a * a * (sin th * sin th + cos th * cos th)); [|rewrite X; ring]. unfold ecef_matrix. generalize (sin th) (cos th). intros s' c'. vunfoldg. cbn. rnumg. ring. } rewrite Z in D. revert D. vunfoldg. cbn [x3 y3 z3]. rnumg. nra.
    - assert (D : x3 (mv (ecef_matrix th) (mk3 a 0 0)) * x3 (mv (ecef_matrix th) (mk3 a 0 0)) + y3 (mv (ecef_matrix th) (mk3 a 0 0)) * y3 (mv (ecef_matrix th) (mk3 a 0 0)) = a * a). { assert (X := sin2_cos2 th). unfold Rsqr in X. transitivity (a * a * (sin th * sin th + cos th * cos th)); [|rewrite X; ring]. unfold ecef_matrix. generalize (sin th) (cos th). intros s' c'. vunfoldg. cbn. rnumg. ring. } rewrite D. nra. }
  destruct PU as (p & -> & P1 & P2 & P3). destruct (meas_cov qs _ O1) as (g & -> & CG & _).
  unfold mission_input. cbn [kf_output g_filter kf_att kf_pos kf_gyro_dt kf_gps_dt cs_v v_rate]. unfold mission_commands. cbn [Z.eqb st_value Pos.eqb orb set_cmds g_filter]. unfold kf_propagate. cbn [kf_last kf_att kf_pos kf_gyro_dt kf_gps_dt g_filter]. rewrite O5.
  unfold integrate. cbn [int_loop]. replace (loop_cond dt dt) with true by (symmetry; apply cond_R; lra). assert (C2 : loop_cond dt (dt + dt)%num = false). { destruct (loop_cond dt (dt + dt)%num) eqn:E; [|reflexivity]. apply cond_R in E. revert E. rnumg. lra. } rewrite C2.
  assert (C3 : loop_cond dt (kf_gps_dt (g_filter m)) = false). { destruct (loop_cond dt (kf_gps_dt (g_filter m))) eqn:E; [|reflexivity]. apply cond_R in E. lra. } rewrite C3. eexists. split; [reflexivity|]. unfold ok. cbn [g_filter kf_att kf_pos kf_gyro_dt kf_gps_dt]. split; [apply prop_cov; [lra|exact CG]|]. repeat split; assumption.
Qed.
Theorem C117_runs : forall dt a c m0 qs bs, 0.001 <= dt -> wgs_a <= a -> kf_att (g_filter m0) = af_init qs -> symm6 (p_P (kf_pos (g_filter m0))) -> psd6 (p_P (kf_pos (g_filter m0))) -> p_x (kf_pos (g_filter m0)) = mk6 (mk3 a 0 0) zero3 ->
  kf_gyro_dt (g_filter m0) = dt -> dt + 0.001 <= kf_gps_dt (g_filter m0) -> exists i m, m O = m0 /\ calls false i m /\ (forall k, i_dur (i k) = dt) /\ (forall k, gyro (i k) = bs /\ i_att (i k) = qs) /\ (forall k, i_clock (i k) = c /\ i_id (i k) = 1%Z).
Proof.
  intros dt a c m0 qs bs H HA A0 P1 P2 P3 G1 G2. set (i := rest_call bs qs dt a c). set (st := fun m => mgr_propagate false (i_fuel i) (i_store i) (i_clock i) (i_meas i) (i_dur i) (i_id i) (i_bore i) (i_tgt i) (Some (i_pos i, i_vel i, i_att i)) m).
  set (nx := fun m => match st m with Some (Ok m') => m' | _ => m end). set (m := fun k => Nat.iter k nx m0). exists (fun _ => i), m. split; [reflexivity|]. split; [|split; [reflexivity|]; split; intros k; split; reflexivity].
  assert (OK := rest_step bs qs dt a c). cbv zeta in OK. fold i in OK.
  assert (INV : forall k, cov_ok (a_P (kf_att (g_filter (m k)))) /\ symm6 (p_P (kf_pos (g_filter (m k)))) /\ psd6 (p_P (kf_pos (g_filter (m k)))) /\ p_x (kf_pos (g_filter (m k))) = mk6 (mk3 a 0 0) zero3 /\ kf_gyro_dt (g_filter (m k)) = dt /\ dt + 0.001 <= kf_gps_dt (g_filter (m k))).
  { induction k as [|k IH]; [unfold m; cbn [Nat.iter nat_rect]; rewrite A0; split; [apply init_cov|]; repeat split; assumption|]. destruct (OK (m k) H HA IH) as (m' & E & IM). change (m (S k)) with (nx (m k)). unfold nx, st. rewrite E. exact IM. }
  intros k. destruct (OK (m k) H HA (INV k)) as (m' & E & _). cbv beta. rewrite E. change (m (S k)) with (nx (m k)). unfold nx, st. rewrite E. reflexivity.
Qed.
Print Assumptions C117_runs.
(** ** so the claim that a body at rest, watched by exact sensors, is shown to be at rest in the end is false *)
Theorem C117_finds_bias_refuted : forall dt a, 0.001 <= dt -> wgs_a <= a -> exists model i m qs bs, calls model i m /\ (forall k, i_dur (i k) = dt) /\ kf_att (g_filter (m O)) = af_init qs /\ (forall k, gyro (i k) = bs /\ i_att (i k) = qs) /\ bs <> zero3 /\
  exists k0, forall k, (k0 <= k)%nat -> norm3 bs / 4 <= norm3 (v_rate (cs_v (given (i k) (m k)))).
Proof.
  intros dt a H HA. destruct (C117_rest dt H) as (eps & K & rho & E0 & K0 & R0 & T). set (bs := mk3 eps 0 0). set (qs := mkq 1 0 0 0). assert (NB : norm3 bs = eps). { unfold norm3. rnumg. replace (dot3 bs bs) with (eps * eps) by (unfold bs; vunfoldg; cbn [x3 y3 z3]; rnumg; ring). apply sqrt_square. lra. } assert (UQ : unitq qs) by (unfold unitq, qs; vunfoldg; cbn [qw qx qy qz]; rnumg; ring).
  set (f0 := mkKF (af_init qs) (mkPF (mk6 (mk3 a 0 0) zero3) (diag6 1 1) ex_st) None dt (dt + 1)). set (m0 := mkMgr f0 (g_mag ex_mgr) (g_whl ex_mgr) [] []).
  destruct (C117_runs dt a (CClock day0) m0 qs bs H HA) as (i & m & M0 & C & ID & SN & _); [reflexivity|apply diag6_symm|apply diag6_psd; lra|reflexivity|reflexivity|cbn; lra|].
  assert (B := T false i m qs bs C ID ltac:(rewrite M0; reflexivity) ltac:(rewrite M0; reflexivity) UQ ltac:(lra) SN). exists false, i, m, qs, bs. split; [exact C|]. split; [exact ID|]. split; [rewrite M0; reflexivity|]. split; [exact SN|]. split; [intros Z; rewrite Z, nzero in NB; lra|].
  destruct (pow_lt_1_zero rho) with (y := / (4 * K)) as (k0 & HK). { rewrite Rabs_pos_eq; lra. } { apply Rinv_0_lt_compat. lra. }
  exists k0. intros k Hk. assert (X := HK k Hk). rewrite Rabs_pos_eq in X by (apply pow_le; lra). assert (Y := B k). rewrite NB in Y |- *. set (w := v_rate (cs_v (given (i k) (m k)))) in *. assert (Z : K * rho ^ k <= 1 / 4). { apply Rle_trans with (K * / (4 * K)); [apply Rmult_le_compat_l; lra|right; field; lra]. } assert (K * rho ^ k * eps <= 1 / 4 * eps) by (apply Rmult_le_compat_r; lra).
  assert (TR := nadd w (scale3 (-1) (sub3 w (scale3 (1 / 2) bs)))). replace (add3 w (scale3 (-1) (sub3 w (scale3 (1 / 2) bs)))) with (scale3 (1 / 2) bs) in TR by (generalize w bs; clear; vring). rewrite !nscale, NB, (Rabs_pos_eq (1 / 2)), (Rabs_left (-1)) in TR by lra. lra.
Qed.
Print Assumptions C117_finds_bias_refuted.
(** the hypotheses of C117_stuck and C117_half together: a daemon at rest, the filter starting knowing nothing of the bias, and one knowing half *)
Example C117_ex : exists i m bs, calls false i m /\ bs <> zero3 /\ (forall k, gyro (i k) = bs /\ i_att (i k) = mkq 1 0 0 0) /\ forall k, v_rate (cs_v (given (i k) (m k))) = scale3 (1 / 2) bs.
Proof.
  set (bs := mk3 0.01 0 0). set (i := rest_call bs (mkq 1 0 0 0) 0.05 7000000 (CClock day0)). set (f0 := mkKF (mkAF zero3 zero3 (mkq 1 0 0 0) (scale3 (1 / 2) bs) (diag6 1 1)) (mkPF (mk6 (mk3 7000000 0 0) zero3) (diag6 1 1) ex_st) None 0.05 1). set (m0 := mkMgr f0 (g_mag ex_mgr) (g_whl ex_mgr) [] []).
  set (st := fun m => mgr_propagate false (i_fuel i) (i_store i) (i_clock i) (i_meas i) (i_dur i) (i_id i) (i_bore i) (i_tgt i) (Some (i_pos i, i_vel i, i_att i)) m). set (nx := fun m => match st m with Some (Ok m') => m' | _ => m end). set (m := fun k => Nat.iter k nx m0).
  assert (OK := rest_step bs (mkq 1 0 0 0) 0.05 7000000 (CClock day0)). cbv zeta in OK. fold i in OK. assert (W : wgs_a <= 7000000) by (unfold wgs_a; lra).
  assert (INV : forall k, cov_ok (a_P (kf_att (g_filter (m k)))) /\ symm6 (p_P (kf_pos (g_filter (m k)))) /\ psd6 (p_P (kf_pos (g_filter (m k)))) /\ p_x (kf_pos (g_filter (m k))) = mk6 (mk3 7000000 0 0) zero3 /\ kf_gyro_dt (g_filter (m k)) = 0.05 /\ 0.05 + 0.001 <= kf_gps_dt (g_filter (m k))).
  { induction k as [|k IH]; [unfold m; cbn; split; [split; [apply diag6_symm|apply diag6_psd; lra]|]; split; [apply diag6_symm|]; split; [apply diag6_psd; lra|]; repeat split; lra|]. destruct (OK (m k) ltac:(lra) W IH) as (m' & E & IM). change (m (S k)) with (nx (m k)). unfold nx, st. rewrite E. exact IM. }
  assert (C : calls false (fun _ => i) m). { intros k. destruct (OK (m k) ltac:(lra) W (INV k)) as (m' & E & _). cbv beta. rewrite E. change (m (S k)) with (nx (m k)). unfold nx, st. rewrite E. reflexivity. }
  exists (fun _ => i), m, bs. split; [exact C|]. split; [intros Z; injection Z as Z; lra|]. split; [intros k; split; reflexivity|]. intros k. refine (proj2 (proj2 (proj2 (C117_stuck false (fun _ => i) m (mkq 1 0 0 0) bs C _ _ eq_refl eq_refl eq_refl k)))); [unfold unitq; vunfoldg; cbn [qw qx qy qz]; rnumg; ring|intros j; split; reflexivity].
Qed.
