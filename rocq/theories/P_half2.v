(** * Lemmas: the first measurement after the filter is constructed, and one call of the daemon seen from the attitude filter *)
From Coq Require Import Reals ZArith List Bool Lra Psatz Lia.
From Verif Require Import Num Vec Mat6 M_vector M_quaternion M_struct M_dyn M_integ M_obs M_ctrl M_fsm M_mgr S_rot S_integ S_obs S_steady P_quat P_wheel P_dyn P_dyn2 P_integ P_obs P_obs3 P_steady Props_obs Props_dyn Props_mgr P_farr P_est1 P_est2 P_est3 P_tot3 P_orb3 Props_est P_tri1 P_tri2 P_tri3 P_tri4 P_tri5 Props_tri P_half1.
Local Open Scope R_scope.

Lemma inv3_scal s : s <> 0 -> inv3 (scalem s (id3 (T:=R))) = scalem (/ s) id3.
Proof. intros H. unfold inv3, det3. vunfoldg. cbn. rnumg. repeat (f_equal; try (field; assumption)). Qed.
Lemma mm_scal s t : mm (scalem s (id3 (T:=R))) (scalem t id3) = scalem (s * t) id3. Proof. vring. Qed.
Lemma addm_scal s t : addm (scalem s (id3 (T:=R))) (scalem t id3) = scalem (s + t) id3. Proof. vring. Qed.
Lemma det_scal s : det3 (scalem s (id3 (T:=R))) = s * s * s. Proof. unfold det3. vunfoldg. cbn. rnumg. ring. Qed.
Lemma xi_dot (q : quat) (d : v3) : dotq (fixed_q q d) q = dotq q q.
Proof. destruct q as [q0 qa qb qc], d as [da db dc]. unfold fixed_q, xi_mul, xi, vec. vunfoldg. cbn. rnumg. lra. Qed.
Lemma err_self (q : quat) : vec (error_quat q q) = zero3.
Proof. destruct q as [q0 qa qb qc]. unfold error_quat, product, conjugate, vec. vunfoldg. cbn [qw qx qy qz x3 y3 z3]. rnumg. f_equal; ring. Qed.
(** the corrected quaternion is at most half the correction away *)
Lemma fixed_near (q : quat) d : dotq q q = 1 -> let p := normalizeq (fixed_q q d) in dotq p p = 1 /\ normq (subq p q) <= norm3 d / 2.
Proof.
  intros U p. assert (FS := fixed_size q d). rewrite U, Rmult_1_l in FS. assert (D2 := n3sq d). assert (DP := n3pos d). set (t := norm3 d) in *. assert (T2 := sq0 t). set (s := 1 + dot3 d d / 4) in *. assert (S1 : 1 <= s) by (unfold s; lra). assert (NZ : fixed_q q d <> zeroq). { intros Z. rewrite Z in FS. assert (ZZ : dotq zeroq zeroq = 0) by (unfold zeroq; vunfoldg; cbn [qw qx qy qz]; rnumg; ring). lra. }
  assert (NQ : normq (fixed_q q d) = sqrt s) by (unfold normq; rnumg; rewrite FS; reflexivity). assert (SP : 0 < sqrt s) by (apply sqrt_lt_R0; lra). assert (SS : sqrt s * sqrt s = s) by (apply sqrt_sqrt; lra). set (w := sqrt s) in *. assert (PE : p = scaleq (/ w) (fixed_q q d)) by (unfold p; rewrite (normalizeq_nz _ NZ), NQ; reflexivity).
  assert (PP : dotq p p = 1). { rewrite PE, v_dot, FS, <- SS. field. lra. } split; [exact PP|].
  assert (PQ : dotq p q = / w). { rewrite PE. transitivity (/ w * dotq (fixed_q q d) q); [vring|]. rewrite xi_dot, U. ring. }
  apply Rsqr_incr_0; [|apply normq0|lra]. unfold Rsqr. rewrite normq2. replace (dotq (subq p q) (subq p q)) with (dotq p p + dotq q q - 2 * dotq p q) by vring. rewrite PP, U, PQ. assert (W1 : 1 <= w) by (rewrite <- sqrt_1; apply sqrt_le_1; lra).
  assert (IW : / w <= 1) by (rewrite <- Rinv_1; apply Rinv_le_contravar; lra). assert (I0 : 0 < / w) by (apply Rinv_0_lt_compat, SP). assert (WI : w * / w = 1) by (apply Rinv_r; lra). assert (X : 1 - / w <= w - 1) by nra. assert (Y : (w - 1) * 2 <= s - 1) by nra. unfold s in Y. lra.
Qed.
Lemma half_cov v w : mm6 (subm6 id6 (mkB (scalem (1 / 2) id3) zerom zerom zerom)) (mkB (scalem v id3) zerom zerom (scalem w id3)) = mkB (scalem (v / 2) id3) (scalem 0 id3) (scalem 0 id3) (scalem w id3).
Proof. unfold mm6, subm6, id6, diag6. cbn [b11 b12 b21 b22]. f_equal; vunfoldg; cbn; rnumg; f_equal; try (f_equal; field); lra. Qed.
Lemma first_meas z q0 g : dotq q0 q0 = 1 -> af_measurement z (af_init q0) = Ok g ->
  even_cov (a_P g) (SENSOR_SIGMA ^ 2 / 2) 0 (INITIAL_BIAS ^ 2) /\ a_b g = zero3 /\ a_dq g = zero3 /\ dotq (a_q g) (a_q g) = 1 /\ normq (subq (a_q g) q0) <= normq (subq z q0).
Proof.
  intros U. assert (V := R_pos). unfold af_measurement, af_init. cbn [a_P a_q a_b a_dq a_db b11 b12 b21 b22 diag6]. unfold af_R. set (v := SENSOR_SIGMA ^ 2) in *. rewrite addm_scal, det_scal. destruct (Reqb_spec ((v + v) * (v + v) * (v + v)) 0) as [Z|Z]; [discriminate|].
  unfold af_gain, diag6. cbn [b11 b21]. unfold af_R. fold v. rewrite addm_scal, inv3_scal by lra. assert (ZM : forall m : m3, mm zerom m = zerom) by vring. rewrite mm_scal, ZM. replace (v * / (v + v)) with (1 / 2) by (field; lra).
  intros E. injection E as <-. unfold af_reset. cbn [a_P a_q a_b a_dq a_db]. rewrite sub3_0_r. split; [|split; [|split; [reflexivity|]]].
  - apply half_cov.
  - generalize (vec (error_quat z q0)). intros y. assert (ZV : forall u : v3, mv zerom u = zero3) by vring. rewrite ZV. apply add3_0_l.
  - set (y := vec (error_quat z q0)). change (addq q0 (scaleq 0.5 (xi_mul (xi q0) (mv (scalem (1 / 2) id3) y)))) with (fixed_q q0 (mv (scalem (1 / 2) id3) y)). destruct (fixed_near q0 (mv (scalem (1 / 2) id3) y) U) as [A B]. split; [exact A|]. eapply Rle_trans; [exact B|]. rewrite mv_scalem, mv_id3, nscale, Rabs_pos_eq by lra.
    assert (YN : norm3 y <= normq (subq z q0)). { assert (X := err_sub q0 z q0). rewrite err_self in X. fold y in X. replace (sub3 y zero3) with y in X by (symmetry; apply sub3_0_r). rewrite X. eapply Rle_trans; [apply vec_le|]. rewrite norm_prod. replace (normq q0) with 1; [right; ring|]. unfold normq. rnumg. rewrite U. symmetry. apply sqrt_1. }
    assert (P0 := n3pos y). lra.
Qed.

(** ** one call of the daemon *)
Lemma commands_filter clock x id b t m m' e : mission_commands clock x id b t m = (m', e) -> g_filter m' = g_filter m.
Proof.
  unfold mission_commands. repeat (match goal with |- (if ?c then _ else _) = _ -> _ => destruct c | |- (match ?c with _ => _ end) = _ -> _ => destruct c as [[? ?]|?] end; try (intros E; injection E as <- _; reflexivity)).
  all: try (destruct (rbind _ _) as [[? ?]|?]; intros E; injection E as <- _; reflexivity).
  all: try (destruct (spindown_cmd _); intros E; injection E as <- _; reflexivity).
Qed.
(** the daemon's call with sensor data is a measurement update with the tracker's attitude followed by the gyro steps that fit, all with the
    reading less the bias just estimated *)
Lemma call_att model fuel h clock meas dur id b t x v z m m' : mgr_propagate model fuel h clock meas dur id b t (Some (x, v, z)) m = Some (Ok m') ->
  exists g, af_measurement z (kf_att (g_filter m)) = Ok g /\ kf_att (g_filter (fst (sensor_input h (Some (x, v, z)) m))) = g /\ kf_gyro_dt (g_filter m') = kf_gyro_dt (g_filter m) /\
  integrate fuel (fun a => Ok (af_propagate (sub3 (v_rate (cs_v meas)) (a_b g)) (kf_gyro_dt (g_filter m)) a)) (kf_gyro_dt (g_filter m)) dur g = Some (Ok (kf_att (g_filter m'))).
Proof.
  unfold mgr_propagate, sensor_input, kf_update. destruct (pf_update h x v (kf_pos (g_filter m))) as [p [e|]]; [discriminate|]. destruct (af_measurement z (kf_att (g_filter m))) as [g|e]; [|discriminate].
  set (m1 := mkMgr _ _ _ _ _). destruct (mission_input clock meas id b t m1) as [m2 [e|]] eqn:MI; [discriminate|]. intros H. exists g. split; [reflexivity|]. split; [reflexivity|].
  unfold mission_input in MI. cbn [kf_output] in MI. apply commands_filter in MI. cbn [g_filter] in MI. rewrite MI in H. clear MI. unfold kf_propagate in H. cbn [kf_last kf_att kf_gyro_dt kf_pos kf_gps_dt g_filter m1] in H.
  destruct (integrate fuel (fun a => Ok (af_propagate _ _ a)) (kf_gyro_dt (g_filter m)) dur g) as [[a|e]|]; try discriminate. destruct (integrate fuel _ (kf_gps_dt (g_filter m)) dur p) as [[p'|e]|]; try discriminate. injection H as <-. cbn [g_filter kf_att kf_gyro_dt]. split; reflexivity.
Qed.
(** a call that lasts one gyro step does one gyro step *)
Lemma one_step {W} fuel (step : W -> res W) dt w w' : 0.001 <= dt -> integrate fuel step dt dt w = Some (Ok w') -> step w = Ok w'.
Proof.
  intros H. unfold integrate. destruct fuel as [|fuel]; [discriminate|]. cbn [int_loop]. replace (loop_cond dt dt) with true by (symmetry; apply cond_R; lra). destruct (step w) as [x|e]; [|discriminate]. destruct fuel as [|fuel]; [discriminate|]. cbn [int_loop].
  destruct (loop_cond dt (dt + dt)%num) eqn:C; [exfalso; apply cond_R in C; revert C; rnumg; lra|]. intros E. injection E as ->. reflexivity.
Qed.
