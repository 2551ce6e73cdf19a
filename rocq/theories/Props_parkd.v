(** * Property C128: the whole daemon in POINT mode with a biased gyro, and the satellite it turns: parked beside the target for ever *)
From Coq Require Import Reals ZArith List Bool Lra Psatz Lia.
From Verif Require Import Num Vec Mat6 M_vector M_quaternion M_frame M_jday M_struct M_dyn M_integ M_obs M_ctrl M_fsm M_mgr S_rot S_dyn S_obs S_frame.
From Verif Require Import P_quat P_vec2 P_spin P_struct P_wheel P_dyn P_dyn2 P_integ P_obs P_obs3 P_ctrl P_ctrl2 P_ctrl4 P_ctrl5 P_bang P_est1 P_tri1 P_half1 P_half2 P_sat P_stare Props_conv Props_obs Props_mgr Props_half Props_samp Props_stare Props_asleep.
Import ListNotations.
Local Open Scope R_scope.

(** one period of POINT: the daemon is called at t0 with the true attitude, the true rate plus the bias bs, the wheels' speeds and a mission for the boresight b and the target, and until
    t1 the satellite moves by the code's equations as commanded, with no torque from outside but that of the torquers [mt] in the field B.  The estimated position sees the target in
    the fixed direction [dir] *)
Definition stare_cycle (model : bool) (sat : Satellite) (mt : list (Torquer R)) (F B : R -> v3) (bs b tgt dir : v3) (y : R -> SVec) (t0 t1 : R) (i : Call) (m m' : Mgr) : Prop :=
  mgr_propagate model (i_fuel i) (i_store i) (i_clock i) (i_meas i) (i_dur i) (i_id i) (i_bore i) (i_tgt i) (Some (i_pos i, i_vel i, i_att i)) m = Some (Ok m') /\
  i_id i = st_value Point /\ i_bore i = b /\ i_tgt i = tgt /\ i_att i = v_att (y t0) /\ gyro i = add3 (v_rate (y t0)) bs /\ v_whl (cs_v (i_meas i)) = v_whl (y t0) /\
  (let g := cs_v (given i m) in stare_rate_intl (v_pos g) (v_vel g) tgt = zero3 /\ pointing_vector (v_pos g) tgt = dir) /\
  exists mom z a e, sys_actuate mt (g_mag_cmd m') = Ok mom /\ a < t0 /\ t1 < e /\ (forall t, t0 <= t <= t1 -> y t = z t) /\
    forall t, a < t < e -> length (v_whl (z t)) = length (rw_wheels (s_rw sat)) /\
      deriv_sv z t (derivative sat (z t) (F t) (cross3 mom (B t)) (rw_torque (s_rw sat) (g_rw_cmd m')) (rw_momentum (s_rw sat) (v_whl (z t))) (g_rw_cmd m')).
(** the filter has the attitude q and half the bias *)
Definition half_knows (q : quat) (bs : v3) (f : AttF) : Prop := a_q f = q /\ a_b f = scale3 (1 / 2) bs /\ a_dq f = zero3.
Definition no_accel (s : RWS) : list R := map (fun _ => 0) (rw_wheels s).

Lemma half_meas q bs f g : unitq q -> half_knows q bs f -> af_measurement q f = Ok g -> half_knows q bs g.
Proof.
  intros UQ (A & B & D). unfold af_measurement. destruct (Reqb (det3 (addm af_R (b11 (a_P f)))) 0); [discriminate|]. destruct (af_gain (a_P f)) as [K1 K2]. rewrite A, D, err_self, sub3_0_r, !mv_zero3. intros E. injection E as <-. unfold half_knows, af_reset. cbn [a_q a_b a_dq a_db]. rewrite B, add3_0_r. split; [|split; reflexivity].
  replace (addq q (scaleq 0.5 (xi_mul (xi q) zero3))) with (scaleq 1 q) by (destruct q as [q0 qa qb qc]; unfold xi_mul, xi, vec; vunfoldg; cbn; rnumg; f_equal; lra). apply P_spin.normalize_scaled; [lra|exact UQ].
Qed.
Lemma half_prop q bs dt f : half_knows q bs f -> half_knows q bs (af_propagate (scale3 (1 / 2) bs) dt f).
Proof. intros (A & B & D). unfold half_knows, af_propagate. cbv zeta. cbn [a_q a_b a_dq]. rewrite A, B, D. replace (sub3 (scale3 (1 / 2) bs) (scale3 (1 / 2) bs)) with (zero3 (T:=R)) by (clear; vring). rewrite still_q. repeat split. Qed.
Lemma half_of (bs : v3) : sub3 bs (scale3 (1 / 2) bs) = scale3 (1 / 2) bs.
Proof. destruct bs as [b1 b2 b3]; vunfoldg; cbn [x3 y3 z3]; rnumg; f_equal; lra. Qed.
Lemma half_call model i m m' q bs : mgr_propagate model (i_fuel i) (i_store i) (i_clock i) (i_meas i) (i_dur i) (i_id i) (i_bore i) (i_tgt i) (Some (i_pos i, i_vel i, i_att i)) m = Some (Ok m') ->
  unitq q -> gyro i = bs -> i_att i = q -> half_knows q bs (kf_att (g_filter m)) -> half_knows q bs (kf_att (g_filter m')) /\ v_att (cs_v (given i m)) = q /\ v_rate (cs_v (given i m)) = scale3 (1 / 2) bs /\ v_whl (cs_v (given i m)) = v_whl (cs_v (i_meas i)).
Proof.
  intros C U G Q I. destruct (call_att _ _ _ _ _ _ _ _ _ _ _ _ _ _ C) as (g & E1 & E3 & _ & E2). rewrite Q in E1. unfold gyro in G. assert (IG := half_meas _ _ _ _ U I E1). destruct IG as (GA & GB & GD). rewrite G, GB, half_of in E2.
  split; [exact (steps_keep (half_knows q bs) _ _ _ _ _ _ (half_prop q bs _) (conj GA (conj GB GD)) E2)|]. unfold given, shown. rewrite E3. cbn [cs_v v_att v_rate v_whl]. rewrite G, GA, GB. split; [reflexivity|]. split; [apply half_of|reflexivity].
Qed.
Lemma point_call model i m m' : mgr_propagate model (i_fuel i) (i_store i) (i_clock i) (i_meas i) (i_dur i) (i_id i) (i_bore i) (i_tgt i) (Some (i_pos i, i_vel i, i_att i)) m = Some (Ok m') ->
  i_id i = st_value Point -> g_mag_cmd m' = [0; 0; 0] /\ point_and_stare (g_whl m) (given i m) (i_bore i) (i_tgt i) = Ok (g_whl m', g_rw_cmd m').
Proof.
  unfold given, mgr_propagate. destruct (sensor_input (i_store i) (Some (i_pos i, i_vel i, i_att i)) m) as [m1 [e|]] eqn:SI; [discriminate|]. cbn [fst]. intros C ID. rewrite ID in C.
  assert (W1 : g_whl m1 = g_whl m). { unfold sensor_input in SI. destruct (kf_update (i_store i) (i_pos i) (i_vel i) (i_att i) (g_filter m)) as [f e]. injection SI as <- _. reflexivity. }
  unfold mission_input in C. cbn [kf_output] in C. unfold mission_commands in C. cbn [Z.eqb st_value Pos.eqb orb g_whl] in C. fold (shown (i_meas i) (g_filter m1)) in C. rewrite W1 in C.
  destruct (point_and_stare (g_whl m) (shown (i_meas i) (g_filter m1)) (i_bore i) (i_tgt i)) as [[w a]|e]; [|discriminate]. cbn [g_filter g_mag g_whl g_mag_cmd g_rw_cmd] in C.
  destruct (kf_propagate model (i_fuel i) (i_dur i) _) as [[f|e]|]; try discriminate. injection C as <-. cbn [g_mag_cmd g_whl g_rw_cmd]. split; reflexivity.
Qed.
(** wheels asked for no torque are not accelerated *)
Lemma no_torque s : spanning s -> 0 <= rw_maxT s -> rw_accelerations s zero3 = Ok (no_accel s).
Proof.
  intros [HD HP] M. assert (DZ : rw_distribute s zero3 = map (fun _ => 0) (rw_wheels s)). { unfold rw_distribute. apply map_ext. intros w. rewrite mv_zero3. generalize (w_axis w). intros [x y z]. vunfoldg. cbn [x3 y3 z3]. rnumg. ring. }
  assert (ZE : zip_with w_acceleration (rw_wheels s) (map (fun _ => 0) (rw_wheels s)) = no_accel s). { unfold no_accel. clear. induction (rw_wheels s) as [|w l IH]; [reflexivity|]. cbn [map zip_with]. rewrite IH. f_equal. unfold w_acceleration. unfold Rdiv. apply Rmult_0_l. }
  unfold rw_accelerations. rewrite DZ. destruct (rw_limited s); [|cbn [rbind]; rewrite ZE; reflexivity].
  destruct (greatest_exists (map Rabs (map (fun _ => 0) (rw_wheels s)))) as [g G]. { intros E. apply HD. destruct (rw_wheels s) eqn:W; [|discriminate]. unfold rw_gram. rewrite W. cbn [map summ fold_right]. vunfold; rnum. ring. }
  rewrite (saturation_eq _ _ g G). destruct G as [G _]. apply in_map_iff in G. destruct G as (x & <- & I). apply in_map_iff in I. destruct I as (w & <- & _). rewrite Rabs_R0. destruct (Rltb_spec (rw_maxT s) 0); [lra|]. cbn [rbind]. rewrite ZE. reflexivity.
Qed.
(** where the two terms of the law balance, point_and_stare commands nothing *)
Lemma balanced w f x b tgt : wc_sun w = Some f -> zone_free w -> spanning (s_rw (wc_sat w)) -> 0 <= rw_maxT (s_rw (wc_sat w)) -> det3 (s_total_moment (wc_sat w)) <> 0 ->
  (length (rw_wheels (s_rw (wc_sat w))) <= length (v_whl (cs_v x)))%nat -> unitq (v_att (cs_v x)) -> unit3 b -> unit3 (pointing_vector (v_pos (cs_v x)) tgt) -> stare_rate_intl (v_pos (cs_v x)) (v_vel (cs_v x)) tgt = zero3 ->
  let D := sandwich (v_att (cs_v x)) (pointing_vector (v_pos (cs_v x)) tgt) in -1 < dot3 b D -> tr_mem (wc_trig w) = 1 -> 0 < tr_hw (wc_trig w) ->
  let bt := v_rate (cs_v x) in let J := s_total_moment (wc_sat w) in
  scale3 (wc_alpha w) (haxis b D) = sub3 (scale3 (wc_gamma w) bt) (mv (s_inv_tot (wc_sat w)) (cross3 bt (add3 (mv J bt) (rw_momentum (s_rw (wc_sat w)) (v_whl (cs_v x)))))) ->
  point_and_stare w x b tgt = Ok (w, no_accel (s_rw (wc_sat w))).
Proof.
  intros HS HZ SP MT DJ HL U UB UP SR D DD TM HW bt J BAL. assert (UD : unit3 D). { unfold unit3, D. rewrite sandwich_dot, U, UP. ring. }
  assert (HC : 0 < hcos b D) by (unfold hcos; apply sqrt_lt_R0; lra). assert (AQ := stare_acq (v_pos (cs_v x)) (v_att (cs_v x)) b tgt UB UD HC). fold D in AQ.
  unfold point_and_stare. cbv zeta. rewrite SR, sandwich_0. rewrite (tracking_free w (cs_v x) zero3 zero3 _ f HS HZ HL). cbv zeta. rewrite stare_error by exact U. rewrite AQ.
  assert (EW : qw (conjugate (mkq (hcos b D) (x3 (haxis b D)) (y3 (haxis b D)) (z3 (haxis b D)))) = hcos b D) by reflexivity. assert (EV : vec (conjugate (mkq (hcos b D) (x3 (haxis b D)) (y3 (haxis b D)) (z3 (haxis b D)))) = opp3 (haxis b D)) by (destruct (haxis b D); reflexivity).
  rewrite EW, EV. rewrite trig_keep by (rewrite TM; lra). rewrite !sandwich_0, TM. assert (EWC : set_trig w (wc_trig w) = w) by (destruct w; reflexivity). rewrite EWC. cbn [rbind]. fold bt. fold J.
  match goal with |- context [whl_actuator_commands w ?u] => assert (Z : u = zero3) end.
  { replace (sub3 (sub3 (scale3 (- (1) * wc_alpha w) (opp3 (haxis b D))) (scale3 (wc_gamma w) (sub3 bt zero3))) (add3 (cross3 bt zero3) zero3)) with (sub3 (scale3 (wc_alpha w) (haxis b D)) (scale3 (wc_gamma w) bt)).
    2:{ generalize (haxis b D) bt (wc_alpha w) (wc_gamma w). clear. intros [h1 h2 h3] [b1 b2 b3] al ga. unfold zero3. vunfoldg; cbn [x3 y3 z3]; rnumg. apply mk3_c; ring. }
    rewrite BAL. set (c := cross3 bt (add3 (mv J bt) (rw_momentum (s_rw (wc_sat w)) (v_whl (cs_v x))))). replace (sub3 (sub3 (scale3 (wc_gamma w) bt) (mv (s_inv_tot (wc_sat w)) c)) (scale3 (wc_gamma w) bt)) with (scale3 (-1) (mv (s_inv_tot (wc_sat w)) c)).
    2:{ generalize (mv (s_inv_tot (wc_sat w)) c) bt (wc_gamma w). clear. intros [h1 h2 h3] [b1 b2 b3] ga. vunfoldg; cbn [x3 y3 z3]; rnumg. apply mk3_c; ring. }
    replace (mv J (scale3 (-1) (mv (s_inv_tot (wc_sat w)) c))) with (scale3 (-1) (mv J (mv (s_inv_tot (wc_sat w)) c))). 2:{ generalize (mv (s_inv_tot (wc_sat w)) c) J. clear. intros [h1 h2 h3] [[a1 a2 a3] [b1 b2 b3] [c1 c2 c3]]. vunfoldg; cbn [x3 y3 z3 row1 row2 row3]; rnumg. apply mk3_c; ring. }
    unfold s_inv_tot. fold J. rewrite mv_inv3 by exact DJ. generalize c. clear. intros [c1 c2 c3]. unfold zero3. vunfoldg; cbn [x3 y3 z3]; rnumg. apply mk3_c; ring. }
  rewrite Z. unfold whl_actuator_commands. replace (opp3 (zero3 (T:=R))) with (zero3 (T:=R)) by (unfold zero3; vunfoldg; cbn [x3 y3 z3]; rnumg; apply mk3_c; ring). rewrite no_torque by assumption. reflexivity.
Qed.
Lemma torque_none s : rw_torque s (no_accel s) = zero3.
Proof.
  unfold rw_torque, no_accel. induction (rw_wheels s) as [|w l IH]; [reflexivity|]. cbn [map zip_with sum3 fold_right] in *. fold (sum3 (zip_with w_torque l (map (fun _ => 0) l))). rewrite IH. unfold w_torque. generalize (w_axis w) (w_par w). clear. intros [x y z] p. unfold zero3. vunfoldg; cbn [x3 y3 z3]; rnumg. apply mk3_c; ring.
Qed.
Lemma nth_none s k : nth k (no_accel s) 0 = 0.
Proof. unfold no_accel. revert k. induction (rw_wheels s) as [|w l IH]; intros k; destruct k; try reflexivity. cbn [map nth]. apply IH. Qed.
(** a body at rest on which nothing acts stays at rest *)
Lemma rest_stays sat (F : R -> v3) z a e : symm (s_total_moment sat) -> pdm (s_total_moment sat) ->
  (forall t, a < t < e -> length (v_whl (z t)) = length (rw_wheels (s_rw sat)) /\ deriv_sv z t (derivative sat (z t) (F t) zero3 (rw_torque (s_rw sat) (no_accel (s_rw sat))) (rw_momentum (s_rw sat) (v_whl (z t))) (no_accel (s_rw sat)))) ->
  forall s t, a < s < e -> a < t < e -> v_rate (z s) = zero3 -> v_att (z t) = v_att (z s) /\ v_rate (z t) = zero3 /\ v_whl (z t) = v_whl (z s).
Proof.
  intros SY PD D s t Hs Ht RS. set (J := s_total_moment sat) in *. assert (DJ := pd_det J SY PD).
  assert (EN : forall u, a < u < e -> v_rate (z u) = zero3).
  { intros u Hu. assert (K : dot3 (v_rate (z u)) (mv J (v_rate (z u))) = dot3 (v_rate (z s)) (mv J (v_rate (z s)))).
    { apply (const_of_deriv (fun v => dot3 (v_rate (z v)) (mv J (v_rate (z v)))) a e); [|exact Hu|exact Hs]. intros v Hv. destruct (D v Hv) as (_ & _ & _ & _ & X & _). cbn [derivative v_rate] in X. rewrite torque_none in X.
      eapply d_eq; [apply d_dot3; [exact X|apply d3_mv; exact X]|]. cbv beta. change (s_inv_tot sat) with (inv3 J). fold J. set (c := sub3 _ _). rewrite mv_inv3 by (apply Rgt_not_eq; exact DJ).
      rewrite (sym_dot J (mv (inv3 J) c)), mv_inv3 by (first [exact SY | apply Rgt_not_eq; exact DJ]). unfold c. generalize (v_rate (z v)) (add3 (rw_momentum (s_rw sat) (v_whl (z v))) (mv J (v_rate (z v)))). clear. intros [w1 w2 w3] [h1 h2 h3]. unfold zero3. vunfoldg; cbn [x3 y3 z3]; rnumg. ring. }
    destruct (zero3_dec (v_rate (z u))) as [Z|N]; [exact Z|exfalso]. assert (P := PD _ N). rewrite K, RS in P. revert P. rewrite mv_zero3. unfold zero3. vunfoldg; cbn [x3 y3 z3]; rnumg. lra. }
  split; [|split; [apply EN, Ht|]].
  - assert (DQ : forall u, a < u < e -> derivq (fun u => v_att (z u)) u zeroq). { intros u Hu. destruct (D u Hu) as (_ & _ & _ & X & _). cbn [derivative v_att] in X. rewrite (EN u Hu) in X. replace zeroq with (scaleq 0.5 (product (v_att (z u)) (mkq 0 (x3 zero3) (y3 zero3) (z3 (zero3 (T:=R)))))); [exact X|]. generalize (v_att (z u)). clear. intros [p q r s]. unfold product, zeroq, zero3. vunfoldg; cbn [x3 y3 z3 qw qx qy qz]; rnumg. apply mkq_c; ring. }
    assert (X : forall p, (forall u, a < u < e -> derivable_pt_lim (fun v => p (v_att (z v))) u 0) -> p (v_att (z t)) = p (v_att (z s))) by (intros p Hp; exact (const_of_deriv (fun v => p (v_att (z v))) a e Hp t s Ht Hs)).
    assert (E0 := X qw (fun u Hu => proj1 (DQ u Hu))). assert (E1 := X qx (fun u Hu => proj1 (proj2 (DQ u Hu)))). assert (E2 := X qy (fun u Hu => proj1 (proj2 (proj2 (DQ u Hu))))). assert (E3 := X qz (fun u Hu => proj2 (proj2 (proj2 (DQ u Hu))))). revert E0 E1 E2 E3. generalize (v_att (z t)) (v_att (z s)). clear. intros [p0 p1 p2 p3] [q0 q1 q2 q3]. cbn [qw qx qy qz]. congruence.
  - apply (nth_ext _ _ 0 0); [rewrite (proj1 (D t Ht)), (proj1 (D s Hs)); reflexivity|]. intros k _. apply (const_of_deriv (fun v => nth k (v_whl (z v)) 0) a e); [|exact Ht|exact Hs]. intros u Hu. destruct (D u Hu) as (_ & _ & _ & _ & _ & X). cbn [derivative v_whl] in X. assert (Y := X k). rewrite nth_none in Y. exact Y.
Qed.
Lemma momentum_none s : rw_momentum s (no_accel s) = zero3.
Proof. exact (torque_none s). Qed.

(** A satellite at rest where the law's two terms balance, with a filter that has the attitude and half the bias: it stays at rest for ever, the commands are zero, the filter goes on
    reporting the true attitude and half the bias as the rate, and the boresight stays off the target *)
Theorem C128_parked : forall model sat mt F B bs b tgt dir q y i m h w f, let J := s_total_moment sat in let bt := scale3 (1 / 2) bs in
  wc_sat w = sat -> wc_sun w = Some f -> zone_free w -> spanning (s_rw sat) -> 0 <= rw_maxT (s_rw sat) -> symm J -> pdm J -> tr_mem (wc_trig w) = 1 -> 0 < tr_hw (wc_trig w) -> 0 < wc_alpha w ->
  unitq q -> unit3 b -> unit3 dir -> -1 < dot3 b (sandwich q dir) -> 0 < h ->
  scale3 (wc_alpha w) (haxis b (sandwich q dir)) = sub3 (scale3 (wc_gamma w) bt) (mv (s_inv_tot sat) (cross3 bt (add3 (mv J bt) (rw_momentum (s_rw sat) (v_whl (y 0)))))) ->
  g_whl (m O) = w -> half_knows q bs (kf_att (g_filter (m O))) -> v_att (y 0) = q -> v_rate (y 0) = zero3 ->
  (forall k, stare_cycle model sat mt F B bs b tgt dir y (INR k * h) (INR (S k) * h) (i k) (m k) (m (S k))) ->
  (forall t, 0 <= t -> v_att (y t) = q /\ v_rate (y t) = zero3 /\ v_whl (y t) = v_whl (y 0)) /\
  (forall k, g_rw_cmd (m (S k)) = no_accel (s_rw sat) /\ g_whl (m k) = w /\ v_att (cs_v (given (i k) (m k))) = q /\ v_rate (cs_v (given (i k) (m k))) = bt) /\
  wc_alpha w ^ 2 * ((1 - dot3 (sandwich_opp q b) dir) / 2) = norm3 (sub3 (scale3 (wc_gamma w) bt) (mv (s_inv_tot sat) (cross3 bt (add3 (mv J bt) (rw_momentum (s_rw sat) (v_whl (y 0))))))) ^ 2.
Proof.
  intros model sat mt F B bs b tgt dir q y i m h w f J bt HSat HS HZ SP MT SY PD TM HW AL UQ UB UD DD HP BAL W0 F0 Q0 R0 CY.
  assert (DJ := pd_det J SY PD). set (tk := fun k => INR k * h). assert (TS : forall k, tk (S k) = tk k + h) by (intros k; unfold tk; rewrite S_INR; ring).
  assert (STEP : forall k, v_att (y (tk k)) = q /\ v_rate (y (tk k)) = zero3 /\ v_whl (y (tk k)) = v_whl (y 0) -> g_whl (m k) = w -> half_knows q bs (kf_att (g_filter (m k))) ->
    (forall t, tk k <= t <= tk (S k) -> v_att (y t) = q /\ v_rate (y t) = zero3 /\ v_whl (y t) = v_whl (y 0)) /\ g_whl (m (S k)) = w /\ half_knows q bs (kf_att (g_filter (m (S k)))) /\
    g_rw_cmd (m (S k)) = no_accel (s_rw sat) /\ v_att (cs_v (given (i k) (m k))) = q /\ v_rate (cs_v (given (i k) (m k))) = bt).
  { intros k (A1 & A2 & A3) WK FK. destruct (CY k) as (C & ID & IB & IT & IA & IG & IW & (SR & PV) & mom & z & a & e & SA & HA & HE & YZ & D). fold (tk k) in *. fold (tk (S k)) in *.
    rewrite A1 in IA. rewrite A2 in IG. assert (IG' : gyro (i k) = bs) by (rewrite IG; clear; vring). destruct (half_call _ _ _ _ _ _ C UQ IG' IA FK) as (FK' & G1 & G2 & G3). destruct (point_call _ _ _ _ C ID) as (MC & PS). rewrite WK, IB, IT in PS. rewrite IW, A3 in G3.
    assert (L0 : length (v_whl (y 0)) = length (rw_wheels (s_rw sat))) by (rewrite <- A3, YZ by (rewrite TS; lra); apply D; rewrite TS in HE; lra).
    assert (PB : point_and_stare w (given (i k) (m k)) b tgt = Ok (w, no_accel (s_rw sat))).
    { rewrite <- HSat. apply (balanced w f); rewrite ?HSat, ?PV, ?G1, ?G2, ?G3; try assumption; [apply Rgt_not_eq; exact DJ|rewrite L0; apply le_n]. }
    rewrite PB in PS. assert (E1 : g_whl (m (S k)) = w) by congruence. assert (E2 : g_rw_cmd (m (S k)) = no_accel (s_rw sat)) by congruence. rewrite MC in SA. assert (MZ := torquers_off mt 3 mom SA). rewrite E2, MZ in D.
    assert (D' : forall t, a < t < e -> length (v_whl (z t)) = length (rw_wheels (s_rw sat)) /\ deriv_sv z t (derivative sat (z t) (F t) zero3 (rw_torque (s_rw sat) (no_accel (s_rw sat))) (rw_momentum (s_rw sat) (v_whl (z t))) (no_accel (s_rw sat)))).
    { intros t Ht. assert (X := D t Ht). replace (cross3 zero3 (B t)) with (zero3 (T:=R)) in X by (destruct (B t) as [b1 b2 b3]; unfold zero3; vunfoldg; cbn [x3 y3 z3]; rnumg; apply mk3_c; ring). exact X. }
    split; [|split; [exact E1|]; split; [exact FK'|]; split; [exact E2|]; split; [exact G1|exact G2]].
    intros t Ht. rewrite TS in *. assert (Z0 : y (tk k) = z (tk k)) by (apply YZ; lra). rewrite Z0 in A1, A2, A3. destruct (rest_stays sat F z a e SY PD D' (tk k) t ltac:(lra) ltac:(lra) A2) as (X1 & X2 & X3). rewrite YZ by exact Ht. rewrite X1, X3. split; [exact A1|]. split; [exact X2|exact A3]. }
  assert (ALL : forall k, (v_att (y (tk k)) = q /\ v_rate (y (tk k)) = zero3 /\ v_whl (y (tk k)) = v_whl (y 0)) /\ g_whl (m k) = w /\ half_knows q bs (kf_att (g_filter (m k)))).
  { induction k as [|k (I1 & I2 & I3)]; [unfold tk; rewrite Rmult_0_l; split; [split; [exact Q0|split; [exact R0|reflexivity]]|split; assumption]|]. destruct (STEP k I1 I2 I3) as (X & E1 & E2 & _). split; [apply X; rewrite TS; lra|split; assumption]. }
  split; [|split].
  - intros t Ht. destruct (step_of t h HP Ht) as [k Hk]. fold (tk k) in Hk. rewrite <- TS in Hk. destruct (ALL k) as (I1 & I2 & I3). exact (proj1 (STEP k I1 I2 I3) t Hk).
  - intros k. destruct (ALL k) as (I1 & I2 & I3). destruct (STEP k I1 I2 I3) as (_ & _ & _ & E2 & G1 & G2). split; [exact E2|]. split; [exact I2|]. split; assumption.
  - rewrite <- BAL. assert (US : unit3 (sandwich q dir)) by (unfold unit3; rewrite sandwich_dot, UQ, UD; ring). assert (HC : 0 < hcos b (sandwich q dir)) by (unfold hcos; apply sqrt_lt_R0; lra).
    destruct (haxis_sq b (sandwich q dir) UB US HC) as (HX & _). destruct (hcos_facts b (sandwich q dir) UB US) as (_ & HQ). rewrite HQ in HX. replace (dot3 (sandwich_opp q b) dir) with (dot3 b (sandwich q dir)).
    2:{ destruct q as [q0 q1' q2' q3'], b as [b1 b2 b3], dir as [p1 p2 p3]. unfold sandwich_opp, sandwich, conjugate, product, pure. vunfold; rnum. ring. }
    replace (norm3 (scale3 (wc_alpha w) (haxis b (sandwich q dir))) ^ 2) with (dot3 (scale3 (wc_alpha w) (haxis b (sandwich q dir))) (scale3 (wc_alpha w) (haxis b (sandwich q dir)))) by (rewrite <- P_quat.norm3_sq; ring).
    transitivity (wc_alpha w ^ 2 * dot3 (haxis b (sandwich q dir)) (haxis b (sandwich q dir))); [rewrite HX; field|]. generalize (haxis b (sandwich q dir)) (wc_alpha w). clear. intros [h1 h2 h3] al. vunfoldg; cbn [x3 y3 z3]; rnumg. ring.
Qed.
Print Assumptions C128_parked.
(** ** and such runs exist *)
Definition one_q : quat := mkq 1 0 0 0.
Definition point_call_of (bs b tgt : v3) (whl : list R) (dt a : R) (c : AClock) : Call := mkCall 2 (fun _ => c) c (mkCS (mkSV zero3 zero3 one_q bs whl) zero3) dt (st_value Point) b tgt (mk3 a 0 0) zero3 one_q.
Definition filters_ok (dt a : R) (m : Mgr) : Prop := cov_ok (a_P (kf_att (g_filter m))) /\ symm6 (p_P (kf_pos (g_filter m))) /\ psd6 (p_P (kf_pos (g_filter m))) /\ p_x (kf_pos (g_filter m)) = mk6 (mk3 a 0 0) zero3 /\
  kf_gyro_dt (g_filter m) = dt /\ dt + 0.001 <= kf_gps_dt (g_filter m).
Lemma one_unit : unitq one_q.
Proof. unfold unitq, one_q. vunfoldg; cbn [qw qx qy qz]; rnumg. ring. Qed.
Lemma one_sandwich (v : v3) : sandwich one_q v = v /\ sandwich_opp one_q v = v.
Proof. destruct v as [x y z]. unfold sandwich_opp, sandwich, one_q, conjugate, product, pure. split; vunfold; rnum; apply mk3_c; ring. Qed.
Lemma point_step w bs b tgt whl dt a c m : 0.001 <= dt -> wgs_a <= a -> filters_ok dt a m -> half_knows one_q bs (kf_att (g_filter m)) -> g_whl m = w ->
  (forall mg, point_and_stare w (mkCS (mkSV (mk3 a 0 0) zero3 one_q (scale3 (1 / 2) bs) whl) mg) b tgt = Ok (w, no_accel (s_rw (wc_sat w)))) -> let i := point_call_of bs b tgt whl dt a c in
  exists m', mgr_propagate false (i_fuel i) (i_store i) (i_clock i) (i_meas i) (i_dur i) (i_id i) (i_bore i) (i_tgt i) (Some (i_pos i, i_vel i, i_att i)) m = Some (Ok m') /\ filters_ok dt a m' /\ half_knows one_q bs (kf_att (g_filter m')) /\ g_whl m' = w /\
    g_mag_cmd m' = [0; 0; 0] /\ g_rw_cmd m' = no_accel (s_rw (wc_sat w)) /\ v_pos (cs_v (given i m)) = mk3 a 0 0 /\ v_vel (cs_v (given i m)) = zero3.
Proof.
  intros H HA OK HK HW PS i. destruct (rest_step bs one_q dt a c m H HA OK) as (m1' & C1 & OK1). fold (filters_ok dt a m1') in OK1.
  unfold rest_call in C1. cbn [i_fuel i_store i_clock i_meas i_dur i_id i_bore i_tgt i_pos i_vel i_att] in C1. destruct (call_att _ _ _ _ _ _ _ _ _ _ _ _ _ _ C1) as (g & E1 & E2 & _). assert (HG := half_meas _ _ _ _ one_unit HK E1).
  unfold mgr_propagate in C1. destruct (sensor_input (fun _ => c) (Some (mk3 a 0 0, zero3, one_q)) m) as [ms [e|]] eqn:SI; [discriminate|]. cbn [fst] in E2.
  assert (W1 : g_whl ms = w). { unfold sensor_input in SI. destruct (kf_update _ _ _ _ _) as [f e]. injection SI as <- _. exact HW. }
  destruct HG as (GA & GB & GD). rewrite <- E2 in GA, GB.
  unfold mission_input in C1. cbn [kf_output cs_v v_rate] in C1. unfold mission_commands in C1. cbn [Z.eqb st_value Pos.eqb orb set_cmds g_filter] in C1. rewrite GB, half_of in C1.
  destruct (kf_propagate false 2 dt (mkKF (kf_att (g_filter ms)) (kf_pos (g_filter ms)) (Some (scale3 (1 / 2) bs)) (kf_gyro_dt (g_filter ms)) (kf_gps_dt (g_filter ms)))) as [[f2|e]|] eqn:KP; try discriminate. assert (F1 : g_filter m1' = f2) by (injection C1 as <-; reflexivity).
  assert (GD2 : kf_gps_dt f2 = kf_gps_dt (g_filter ms) /\ kf_pos f2 = kf_pos (g_filter ms)).
  { destruct OK1 as (_ & _ & _ & _ & _ & O6). rewrite F1 in O6. unfold kf_propagate in KP. cbn [kf_last kf_att kf_gyro_dt kf_pos kf_gps_dt] in KP. destruct (integrate 2 (fun a0 => Ok (af_propagate _ _ a0)) _ dt _) as [[a1|e]|]; try discriminate.
    destruct (integrate 2 _ (kf_gps_dt (g_filter ms)) dt (kf_pos (g_filter ms))) as [[p1|e]|] eqn:IP; try discriminate. injection KP as <-. cbn [kf_gps_dt kf_pos] in O6 |- *. split; [reflexivity|]. unfold integrate in IP. cbn [int_loop] in IP. destruct (loop_cond dt (kf_gps_dt (g_filter ms))) eqn:LC; [apply cond_R in LC; lra|]. injection IP as <-. reflexivity. }
  assert (PX : p_x (kf_pos (g_filter ms)) = mk6 (mk3 a 0 0) zero3). { destruct GD2 as [_ <-]. rewrite <- F1. apply OK1. }
  assert (SH : shown (i_meas i) (g_filter ms) = mkCS (mkSV (mk3 a 0 0) zero3 one_q (scale3 (1 / 2) bs) whl) zero3). { unfold shown, i, point_call_of. cbn [i_meas cs_v v_rate v_whl cs_mag]. rewrite PX, GA, GB, half_of. reflexivity. }
  assert (MI : mission_input (i_clock i) (i_meas i) (i_id i) (i_bore i) (i_tgt i) ms = (mkMgr (mkKF (kf_att (g_filter ms)) (kf_pos (g_filter ms)) (Some (scale3 (1 / 2) bs)) (kf_gyro_dt (g_filter ms)) (kf_gps_dt (g_filter ms))) (g_mag ms) w (M_mgr.zeros 3) (no_accel (s_rw (wc_sat w))), None)).
  { unfold mission_input. cbn [kf_output]. fold (shown (i_meas i) (g_filter ms)). rewrite SH. unfold i, point_call_of. cbn [i_meas i_clock i_id i_bore i_tgt cs_v v_rate]. rewrite GB, half_of. unfold mission_commands. cbn [Z.eqb st_value Pos.eqb orb g_whl g_filter g_mag g_mag_cmd g_rw_cmd]. rewrite W1, PS. reflexivity. }
  exists (mkMgr f2 (g_mag ms) w (M_mgr.zeros 3) (no_accel (s_rw (wc_sat w)))). assert (CE : mgr_propagate false (i_fuel i) (i_store i) (i_clock i) (i_meas i) (i_dur i) (i_id i) (i_bore i) (i_tgt i) (Some (i_pos i, i_vel i, i_att i)) m = Some (Ok (mkMgr f2 (g_mag ms) w (M_mgr.zeros 3) (no_accel (s_rw (wc_sat w)))))).
  { unfold mgr_propagate. change (sensor_input (i_store i) (Some (i_pos i, i_vel i, i_att i)) m) with (sensor_input (fun _ => c) (Some (mk3 a 0 0, zero3, one_q)) m). rewrite SI, MI. cbn [g_filter g_mag g_whl g_mag_cmd g_rw_cmd]. change (i_fuel i) with 2%nat. change (i_dur i) with dt. rewrite KP. reflexivity. }
  split; [exact CE|]. split; [unfold filters_ok in *; rewrite F1 in OK1; exact OK1|]. split; [exact (proj1 (half_call false i m _ one_q bs CE one_unit eq_refl eq_refl HK))|]. split; [reflexivity|]. split; [reflexivity|]. split; [reflexivity|].
  assert (GV : given i m = mkCS (mkSV (mk3 a 0 0) zero3 one_q (scale3 (1 / 2) bs) whl) zero3) by (unfold given; change (sensor_input (i_store i) (Some (i_pos i, i_vel i, i_att i)) m) with (sensor_input (fun _ => c) (Some (mk3 a 0 0, zero3, one_q)) m); rewrite SI; exact SH). rewrite GV. split; reflexivity.
Qed.

(** that POINT brings the boresight to the target: refuted.  For every controller, every boresight and every bias along a principal axis perpendicular to it with gamma |bs| < 2 alpha there is
    a target and a run of daemon and satellite, every sensor but the gyro exact, in which the satellite is at rest for ever with the boresight off the target by the angle theta,
    sin (theta / 2) = gamma |bs| / (2 alpha) *)
Theorem C128_points_refuted : forall w f mt B mom bs b dt a (c : AClock), let sat := wc_sat w in let J := s_total_moment sat in
  wc_sun w = Some f -> zone_free w -> spanning (s_rw sat) -> 0 <= rw_maxT (s_rw sat) -> symm J -> pdm J -> tr_mem (wc_trig w) = 1 -> 0 < tr_hw (wc_trig w) -> 0 < wc_alpha w -> 0 < wc_gamma w -> sys_actuate mt [0; 0; 0] = Ok mom ->
  unit3 b -> bs <> zero3 -> dot3 bs b = 0 -> cross3 bs (mv J bs) = zero3 -> wc_gamma w * norm3 bs < 2 * wc_alpha w -> 0.001 <= dt -> wgs_a <= a ->
  exists tgt dir y i m, unit3 dir /\ g_whl (m O) = w /\ half_knows (v_att (y 0)) bs (kf_att (g_filter (m O))) /\
    (forall k, stare_cycle false sat mt (fun _ => zero3) B bs b tgt dir y (INR k * dt) (INR (S k) * dt) (i k) (m k) (m (S k)) /\ i_clock (i k) = c /\ i_dur (i k) = dt) /\
    forall t, v_rate (y t) = zero3 /\ v_att (y t) = v_att (y 0) /\ aim b tgt (y t) = 1 - 2 * (wc_gamma w * norm3 bs / (2 * wc_alpha w)) ^ 2 /\ aim b tgt (y t) < 1.
Proof.
  intros w f mt B mom bs b dt a c sat J HS HZ SP MT SY PD TM HW AL GA SA UB NB PB PR SM H HA.
  assert (NP : 0 < norm3 bs) by (apply norm3_gt0, NB). set (sg := wc_gamma w * norm3 bs / (2 * wc_alpha w)). assert (SG : 0 < sg < 1).
  { unfold sg. split; [apply Rdiv_lt_0_compat; [apply Rmult_lt_0_compat; lra|lra]|]. apply (Rmult_lt_reg_r (2 * wc_alpha w)); [lra|]. unfold Rdiv. rewrite Rmult_assoc, Rinv_l by lra. lra. }
  set (u := scale3 (/ norm3 bs) bs). assert (N2 := P_quat.norm3_sq bs). assert (U1 : dot3 u u = 1). { transitivity (/ norm3 bs * / norm3 bs * dot3 bs bs); [unfold u; generalize (/ norm3 bs) bs; clear; intros l [p q r]; vunfoldg; cbn [x3 y3 z3]; rnumg; ring|]. rewrite <- N2. field. lra. }
  assert (U2 : dot3 u b = 0). { transitivity (/ norm3 bs * dot3 bs b); [unfold u; generalize (/ norm3 bs) bs b; clear; intros l [p q r] [p' q' r']; vunfoldg; cbn [x3 y3 z3]; rnumg; ring|]. rewrite PB. ring. }
  set (ch := sqrt (1 - sg * sg)). assert (CH : 0 < ch) by (apply sqrt_lt_R0; nra). assert (CH2 : ch * ch = 1 - sg * sg) by (apply sqrt_sqrt; nra).
  set (D := add3 (scale3 (1 - 2 * (sg * sg)) b) (scale3 (2 * sg * ch) (cross3 u b))).
  assert (B1 : dot3 b b = 1) by exact UB. assert (C1 : dot3 (cross3 u b) (cross3 u b) = 1) by (transitivity (dot3 u u * dot3 b b - dot3 u b * dot3 u b); [generalize u b; clear; intros [p q r] [p' q' r']; vunfoldg; cbn [x3 y3 z3]; rnumg; ring|rewrite U1, U2, B1; ring]).
  assert (BD : dot3 b D = 1 - 2 * (sg * sg)). { transitivity ((1 - 2 * (sg * sg)) * dot3 b b); [unfold D; generalize u b (sg * sg) (2 * sg * ch); clear; intros [p q r] [p' q' r'] l k; vunfoldg; cbn [x3 y3 z3]; rnumg; ring|rewrite B1; ring]. }
  assert (UD : unit3 D). { unfold unit3. transitivity ((1 - 2 * (sg * sg)) * (1 - 2 * (sg * sg)) * dot3 b b + (2 * sg * ch) * (2 * sg * ch) * dot3 (cross3 u b) (cross3 u b)); [unfold D; generalize u b (sg * sg) (2 * sg * ch); clear; intros [p q r] [p' q' r'] l k; vunfoldg; cbn [x3 y3 z3]; rnumg; ring|]. rewrite B1, C1. replace (2 * sg * ch * (2 * sg * ch)) with (4 * (sg * sg) * (ch * ch)) by ring. rewrite CH2. ring. }
  assert (HC : hcos b D = ch) by (unfold hcos, ch; rewrite BD; f_equal; field).
  assert (CB : cross3 b D = scale3 (2 * sg * ch) u). { transitivity (scale3 (2 * sg * ch) (sub3 (scale3 (dot3 b b) u) (scale3 (dot3 u b) b))); [unfold D; generalize u b (1 - 2 * (sg * sg)) (2 * sg * ch); clear; intros [p q r] [p' q' r'] l k; vunfoldg; cbn [x3 y3 z3]; rnumg; apply mk3_c; ring|]. rewrite B1, U2. generalize u b (2 * sg * ch). clear. intros [p q r] [p' q' r'] k. vunfoldg; cbn [x3 y3 z3]; rnumg; apply mk3_c; ring. }
  assert (HX : haxis b D = scale3 sg u). { unfold haxis. rewrite HC, CB. revert CH. generalize u ch sg. clear. intros [p q r] k l K. vunfoldg; cbn [x3 y3 z3]; rnumg; apply mk3_c; field; lra. }
  set (p := mk3 a 0 0 : v3). set (tgt := add3 p D). assert (TP : sub3 tgt p = D) by (unfold tgt; generalize p D; clear; intros [x y z] [x' y' z']; vunfoldg; cbn [x3 y3 z3]; rnumg; apply mk3_c; ring).
  assert (ND : norm3 D = 1) by (unfold norm3; rewrite UD; apply sqrt_1). assert (PV : pointing_vector p tgt = D). { rewrite pv_scale, TP, ND. generalize D. clear. intros [x y z]. vunfoldg; cbn [x3 y3 z3]; rnumg; apply mk3_c; field. }
  assert (SR : stare_rate_intl p zero3 tgt = zero3). { unfold stare_rate_intl. cbv zeta. rewrite cross_0_r. generalize (dot3 (sub3 p tgt) (sub3 p tgt)). clear. intros d. unfold zero3. vunfoldg; cbn [x3 y3 z3]; rnumg; apply mk3_c; unfold Rdiv; ring. }
  set (whl := no_accel (s_rw sat)). set (bt := scale3 (1 / 2) bs). assert (CZ : cross3 bt (add3 (mv J bt) (rw_momentum (s_rw sat) whl)) = zero3).
  { unfold whl. rewrite momentum_none, add3_0_r. transitivity (scale3 (1 / 4) (cross3 bs (mv J bs))); [unfold bt; generalize bs J; clear; intros [x y z] [[a1 a2 a3] [b1 b2 b3] [c1 c2 c3]]; vunfoldg; cbn [x3 y3 z3 row1 row2 row3]; rnumg; apply mk3_c; field|]. rewrite PR. clear. vring. }
  assert (PS : forall mg, point_and_stare w (mkCS (mkSV p zero3 one_q bt whl) mg) b tgt = Ok (w, no_accel (s_rw (wc_sat w)))).
  { intros mg. apply (balanced w f); cbn [cs_v v_pos v_vel v_att v_rate v_whl]; try assumption; try (rewrite (proj1 (one_sandwich _))); rewrite ?PV; try assumption; [apply Rgt_not_eq; exact (pd_det J SY PD)|unfold whl, no_accel; rewrite map_length; apply le_n|exact one_unit|rewrite BD; nra|].
    fold sat. fold J. rewrite CZ, HX, mv_zero3. unfold bt, u, sg. revert NP AL. generalize bs (norm3 bs) (wc_alpha w) (wc_gamma w). clear. intros [x y z] n al ga NP AL. unfold zero3. vunfoldg; cbn [x3 y3 z3]; rnumg; apply mk3_c; field; lra. }
  set (i := point_call_of bs b tgt whl dt a c). set (m0 := mkMgr (mkKF (mkAF zero3 zero3 one_q bt (a_P (af_init one_q))) (mkPF (mk6 p zero3) (diag6 1 1) ex_st) None dt (dt + 1)) (g_mag ex_mgr) w [] []).
  set (st := fun m => mgr_propagate false (i_fuel i) (i_store i) (i_clock i) (i_meas i) (i_dur i) (i_id i) (i_bore i) (i_tgt i) (Some (i_pos i, i_vel i, i_att i)) m).
  set (nx := fun m => match st m with Some (Ok m') => m' | _ => m end). set (m := fun k => Nat.iter k nx m0).
  assert (INV : forall k, filters_ok dt a (m k) /\ half_knows one_q bs (kf_att (g_filter (m k))) /\ g_whl (m k) = w).
  { induction k as [|k (I1 & I2 & I3)]; [unfold m; cbn [Nat.iter nat_rect m0 g_filter g_whl kf_att]; split; [|split; [repeat split|reflexivity]]|].
    - unfold filters_ok, m0. cbn [g_filter kf_att kf_pos kf_gyro_dt kf_gps_dt a_P p_P p_x]. split; [apply init_cov|]. split; [apply diag6_symm|]. split; [apply diag6_psd; lra|]. split; [reflexivity|]. split; [reflexivity|clear; lra].
    - destruct (point_step w bs b tgt whl dt a c (m k) H HA I1 I2 I3 PS) as (m' & E & X1 & X2 & X3 & _). change (m (S k)) with (nx (m k)). unfold nx, st, i. rewrite E. split; [exact X1|split; [exact X2|exact X3]]. }
  exists tgt, D, (fun _ => mkSV p zero3 one_q zero3 whl), (fun _ => i), m. split; [exact UD|]. split; [reflexivity|]. split; [exact (proj1 (proj2 (INV O)))|]. split.
  - intros k. destruct (INV k) as (I1 & I2 & I3). destruct (point_step w bs b tgt whl dt a c (m k) H HA I1 I2 I3 PS) as (m' & E & X1 & X2 & X3 & X4 & X5 & X6 & X7). fold i in E, X6, X7. assert (ME : m (S k) = m') by (change (m (S k)) with (nx (m k)); unfold nx, st; rewrite E; reflexivity). rewrite ME.
    split; [|split; reflexivity]. unfold stare_cycle. cbv beta. split; [exact E|]. do 4 (split; [reflexivity|]). cbn [v_rate]. split; [unfold gyro, i, point_call_of; cbn [i_meas cs_v v_rate]; clear; vring|]. split; [reflexivity|]. split; [cbv zeta; rewrite X6, X7; split; [exact SR|exact PV]|].
    exists mom, (fun _ => mkSV p zero3 one_q zero3 whl), (INR k * dt - 1), (INR (S k) * dt + 1). rewrite X4, X5. split; [exact SA|]. split; [lra|]. split; [lra|]. split; [reflexivity|]. intros t _. cbn [v_whl]. split; [unfold whl, no_accel; apply map_length|]. fold sat. rewrite (torquers_off mt 3 mom SA), torque_none.
    assert (DZ : derivative sat (mkSV p zero3 one_q zero3 whl) zero3 (cross3 zero3 (B t)) zero3 (rw_momentum (s_rw sat) whl) whl = mkSV zero3 zero3 zeroq zero3 whl).
    { unfold derivative. cbn [v_vel v_att v_rate]. f_equal; [clear; unfold div3; unfold zero3; cbn [x3 y3 z3]; rnumg; apply mk3_c; unfold Rdiv; ring|clear; unfold one_q, product, zeroq, zero3; vunfoldg; cbn [x3 y3 z3 qw qx qy qz]; rnumg; apply mkq_c; ring|].
      match goal with |- mv _ ?v = _ => replace v with (zero3 (T:=R)) end; [apply mv_zero3|]. generalize (B t) (add3 (rw_momentum (s_rw sat) whl) (mv (s_total_moment sat) zero3)). clear. intros [x y z] [x' y' z']. unfold zero3. vunfoldg; cbn [x3 y3 z3]; rnumg; apply mk3_c; ring. }
    fold whl. rewrite DZ. split; [exact (d3_const p t)|]. split; [exact (d3_const zero3 t)|]. split; [repeat split; exact (derivable_pt_lim_const _ t)|]. split; [exact (d3_const zero3 t)|]. intros n. cbn [v_whl]. unfold whl. rewrite nth_none. exact (d_const 0 t).
  - intros t. split; [reflexivity|]. split; [reflexivity|]. assert (AM : aim b tgt (mkSV p zero3 one_q zero3 whl) = 1 - 2 * sg ^ 2) by (unfold aim; cbn [v_att v_pos]; rewrite (proj2 (one_sandwich b)), PV, BD; ring). rewrite AM. split; [reflexivity|nra].
Qed.
Print Assumptions C128_points_refuted.
(** a controller, boresight and bias (0.01 rad/s) that meet the hypotheses: the satellite parks more than 4 degrees off, cos theta = 1 - 2 (0.03535)^2 *)
Example C128_ex : let w := axis_ctl in let sat := wc_sat w in let J := s_total_moment sat in let bs := mk3 0.01 0 0 : v3 in
  wc_sun w = Some (fun _ => ex) /\ zone_free w /\ spanning (s_rw sat) /\ 0 <= rw_maxT (s_rw sat) /\ symm J /\ pdm J /\ tr_mem (wc_trig w) = 1 /\ 0 < tr_hw (wc_trig w) /\ 0 < wc_alpha w /\ 0 < wc_gamma w /\ sys_actuate [] [0; 0; 0] = Ok zero3 /\
  unit3 (ez : v3) /\ bs <> zero3 /\ dot3 bs ez = 0 /\ cross3 bs (mv J bs) = zero3 /\ wc_gamma w * norm3 bs < 2 * wc_alpha w /\ 1 - 2 * (wc_gamma w * norm3 bs / (2 * wc_alpha w)) ^ 2 = 1 - 2 * 0.03535 ^ 2.
Proof.
  intros w sat J bs. assert (N : norm3 bs = 0.01). { unfold norm3. rnumg. replace (dot3 bs bs) with (0.01 * 0.01) by (unfold bs; vunfoldg; cbn [x3 y3 z3]; rnumg; ring). apply sqrt_square. lra. }
  assert (JE : J = scalem 4 id3) by exact free_ball_total. split; [reflexivity|]. split; [right; reflexivity|]. split; [exact free_ball_spanning|]. split; [cbn; lra|]. split; [rewrite JE; unfold symm; vunfoldg; rnumg; reflexivity|].
  split. { rewrite JE. intros v NV. assert (P := dot3_pos v NV). replace (dot3 v (mv (scalem 4 id3) v)) with (4 * dot3 v v) by (destruct v as [x y z]; vunfoldg; cbn [x3 y3 z3 row1 row2 row3]; rnumg; ring). lra. }
  split; [reflexivity|]. split; [cbn; lra|]. split; [cbn; lra|]. split; [cbn; lra|]. split; [reflexivity|]. split; [unfold unit3, ez; vunfoldg; cbn [x3 y3 z3]; rnumg; ring|]. split; [unfold bs, zero3; intros Z; apply (f_equal x3) in Z; cbn [x3] in Z; revert Z; rnumg; lra|]. split; [unfold bs, ez; vunfoldg; cbn [x3 y3 z3]; rnumg; ring|].
  split; [rewrite JE; unfold bs, zero3; vunfoldg; cbn [x3 y3 z3 row1 row2 row3]; rnumg; apply mk3_c; ring|]. rewrite N. cbn [w axis_ctl wc_gamma wc_alpha]. split; [lra|]. field_simplify; lra.
Qed.
