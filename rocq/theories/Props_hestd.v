(** * C132 (continued): the whole daemon in POINT mode on its own estimates *)
From Coq Require Import Reals ZArith List Bool Lra Lia Psatz.
From Verif Require Import Num Vec Mat6 M_vector M_quaternion M_frame M_jday M_struct M_dyn M_integ M_obs M_ctrl M_fsm M_mgr S_rot S_dyn S_obs S_frame S_ctrl.
From Verif Require Import P_quat P_vec2 P_spin P_struct P_wheel P_dyn P_dyn2 P_integ P_obs P_obs3 P_ctrl P_ctrl2 P_ctrl4 P_ctrl5 P_bang P_est1 P_tri1 P_half1 P_half2 P_sat P_posf P_tot3 P_stare Props_struct Props_conv Props_obs Props_mgr Props_half Props_samp Props_stare Props_asleep Props_parkd Props_hstare Props_hest.
Import ListNotations.
Local Open Scope R_scope.

(** one period of POINT: the daemon is called at t0 with whatever its sensors give it and a mission for the boresight b and the target, the acceleration it asks for is within the wheels' limits, and
    until t1 the satellite moves by the code's equations as commanded, with the outside torque T and that of the torquers [mt] in the field B *)
Definition point_cycle (model : bool) (sat : Satellite) (mt : list (Torquer R)) (F T B : R -> v3) (b tgt : v3) (y : R -> SVec) (t0 t1 : R) (i : Call) (m m' : Mgr) : Prop :=
  mgr_propagate model (i_fuel i) (i_store i) (i_clock i) (i_meas i) (i_dur i) (i_id i) (i_bore i) (i_tgt i) (Some (i_pos i, i_vel i, i_att i)) m = Some (Ok m') /\
  i_id i = st_value Point /\ i_bore i = b /\ i_tgt i = tgt /\
  (let g := cs_v (given i m) in forall w u, tracking (g_whl m) g (sandwich (v_att g) (stare_rate_intl (v_pos g) (v_vel g) tgt)) zero3 (stare_attitude (v_pos g) (v_att g) b tgt) = Ok (w, u) -> unsaturated (s_rw sat) (opp3 u)) /\
  exists mom z a e, sys_actuate mt (g_mag_cmd m') = Ok mom /\ a < t0 /\ t1 < e /\ (forall t, t0 <= t <= t1 -> y t = z t) /\
    forall t, a < t < e -> deriv_sv z t (derivative sat (z t) (F t) (add3 (T t) (cross3 mom (B t))) (rw_torque (s_rw sat) (g_rw_cmd m')) (rw_momentum (s_rw sat) (v_whl (z t))) (g_rw_cmd m')).

Lemma pas_sat w x b tgt w' a : point_and_stare w x b tgt = Ok (w', a) -> wc_sat w' = wc_sat w.
Proof.
  unfold point_and_stare. cbv zeta. destruct (tracking w (cs_v x) _ _ _) as [[w1 u]|e] eqn:TR; [|discriminate]. cbn [rbind]. destruct (whl_actuator_commands w1 u) as [a'|e]; [|discriminate]. cbn [rbind]. intros E. assert (w1 = w') by congruence. subst w1.
  unfold tracking in TR. destruct (objects _ _); [|discriminate]. cbn [rbind] in TR. destruct (rw_momentum_r _ (v_whl _)); [|discriminate]. cbn [rbind] in TR.
  match type of TR with rbind ?A _ = _ => destruct A as [[tr z]|] end; [|discriminate]. cbn [rbind] in TR. injection TR as <- _. reflexivity.
Qed.
Lemma cycle_told model w mt F T B b tgt y t0 t1 i m m' : wc_sat (g_whl m) = wc_sat w -> point_cycle model (wc_sat w) mt F T B b tgt y t0 t1 i m m' ->
  held_told (g_whl m) b tgt F T (cs_v (given i m)) y t0 t1 (g_whl m') /\ wc_sat (g_whl m') = wc_sat w /\ g_mag_cmd m' = [0; 0; 0].
Proof.
  intros WS (C & ID & IB & IT & US & mom & z & a & e & SA & A0 & E0 & EQ & D). destruct (point_call _ _ _ _ C ID) as (MC & PS). rewrite IB, IT in PS. rewrite MC in SA. assert (MZ := torquers_off mt 3 mom SA). subst mom.
  split; [|split; [rewrite (pas_sat _ _ _ _ _ _ PS); exact WS|exact MC]].
  assert (PS' := PS). unfold point_and_stare in PS'. cbv zeta in PS', US. destruct (tracking (g_whl m) (cs_v (given i m)) _ _ _) as [[w1 u]|er] eqn:TR; [|discriminate]. cbn [rbind] in PS'. destruct (whl_actuator_commands w1 u) as [a'|er]; [|discriminate]. cbn [rbind] in PS'. assert (w1 = g_whl m') by congruence. subst w1.
  exists u, (g_rw_cmd m'), z, a, e. split; [exact TR|]. split; [rewrite WS; exact (US _ _ eq_refl)|]. split; [exact PS|]. split; [exact A0|]. split; [exact E0|]. split; [exact EQ|]. intros t Ht. rewrite WS.
  assert (X := D t Ht). replace (add3 (T t) (cross3 zero3 (B t))) with (T t) in X by (destruct (B t) as [b1 b2 b3], (T t) as [u1' u2' u3']; unfold zero3; vunfoldg; cbn [x3 y3 z3]; rnumg; apply mk3_c; ring). exact X.
Qed.

(** the daemon called in POINT for ever, with a period short enough and a filter that reports a state within d of the truth at each call: the torquers are off, the wheel controller comes
    back from every call as it was, and the boresight is carried to the target within a multiple of d^2 and held there *)
Theorem C132_daemon : forall al ga E m N, 0 < al -> 0 < ga -> 0 <= E < 2 * al -> 0 <= m -> 0 <= N -> exists lam h0 d0 K, 0 < lam /\ 0 < h0 /\ 0 < d0 /\ 0 < K /\
  forall model w f mt F T B b tgt y i g h d, wc_alpha w = al -> wc_gamma w = ga -> tr_mem (wc_trig w) = 1 -> 0 < tr_hw (wc_trig w) ->
  wc_sun w = Some f -> zone_free w -> spanning (s_rw (wc_sat w)) -> det3 (s_total_moment (wc_sat w)) <> 0 -> (forall v, norm3 (mv (s_inv_tot (wc_sat w)) v) <= m * norm3 v) ->
  unit3 b -> unitq (v_att (y 0)) -> 0 < h <= h0 -> 0 <= d <= d0 -> g_whl (g 0%nat) = w ->
  (forall k, point_cycle model (wc_sat w) mt F T B b tgt y (INR k * h) (INR (S k) * h) (i k) (g k) (g (S k))) -> (forall k, told_near d (wc_sat w) tgt (cs_v (given (i k) (g k))) (y (INR k * h))) ->
  (forall t, 0 <= t -> v_pos (y t) <> tgt /\ sight_rate tgt (y t) <= d /\ norm3 (T t) <= d /\ norm3 (body_momentum (wc_sat w) (y t)) <= N) ->
  2 * al * (1 - sqrt ((1 + aim b tgt (y 0)) / 2)) + rate2 (y 0) / 2 <= E ->
  (forall k, g_whl (g k) = w /\ g_mag_cmd (g (S k)) = [0; 0; 0]) /\
  forall t, 0 <= t -> al * (1 - aim b tgt (y t)) + rate2 (y t) <= 6 * (al * (1 - aim b tgt (y 0)) + rate2 (y 0)) * exp (- lam * t) + K * d ^ 2.
Proof.
  intros al ga E m N A G HE M0 N0. destruct (C132_points al ga E m N A G HE M0 N0) as (lam & h0 & d0 & K & L0 & H0 & D0 & K0 & X). exists lam, h0, d0, K. split; [exact L0|]. split; [exact H0|]. split; [exact D0|]. split; [exact K0|].
  intros model w f mt F T B b tgt y i g h d EA EG TM HW HS HZ SP DJ NJ UB U0 Hh Hd G0 CY TN ENV HV.
  assert (WS : forall k, wc_sat (g_whl (g k)) = wc_sat w). { induction k as [|k IH]; [rewrite G0; reflexivity|]. exact (proj1 (proj2 (cycle_told _ _ _ _ _ _ _ _ _ _ _ _ _ _ IH (CY k)))). }
  destruct (X w f b tgt F T (fun k => cs_v (given (i k) (g k))) y (fun k => g_whl (g k)) h d EA EG TM HW HS HZ SP DJ NJ UB U0 TN Hh Hd G0 (fun k => proj1 (cycle_told _ _ _ _ _ _ _ _ _ _ _ _ _ _ (WS k) (CY k))) ENV HV) as (X1 & X2).
  split; [|exact X2]. intros k. split; [apply X1|]. exact (proj2 (proj2 (cycle_told _ _ _ _ _ _ _ _ _ _ _ _ _ _ (WS k) (CY k)))).
Qed.
Print Assumptions C132_daemon.

(** ** such runs exist, with an error of order d that does not go away *)
Lemma balanced_u w f x b tgt : wc_sun w = Some f -> zone_free w -> spanning (s_rw (wc_sat w)) -> 0 <= rw_maxT (s_rw (wc_sat w)) -> det3 (s_total_moment (wc_sat w)) <> 0 ->
  (length (rw_wheels (s_rw (wc_sat w))) <= length (v_whl (cs_v x)))%nat -> unitq (v_att (cs_v x)) -> unit3 b -> unit3 (pointing_vector (v_pos (cs_v x)) tgt) -> stare_rate_intl (v_pos (cs_v x)) (v_vel (cs_v x)) tgt = zero3 ->
  let D := sandwich (v_att (cs_v x)) (pointing_vector (v_pos (cs_v x)) tgt) in -1 < dot3 b D -> tr_mem (wc_trig w) = 1 -> 0 < tr_hw (wc_trig w) ->
  let bt := v_rate (cs_v x) in let J := s_total_moment (wc_sat w) in
  scale3 (wc_alpha w) (haxis b D) = sub3 (scale3 (wc_gamma w) bt) (mv (s_inv_tot (wc_sat w)) (cross3 bt (add3 (mv J bt) (rw_momentum (s_rw (wc_sat w)) (v_whl (cs_v x)))))) ->
  tracking w (cs_v x) (sandwich (v_att (cs_v x)) (stare_rate_intl (v_pos (cs_v x)) (v_vel (cs_v x)) tgt)) zero3 (stare_attitude (v_pos (cs_v x)) (v_att (cs_v x)) b tgt) = Ok (w, zero3).
Proof.
  intros HS HZ SP MT DJ HL U UB UP SR D DD TM HW bt J BAL. assert (UD : unit3 D). { unfold unit3, D. rewrite sandwich_dot, U, UP. ring. }
  assert (HC : 0 < hcos b D) by (unfold hcos; apply sqrt_lt_R0; lra). assert (AQ := stare_acq (v_pos (cs_v x)) (v_att (cs_v x)) b tgt UB UD HC). fold D in AQ.
  rewrite SR, sandwich_0. rewrite (tracking_free w (cs_v x) zero3 zero3 _ f HS HZ HL). cbv zeta. rewrite stare_error by exact U. rewrite AQ.
  assert (EW : qw (conjugate (mkq (hcos b D) (x3 (haxis b D)) (y3 (haxis b D)) (z3 (haxis b D)))) = hcos b D) by reflexivity. assert (EV : vec (conjugate (mkq (hcos b D) (x3 (haxis b D)) (y3 (haxis b D)) (z3 (haxis b D)))) = opp3 (haxis b D)) by (destruct (haxis b D); reflexivity).
  rewrite EW, EV. rewrite trig_keep by (rewrite TM; lra). rewrite !sandwich_0, TM. assert (EWC : set_trig w (wc_trig w) = w) by (destruct w; reflexivity). rewrite EWC. fold bt. fold J.
  match goal with |- Ok (w, ?u) = _ => assert (Z : u = zero3) end.
  { replace (sub3 (sub3 (scale3 (- (1) * wc_alpha w) (opp3 (haxis b D))) (scale3 (wc_gamma w) (sub3 bt zero3))) (add3 (cross3 bt zero3) zero3)) with (sub3 (scale3 (wc_alpha w) (haxis b D)) (scale3 (wc_gamma w) bt)).
    2:{ generalize (haxis b D) bt (wc_alpha w) (wc_gamma w). clear. intros [h1 h2 h3] [b1 b2 b3] al ga. unfold zero3. vunfoldg; cbn [x3 y3 z3]; rnumg. apply mk3_c; ring. }
    rewrite BAL. set (c := cross3 bt (add3 (mv J bt) (rw_momentum (s_rw (wc_sat w)) (v_whl (cs_v x))))). replace (sub3 (sub3 (scale3 (wc_gamma w) bt) (mv (s_inv_tot (wc_sat w)) c)) (scale3 (wc_gamma w) bt)) with (scale3 (-1) (mv (s_inv_tot (wc_sat w)) c)).
    2:{ generalize (mv (s_inv_tot (wc_sat w)) c) bt (wc_gamma w). clear. intros [h1 h2 h3] [b1 b2 b3] ga. vunfoldg; cbn [x3 y3 z3]; rnumg. apply mk3_c; ring. }
    replace (mv J (scale3 (-1) (mv (s_inv_tot (wc_sat w)) c))) with (scale3 (-1) (mv J (mv (s_inv_tot (wc_sat w)) c))). 2:{ generalize (mv (s_inv_tot (wc_sat w)) c) J. clear. intros [h1 h2 h3] [[a1 a2 a3] [b1 b2 b3] [c1 c2 c3]]. vunfoldg; cbn [x3 y3 z3 row1 row2 row3]; rnumg. apply mk3_c; ring. }
    unfold s_inv_tot. fold J. rewrite mv_inv3 by exact DJ. generalize c. clear. intros [c1 c2 c3]. unfold zero3. vunfoldg; cbn [x3 y3 z3]; rnumg. apply mk3_c; ring. }
  rewrite Z. reflexivity.
Qed.
Lemma unsat_zero s : 0 <= rw_maxT s -> unsaturated s zero3.
Proof.
  intros M. right. unfold rw_distribute. rewrite mv_zero3. apply Forall_forall. intros x I. apply in_map_iff in I. destruct I as (w & <- & _). replace (dot3 (w_axis w) zero3) with 0 by (generalize (w_axis w); clear; intros [p q r]; unfold zero3; vunfoldg; cbn [x3 y3 z3]; rnumg; ring). rewrite Rabs_R0. exact M.
Qed.
(** for every controller, every period and every bias along a principal axis perpendicular to the boresight there is a run of daemon and satellite that meets the hypotheses of C132_daemon with an error d
    proportional to the bias, and in which the boresight stays off the target by an angle of the order of d: the square in C132_daemon is the best power *)
Theorem C132_runs : forall w f mt B mom bs b dt a (c : AClock) h d, let sat := wc_sat w in let J := s_total_moment sat in
  wc_sun w = Some f -> zone_free w -> spanning (s_rw sat) -> 0 <= rw_maxT (s_rw sat) -> symm J -> pdm J -> tr_mem (wc_trig w) = 1 -> 0 < tr_hw (wc_trig w) -> 0 < wc_alpha w -> 0 < wc_gamma w -> sys_actuate mt [0; 0; 0] = Ok mom ->
  unit3 b -> bs <> zero3 -> dot3 bs b = 0 -> cross3 bs (mv J bs) = zero3 -> wc_gamma w * norm3 bs < 2 * wc_alpha w -> 0.001 <= dt -> wgs_a <= a -> 0 < h -> norm3 bs / 2 <= d -> norm3 (mv J bs) / 2 <= d ->
  exists tgt y i g, unitq (v_att (y 0)) /\ g_whl (g O) = w /\
    (forall k, point_cycle false sat mt (fun _ => zero3) (fun _ => zero3) B b tgt y (INR k * h) (INR (S k) * h) (i k) (g k) (g (S k)) /\ told_near d sat tgt (cs_v (given (i k) (g k))) (y (INR k * h)) /\ v_rate (cs_v (given (i k) (g k))) = scale3 (1 / 2) bs) /\
    forall t, v_pos (y t) <> tgt /\ sight_rate tgt (y t) = 0 /\ body_momentum sat (y t) = zero3 /\ v_rate (y t) = zero3 /\ aim b tgt (y t) = 1 - 2 * (wc_gamma w * norm3 bs / (2 * wc_alpha w)) ^ 2.
Proof.
  intros w f mt B mom bs b dt a c h d sat J HS HZ SP MT SY PD TM HW AL GA SA UB NB PB PR SM H HA HP ND1 ND2.
  assert (NP : 0 < norm3 bs) by (apply norm3_gt0, NB). set (sg := wc_gamma w * norm3 bs / (2 * wc_alpha w)). assert (SG : 0 < sg < 1).
  { unfold sg. split; [apply Rdiv_lt_0_compat; [apply Rmult_lt_0_compat; lra|lra]|]. apply (Rmult_lt_reg_r (2 * wc_alpha w)); [lra|]. unfold Rdiv. rewrite Rmult_assoc, Rinv_l by lra. lra. }
  set (u := scale3 (/ norm3 bs) bs). assert (N2 := P_quat.norm3_sq bs). assert (U1 : dot3 u u = 1). { transitivity (/ norm3 bs * / norm3 bs * dot3 bs bs); [unfold u; generalize (/ norm3 bs) bs; clear; intros l [p q r]; vunfoldg; cbn [x3 y3 z3]; rnumg; ring|]. rewrite <- N2. field. lra. }
  assert (U2 : dot3 u b = 0). { transitivity (/ norm3 bs * dot3 bs b); [unfold u; generalize (/ norm3 bs) bs b; clear; intros l [p q r] [p' q' r']; vunfoldg; cbn [x3 y3 z3]; rnumg; ring|]. rewrite PB. ring. }
  set (ch := sqrt (1 - sg * sg)). assert (CH : 0 < ch) by (apply sqrt_lt_R0; nra). assert (CH2 : ch * ch = 1 - sg * sg) by (apply sqrt_sqrt; nra).
  set (D := add3 (scale3 (1 - 2 * (sg * sg)) b) (scale3 (2 * sg * ch) (cross3 u b))).
  assert (B1 : dot3 b b = 1) by exact UB. assert (C1 : dot3 (cross3 u b) (cross3 u b) = 1) by (transitivity (dot3 u u * dot3 b b - dot3 u b * dot3 u b); [generalize u b; clear; intros [p q r] [p' q' r']; vunfoldg; cbn [x3 y3 z3]; rnumg; ring|rewrite U1, U2, B1; ring]).
  assert (BD : dot3 b D = 1 - 2 * (sg * sg)). { transitivity ((1 - 2 * (sg * sg)) * dot3 b b); [unfold D; generalize u b (sg * sg) (2 * sg * ch); clear; intros [p q r] [p' q' r'] l k; vunfoldg; cbn [x3 y3 z3]; rnumg; ring|rewrite B1; ring]. }
  assert (UD : unit3 D). { unfold unit3. transitivity ((1 - 2 * (sg * sg)) * (1 - 2 * (sg * sg)) * dot3 b b + (2 * sg * ch) * (2 * sg * ch) * dot3 (cross3 u b) (cross3 u b)); [unfold D; generalize u b (sg * sg) (2 * sg * ch); clear; intros [p q r] [p' q' r'] l k; vunfoldg; cbn [x3 y3 z3]; rnumg; ring|]. rewrite B1, C1. replace (2 * sg * ch * (2 * sg * ch)) with (4 * (sg * sg) * (ch * ch)) by ring. rewrite CH2. ring. }
  assert (HC : hcos b D = ch) by (unfold hcos, ch; rewrite BD; f_equal; field).
  assert (CB : cross3 b D = scale3 (2 * sg * ch) u). { transitivity (scale3 (2 * sg * ch) (sub3 (scale3 (dot3 b b) u) (scale3 (dot3 u b) b))); [unfold D; generalize u b (1 - 2 * (sg * sg)) (2 * sg * ch); clear; intros [p q r] [p' q' r'] l k; vunfoldg; cbn [x3 y3 z3]; rnumg; apply mk3_c; ring|]. rewrite B1, U2. generalize u b (2 * sg * ch). clear. intros [p q r] [p' q' r'] k. vunfoldg; cbn [x3 y3 z3]; rnumg; apply mk3_c; ring. }
  assert (HX : haxis b D = scale3 sg u). { unfold haxis. rewrite HC, CB. revert CH. generalize u ch sg. clear. intros [p q r] k l K. vunfoldg; cbn [x3 y3 z3]; rnumg; apply mk3_c; field; lra. }
  set (p := mk3 a 0 0 : v3). set (tgt := add3 p D). assert (TP : sub3 tgt p = D) by (unfold tgt; generalize p D; clear; intros [x y z] [x' y' z']; vunfoldg; cbn [x3 y3 z3]; rnumg; apply mk3_c; ring).
  assert (NDD : norm3 D = 1) by (unfold norm3; rewrite UD; apply sqrt_1). assert (PV : pointing_vector p tgt = D). { rewrite pv_scale, TP, NDD. generalize D. clear. intros [x y z]. vunfoldg; cbn [x3 y3 z3]; rnumg; apply mk3_c; field. }
  assert (SR : stare_rate_intl p zero3 tgt = zero3). { unfold stare_rate_intl. cbv zeta. rewrite cross_0_r. generalize (dot3 (sub3 p tgt) (sub3 p tgt)). clear. intros d. unfold zero3. vunfoldg; cbn [x3 y3 z3]; rnumg; apply mk3_c; unfold Rdiv; ring. }
  set (whl := no_accel (s_rw sat)). set (bt := scale3 (1 / 2) bs). assert (CZ : cross3 bt (add3 (mv J bt) (rw_momentum (s_rw sat) whl)) = zero3).
  { unfold whl. rewrite momentum_none, add3_0_r. transitivity (scale3 (1 / 4) (cross3 bs (mv J bs))); [unfold bt; generalize bs J; clear; intros [x y z] [[a1 a2 a3] [b1 b2 b3] [c1 c2 c3]]; vunfoldg; cbn [x3 y3 z3 row1 row2 row3]; rnumg; apply mk3_c; field|]. rewrite PR. clear. vring. }
  assert (PS : forall mg, point_and_stare w (mkCS (mkSV p zero3 one_q bt whl) mg) b tgt = Ok (w, no_accel (s_rw (wc_sat w)))).
  { intros mg. apply (balanced w f); cbn [cs_v v_pos v_vel v_att v_rate v_whl]; try assumption; try (rewrite (proj1 (one_sandwich _))); rewrite ?PV; try assumption; [apply Rgt_not_eq; exact (pd_det J SY PD)|unfold whl, no_accel; rewrite map_length; apply le_n|exact one_unit|rewrite BD; nra|].
    fold sat. fold J. rewrite CZ, HX, mv_zero3. unfold bt, u, sg. revert NP AL. generalize bs (norm3 bs) (wc_alpha w) (wc_gamma w). clear. intros [x y z] n al ga NP AL. unfold zero3. vunfoldg; cbn [x3 y3 z3]; rnumg; apply mk3_c; field; lra. }
  assert (PU : forall mg, tracking w (cs_v (mkCS (mkSV p zero3 one_q bt whl) mg)) (sandwich one_q (stare_rate_intl p zero3 tgt)) zero3 (stare_attitude p one_q b tgt) = Ok (w, zero3)).
  { intros mg. apply (balanced_u w f (mkCS (mkSV p zero3 one_q bt whl) mg)); cbn [cs_v v_pos v_vel v_att v_rate v_whl]; try assumption; try (rewrite (proj1 (one_sandwich _))); rewrite ?PV; try assumption; [apply Rgt_not_eq; exact (pd_det J SY PD)|unfold whl, no_accel; rewrite map_length; apply le_n|exact one_unit|rewrite BD; nra|].
    fold sat. fold J. rewrite CZ, HX, mv_zero3. unfold bt, u, sg. revert NP AL. generalize bs (norm3 bs) (wc_alpha w) (wc_gamma w). clear. intros [x y z] n al ga NP AL. unfold zero3. vunfoldg; cbn [x3 y3 z3]; rnumg; apply mk3_c; field; lra. }
  set (i := point_call_of bs b tgt whl dt a c). set (m0 := mkMgr (mkKF (mkAF zero3 zero3 one_q bt (a_P (af_init one_q))) (mkPF (mk6 p zero3) (diag6 1 1) ex_st) None dt (dt + 1)) (g_mag ex_mgr) w [] []).
  set (st := fun m => mgr_propagate false (i_fuel i) (i_store i) (i_clock i) (i_meas i) (i_dur i) (i_id i) (i_bore i) (i_tgt i) (Some (i_pos i, i_vel i, i_att i)) m).
  set (nx := fun m => match st m with Some (Ok m') => m' | _ => m end). set (m := fun k => Nat.iter k nx m0).
  assert (INV : forall k, filters_ok dt a (m k) /\ half_knows one_q bs (kf_att (g_filter (m k))) /\ g_whl (m k) = w).
  { induction k as [|k (I1 & I2 & I3)]; [unfold m; cbn [Nat.iter nat_rect m0 g_filter g_whl kf_att]; split; [|split; [repeat split|reflexivity]]|].
    - unfold filters_ok, m0. cbn [g_filter kf_att kf_pos kf_gyro_dt kf_gps_dt a_P p_P p_x]. split; [apply init_cov|]. split; [apply diag6_symm|]. split; [apply diag6_psd; lra|]. split; [reflexivity|]. split; [reflexivity|clear; lra].
    - destruct (point_step w bs b tgt whl dt a c (m k) H HA I1 I2 I3 PS) as (m' & E & X1 & X2 & X3 & _). change (m (S k)) with (nx (m k)). unfold nx, st, i. rewrite E. split; [exact X1|split; [exact X2|exact X3]]. }
  assert (AW : p <> tgt). { intros Z. revert NDD. rewrite <- TP, <- Z. replace (sub3 p p) with (zero3 (T:=R)) by (generalize p; clear; intros [x y z]; unfold zero3; vunfoldg; cbn [x3 y3 z3]; rnumg; apply mk3_c; ring). rewrite P_obs3.norm3_zero. lra. }
  exists tgt, (fun _ => mkSV p zero3 one_q zero3 whl), (fun _ => i), m. split; [exact one_unit|]. split; [reflexivity|]. split.
  - intros k. destruct (INV k) as (I1 & I2 & I3). destruct (point_step w bs b tgt whl dt a c (m k) H HA I1 I2 I3 PS) as (m' & E & X1 & X2 & X3 & X4 & X5 & X6 & X7). fold i in E, X6, X7. assert (ME : m (S k) = m') by (change (m (S k)) with (nx (m k)); unfold nx, st; rewrite E; reflexivity). rewrite ME.
    destruct (half_call false i (m k) _ one_q bs E one_unit eq_refl eq_refl I2) as (_ & Y1 & Y2 & Y3). change (v_whl (cs_v (i_meas i))) with whl in Y3.
    assert (GV : cs_v (given i (m k)) = mkSV p zero3 one_q bt whl). { destruct (cs_v (given i (m k))) as [g1 g2 g3 g4 g5] eqn:EG. cbn [v_pos v_vel v_att v_rate v_whl] in *. rewrite X6, X7, Y1, Y2, Y3. reflexivity. }
    split; [|split; [|rewrite GV; reflexivity]].
    + unfold point_cycle. cbv beta. split; [exact E|]. do 3 (split; [reflexivity|]). split.
      { cbv zeta. intros w' u'. rewrite GV, I3. cbn [v_att v_pos v_vel]. assert (PP := PU zero3). cbn [cs_v] in PP. rewrite PP. intros Z. assert (u' = zero3) by congruence. subst u'. replace (opp3 (zero3 (T:=R))) with (zero3 (T:=R)) by (unfold zero3; vunfoldg; cbn [x3 y3 z3]; rnumg; apply mk3_c; ring). apply unsat_zero, MT. }
      exists mom, (fun _ => mkSV p zero3 one_q zero3 whl), (INR k * h - 1), (INR (S k) * h + 1). rewrite X4, X5. split; [exact SA|]. split; [lra|]. split; [lra|]. split; [reflexivity|]. intros t _. cbn [v_whl]. fold sat. rewrite (torquers_off mt 3 mom SA), torque_none.
      replace (add3 zero3 (cross3 zero3 (B t))) with (cross3 zero3 (B t)) by (generalize (B t); clear; intros [x y z]; unfold zero3; vunfoldg; cbn [x3 y3 z3]; rnumg; apply mk3_c; ring).
    assert (DZ : derivative sat (mkSV p zero3 one_q zero3 whl) zero3 (cross3 zero3 (B t)) zero3 (rw_momentum (s_rw sat) whl) whl = mkSV zero3 zero3 zeroq zero3 whl).
    { unfold derivative. cbn [v_vel v_att v_rate]. f_equal; [clear; unfold div3; unfold zero3; cbn [x3 y3 z3]; rnumg; apply mk3_c; unfold Rdiv; ring|clear; unfold one_q, product, zeroq, zero3; vunfoldg; cbn [x3 y3 z3 qw qx qy qz]; rnumg; apply mkq_c; ring|].
      match goal with |- mv _ ?v = _ => replace v with (zero3 (T:=R)) end; [apply mv_zero3|]. generalize (B t) (add3 (rw_momentum (s_rw sat) whl) (mv (s_total_moment sat) zero3)). clear. intros [x y z] [x' y' z']. unfold zero3. vunfoldg; cbn [x3 y3 z3]; rnumg; apply mk3_c; ring. }
    fold whl. rewrite DZ. split; [exact (d3_const p t)|]. split; [exact (d3_const zero3 t)|]. split; [repeat split; exact (derivable_pt_lim_const _ t)|]. split; [exact (d3_const zero3 t)|]. intros n. cbn [v_whl]. unfold whl. rewrite nth_none. exact (d_const 0 t).
    + rewrite GV. unfold told_near. cbn [v_att v_pos v_rate]. split; [exact one_unit|]. split; [exact AW|]. assert (D0 : 0 <= d) by (assert (Z := norm3_pos bs); lra).
      split; [unfold sight_rate; cbn [v_pos v_vel]; rewrite SR, P_obs3.norm3_zero; exact D0|]. split.
      { unfold seen. cbn [v_att v_pos]. generalize (sandwich one_q (pointing_vector p tgt)). intros v. replace (sub3 v v) with (zero3 (T:=R)) by (clear; destruct v as [x y z]; unfold zero3; vunfoldg; cbn [x3 y3 z3]; rnumg; apply mk3_c; ring). rewrite P_obs3.norm3_zero. exact D0. }
      split; [replace (sub3 bt zero3) with (scale3 (1 / 2) bs) by (unfold bt; generalize bs; clear; intros [x y z]; unfold zero3; vunfoldg; cbn [x3 y3 z3]; rnumg; apply mk3_c; ring); rewrite norm3_scal, Rabs_right by lra; lra|].
      unfold body_momentum. cbn [v_rate v_whl]. fold J. replace (sub3 (add3 (mv J bt) (rw_momentum (s_rw sat) whl)) (add3 (mv J zero3) (rw_momentum (s_rw sat) whl))) with (scale3 (1 / 2) (mv J bs)); [rewrite norm3_scal, Rabs_right by lra; lra|].
      unfold bt. generalize bs J (rw_momentum (s_rw sat) whl). clear. intros [x y z] [[a1 a2 a3] [b1 b2 b3] [c1 c2 c3]] [e1 e2 e3]. unfold zero3. vunfoldg; cbn [x3 y3 z3 row1 row2 row3]; rnumg; apply mk3_c; ring.
  - intros t. split; [exact AW|]. split; [unfold sight_rate; cbn [v_pos v_vel]; rewrite SR; apply P_obs3.norm3_zero|]. split; [unfold body_momentum; cbn [v_rate v_whl]; unfold whl; rewrite momentum_none, mv_zero3; apply add3_0_r|]. split; [reflexivity|].
    unfold aim; cbn [v_att v_pos]; rewrite (proj2 (one_sandwich b)), PV, BD; ring.
Qed.
Print Assumptions C132_runs.
(** for every period h and every error d up to 0.1 all the hypotheses of C132_daemon are met, with the boresight off the target *)
Example C132_ex : forall h d, 0 < h -> 0 < d <= 0.1 -> let w := axis_ctl in let al := wc_alpha w in exists tgt y i g,
  tr_mem (wc_trig w) = 1 /\ 0 < tr_hw (wc_trig w) /\ wc_sun w = Some (fun _ => ex) /\ zone_free w /\ spanning (s_rw (wc_sat w)) /\ det3 (s_total_moment (wc_sat w)) <> 0 /\ (forall v, norm3 (mv (s_inv_tot (wc_sat w)) v) <= / 4 * norm3 v) /\
  unit3 (ez : v3) /\ unitq (v_att (y 0)) /\ g_whl (g 0%nat) = w /\
  (forall k, point_cycle false (wc_sat w) [] (fun _ => zero3) (fun _ => zero3) (fun _ => ex) ez tgt y (INR k * h) (INR (S k) * h) (i k) (g k) (g (S k))) /\ (forall k, told_near d (wc_sat w) tgt (cs_v (given (i k) (g k))) (y (INR k * h))) /\
  (forall t, v_pos (y t) <> tgt /\ sight_rate tgt (y t) <= d /\ norm3 (body_momentum (wc_sat w) (y t)) <= 0) /\
  2 * al * (1 - sqrt ((1 + aim ez tgt (y 0)) / 2)) + rate2 (y 0) / 2 <= al /\ (forall t, aim ez tgt (y t) < 1) /\ (forall k, v_rate (cs_v (given (i k) (g k))) <> v_rate (y (INR k * h))).
Proof.
  intros h d Hh Hd w al. set (s := d / 4). set (bs := mk3 s 0 0 : v3). set (J := s_total_moment (wc_sat w)).
  assert (N : norm3 bs = s). { unfold norm3. rnumg. replace (dot3 bs bs) with (s * s) by (unfold bs; vunfoldg; cbn [x3 y3 z3]; rnumg; ring). apply sqrt_square. unfold s. lra. }
  assert (JE : J = scalem 4 id3) by exact free_ball_total. assert (JB : mv J bs = scale3 4 bs) by (rewrite JE; unfold bs; vunfoldg; cbn [x3 y3 z3 row1 row2 row3]; rnumg; apply mk3_c; ring).
  assert (NB : bs <> zero3) by (unfold bs, zero3; intros Z; apply (f_equal x3) in Z; cbn [x3] in Z; revert Z; rnumg; unfold s; lra). assert (SYM : symm J) by (rewrite JE; unfold symm; vunfoldg; rnumg; reflexivity).
  assert (PD : pdm J). { rewrite JE. intros v NV. assert (P := dot3_pos v NV). replace (dot3 v (mv (scalem 4 id3) v)) with (4 * dot3 v v) by (destruct v as [x y z]; vunfoldg; cbn [x3 y3 z3 row1 row2 row3]; rnumg; ring). lra. }
  assert (UZ : unit3 (ez : v3)) by (unfold unit3, ez; vunfoldg; cbn [x3 y3 z3]; rnumg; ring). assert (AE : wc_alpha w = 0.02) by (cbn; lra). assert (GE : wc_gamma w = 0.1414) by (cbn; lra).
  destruct (C132_runs w (fun _ => ex) [] (fun _ => ex) zero3 bs ez 1 wgs_a (CClock day0) h d) as (tgt & y & i & g & Y0 & G0 & CY & ENV).
  { reflexivity. } { right; reflexivity. } { exact free_ball_spanning. } { cbn; lra. } { exact SYM. } { exact PD. } { reflexivity. } { cbn; lra. } { rewrite AE; lra. } { rewrite GE; lra. } { reflexivity. } { exact UZ. } { exact NB. }
  { unfold bs, ez; vunfoldg; cbn [x3 y3 z3]; rnumg; ring. } { fold J. rewrite JB. unfold bs, zero3; vunfoldg; cbn [x3 y3 z3]; rnumg; apply mk3_c; ring. } { rewrite N, AE, GE. unfold s. lra. } { lra. } { apply Rle_refl. } { exact Hh. } { rewrite N. unfold s. lra. } { fold J. rewrite JB, norm3_scal, N, Rabs_right by lra. unfold s. lra. }
  rewrite N, AE, GE in ENV. set (sg := 0.1414 * s / (2 * 0.02)) in ENV. assert (SG : 0 < sg < 0.1) by (unfold sg, s; lra). fold al in AE.
  exists tgt, y, i, g. split; [reflexivity|]. split; [cbn; lra|]. split; [reflexivity|]. split; [right; reflexivity|]. split; [exact free_ball_spanning|]. split; [apply Rgt_not_eq; exact (pd_det J SYM PD)|]. split; [exact ball_inv|]. split; [exact UZ|]. split; [exact Y0|]. split; [exact G0|].
  split; [intros k; apply CY|]. split; [intros k; apply CY|]. split. { intros t. destruct (ENV t) as (E1 & E2 & E3 & _). split; [exact E1|]. split; [rewrite E2; lra|]. rewrite E3, P_obs3.norm3_zero. apply Rle_refl. }
  destruct (ENV 0) as (_ & _ & _ & E4 & E5). split.
  - rewrite AE. replace (rate2 (y 0)) with 0 by (unfold rate2; rewrite E4; unfold zero3; vunfoldg; cbn [x3 y3 z3]; rnumg; ring). rewrite E5. assert (Z : 1 / 2 <= sqrt ((1 + (1 - 2 * sg ^ 2)) / 2)). { rewrite <- (sqrt_square (1 / 2)) by lra. apply sqrt_le_1_alt. nra. } lra.
  - split; [intros t; destruct (ENV t) as (_ & _ & _ & _ & ->); nra|]. intros k. rewrite (proj2 (proj2 (CY k))). destruct (ENV (INR k * h)) as (_ & _ & _ & -> & _). intros Z. apply (f_equal x3) in Z. revert Z. unfold bs, zero3. vunfoldg; cbn [x3 y3 z3]; rnumg. unfold s. lra.
Qed.
