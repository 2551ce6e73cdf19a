(** * Property C108: tracking under disturbance torques *)
From Coq Require Import Reals ZArith List Bool Lra Lia Psatz.
From Verif Require Import Num Vec M_vector M_quaternion M_jday M_struct M_dyn M_ctrl S_rot S_dyn S_ctrl.
From Verif Require Import P_quat P_struct P_wheel P_dyn P_dyn2 P_obs P_ctrl P_ctrl2 P_ctrl3 P_ctrl4 P_ctrl5 P_conv P_ode P_tot3 P_orb3 P_posf P_detum P_samp P_samp2 Props_ctrl2 Props_conv Props_samp.
Import ListNotations.
Local Open Scope R_scope.

(** at time t the wheels obey the command the controller computes for the target attitude qc at rest, and the satellite moves by
    the code's equations under that command and the external torque T t *)
Definition obeys_under (w : WhlCtl) (qc : quat) (F T : R -> v3) (y : R -> SVec) (t : R) : Prop :=
  exists w' u acc, tracking w (y t) zero3 zero3 qc = Ok (w', u) /\ unsaturated (s_rw (wc_sat w)) (opp3 u) /\ whl_actuator_commands w' u = Ok acc /\
    deriv_sv y t (derivative (wc_sat w) (y t) (F t) (T t) (rw_torque (s_rw (wc_sat w)) acc) (rw_momentum (s_rw (wc_sat w)) (v_whl (y t))) acc).
(** acceleration by the external torque *)
Definition push (sat : Satellite) (T : v3) : v3 := mv (s_inv_tot sat) T.

Lemma under_rot w f qc F T y t : wc_sun w = Some f -> zone_free w -> spanning (s_rw (wc_sat w)) -> det3 (s_total_moment (wc_sat w)) <> 0 -> obeys_under w qc F T y t ->
  derivq (fun u => v_att (y u)) t (scaleq 0.5 (product (v_att (y t)) (pure (v_rate (y t))))) /\
  deriv3 (fun u => v_rate (y u)) t (add3 (push (wc_sat w) (T t)) (sub3 (scale3 (- tr_mem (trig_step (qw (error_quat (v_att (y t)) qc)) (wc_trig w)) * wc_alpha w) (vec (error_quat (v_att (y t)) qc))) (scale3 (wc_gamma w) (v_rate (y t))))).
Proof.
  intros HS HZ SP DJ (w' & u & acc & TR & US & WA & D). assert (HL := tracking_len _ _ _ _ _ _ TR).
  destruct (closed_loop w (y t) zero3 zero3 qc f HS HZ HL SP DJ) as (u' & TR' & H). rewrite TR' in TR. assert (EW : set_trig w (trig_step (qw (error_quat (v_att (y t)) qc)) (wc_trig w)) = w') by congruence. assert (EU : u' = u) by congruence. subst w' u'.
  destruct (H US) as (a' & WA' & _ & K). rewrite WA' in WA. assert (EA : a' = acc) by congruence. subst a'. destruct D as (_ & _ & D1 & D2 & _). rewrite K in D2. split; [exact D1|].
  eapply d3_eq; [exact D2|]. unfold push. rewrite !sandwich_0, cross_0_r, sub3_0_r. set (a := - _ * wc_alpha w). generalize (mv (s_inv_tot (wc_sat w)) (T t)) (vec (error_quat (v_att (y t)) qc)) (v_rate (y t)) a (wc_gamma w). vring.
Qed.
Lemma under_unit w f qc F T y a : a < 0 -> wc_sun w = Some f -> zone_free w -> spanning (s_rw (wc_sat w)) -> det3 (s_total_moment (wc_sat w)) <> 0 ->
  (forall t, a < t -> obeys_under w qc F T y t) -> unitq (v_att (y 0)) -> forall t, a < t -> unitq (v_att (y t)).
Proof.
  intros A HS HZ SP DJ HO U t Ht. unfold unitq in *. rewrite <- U. apply (const_of_deriv (fun u => dotq (v_att (y u)) (v_att (y u))) a (Rmax t 0 + 1)).
  - intros u Hu. destruct (under_rot w f qc F T y u HS HZ SP DJ (HO u ltac:(lra))) as [D _]. eapply d_eq; [apply d_dotq; exact D|].
    cbv beta. generalize (v_att (y u)) (v_rate (y u)). clear. intros [p q r s] [x y z]. unfold pure, product. replace 0.5 with (1/2) by lra. vunfoldg; cbn [x3 y3 z3 qw qx qy qz]; rnumg. field.
  - assert (M := Rmax_l t 0). lra.
  - assert (M := Rmax_r t 0). lra.
Qed.
(** a derivative that pulls back, up to a time *)
Lemma pull (W W' : R -> R) b q t1 : 0 <= t1 -> (forall u, 0 <= u < t1 -> derivable_pt_lim W u (W' u)) -> (forall u, 0 <= u <= t1 -> continuity_pt W u) ->
  (forall u, 0 <= u < t1 -> W' u <= - b * (W u - q)) -> W t1 - q <= (W 0 - q) * exp (- b * t1).
Proof.
  intros T0 D C L. destruct (Req_dec t1 0) as [->|N]; [rewrite Rmult_0_r, exp_0; lra|]. assert (T1 : 0 < t1) by lra.
  assert (DE : forall u, derivable_pt_lim (fun u => exp (b * u)) u (b * exp (b * u))).
  { intros u. eapply d_eq; [apply (derivable_pt_lim_comp (fun u => b * u) exp); [eapply d_eq; [apply d_scal, d_id|reflexivity]|apply derivable_pt_lim_exp]|]. cbv beta. ring. }
  assert (K := falls (fun u => (W u - q) * exp (b * u)) (fun u => - Rabs (W' u * exp (b * u) + (W u - q) * (b * exp (b * u)))) t1 T1).
  assert (K' : (W t1 - q) * exp (b * t1) <= (W 0 - q) * exp (b * 0)).
  { apply K.
    - intros u Hu. assert (Q : W' u * exp (b * u) + (W u - q) * (b * exp (b * u)) <= 0). { assert (X := exp_pos (b * u)). assert (Y := L u Hu). replace (W' u * exp (b * u) + (W u - q) * (b * exp (b * u))) with ((W' u + b * (W u - q)) * exp (b * u)) by ring. assert (W' u + b * (W u - q) <= 0) by lra. nra. }
      rewrite Rabs_left1, Ropp_involutive by exact Q. apply (d_mult (fun u => W u - q) (fun u => exp (b * u))); [|apply DE]. eapply d_eq; [apply d_minus; [apply D, Hu|apply d_const]|]. ring.
    - intros u Hu. apply (continuity_pt_mult (fun u => W u - q) (fun u => exp (b * u))); [apply (continuity_pt_minus W (fun _ => q)); [apply C; lra|apply continuity_pt_const; intros ? ?; reflexivity]|]. apply derivable_continuous_pt. eexists. apply DE.
    - intros u. assert (X := Rabs_pos (W' u * exp (b * u) + (W u - q) * (b * exp (b * u)))). lra. }
  rewrite Rmult_0_r, exp_0, Rmult_1_r in K'. apply (Rmult_le_reg_r (exp (b * t1))); [apply exp_pos|]. rewrite Rmult_assoc, <- exp_plus. replace (- b * t1 + b * t1) with 0 by ring. rewrite exp_0. lra.
Qed.

(** for all gains, band and bound on the energy below that of a turn at the edge of the band there are a rate, a largest acceleration and a factor: under any
    external torque whose acceleration stays below that bound the trigger never flips and the error falls exponentially to a size given by the square of the acceleration *)
Theorem C108_disturbed : forall al ga hw E, 0 < al -> 0 < ga -> 0 < hw < 1 -> 0 <= E < 2 * al * (1 + hw) -> exists lam d0 K, 0 < lam /\ 0 < d0 /\ 0 < K /\
  forall w f qc F T y a d, wc_alpha w = al -> wc_gamma w = ga -> tr_hw (wc_trig w) = hw -> pm1 (tr_mem (wc_trig w)) ->
  wc_sun w = Some f -> zone_free w -> spanning (s_rw (wc_sat w)) -> det3 (s_total_moment (wc_sat w)) <> 0 ->
  unitq qc -> unitq (v_att (y 0)) -> a < 0 -> (forall t, a < t -> obeys_under w qc F T y t) ->
  0 <= d <= d0 -> (forall t, 0 <= t -> norm3 (push (wc_sat w) (T t)) <= d) ->
  let s := tr_mem (wc_trig w) in
  al * off_target s qc (y 0) + rate2 (y 0) / 2 <= E ->
  forall t, 0 <= t ->
    (exists u, tracking w (y t) zero3 zero3 qc = Ok (w, u)) /\
    2 * al * off_target s qc (y t) + rate2 (y t) <= 3 * (2 * al * off_target s qc (y 0) + rate2 (y 0)) * exp (- lam * t) + K * d ^ 2.
Proof.
  intros al ga hw E A G HW HE. set (B := 2 * al * (1 + hw)) in *. assert (B0 : 0 < B) by lra. set (de := 1 - hw). assert (D : 0 < de) by (unfold de; lra).
  destruct (cv_eps_spec al ga A G) as (EP & _). set (kq := / (2 * al) + 1). assert (KQ : 0 < kq) by (unfold kq; assert (0 < / (2 * al)) by (apply Rinv_0_lt_compat; lra); lra).
  set (e := Rmin (cv_eps al ga) (Rmin (1 / 2) ((B - E) / (4 * B)) / kq)).
  assert (TH0 : 0 < Rmin (1 / 2) ((B - E) / (4 * B))) by (apply Rmin_pos; [lra|apply Rdiv_lt_0_compat; lra]).
  assert (E0 : 0 < e) by (apply Rmin_pos; [exact EP|apply Rdiv_lt_0_compat; assumption]). assert (EC : e <= cv_eps al ga) by apply Rmin_l.
  assert (TH : e * kq <= Rmin (1 / 2) ((B - E) / (4 * B))). { apply (Rle_trans _ (Rmin (1 / 2) ((B - E) / (4 * B)) / kq * kq)); [apply Rmult_le_compat_r; [lra|apply Rmin_r]|]. right. field. lra. }
  assert (TH1 := Rle_trans _ _ _ TH (Rmin_l _ _)). assert (TH2 := Rle_trans _ _ _ TH (Rmin_r _ _)). set (th := e * kq) in *. assert (TP : 0 < th) by (apply Rmult_lt_0_compat; assumption).
  assert (TB : E * (1 + 4 * th) < B).
  { assert (T3 : 4 * th <= (B - E) / B) by (replace ((B - E) / B) with (4 * ((B - E) / (4 * B))) by (field; lra); lra). apply (Rle_lt_trans _ (E * (1 + (B - E) / B))); [apply Rmult_le_compat_l; lra|].
    apply (Rmult_lt_reg_r B); [exact B0|]. replace (E * (1 + (B - E) / B) * B) with (E * (2 * B - E)) by (field; lra). nra. }
  set (l := Rmin ga (e * de / 4)). assert (L0 : 0 < l) by (apply Rmin_pos; [exact G|assert (0 < e * de) by (apply Rmult_lt_0_compat; assumption); lra]).
  destruct (ka_spec al A) as (K0 & K1). set (ka := sm_ka al) in *. set (g := 2 + e * ka). assert (G2 : 2 < g) by (unfold g; assert (0 < e * ka) by (apply Rmult_lt_0_compat; assumption); lra).
  assert (SB := sqrt_lt_R0 B B0). assert (SQ := sqrt_sqrt B ltac:(lra)). set (d0 := l * sqrt B / (2 * g)).
  assert (Dp : 0 < d0) by (apply Rdiv_lt_0_compat; [apply Rmult_lt_0_compat; assumption|lra]).
  exists (l / 3), d0, (6 * g ^ 2 / l ^ 2). split; [lra|]. split; [exact Dp|]. split; [apply Rdiv_lt_0_compat; [apply Rmult_lt_0_compat; [lra|apply pow_lt; lra]|apply pow_lt; lra]|].
  intros w f qc F T y a d EA EG EH PM HS HZ SP DJ UC U0 HA HO Hd HT s HV. assert (SS := pm1_sq _ PM). fold s in SS.
  assert (UN := under_unit w f qc F T y a HA HS HZ SP DJ HO U0).
  set (er := fun t => error_quat (v_att (y t)) qc). assert (UE : forall t, a < t -> unitq (er t)) by (intros t Ht; apply error_quat_unit; [apply UN, Ht|exact UC]).
  set (sg := fun t => tr_mem (trig_step (qw (er t)) (wc_trig w))). set (dd := fun t => push (wc_sat w) (T t)).
  assert (DE : forall t, a < t -> derivq er t (scaleq 0.5 (product (er t) (pure (v_rate (y t)))))).
  { intros t Ht. destruct (under_rot w f qc F T y t HS HZ SP DJ (HO t Ht)) as [DD _].
    assert (X := dq_error (fun u => v_att (y u)) (fun _ => qc) t (v_rate (y t)) zero3 DD (dq_const qc t) (UN t Ht) UC). cbv zeta in X. rewrite sandwich_0, sub3_0_r in X. exact X. }
  set (ac := fun t => add3 (dd t) (sub3 (scale3 (- sg t * al) (vec (er t))) (scale3 ga (v_rate (y t))))).
  assert (DO : forall t, a < t -> deriv3 (fun u => v_rate (y u)) t (ac t)). { intros t Ht. destruct (under_rot w f qc F T y t HS HZ SP DJ (HO t Ht)) as [_ X]. rewrite EA, EG in X. exact X. }
  set (x := fun t => s * qw (er t)). set (n := fun t => rate2 (y t)). set (r := fun t => s * dot3 (vec (er t)) (v_rate (y t))).
  assert (DX : forall t, a < t -> derivable_pt_lim x t (- (r t / 2))). { intros t Ht. unfold x. eapply d_eq; [apply d_scal; exact (proj1 (DE t Ht))|]. rewrite err_w. unfold r. field. }
  assert (DN : forall t, a < t -> derivable_pt_lim n t (2 * dot3 (v_rate (y t)) (ac t))). { intros t Ht. unfold n, rate2. eapply d_eq; [apply d_dot3; exact (DO t Ht)|]. cbv beta. generalize (v_rate (y t)) (ac t). clear. intros [p q r] [l m o]; vunfoldg; rnumg; ring. }
  assert (DR : forall t, a < t -> derivable_pt_lim r t (x t * n t / 2 + s * dot3 (vec (er t)) (ac t))).
  { intros t Ht. unfold r. eapply d_eq; [apply d_scal; apply d_dot3; [apply d3_vec; exact (DE t Ht)|exact (DO t Ht)]|]. cbv beta. rewrite err_v_dot. unfold x, n, rate2. field. }
  set (V := fun t => en al s qc (y t)). set (W := fun t => enw al e s qc (y t)).
  assert (DW : forall t, a < t -> derivable_pt_lim W t (al * r t + dot3 (v_rate (y t)) (ac t) + e * (x t * n t / 2 + s * dot3 (vec (er t)) (ac t)))).
  { intros t Ht. apply (d_plus V (fun u => e * r u)); [|apply d_scal, DR, Ht]. eapply d_eq. { apply (d_plus (fun u => 2 * al * (1 - x u)) (fun u => n u / 2)); [apply d_scal, d_minus; [apply d_const|apply DX, Ht]|unfold Rdiv; apply d_mult; [apply DN, Ht|apply d_const]]. } cbv beta. field. }
  assert (FA : forall t, a < t -> -1 <= x t <= 1 /\ 0 <= n t /\ r t ^ 2 <= (1 - x t ^ 2) * n t /\ n t <= 2 * V t /\ al * dot3 (vec (er t)) (vec (er t)) <= V t /\ 0 <= V t).
  { intros t Ht. assert (I : sm_T 1 t t) by (unfold sm_T; lra). assert (UE' : forall u, sm_T 1 t u -> unitq (er u)) by (intros u Hu; apply UE; unfold sm_T in Hu; lra).
    destruct (NR s 1 t er (fun u => v_rate (y u)) SS UE' t I) as (N1 & N2 & N3 & _). destruct (V_nonneg al s 1 t er (fun u => v_rate (y u)) A SS UE' t I) as (V1 & V2 & V3). split; [exact N1|]. split; [exact N2|]. split; [exact N3|]. split; [exact V2|]. split; [exact V3|exact V1]. }
  assert (KEEP : forall t, - hw < x t -> sg t = s /\ trig_step (qw (er t)) (wc_trig w) = wc_trig w).
  { intros t Hx. assert (K : trig_step (qw (er t)) (wc_trig w) = wc_trig w) by (apply trig_keep; rewrite EH; unfold x in Hx; fold s; lra). split; [unfold sg; rewrite K; reflexivity|exact K]. }
  set (q := 3 * (g * d) ^ 2 / (2 * l ^ 2)). assert (L2 : 0 < l ^ 2) by (apply pow_lt; exact L0). assert (Q0 : 0 <= q) by (apply Rmult_le_pos; [assert (0 <= (g * d) ^ 2) by apply pow2_ge_0; lra|left; apply Rinv_0_lt_compat; lra]).
  assert (QB : 2 * q < B).
  { assert (Z : g * d <= l * sqrt B / 2). { apply (Rle_trans _ (g * d0)); [apply Rmult_le_compat_l; lra|]. unfold d0. right. field. lra. }
    assert (0 <= g * d) by (apply Rmult_le_pos; lra). assert (Z2 : (g * d) ^ 2 <= (l * sqrt B / 2) ^ 2) by (apply pow_incr; lra). replace ((l * sqrt B / 2) ^ 2) with (l ^ 2 * (sqrt B * sqrt B) / 4) in Z2 by field. rewrite SQ in Z2.
    unfold q. apply (Rmult_lt_reg_r (l ^ 2)); [exact L2|]. replace (2 * (3 * (g * d) ^ 2 / (2 * l ^ 2)) * l ^ 2) with (3 * (g * d) ^ 2) by (field; lra). nra. }
  assert (NEAR : forall t, a < t -> Rabs (W t - V t) <= th * V t) by (intros t Ht; apply (enw_near al e s qc (y t) A E0 SS (UN t Ht) UC)).
  assert (DROP : forall t, 0 <= t -> - hw < x t -> al * r t + dot3 (v_rate (y t)) (ac t) + e * (x t * n t / 2 + s * dot3 (vec (er t)) (ac t)) <= - (l / 3) * (W t - q)).
  { intros t Ht Hx. assert (At : a < t) by lra. destruct (FA t At) as (F1 & F2 & F3 & F4 & F5 & F6). destruct (KEEP t Hx) as [SG _].
    destruct (w_point al ga de e (x t) (n t) (r t) A G D E0 EC ltac:(unfold de; lra) F2 F3) as [_ P]. fold l in P. change (2 * al * (1 - x t) + n t / 2) with (V t) in P.
    assert (EQ : al * r t + dot3 (v_rate (y t)) (ac t) + e * (x t * n t / 2 + s * dot3 (vec (er t)) (ac t)) =
      (- ga * n t + e * (x t * n t / 2 - al * (1 - x t ^ 2) - ga * r t)) + (dot3 (v_rate (y t)) (dd t) + e * (s * dot3 (vec (er t)) (dd t)))).
    { unfold ac. rewrite SG. assert (U := unit_split _ (UE t At)). assert (X2 : 1 - x t ^ 2 = s * s * dot3 (vec (er t)) (vec (er t))) by (rewrite U; unfold x; replace ((s * qw (er t)) ^ 2) with (s * s * qw (er t) ^ 2) by ring; rewrite SS; ring).
      rewrite X2. unfold r, n, rate2. generalize (dd t) (vec (er t)) (v_rate (y t)) (x t). clear. intros [g1 h i] [p b c] [d e' f] X. vunfoldg; rnumg. cbn [x3 y3 z3]. ring. }
    rewrite EQ. assert (SV := sqrt_pos (V t)). assert (VV := sqrt_sqrt (V t) F6). set (R0 := sqrt (V t)) in *.
    assert (O : norm3 (v_rate (y t)) <= 2 * R0) by (apply P_exist3.norm3_le_sq; [lra|]; unfold n, rate2 in F4; nra).
    assert (EV : norm3 (vec (er t)) <= ka * R0). { apply P_exist3.norm3_le_sq; [apply Rmult_le_pos; lra|]. apply (Rmult_le_reg_l al); [exact A|]. replace (al * (ka * R0 * (ka * R0))) with (al * (ka * ka) * (R0 * R0)) by ring. rewrite K1. lra. }
    assert (P1 := dot_norm (v_rate (y t)) (dd t)). assert (P2 := dot_norm (vec (er t)) (dd t)). assert (Pd := norm3_pos (dd t)). assert (Po := norm3_pos (v_rate (y t))). assert (Pv := norm3_pos (vec (er t))). assert (HTt := HT t Ht). fold (dd t) in HTt.
    assert (Z1 : norm3 (v_rate (y t)) * norm3 (dd t) <= 2 * R0 * d) by (apply Rmult_le_compat; assumption). assert (Z2 : norm3 (vec (er t)) * norm3 (dd t) <= ka * R0 * d) by (apply Rmult_le_compat; assumption).
    assert (S1 : Rabs s = 1) by (assert (Z := pow2_abs s); assert (Z' := Rabs_pos s); assert (s ^ 2 = 1) by (rewrite <- SS; ring); nra).
    assert (Z3 : s * dot3 (vec (er t)) (dd t) <= ka * R0 * d) by (eapply Rle_trans; [apply Rle_abs|]; rewrite Rabs_mult, S1; lra).
    assert (Z4 : e * (s * dot3 (vec (er t)) (dd t)) <= e * (ka * R0 * d)) by (apply Rmult_le_compat_l; lra). assert (Z5 := Rle_abs (dot3 (v_rate (y t)) (dd t))).
    assert (Z6 : 2 * R0 * d + e * (ka * R0 * d) = g * d * R0) by (unfold g; ring).
    assert (Z7 : g * d * R0 <= l / 2 * V t + (g * d) ^ 2 / (2 * l)).
    { assert (X := pow2_ge_0 (l * R0 - g * d)). rewrite <- VV. apply (Rmult_le_reg_r (2 * l)); [lra|]. replace ((l / 2 * (R0 * R0) + (g * d) ^ 2 / (2 * l)) * (2 * l)) with (l * l * (R0 * R0) + (g * d) ^ 2) by (field; lra). nra. }
    assert (Z8 : (g * d) ^ 2 / (2 * l) = l / 3 * q) by (unfold q; field; lra). rewrite Z8 in Z7.
    assert (NT := NEAR t At). apply rabs_b in NT. assert (th * V t <= 1 / 2 * V t) by (apply Rmult_le_compat_r; lra). assert (Z9 : W t <= 3 / 2 * V t) by lra. assert (l * W t <= l * (3 / 2 * V t)) by (apply Rmult_le_compat_l; lra). lra. }
  assert (LOW : forall t, 0 <= t -> (forall u, 0 <= u < t -> - hw < x u) -> W t - q <= (W 0 - q) * exp (- (l / 3) * t)).
  { intros t Ht HX. apply (pull W (fun t => al * r t + dot3 (v_rate (y t)) (ac t) + e * (x t * n t / 2 + s * dot3 (vec (er t)) (ac t))) (l / 3) q t Ht).
    - intros u Hu. apply DW. lra.
    - intros u Hu. apply derivable_continuous_pt. eexists. apply DW. lra.
    - intros u Hu. apply DROP; [lra|apply HX, Hu]. }
  rewrite <- (en_off al s qc (y 0) SS U0 UC) in HV. fold (V 0) in HV. destruct (FA 0 HA) as (_ & _ & _ & _ & _ & V00). assert (N0 := NEAR 0 HA). apply rabs_b in N0. assert (TV : th * V 0 <= 1 / 2 * V 0) by (apply Rmult_le_compat_r; lra).
  assert (BELOW : forall t, 0 <= t -> (forall u, 0 <= u < t -> - hw < x u) -> V t < B).
  { intros t Ht HX. assert (LL := LOW t Ht HX). assert (At : a < t) by lra. destruct (FA t At) as (_ & _ & _ & _ & _ & VT). assert (NT := NEAR t At). apply rabs_b in NT. assert (TT : th * V t <= 1 / 2 * V t) by (apply Rmult_le_compat_r; lra).
    assert (X := exp_pos (- (l / 3) * t)). assert (X1 : exp (- (l / 3) * t) <= 1). { rewrite <- exp_0. assert (Z : - (l / 3) * t <= 0) by (assert (0 <= l * t) by (apply Rmult_le_pos; lra); lra). destruct Z as [Z|Z]; [left; apply exp_increasing, Z|rewrite Z; lra]. }
    set (ex := exp (- (l / 3) * t)) in *. destruct (Rle_dec (W 0) q) as [C|C].
    - assert (W t <= q) by nra. lra.
    - assert (WW : W t <= W 0) by nra. assert (P2 : (1 - th) * V t <= (1 + th) * V 0) by lra.
      assert (P3 : V t <= (1 + 4 * th) * V 0). { apply (Rmult_le_reg_l (1 - th)); [lra|]. assert ((1 + th) * V 0 <= (1 - th) * (1 + 4 * th) * V 0) by (apply Rmult_le_compat_r; [exact V00|nra]). lra. }
      assert (P4 : (1 + 4 * th) * V 0 <= (1 + 4 * th) * E) by (apply Rmult_le_compat_l; lra). lra. }
  assert (XB : forall t, a < t -> V t < B -> - hw < x t). { intros t Ht L. destruct (FA t Ht) as (_ & F2 & _). change (V t) with (2 * al * (1 - x t) + n t / 2) in L. unfold B in L. assert (P6 : al * (1 - x t) < al * (1 + hw)) by lra. apply Rmult_lt_reg_l in P6; lra. }
  assert (STAY : forall t, 0 <= t -> - hw < x t).
  { intros t Ht. destruct (Rlt_dec (- hw) (x t)) as [|NX]; [assumption|]. exfalso. assert (X0 : - hw < x 0) by (apply XB; [exact HA|]; apply BELOW; [lra|intros; lra]).
    destruct (first_time (fun u => - x u) hw t) as (t1 & H1 & H2 & H3).
    - intros u Hu. apply derivable_continuous_pt. eexists. apply d_opp. apply DX. lra.
    - exact Ht.
    - lra.
    - lra.
    - cbv beta in H2, H3. assert (Z := XB t1 ltac:(lra) (BELOW t1 ltac:(lra) ltac:(intros u Hu; specialize (H3 u Hu); lra))). lra. }
  intros t Ht. split.
  - destruct (HO t ltac:(lra)) as (w' & u & acc & TR & _). exists u. assert (HL := tracking_len _ _ _ _ _ _ TR).
    destruct (closed_loop w (y t) zero3 zero3 qc f HS HZ HL SP DJ) as (u' & TR' & _). fold (er t) in TR'. destruct (KEEP t (STAY t Ht)) as [_ K]. rewrite K in TR'.
    rewrite TR'. assert (u' = u) by congruence. subst u'. rewrite set_trig_id. reflexivity.
  - assert (LL := LOW t Ht ltac:(intros u Hu; apply STAY; lra)). assert (At : a < t) by lra. destruct (FA t At) as (_ & _ & _ & _ & _ & VT). assert (NT := NEAR t At). apply rabs_b in NT. assert (TT : th * V t <= 1 / 2 * V t) by (apply Rmult_le_compat_r; lra).
    assert (X := exp_pos (- (l / 3) * t)). set (ex := exp (- (l / 3) * t)) in *.
    assert (Z1 := en_off al s qc (y t) SS (UN t At) UC). assert (Z0 := en_off al s qc (y 0) SS U0 UC). fold (V t) in Z1. fold (V 0) in Z0.
    replace (2 * al * off_target s qc (y t) + rate2 (y t)) with (2 * V t) by (rewrite Z1; field). replace (2 * al * off_target s qc (y 0) + rate2 (y 0)) with (2 * V 0) by (rewrite Z0; field).
    replace (6 * g ^ 2 / l ^ 2 * d ^ 2) with (4 * q) by (unfold q; field; lra). assert (W 0 * ex <= 3 / 2 * V 0 * ex) by (apply Rmult_le_compat_r; lra). assert (0 <= q * ex) by (apply Rmult_le_pos; lra). lra.
Qed.
Print Assumptions C108_disturbed.

(** the size is of the right order: under a constant torque, however long one waits, the error does not get below half of what balances the torque *)
Theorem C108_offset_refuted : forall w f qc F T y a, 0 <= wc_alpha w -> 0 < wc_gamma w -> 0 < tr_hw (wc_trig w) -> pm1 (tr_mem (wc_trig w)) ->
  wc_sun w = Some f -> zone_free w -> spanning (s_rw (wc_sat w)) -> det3 (s_total_moment (wc_sat w)) <> 0 ->
  push (wc_sat w) T <> zero3 -> (forall t, a < t -> obeys_under w qc F (fun _ => T) y t) ->
  forall t0, a < t0 -> exists t, t0 <= t /\ norm3 (push (wc_sat w) T) / 2 <= wc_alpha w * norm3 (vec (error_quat (v_att (y t)) qc)) + wc_gamma w * norm3 (v_rate (y t)).
Proof.
  intros w f qc F T y a A G HW PM HS HZ SP DJ NP HO t0 H0. set (p := push (wc_sat w) T) in *. assert (P0 := norm3_pos p). assert (PP : 0 < norm3 p). { destruct P0 as [P0|P0]; [exact P0|]. exfalso. apply NP, dot3_zero. rewrite <- P_quat.norm3_sq, <- P0. ring. }
  set (n := norm3 p) in *. set (t1 := t0 + 4 / wc_gamma w). assert (T1 : t0 < t1) by (unfold t1; assert (0 < 4 / wc_gamma w) by (apply Rdiv_lt_0_compat; lra); lra).
  set (er := fun t => vec (error_quat (v_att (y t)) qc)). set (z := fun t => wc_alpha w * norm3 (er t) + wc_gamma w * norm3 (v_rate (y t))).
  destruct (Classical_Prop.classic (exists t, t0 <= t <= t1 /\ n / 2 <= z t)) as [(t & Ht & Hz)|NO]; [exists t; split; [lra|exact Hz]|]. exfalso.
  assert (SM : forall t, t0 <= t <= t1 -> z t < n / 2) by (intros t Ht; destruct (Rlt_dec (z t) (n / 2)) as [L|L]; [exact L|]; exfalso; apply NO; exists t; split; [exact Ht|lra]).
  set (sg := fun t => tr_mem (trig_step (qw (error_quat (v_att (y t)) qc)) (wc_trig w))).
  assert (S1 : forall t, Rabs (- sg t * wc_alpha w) = wc_alpha w). { intros t. destruct (trig_after (qw (error_quat (v_att (y t)) qc)) (wc_trig w) PM HW) as (Q & _). fold (sg t) in Q. rewrite Rabs_mult, Rabs_Ropp, (Rabs_right (wc_alpha w)) by lra. destruct Q as [Q|Q]; rewrite Q; [rewrite Rabs_right; lra|rewrite Rabs_left; lra]. }
  set (ac := fun t => add3 p (sub3 (scale3 (- sg t * wc_alpha w) (er t)) (scale3 (wc_gamma w) (v_rate (y t))))).
  assert (L := le_of_deriv (fun u => n ^ 2 / 2 * u - dot3 p (v_rate (y u))) (fun u => n ^ 2 / 2 - dot3 p (ac u)) t0 t1 ltac:(lra)).
  assert (K : n ^ 2 / 2 * t1 - dot3 p (v_rate (y t1)) <= n ^ 2 / 2 * t0 - dot3 p (v_rate (y t0))).
  { apply L.
    - intros u Hu. apply d_minus; [eapply d_eq; [apply d_scal, d_id|ring]|]. apply (dot_const p (fun u => v_rate (y u))). exact (proj2 (under_rot w f qc F (fun _ => T) y u HS HZ SP DJ (HO u ltac:(lra)))).
    - intros u Hu. assert (EQ : dot3 p (ac u) = dot3 p p + dot3 p (sub3 (scale3 (- sg u * wc_alpha w) (er u)) (scale3 (wc_gamma w) (v_rate (y u))))) by (unfold ac; generalize (sub3 (scale3 (- sg u * wc_alpha w) (er u)) (scale3 (wc_gamma w) (v_rate (y u)))) p; clear; intros [a b c] [d e f]; vunfoldg; rnumg; ring).
      set (c := sub3 (scale3 (- sg u * wc_alpha w) (er u)) (scale3 (wc_gamma w) (v_rate (y u)))) in *. assert (C1 : norm3 c <= z u) by (unfold c, z; eapply Rle_trans; [apply sub_norm|]; rewrite !norm3_scal, S1, (Rabs_right (wc_gamma w)) by lra; lra).
      assert (C2 := dot_norm p c). fold n in C2. apply rabs_b in C2. assert (C3 := SM u Hu). assert (C4 := P_quat.norm3_sq p). fold n in C4. assert (n * norm3 c <= n * (n / 2)) by (apply Rmult_le_compat_l; lra). rewrite EQ, <- C4. lra. }
  assert (V : forall t, t0 <= t <= t1 -> Rabs (dot3 p (v_rate (y t))) <= n * (n / (2 * wc_gamma w))).
  { intros t Ht. eapply Rle_trans; [apply dot_norm|]. fold n. apply Rmult_le_compat_l; [lra|]. assert (Q := SM t Ht). unfold z in Q. assert (0 <= wc_alpha w * norm3 (er t)) by (apply Rmult_le_pos; [exact A|apply norm3_pos]).
    apply (Rmult_le_reg_l (wc_gamma w)); [exact G|]. replace (wc_gamma w * (n / (2 * wc_gamma w))) with (n / 2) by (field; lra). lra. }
  assert (V0 := V t0 ltac:(lra)). assert (V1 := V t1 ltac:(lra)). apply rabs_b in V0. apply rabs_b in V1. assert (N2 : 0 < n * n / wc_gamma w) by (apply Rdiv_lt_0_compat; [nra|exact G]).
  replace (n * (n / (2 * wc_gamma w))) with (n * n / wc_gamma w / 2) in V0, V1 by (field; lra). assert (E : n ^ 2 / 2 * t1 - n ^ 2 / 2 * t0 = 2 * (n * n / wc_gamma w)) by (unfold t1; field; lra). lra.
Qed.
Print Assumptions C108_offset_refuted.

(** a satellite parked off its target for ever by a constant torque, its wheel spinning up *)
Definition parked (th t : R) : SVec := mkSV zero3 zero3 (mkq (cos (th / 2)) (sin (th / 2)) 0 0) zero3 [4 * (2 * 0.1 ^ 2 * sin (th / 2)) * t; 0; 0].
Definition parking_torque (th : R) : v3 := mk3 (4 * (2 * 0.1 ^ 2 * sin (th / 2))) 0 0.
Lemma parked_obeys th t : - 0.3 < cos (th / 2) -> obeys_under axis_ctl q1 (fun _ => zero3) (fun _ => parking_torque th) (parked th) t.
Proof.
  intros HC. set (k := 4 * (2 * 0.1 ^ 2 * sin (th / 2))). exists axis_ctl, (mk3 (- k) 0 0), [- - k; 0; 0]. split; [|split; [left; reflexivity|split; [exact (axis_accel (- k))|]]].
  { assert (T := tracking_free axis_ctl (parked th t) zero3 zero3 q1 (fun _ => ex) eq_refl (or_intror eq_refl) ltac:(cbn; lia)). cbv zeta in T. change (error_quat (v_att (parked th t)) q1) with (error_quat (v_att (axis_state th 0)) q1) in T. rewrite axis_error in T. cbn [qw] in T.
    rewrite (trig_keep (cos (th / 2)) (wc_trig axis_ctl)) in T by (cbn [axis_ctl wc_trig tr_mem tr_hw]; lra). rewrite T. f_equal. f_equal.
    cbn [axis_ctl wc_sat wc_trig wc_alpha wc_gamma tr_mem]. rewrite free_ball_total, !sandwich_0, cross_0_r. unfold k. clear T.
    unfold rw_momentum, w_momentum. cbn [free_ball s_rw rw_wheels zip_with parked v_whl v_rate sum3 fold_right w_par w_axis vec qx qy qz]. generalize (2 * 0.1 ^ 2) (2 * 0.707 * 0.1). intros b1 b2. vunfoldg; cbn [x3 y3 z3 row1 row2 row3]; rnumg. apply mk3_c; ring. }
  unfold derivative. cbn [axis_ctl wc_sat parked v_pos v_vel v_att v_rate v_whl]. split; [|split; [|split; [|split]]]; unfold parked; cbn [v_pos v_vel v_att v_rate v_whl].
  - exact (d3_const zero3 t).
  - eapply d3_eq; [exact (d3_const zero3 t)|]. vunfoldg; cbn [x3 y3 z3]; rnumg. apply mk3_c; unfold Rdiv; ring.
  - unfold derivq, product, scaleq. cbn [qw qx qy qz x3 y3 z3]. vunfoldg; cbn [x3 y3 z3 qw qx qy qz]; rnumg. replace 0.5 with (1 / 2) by lra.
    split; [|split; [|split]]; (eapply d_eq; [exact (d_const _ t)|]); field.
  - eapply d3_eq; [exact (d3_const zero3 t)|].
    change (s_inv_tot free_ball) with (inv3 (s_total_moment free_ball)). rewrite free_ball_total. unfold parking_torque. fold k. unfold rw_torque, rw_momentum, w_momentum, w_torque.
    cbn [free_ball s_rw rw_wheels zip_with sum3 fold_right w_par w_axis]. clearbody k. vunfoldg; cbn [x3 y3 z3 row1 row2 row3]; rnumg. apply mk3_c; field.
  - intros i. destruct i as [|[|[|i]]]; cbn [nth].
    + eapply d_eq; [apply d_scal, d_id|]. unfold k. ring.
    + exact (d_const 0 t).
    + exact (d_const 0 t).
    + destruct i; exact (d_const 0 t).
Qed.
Lemma parking_push th : push free_ball (parking_torque th) = mk3 (2 * 0.1 ^ 2 * sin (th / 2)) 0 0.
Proof. unfold push, parking_torque. change (s_inv_tot free_ball) with (inv3 (s_total_moment free_ball)). rewrite free_ball_total. generalize (2 * 0.1 ^ 2 * sin (th / 2)). intros k. vunfoldg; cbn [x3 y3 z3 row1 row2 row3]; rnumg; apply mk3_c; field. Qed.
Example C108_ex : forall d0, 0 < d0 -> exists T y d, (forall t, -1 < t -> obeys_under axis_ctl q1 (fun _ => zero3) T y t) /\ 0 <= d <= d0 /\ (forall t, 0 <= t -> norm3 (push (wc_sat axis_ctl) (T t)) <= d) /\
  unitq (v_att (y 0)) /\ pm1 (tr_mem (wc_trig axis_ctl)) /\ spanning (s_rw (wc_sat axis_ctl)) /\ det3 (s_total_moment (wc_sat axis_ctl)) <> 0 /\
  2 * 0.1 ^ 2 * off_target 1 q1 (y 0) + rate2 (y 0) / 2 <= 0.02 /\ 0.02 < 2 * (2 * 0.1 ^ 2) * (1 + 0.3) /\ push (wc_sat axis_ctl) (T 0) <> zero3 /\ 
  forall t, v_att (y t) = v_att (y 0) /\ off_target 1 q1 (y t) <> 0.
Proof.
  intros d0 H. set (th := Rmin 1 d0). assert (T0 : 0 < th) by (apply Rmin_pos; lra). assert (T1 : th <= 1) by apply Rmin_l. assert (T2 : th <= d0) by apply Rmin_r. assert (P1 := PI2_3_2). assert (P4 := PI_4).
  assert (S0 : 0 < sin (th / 2)) by (apply sin_gt_0; lra). assert (S1 : sin (th / 2) < th / 2) by (apply sin_lt_x; lra).
  assert (C1 : 1 / 2 < cos (th / 2)). { rewrite <- cos_PI3. apply cos_decreasing_1; lra. } assert (C2 : cos (th / 2) < 1). { rewrite <- cos_0. apply cos_decreasing_1; lra. }
  exists (fun _ => parking_torque th), (parked th), (2 * 0.1 ^ 2 * sin (th / 2)). split; [intros t _; apply parked_obeys; lra|]. split; [lra|].
  change (wc_sat axis_ctl) with free_ball. rewrite parking_push. split. { intros _ _. apply P_exist3.norm3_le_sq; [nra|]. vunfoldg; cbn [x3 y3 z3]; rnumg. lra. }
  assert (OF : forall t, off_target 1 q1 (parked th t) = 2 * (1 - cos (th / 2))) by (intros t; rewrite <- (ax_off th 0); reflexivity).
  split; [exact (ax_unit th 0)|]. split; [left; reflexivity|]. split; [exact free_ball_spanning|]. split; [exact ball_det|]. rewrite OF.
  split. { replace (rate2 (parked th 0)) with 0 by (unfold rate2, parked; vunfoldg; cbn [v_rate x3 y3 z3]; rnumg; ring). nra. }
  split; [lra|]. split; [intros X; injection X as X; lra|]. intros t. split; [reflexivity|]. rewrite OF. lra.
Qed.
