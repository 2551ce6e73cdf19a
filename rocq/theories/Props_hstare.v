(** * C131: POINT mode with the command held between calls *)
From Coq Require Import Reals ZArith List Bool Lra Lia Psatz.
From Coquelicot Require Import Coquelicot.
From Verif Require Import Num Vec M_vector M_quaternion M_jday M_struct M_dyn M_ctrl S_rot S_dyn S_ctrl.
From Verif Require Import P_quat P_vec2 P_struct P_wheel P_dyn P_dyn2 P_obs P_obs3 P_ctrl P_ctrl2 P_ctrl3 P_ctrl4 P_ctrl5 P_conv P_ode P_tot3 P_orb3 P_posf P_detum P_samp P_samp2 Props_struct Props_ctrl2 Props_conv Props_samp Props_dist P_stare Props_stare P_hstare.
Import ListNotations.
Local Open Scope R_scope.

(** the controller in state w is called in POINT mode at time t0 with the true state; it ends in state w', and the satellite moves by the code's equations under
    that one command until t1, with the external force F and torque T.  The motion of the period is the restriction of one defined on a little more than the period *)
Definition held_stare (w : WhlCtl) (b tgt : v3) (F T : R -> v3) (y : R -> SVec) (t0 t1 : R) (w' : WhlCtl) : Prop :=
  exists u acc z a c, tracking w (y t0) (sandwich (v_att (y t0)) (stare_rate_intl (v_pos (y t0)) (v_vel (y t0)) tgt)) zero3 (stare_attitude (v_pos (y t0)) (v_att (y t0)) b tgt) = Ok (w', u) /\
    unsaturated (s_rw (wc_sat w)) (opp3 u) /\ point_and_stare w (mkCS (y t0) zero3) b tgt = Ok (w', acc) /\
    a < t0 /\ t1 < c /\ (forall t, t0 <= t <= t1 -> y t = z t) /\
    forall t, a < t < c -> deriv_sv z t (derivative (wc_sat w) (z t) (F t) (T t) (rw_torque (s_rw (wc_sat w)) acc) (rw_momentum (s_rw (wc_sat w)) (v_whl (z t))) acc).

(** the acceleration asked for at the call: error e, rate v, rate reference r, both in body axes *)
Definition asks (al ga s : R) (e : quat) (v r : v3) : v3 := sub3 (sub3 (scale3 (- s * al) (vec e)) (scale3 ga (sub3 v r))) (cross3 v r).

Lemma held_stare_rot w f b tgt F T y t0 t1 w' : wc_sun w = Some f -> zone_free w -> spanning (s_rw (wc_sat w)) -> det3 (s_total_moment (wc_sat w)) <> 0 -> t0 < t1 -> unitq (v_att (y t0)) ->
  held_stare w b tgt F T y t0 t1 w' ->
  let e := conjugate (acquire_target (v_pos (y t0)) (v_att (y t0)) b tgt) in
  w' = set_trig w (trig_step (qw e) (wc_trig w)) /\
  exists z : R -> SVec, (forall t, t0 <= t <= t1 -> y t = z t) /\ forall t, t0 <= t <= t1 ->
    let om := fun u => v_rate (z u) in let H := fun u => body_momentum (wc_sat w) (z u) in
    unitq (v_att (z t)) /\ derivq (fun u => v_att (z u)) t (scaleq 0.5 (product (v_att (z t)) (pure (v_rate (z t))))) /\ deriv3 (fun u => v_pos (z u)) t (v_vel (z t)) /\
    deriv3 om t (add3 (mv (s_inv_tot (wc_sat w)) (T t)) (add3 (asks (wc_alpha w) (wc_gamma w) (tr_mem (wc_trig w')) e (om t0) (told b tgt (z t0))) (mv (s_inv_tot (wc_sat w)) (sub3 (cross3 (om t0) (H t0)) (cross3 (om t) (H t)))))) /\
    deriv3 H t (sub3 (T t) (cross3 (om t) (H t))).
Proof.
  intros HS HZ SP DJ T01 U0 (u & acc & z & a & c & TR & US & PS & A0 & B0 & EQ & D) e.
  unfold point_and_stare in PS. cbn [cs_v] in PS. rewrite TR in PS. cbn [rbind] in PS. destruct (whl_actuator_commands w' u) as [acc'|] eqn:WA; cbn [rbind] in PS; [|discriminate]. assert (acc' = acc) by congruence. subst acc'. clear PS.
  assert (HL := tracking_len _ _ _ _ _ _ TR). rewrite (tracking_free w (y t0) _ _ _ f HS HZ HL) in TR. cbv zeta in TR. rewrite stare_error in TR by exact U0. fold e in TR. fold (told b tgt (y t0)) in TR.
  change (sandwich e (sandwich (v_att (y t0)) (stare_rate_intl (v_pos (y t0)) (v_vel (y t0)) tgt))) with (told b tgt (y t0)) in TR. rewrite sandwich_0 in TR.
  set (w1 := set_trig w _) in TR. assert (EW : w' = w1) by congruence. assert (EU := f_equal (fun r => match r with Ok (_, x) => x | Raise _ => zero3 end) TR). cbv beta iota in EU. split; [exact EW|].
  assert (TA : rw_torque (s_rw (wc_sat w)) acc = opp3 u). { destruct (unsat_torque _ _ SP US) as (a' & EA & _ & TA). subst w'. unfold whl_actuator_commands in WA. change (wc_sat w1) with (wc_sat w) in WA. rewrite EA in WA. injection WA as <-. exact TA. }
  assert (Z0 : y t0 = z t0) by (apply EQ; lra). exists z. split; [exact EQ|].
  set (J := s_total_moment (wc_sat w)) in *. set (om := fun u => v_rate (z u)). set (H := fun u => body_momentum (wc_sat w) (z u)).
  assert (DQ : forall t, a < t < c -> derivq (fun u => v_att (z u)) t (scaleq 0.5 (product (v_att (z t)) (pure (om t))))) by (intros t Ht; destruct (D t Ht) as (_ & _ & X & _); exact X).
  assert (UN : forall t, a < t < c -> unitq (v_att (z t))).
  { intros t Ht. unfold unitq. rewrite <- U0, Z0. apply (const_of_deriv (fun u => dotq (v_att (z u)) (v_att (z u))) a c); [|lra|lra].
    intros v Hv. eapply d_eq; [apply d_dotq; exact (DQ v Hv)|]. cbv beta. generalize (v_att (z v)) (om v). clear. intros [p q r s] [x y z]. unfold pure, product. replace 0.5 with (1/2) by lra. vunfoldg; cbn [x3 y3 z3 qw qx qy qz]; rnumg. field. }
  assert (DO : forall t, a < t < c -> deriv3 om t (mv (inv3 J) (add3 (T t) (sub3 u (cross3 (om t) (H t)))))).
  { intros t Ht. destruct (D t Ht) as (_ & _ & _ & X & _). eapply d3_eq; [exact X|]. cbn [derivative v_rate]. rewrite TA. change (s_inv_tot (wc_sat w)) with (inv3 J). f_equal. unfold om, H, body_momentum. fold J.
    generalize (mv J (v_rate (z t))) (rw_momentum (s_rw (wc_sat w)) (v_whl (z t))) (v_rate (z t)) (T t). clear. intros [p q r] [l m n] [d e f] [s1 s2 s3]. destruct u as [g h i]. vunfoldg; rnumg. apply mk3_c; ring. }
  assert (DH : forall t, a < t < c -> deriv3 H t (sub3 (T t) (cross3 (om t) (H t)))).
  { intros t Ht. unfold H at 1, body_momentum. destruct (D t Ht) as (_ & _ & _ & _ & X). eapply d3_eq; [apply d3_add; [apply d3_mv, DO, Ht|apply d3_momentum; exact X]|]. cbn [derivative v_whl]. rewrite TA. fold J. rewrite mv_inv3 by exact DJ.
    generalize (cross3 (om t) (H t)) (T t). clear. intros [p q r] [s1 s2 s3]. destruct u as [g h i]. vunfoldg; rnumg. apply mk3_c; ring. }
  intros t Ht. assert (IT : a < t < c) by lra. cbv zeta. split; [apply UN, IT|]. split; [apply DQ, IT|]. split; [destruct (D t IT) as (X & _); exact X|]. split; [|apply DH, IT].
  eapply d3_eq; [apply DO, IT|]. rewrite <- EU. change (s_inv_tot (wc_sat w)) with (inv3 J).
  rewrite Z0. fold (om t0). change (add3 (mv J (om t0)) (rw_momentum (s_rw (wc_sat w)) (v_whl (z t0)))) with (H t0).
  replace (tr_mem (trig_step (qw e) (wc_trig w))) with (tr_mem (wc_trig w')) by (rewrite EW; reflexivity).
  set (c0 := asks _ _ _ _ _ _). replace (sub3 (sub3 (scale3 (- tr_mem (wc_trig w') * wc_alpha w) (vec e)) (scale3 (wc_gamma w) (sub3 (om t0) (told b tgt (z t0))))) (add3 (cross3 (om t0) (told b tgt (z t0))) zero3)) with c0.
  - rewrite <- (inv3_mv J c0 DJ) at 2. rewrite <- !mv_add3. f_equal. generalize (mv J c0) (cross3 (om t0) (H t0)) (cross3 (om t) (H t)) (T t). clear. intros [p q r] [l m n] [d e f] [s1 s2 s3]. vunfoldg; rnumg. apply mk3_c; ring.
  - unfold c0, asks. generalize (scale3 (- tr_mem (wc_trig w') * wc_alpha w) (vec e)) (scale3 (wc_gamma w) (sub3 (om t0) (told b tgt (z t0)))) (cross3 (om t0) (told b tgt (z t0))). clear. intros [p q r] [l m n] [d e f]. unfold zero3. vunfoldg; cbn [x3 y3 z3]; rnumg. apply mk3_c; ring.
Qed.

Lemma sq_le1 x : 0 <= x <= 1 -> x * x <= x. Proof. intros H. nra. Qed.
(** for every choice of gains and every bound on the energy below that of the antipode, on the inverse inertia and on the momentum, there are a longest period, a largest
    disturbance and a rate such that with any shorter period the boresight is carried to the target and held there; the controller comes back from every call as it was *)
Theorem C131_points : forall al ga E m N, 0 < al -> 0 < ga -> 0 <= E < 2 * al -> 0 <= m -> 0 <= N -> exists lam h0 d0 K, 0 < lam /\ 0 < h0 /\ 0 < d0 /\ 0 < K /\
  forall w f b tgt F T y c h d, wc_alpha w = al -> wc_gamma w = ga -> tr_mem (wc_trig w) = 1 -> 0 < tr_hw (wc_trig w) ->
  wc_sun w = Some f -> zone_free w -> spanning (s_rw (wc_sat w)) -> det3 (s_total_moment (wc_sat w)) <> 0 -> (forall v, norm3 (mv (s_inv_tot (wc_sat w)) v) <= m * norm3 v) ->
  unit3 b -> unitq (v_att (y 0)) -> 0 < h <= h0 -> 0 <= d <= d0 -> c 0%nat = w -> (forall k, held_stare (c k) b tgt F T y (INR k * h) (INR (S k) * h) (c (S k))) ->
  (forall t, 0 <= t -> v_pos (y t) <> tgt /\ sight_rate tgt (y t) <= d /\ norm3 (T t) <= d /\ norm3 (body_momentum (wc_sat w) (y t)) <= N) ->
  2 * al * (1 - sqrt ((1 + aim b tgt (y 0)) / 2)) + rate2 (y 0) / 2 <= E ->
  (forall k, c k = w) /\
  forall t, 0 <= t -> al * (1 - aim b tgt (y t)) + rate2 (y t) <= 6 * (al * (1 - aim b tgt (y 0)) + rate2 (y 0)) * exp (- lam * t) + K * d ^ 2.
Proof.
  intros al ga E m N A G HE M0 N0. set (B := (E + 2 * al) / 2). assert (B0 : 0 < B) by (unfold B; lra). assert (BE : E < B < 2 * al) by (unfold B; lra). set (kap := (1 - B / (2 * al)) / 2).
  assert (KP : 0 < kap <= 1). { unfold kap. assert (B / (2 * al) < 1) by (apply (Rmult_lt_reg_r (2 * al)); [lra|]; replace (B / (2 * al) * (2 * al)) with B by (field; lra); lra). assert (0 < B / (2 * al)) by (apply Rdiv_lt_0_compat; lra). lra. }
  set (kq := / (2 * al) + 1). assert (KQ : 0 < kq) by (unfold kq; assert (0 < / (2 * al)) by (apply Rinv_0_lt_compat; lra); lra). set (kk := / kap). assert (KK : 0 < kk) by (apply Rinv_0_lt_compat; lra).
  assert (TH0 : 0 < Rmin (1 / 2) ((B - E) / (4 * B))) by (apply Rmin_pos; [lra|apply Rdiv_lt_0_compat; lra]).
  set (e := Rmin (Rmin (ga / 4 * kap) (al / (4 * ga))) (Rmin (1 / 2) ((B - E) / (4 * B)) / kq)).
  assert (E0 : 0 < e). { apply Rmin_pos; [apply Rmin_pos; [apply Rmult_lt_0_compat; lra|apply Rdiv_lt_0_compat; lra]|apply Rdiv_lt_0_compat; assumption]. }
  assert (E1 : e * kk <= ga / 4). { apply (Rle_trans _ (ga / 4 * kap * kk)); [apply Rmult_le_compat_r; [lra|]; eapply Rle_trans; [apply Rmin_l|apply Rmin_l]|]. right. unfold kk. field. lra. }
  assert (E2 : e * ga <= al / 4). { apply (Rle_trans _ (al / (4 * ga) * ga)); [apply Rmult_le_compat_r; [lra|]; eapply Rle_trans; [apply Rmin_l|apply Rmin_r]|]. right. field. lra. }
  assert (TH : e * kq <= Rmin (1 / 2) ((B - E) / (4 * B))). { apply (Rle_trans _ (Rmin (1 / 2) ((B - E) / (4 * B)) / kq * kq)); [apply Rmult_le_compat_r; [lra|apply Rmin_r]|]. right. field. lra. }
  assert (TH1 := Rle_trans _ _ _ TH (Rmin_l _ _)). assert (TH2 := Rle_trans _ _ _ TH (Rmin_r _ _)). set (th := e * kq) in *. assert (TP : 0 < th) by (apply Rmult_lt_0_compat; assumption).
  assert (TB : E * (1 + 4 * th) < B).
  { assert (T3 : 4 * th <= (B - E) / B) by (replace ((B - E) / B) with (4 * ((B - E) / (4 * B))) by (field; lra); lra). apply (Rle_lt_trans _ (E * (1 + (B - E) / B))); [apply Rmult_le_compat_l; lra|].
    apply (Rmult_lt_reg_r B); [exact B0|]. replace (E * (1 + (B - E) / B) * B) with (E * (2 * B - E)) by (field; lra). assert (0 < (B - E) * (B - E)) by (apply Rmult_lt_0_compat; lra). lra. }
  set (l := Rmin (ga / 6) (e / 12)). assert (L0 : 0 < l) by (apply Rmin_pos; lra). assert (L1 : l <= ga / 6) by apply Rmin_l. assert (L2 : l <= e / 12) by apply Rmin_r.
  set (M := sp_M al ga e kk). assert (MP : 0 < M).
  { unfold M, sp_M. assert (0 < e * kk) by (apply Rmult_lt_0_compat; assumption). assert (0 < e * ga) by (apply Rmult_lt_0_compat; assumption). assert (0 < sp_P al ga e) by (unfold sp_P; lra). assert (0 < sp_Q ga e kk) by (unfold sp_Q; lra). apply Rplus_lt_0_compat; apply Rdiv_lt_0_compat; try assumption; apply Rmult_lt_0_compat; assumption. }
  set (M2 := 2 * M + ga / 8). assert (M2P : 0 < M2) by (unfold M2; lra).
  set (g0 := Rmin 1 (l * B / (4 * M2))). assert (Gp : 0 < g0) by (apply Rmin_pos; [lra|apply Rdiv_lt_0_compat; [apply Rmult_lt_0_compat; assumption|lra]]).
  set (Rb := sqrt (2 * B) + 2). assert (RbP : 2 <= Rb) by (unfold Rb; assert (Z := sqrt_pos (2 * B)); lra).
  assert (MN : 0 <= m * N) by (apply Rmult_le_pos; assumption). set (C2 := hs_C2 al ga m N). assert (C2P : 2 < C2) by (unfold C2, hs_C2; lra).
  set (C3 := hs_C3 al ga m N kap Rb). assert (C3P : 0 < C3).
  { unfold C3, hs_C3. fold C2 kk. assert (0 < al * kk) by (apply Rmult_lt_0_compat; assumption). assert (0 < ga * C2) by (apply Rmult_lt_0_compat; lra). assert (0 <= m * (C2 * N + Rb * (3 * N + 1))); [|lra]. apply Rmult_le_pos; [exact M0|]. assert (0 <= C2 * N) by (apply Rmult_le_pos; lra). assert (0 <= Rb * (3 * N + 1)) by (apply Rmult_le_pos; lra). lra. }
  assert (EA0 : 0 < e * al) by (apply Rmult_lt_0_compat; assumption).
  set (s0 := Rmin 1 (Rmin (ga / 8) (e * al / 4) / (24 * M))). assert (S0 : 0 < s0) by (apply Rmin_pos; [lra|apply Rdiv_lt_0_compat; [apply Rmin_pos; lra|lra]]).
  set (h0 := Rmin (/ (2 * (C2 + 4 * kk))) (Rmin (3 * (kap * kap) / (2 * Rb)) (s0 / C3))). assert (KK2 : 0 < kap * kap) by (apply Rmult_lt_0_compat; lra).
  assert (H0 : 0 < h0). { apply Rmin_pos; [apply Rinv_0_lt_compat; lra|]. apply Rmin_pos; apply Rdiv_lt_0_compat; lra. }
  exists l, h0, (g0 / (1 + m)), (4 * (M2 / l) * ((1 + m) * (1 + m))). assert (ML : 0 < M2 / l) by (apply Rdiv_lt_0_compat; assumption). split; [exact L0|]. split; [exact H0|]. split; [apply Rdiv_lt_0_compat; lra|]. split; [apply Rmult_lt_0_compat; [lra|apply Rmult_lt_0_compat; lra]|].
  intros w f b tgt F T y c h d0 EA EG TM HW HS HZ SP DJ NJ UB U0 (Hp & Hh) Hd0 C0 HD ENV HV.
  set (d := (1 + m) * d0). assert (Hd : 0 <= d <= g0). { unfold d. split; [apply Rmult_le_pos; lra|]. apply (Rle_trans _ ((1 + m) * (g0 / (1 + m)))); [apply Rmult_le_compat_l; lra|right; field; lra]. }
  assert (D1 : d <= 1) by (eapply Rle_trans; [apply Hd|apply Rmin_l]). assert (D0d : d0 <= d) by (unfold d; assert (0 <= m * d0) by (apply Rmult_le_pos; lra); lra).
  assert (H1 : h * (C2 + 4 * kk) <= 1 / 2). { apply (Rle_trans _ (/ (2 * (C2 + 4 * kk)) * (C2 + 4 * kk))); [apply Rmult_le_compat_r; [lra|eapply Rle_trans; [exact Hh|apply Rmin_l]]|right; field; lra]. }
  assert (H2 : 2 * (h * Rb) <= 3 * (kap * kap)). { apply (Rle_trans _ (2 * (3 * (kap * kap) / (2 * Rb) * Rb))); [apply Rmult_le_compat_l; [lra|]; apply Rmult_le_compat_r; [lra|]; eapply Rle_trans; [exact Hh|]; eapply Rle_trans; [apply Rmin_r|apply Rmin_l]|right; field; lra]. }
  assert (HS3 : h * C3 <= s0). { apply (Rle_trans _ (s0 / C3 * C3)); [apply Rmult_le_compat_r; [lra|]; eapply Rle_trans; [exact Hh|]; eapply Rle_trans; [apply Rmin_r|apply Rmin_r]|right; field; lra]. }
  assert (HC0 : 0 <= h * C3) by (apply Rmult_le_pos; lra).
  assert (H34 : M * (24 * (h * C3 * (h * C3))) <= Rmin (ga / 8) (e * al / 4)).
  { assert (S1 : s0 <= 1) by apply Rmin_l. assert (Q1 := sq_le1 (h * C3) ltac:(lra)). assert (Q2 : h * C3 * (h * C3) <= Rmin (ga / 8) (e * al / 4) / (24 * M)) by (eapply Rle_trans; [exact Q1|]; eapply Rle_trans; [exact HS3|apply Rmin_r]).
    apply (Rle_trans _ (M * (24 * (Rmin (ga / 8) (e * al / 4) / (24 * M))))); [apply Rmult_le_compat_l; lra|right; field; lra]. }
  assert (H3 := Rle_trans _ _ _ H34 (Rmin_l _ _)). assert (H4 := Rle_trans _ _ _ H34 (Rmin_r _ _)).
  set (q := M2 / l * (d * d)). assert (Q0 : 0 <= q) by (apply Rmult_le_pos; [lra|apply Rmult_le_pos; lra]).
  assert (QB : 2 * q < B).
  { assert (D2 : d <= l * B / (4 * M2)) by (eapply Rle_trans; [apply Hd|apply Rmin_r]). assert (DDd : d * d <= 1 * (l * B / (4 * M2))) by (apply Rmult_le_compat; lra).
    assert (Z : q <= M2 / l * (l * B / (4 * M2))) by (apply Rmult_le_compat_l; lra). replace (M2 / l * (l * B / (4 * M2))) with (B / 4) in Z by (field; lra). lra. }
  set (V := fun v => sv al b (seen tgt v) (v_rate v)). set (W := fun v => sw al e b (seen tgt v) (v_rate v)).
  assert (NEAR : forall v, unitq (v_att v) -> v_pos v <> tgt -> 0 < hcos b (seen tgt v) -> (1 - th) * V v <= W v <= (1 + th) * V v /\ 0 <= V v /\ th * V v <= 1 / 2 * V v).
  { intros v U N' P. assert (UD := seen_unit tgt v U N'). assert (X := sw_near al e b (seen tgt v) (v_rate v) A E0 UB UD P). fold kq in X. fold th in X. apply rabs_b in X. destruct (sv_facts al b (seen tgt v) (v_rate v) A UB UD P) as (_ & _ & _ & X4). fold (V v) in X, X4. fold (W v) in X. split; [lra|]. split; [exact X4|]. apply Rmult_le_compat_r; lra. }
  assert (HP : forall v, unitq (v_att v) -> v_pos v <> tgt -> V v <= B -> 2 * kap <= hcos b (seen tgt v) /\ norm3 (v_rate v) + 2 <= Rb).
  { intros v U N' L. assert (N1 := dot3_nonneg (v_rate v)). destruct (hcos_facts b (seen tgt v) UB (seen_unit tgt v U N')) as (HC & _). unfold V, sv in L. split.
    - unfold kap. apply (Rmult_le_reg_l (2 * al)); [lra|]. replace (2 * al * (2 * ((1 - B / (2 * al)) / 2))) with (2 * al - B) by (field; lra). lra.
    - unfold Rb. apply Rplus_le_compat_r. unfold norm3. apply sqrt_le_1_alt. assert (0 <= al * (1 - hcos b (seen tgt v))) by (apply Rmult_le_pos; lra). lra. }
  assert (PER : forall t0 w', 0 <= t0 -> unitq (v_att (y t0)) -> V (y t0) <= B -> held_stare w b tgt F T y t0 (t0 + h) w' ->
    w' = w /\ forall t, t0 <= t <= t0 + h -> unitq (v_att (y t)) /\ 0 < hcos b (seen tgt (y t)) /\ W (y t) - q <= (W (y t0) - q) * exp (- l * (t - t0))).
  { intros t0 w' T0 Ut VB HH. destruct (held_stare_rot w f b tgt F T y t0 (t0 + h) w' HS HZ SP DJ ltac:(lra) Ut HH) as (EW & z & EQ & P). cbv zeta in P.
    assert (I0 : t0 <= t0 <= t0 + h) by lra. destruct (ENV t0 T0) as (NP0 & NS0 & NT0 & _). destruct (HP (y t0) Ut NP0 VB) as (HK & HR). assert (UD0 := seen_unit tgt (y t0) Ut NP0). assert (PC : 0 < hcos b (seen tgt (y t0))) by lra.
    assert (AQ := stare_acq (v_pos (y t0)) (v_att (y t0)) b tgt UB UD0 PC). fold (seen tgt (y t0)) in AQ. rewrite AQ in EW, P. cbn [conjugate qw] in EW. change (nopp (T:=R)) with Ropp in P.
    assert (KEEP : trig_step (hcos b (seen tgt (y t0))) (wc_trig w) = wc_trig w) by (apply trig_keep; rewrite TM; lra). rewrite KEEP, set_trig_id in EW. subst w'. split; [reflexivity|]. rewrite EA, EG, TM in P.
    assert (ZE : forall t, t0 <= t <= t0 + h -> v_pos (z t) <> tgt /\ sight_rate tgt (z t) <= d0 /\ norm3 (T t) <= d0 /\ norm3 (body_momentum (wc_sat w) (z t)) <= N) by (intros t Ht; rewrite <- (EQ t Ht); apply ENV; lra).
    assert (UZ : forall t, t0 <= t <= t0 + h -> unit3 (seen tgt (z t))) by (intros t Ht; apply seen_unit; [apply (P t Ht)|apply (ZE t Ht)]).
    assert (PD := hs_period al ga e kap m N Rb d h t0 b (s_inv_tot (wc_sat w)) (told b tgt (z t0)) (fun u => seen tgt (z u)) (fun u => v_rate (z u)) (fun u => sandwich (v_att (z u)) (stare_rate_intl (v_pos (z u)) (v_vel (z u)) tgt))
      (fun u => body_momentum (wc_sat w) (z u)) T (fun u => mv (s_inv_tot (wc_sat w)) (T u)) A G E0 KP M0 N0 (conj (proj1 Hd) D1) Hp UB UZ). cbv beta in PD.
    assert (RES : forall t, t0 <= t <= t0 + h -> kap <= hcos b (seen tgt (z t)) /\ sw al e b (seen tgt (z t)) (v_rate (z t)) - M2 / l * (d * d) <= (sw al e b (seen tgt (z t0)) (v_rate (z t0)) - M2 / l * (d * d)) * exp (- l * (t - t0))).
    { apply (fun a1 a2 a3 a4 a5 a6 a7 a8 a9 a10 => PD a1 a2 a3 a4 a5 a6 a7 a8 a9 H1 H2 M l E1 E2 TH1 eq_refl (Rlt_le _ _ MP) L0 L1 L2 H3 a10).
      - intros t Ht. apply stare_sight; [apply (P t Ht)|apply (P t Ht)|apply (P t Ht)|apply (ZE t Ht)].
      - intros t Ht. destruct (P t Ht) as (_ & _ & _ & X & _). eapply d3_eq; [exact X|]. f_equal. f_equal. rewrite (EQ t0 I0). unfold asks. f_equal. f_equal.
        generalize (haxis b (seen tgt (z t0))) (hcos b (seen tgt (z t0))). clear. intros [p1 p2 p3] k. unfold conjugate. vunfoldg; cbn [x3 y3 z3 qw qx qy qz vec]; rnumg. apply mk3_c; ring.
      - intros t Ht. apply (P t Ht).
      - intros t Ht. apply (ZE t Ht).
      - exact NJ.
      - intros t Ht. destruct (ZE t Ht) as (_ & Z2 & Z3 & _). split; [rewrite norm_sand; destruct (P t Ht) as (-> & _); unfold sight_rate in Z2; lra|]. split; [|lra]. eapply Rle_trans; [apply NJ|]. assert (m * norm3 (T t) <= m * d0) by (apply Rmult_le_compat_l; lra). unfold d. lra.
      - rewrite <- (EQ t0 I0), told_norm by assumption. lra.
      - rewrite <- (EQ t0 I0). exact HK.
      - rewrite <- (EQ t0 I0). exact HR.
      - exact H4. }
    intros t Ht. destruct (RES t Ht) as (R1 & R2). rewrite <- (EQ t Ht), <- (EQ t0 I0) in R2. rewrite <- (EQ t Ht) in R1. split; [rewrite (EQ t Ht); apply (P t Ht)|]. split; [lra|]. exact R2. }
  assert (NP0 := proj1 (ENV 0 (Rle_refl 0))). assert (UD0 := seen_unit tgt (y 0) U0 NP0).
  assert (V0E : V (y 0) <= E). { unfold V, sv. rewrite aim_seen in HV. exact HV. }
  destruct (HP (y 0) U0 NP0 ltac:(lra)) as (HK0 & _). destruct (NEAR (y 0) U0 NP0 ltac:(lra)) as (NR0 & V00 & TV0).
  assert (BELOW : forall t, 0 <= t -> unitq (v_att (y t)) -> 0 < hcos b (seen tgt (y t)) -> W (y t) - q <= (W (y 0) - q) * exp (- l * t) -> V (y t) <= B /\ V (y t) <= 3 * V (y 0) * exp (- l * t) + 2 * q).
  { intros t Ht Ut P LL. destruct (NEAR (y t) Ut (proj1 (ENV t Ht)) P) as (NT & VT & TT). assert (X := exp_pos (- l * t)). assert (X1 : exp (- l * t) <= 1). { rewrite <- exp_0. assert (Z : - l * t <= 0) by (assert (0 <= l * t) by (apply Rmult_le_pos; lra); lra). destruct Z as [Z|Z]; [left; apply exp_increasing, Z|rewrite Z; lra]. }
    set (ex' := exp (- l * t)) in *. split.
    - destruct (Rle_dec (W (y 0)) q) as [C|C].
      + assert ((W (y 0) - q) * ex' <= 0 * ex') by (apply Rmult_le_compat_r; lra). lra.
      + assert (WW : W (y t) <= W (y 0)) by (assert ((W (y 0) - q) * ex' <= (W (y 0) - q) * 1) by (apply Rmult_le_compat_l; lra); lra). assert (P2 : (1 - th) * V (y t) <= (1 + th) * V (y 0)) by lra.
        assert (P3 : V (y t) <= (1 + 4 * th) * V (y 0)). { apply (Rmult_le_reg_l (1 - th)); [lra|]. assert ((1 + th) * V (y 0) <= (1 - th) * (1 + 4 * th) * V (y 0)) by (apply Rmult_le_compat_r; [exact V00|nra]). lra. }
        assert (P4 : (1 + 4 * th) * V (y 0) <= (1 + 4 * th) * E) by (apply Rmult_le_compat_l; lra). lra.
    - assert (W (y 0) * ex' <= 3 / 2 * V (y 0) * ex') by (apply Rmult_le_compat_r; lra). assert (0 <= q * ex') by (apply Rmult_le_pos; lra). lra. }
  assert (ST : forall k, INR k * h + h = INR (S k) * h) by (intros k; rewrite S_INR; ring).
  assert (IP : forall k, 0 <= INR k * h) by (intros k; apply Rmult_le_pos; [apply pos_INR|lra]).
  assert (GLUE : forall t0 t, W (y t0) - q <= (W (y 0) - q) * exp (- l * t0) -> W (y t) - q <= (W (y t0) - q) * exp (- l * (t - t0)) -> W (y t) - q <= (W (y 0) - q) * exp (- l * t)).
  { intros t0 t X1 X2. eapply Rle_trans; [exact X2|]. replace (- l * t) with (- l * t0 + - l * (t - t0)) by ring. rewrite exp_plus, <- Rmult_assoc. apply Rmult_le_compat_r; [left; apply exp_pos|exact X1]. }
  assert (INV : forall k, c k = w /\ unitq (v_att (y (INR k * h))) /\ 0 < hcos b (seen tgt (y (INR k * h))) /\ W (y (INR k * h)) - q <= (W (y 0) - q) * exp (- l * (INR k * h))).
  { induction k as [|k IH].
    - cbn [INR]. rewrite Rmult_0_l, Rmult_0_r, exp_0. split; [exact C0|]. split; [exact U0|]. split; lra.
    - destruct IH as (Ck & Uk & Pk & Wk). assert (HK := HD k). rewrite Ck, <- ST in HK. destruct (BELOW _ (IP k) Uk Pk Wk) as (Bk & _). destruct (PER _ _ (IP k) Uk Bk HK) as (Q1 & Q2). rewrite <- ST. assert (I1 : INR k * h <= INR k * h + h <= INR k * h + h) by lra. destruct (Q2 _ I1) as (R1 & R2 & R3).
      split; [exact Q1|]. split; [exact R1|]. split; [exact R2|]. apply (GLUE (INR k * h)); assumption. }
  split; [intros k; apply INV|]. intros t Ht. destruct (step_of t h Hp Ht) as (k & Hk). destruct (INV k) as (Ck & Uk & Pk & Wk). assert (HK := HD k). rewrite Ck, <- ST in HK. destruct (BELOW _ (IP k) Uk Pk Wk) as (Bk & _). destruct (PER _ _ (IP k) Uk Bk HK) as (_ & Q2). destruct (Q2 t Hk) as (Ut & Pt & Wt).
  destruct (BELOW t Ht Ut Pt (GLUE _ _ Wk Wt)) as (_ & BB). assert (NPt := proj1 (ENV t Ht)). assert (UDt := seen_unit tgt (y t) Ut NPt).
  rewrite !aim_seen. destruct (hcos_facts b (seen tgt (y t)) UB UDt) as (R1 & Q1). destruct (hcos_facts b (seen tgt (y 0)) UB UD0) as (R0 & Q0'). unfold V, sv in BB. fold (rate2 (y t)) (rate2 (y 0)) in BB.
  set (hh := hcos b (seen tgt (y t))) in *. set (k0 := hcos b (seen tgt (y 0))) in *. replace (dot3 b (seen tgt (y t))) with (2 * (hh * hh) - 1) by lra. replace (dot3 b (seen tgt (y 0))) with (2 * (k0 * k0) - 1) by lra.
  assert (EX := exp_pos (- l * t)). set (ex' := exp (- l * t)) in *. assert (R20 : 0 <= rate2 (y 0)) by apply dot3_nonneg.
  assert (Y1 : al * (1 - (2 * (hh * hh) - 1)) <= al * (4 * (1 - hh))) by (apply Rmult_le_compat_l; nra). assert (Y2 : al * (2 * (1 - k0)) <= al * (1 - (2 * (k0 * k0) - 1))) by (apply Rmult_le_compat_l; nra).
  assert (Y3 : (2 * al * (1 - k0) + rate2 (y 0) / 2) * ex' <= (al * (1 - (2 * (k0 * k0) - 1)) + rate2 (y 0)) * ex') by (apply Rmult_le_compat_r; lra).
  replace (4 * (M2 / l) * ((1 + m) * (1 + m)) * d0 ^ 2) with (2 * (2 * q)) by (unfold q, d; ring). lra.
Qed.
Print Assumptions C131_points.

(** what every run keeps, whatever the period *)
Lemma run_keeps w f b tgt F T y c h : 0 < h -> 0 < tr_hw (wc_trig w) -> pm1 (tr_mem (wc_trig w)) -> wc_sun w = Some f -> zone_free w -> spanning (s_rw (wc_sat w)) -> det3 (s_total_moment (wc_sat w)) <> 0 ->
  unitq (v_att (y 0)) -> c 0%nat = w -> (forall k, held_stare (c k) b tgt F T y (INR k * h) (INR (S k) * h) (c (S k))) -> (forall t, T t = zero3) ->
  forall k, (exists tr, c k = set_trig w tr /\ pm1 (tr_mem tr) /\ tr_hw tr = tr_hw (wc_trig w)) /\
    forall t, INR k * h <= t <= INR k * h + h -> unitq (v_att (y t)) /\ norm3 (body_momentum (wc_sat w) (y t)) = norm3 (body_momentum (wc_sat w) (y 0)).
Proof.
  intros H0 HW PM HS HZ SP DJ U0 C0 HH T0.
  assert (STEP : forall k tr, c k = set_trig w tr -> unitq (v_att (y (INR k * h))) -> (exists s, c (S k) = set_trig w (trig_step s tr)) /\
    forall t, INR k * h <= t <= INR k * h + h -> unitq (v_att (y t)) /\ norm3 (body_momentum (wc_sat w) (y t)) = norm3 (body_momentum (wc_sat w) (y (INR k * h)))).
  { intros k tr Ck Uk. assert (HK := HH k). rewrite Ck in HK. set (t0 := INR k * h) in *. assert (E1 : INR (S k) * h = t0 + h) by (rewrite S_INR; unfold t0; ring). rewrite E1 in *.
    destruct (held_stare_rot (set_trig w tr) f b tgt F T y t0 (t0 + h) (c (S k)) HS HZ SP DJ ltac:(lra) Uk HK) as (EW & z & EQ & P). cbv zeta in P. change (wc_sat (set_trig w tr)) with (wc_sat w) in P.
    split; [eexists; rewrite EW; reflexivity|]. intros t Ht. assert (I0 : t0 <= t0 <= t0 + h) by lra. rewrite (EQ t Ht), (EQ t0 I0). split; [apply (P t Ht)|].
    set (G := fun u => dot3 (body_momentum (wc_sat w) (z u)) (body_momentum (wc_sat w) (z u))). assert (D : forall u, t0 <= u <= t0 + h -> derivable_pt_lim G u 0).
    { intros u Hu. destruct (P u Hu) as (_ & _ & _ & _ & X). eapply d_eq; [apply d_dot3; exact X|]. rewrite T0. generalize (body_momentum (wc_sat w) (z u)) (v_rate (z u)). clear. intros [p q r] [l m n]. unfold zero3. vunfoldg; cbn [x3 y3 z3]; rnumg. ring. }
    assert (E : G t = G t0). { destruct (Req_dec t t0) as [->|NE]; [reflexivity|]. destruct (MVT_cor2 G (fun _ => 0) t0 t) as (s & Es & _); [lra|intros u Hu; apply D; lra|]. lra. }
    unfold norm3. unfold G in E. rewrite E. reflexivity. }
  assert (ALL : forall k, (exists tr, c k = set_trig w tr /\ pm1 (tr_mem tr) /\ tr_hw tr = tr_hw (wc_trig w)) /\ unitq (v_att (y (INR k * h))) /\ norm3 (body_momentum (wc_sat w) (y (INR k * h))) = norm3 (body_momentum (wc_sat w) (y 0))).
  { induction k as [|k IH].
    - cbn [INR]. rewrite Rmult_0_l. split; [exists (wc_trig w); rewrite set_trig_id; split; [exact C0|]; split; [exact PM|reflexivity]|]. split; [exact U0|reflexivity].
    - destruct IH as ((tr & Ck & Pk & Tk) & Uk & Nk). destruct (STEP k tr Ck Uk) as ((s & Es) & Q). destruct (trig_after s tr Pk ltac:(lra)) as (Q1 & Q2 & _). split; [exists (trig_step s tr); split; [exact Es|]; split; [exact Q1|lra]|].
      assert (E1 : INR (S k) * h = INR k * h + h) by (rewrite S_INR; ring). rewrite E1. rewrite <- Nk. apply Q. lra. }
  intros k. destruct (ALL k) as ((tr & Ck & Pk) & Uk & Nk). split; [exists tr; split; assumption|]. rewrite <- Nk. apply (STEP k tr Ck Uk).
Qed.

(** without external torque only the momentum at the start matters, and towards a fixed direction the convergence is exact *)
Theorem C131_free : forall al ga E m N, 0 < al -> 0 < ga -> 0 <= E < 2 * al -> 0 <= m -> 0 <= N -> exists lam h0, 0 < lam /\ 0 < h0 /\
  forall w f b tgt F y c h, wc_alpha w = al -> wc_gamma w = ga -> tr_mem (wc_trig w) = 1 -> 0 < tr_hw (wc_trig w) ->
  wc_sun w = Some f -> zone_free w -> spanning (s_rw (wc_sat w)) -> det3 (s_total_moment (wc_sat w)) <> 0 -> (forall v, norm3 (mv (s_inv_tot (wc_sat w)) v) <= m * norm3 v) ->
  unit3 b -> unitq (v_att (y 0)) -> 0 < h <= h0 -> c 0%nat = w -> (forall k, held_stare (c k) b tgt F (fun _ => zero3) y (INR k * h) (INR (S k) * h) (c (S k))) ->
  norm3 (body_momentum (wc_sat w) (y 0)) <= N -> (forall t, 0 <= t -> v_pos (y t) <> tgt /\ sight_rate tgt (y t) = 0) ->
  2 * al * (1 - sqrt ((1 + aim b tgt (y 0)) / 2)) + rate2 (y 0) / 2 <= E ->
  (forall k, c k = w) /\
  forall t, 0 <= t -> al * (1 - aim b tgt (y t)) + rate2 (y t) <= 6 * (al * (1 - aim b tgt (y 0)) + rate2 (y 0)) * exp (- lam * t).
Proof.
  intros al ga E m N A G HE M0 N0. destruct (C131_points al ga E m N A G HE M0 N0) as (lam & h0 & d0 & K & L0 & H0 & D0 & K0 & X). exists lam, h0. split; [exact L0|]. split; [exact H0|].
  intros w f b tgt F y c h EA EG TM HW HS HZ SP DJ NJ UB U0 Hh C0 HD NM ENV HV.
  assert (PM : pm1 (tr_mem (wc_trig w))) by (left; exact TM). assert (RK := run_keeps w f b tgt F (fun _ => zero3) y c h (proj1 Hh) HW PM HS HZ SP DJ U0 C0 HD (fun _ => eq_refl)).
  destruct (X w f b tgt F (fun _ => zero3) y c h 0 EA EG TM HW HS HZ SP DJ NJ UB U0 Hh ltac:(lra) C0 HD) as (X1 & X2); [|exact HV|].
  - intros t Ht. destruct (ENV t Ht) as (P1 & P2). split; [exact P1|]. split; [lra|]. split; [rewrite P_obs3.norm3_zero; lra|]. destruct (step_of t h (proj1 Hh) Ht) as (k & Hk). destruct (RK k) as (_ & Q). rewrite (proj2 (Q t Hk)). exact NM.
  - split; [exact X1|]. intros t Ht. assert (Z := X2 t Ht). replace (K * 0 ^ 2) with 0 in Z by ring. lra.
Qed.
Print Assumptions C131_free.

(** ** too long a period *)
Lemma acq_vec p q (b tgt : v3) : unit3 b -> unit3 (sandwich q (pointing_vector p tgt)) -> norm3 (vec (conjugate (acquire_target p q b tgt))) <= 1.
Proof.
  intros B U. set (D := sandwich q (pointing_vector p tgt)) in *. destruct (hcos_facts b D B U) as (H & HC). destruct (Rle_lt_dec (hcos b D) 0) as [L|L].
  - assert (Z : hcos b D = 0) by lra. rewrite Z in HC. assert (BD : dot3 b D = - 1) by lra.
    assert (EQ : D = opp3 b). { assert (Q : add3 D b = zero3). { apply dot3_zero. revert B U BD. unfold unit3. generalize D. destruct b as [b1 b2 b3]. intros [d1 d2 d3]. vunfoldg; cbn [x3 y3 z3]; rnumg. intros. lra. } revert Q. generalize D. destruct b as [b1 b2 b3]. intros [d1 d2 d3]. unfold zero3. vunfoldg; cbn [x3 y3 z3]; rnumg. intros Q. apply mk3_inj in Q. destruct Q as (Q1 & Q2 & Q3). apply mk3_c; lra. }
    unfold acquire_target. fold D. rewrite EQ. assert (P := pointing_antipode b B). destruct (R_axis_angle b (opp3 b)) as [r th]. cbn [fst snd] in P. rewrite P. apply P_exist3.norm3_le_sq; [lra|]. unfold conjugate. vunfoldg; cbn [x3 y3 z3 qw qx qy qz vec]; rnumg. lra.
  - rewrite (stare_acq p q b tgt B U L). fold D. destruct (haxis_sq b D B U L) as (S & _). apply P_exist3.norm3_le_sq; [lra|]. assert (0 < hcos b D * hcos b D) by (apply Rmult_lt_0_compat; assumption). revert S. generalize (haxis b D). intros [a1 a2 a3]. unfold conjugate. vunfoldg; cbn [x3 y3 z3 qw qx qy qz vec]; rnumg. intros S. lra.
Qed.
(** with a period longer than 2 / gamma, a satellite without total momentum that turns fast enough turns ever faster in POINT mode, whatever boresight and target *)
Theorem C131_long_period_refuted : forall w f b tgt F y c h, 0 <= wc_alpha w -> 0 < h -> 2 < wc_gamma w * h -> 0 < tr_hw (wc_trig w) -> pm1 (tr_mem (wc_trig w)) ->
  wc_sun w = Some f -> zone_free w -> spanning (s_rw (wc_sat w)) -> det3 (s_total_moment (wc_sat w)) <> 0 -> unit3 b ->
  unitq (v_att (y 0)) -> body_momentum (wc_sat w) (y 0) = zero3 -> c 0%nat = w -> (forall k, held_stare (c k) b tgt F (fun _ => zero3) y (INR k * h) (INR (S k) * h) (c (S k))) ->
  (forall t, 0 <= t -> v_pos (y t) <> tgt /\ sight_rate tgt (y t) = 0) ->
  let r := wc_alpha w * h / (wc_gamma w * h - 2) in
  forall k, r + (wc_gamma w * h - 1) ^ k * (norm3 (v_rate (y 0)) - r) <= norm3 (v_rate (y (INR k * h))).
Proof.
  intros w f b tgt F y c h A H0 G HW PM HS HZ SP DJ UB U0 M0 C0 HH ENV r. assert (RK := run_keeps w f b tgt F (fun _ => zero3) y c h H0 HW PM HS HZ SP DJ U0 C0 HH (fun _ => eq_refl)).
  assert (RR : r * (wc_gamma w * h - 2) = wc_alpha w * h) by (unfold r; field; lra).
  induction k as [|k IH]; [cbn [INR pow]; rewrite Rmult_0_l; lra|].
  destruct (RK k) as ((tr & Ck & Tk & Hk) & KP). assert (HK := HH k). rewrite Ck in HK. assert (T0 : 0 <= INR k * h) by (apply Rmult_le_pos; [apply pos_INR|lra]). set (t0 := INR k * h) in *. assert (E1 : INR (S k) * h = t0 + h) by (rewrite S_INR; unfold t0; ring). rewrite E1 in *.
  assert (I0 : t0 <= t0 <= t0 + h) by lra. assert (I1 : t0 <= t0 + h <= t0 + h) by lra. destruct (KP t0 I0) as (Uk & _).
  destruct (held_stare_rot (set_trig w tr) f b tgt F (fun _ => zero3) y t0 (t0 + h) (c (S k)) HS HZ SP DJ ltac:(lra) Uk HK) as (EW & z & EQ & P). cbv zeta in P.
  change (wc_sat (set_trig w tr)) with (wc_sat w) in P. change (wc_alpha (set_trig w tr)) with (wc_alpha w) in P. change (wc_gamma (set_trig w tr)) with (wc_gamma w) in P. change (wc_trig (set_trig w tr)) with tr in EW.
  set (e := conjugate (acquire_target (v_pos (y t0)) (v_att (y t0)) b tgt)) in *. destruct (trig_after (qw e) tr Tk ltac:(lra)) as (Q1 & Q2 & _). set (tr' := trig_step (qw e) tr) in *.
  assert (EW' : c (S k) = set_trig w tr') by (rewrite EW; reflexivity). rewrite EW' in P. change (tr_mem (wc_trig (set_trig w tr'))) with (tr_mem tr') in P.
  assert (NZ : forall t, t0 <= t <= t0 + h -> body_momentum (wc_sat w) (z t) = zero3). { intros t Ht. destruct (KP t Ht) as (_ & Z). rewrite M0, P_obs3.norm3_zero, (EQ t Ht) in Z. apply dot3_zero. rewrite <- P_quat.norm3_sq, Z. ring. }
  assert (TZ : told b tgt (z t0) = zero3). { unfold told. rewrite <- (EQ t0 I0). destruct (ENV t0 T0) as (_ & Z). unfold sight_rate in Z. assert (Q : stare_rate_intl (v_pos (y t0)) (v_vel (y t0)) tgt = zero3) by (apply dot3_zero; rewrite <- P_quat.norm3_sq, Z; ring). rewrite Q, !sandwich_0. reflexivity. }
  set (a := sub3 (scale3 (- tr_mem tr' * wc_alpha w) (vec e)) (scale3 (wc_gamma w) (v_rate (z t0)))).
  assert (DA : forall t, t0 <= t <= t0 + h -> deriv3 (fun u => v_rate (z u)) t a).
  { intros t Ht. destruct (P t Ht) as (_ & _ & _ & X & _). eapply d3_eq; [exact X|]. rewrite TZ, (NZ _ I0), (NZ _ Ht), mv_zero3.
    replace (sub3 (cross3 (v_rate (z t0)) zero3) (cross3 (v_rate (z t)) zero3)) with (zero3 (T:=R)) by (generalize (v_rate (z t0)) (v_rate (z t)); clear; intros [p q r] [l m n]; vunfoldg; rnumg; apply mk3_c; ring). rewrite mv_zero3.
    unfold asks, a. generalize (scale3 (- tr_mem tr' * wc_alpha w) (vec e)) (v_rate (z t0)) (wc_gamma w). clear. intros [p q r] [l m n] g. unfold zero3. vunfoldg; cbn [x3 y3 z3]; rnumg; apply mk3_c; ring. }
  assert (ST : sub3 (sub3 (v_rate (z (t0 + h))) (scale3 (t0 + h) a)) (sub3 (v_rate (z t0)) (scale3 t0 a)) = zero3).
  { assert (K : norm3 (sub3 (sub3 (v_rate (z (t0 + h))) (scale3 (t0 + h) a)) (sub3 (v_rate (z t0)) (scale3 t0 a))) <= 0 * (t0 + h - t0)).
    { apply (vmvt (fun u => sub3 (v_rate (z u)) (scale3 u a)) (fun _ => zero3) t0 (t0 + h) 0); [lra| |].
      - intros t Ht. eapply d3_eq; [apply P_exist2.d3_sub; [apply DA, Ht|]|].
        + instantiate (1 := a). destruct a as [p q r']. split; [|split]; cbn [scale3 x3 y3 z3]; rnumg; (eapply d_eq; [apply d_mult; [apply d_id|apply d_const]|]; cbv beta; ring).
        + generalize a. clear. intros [p q r]. vunfoldg; rnumg; apply mk3_c; ring.
      - intros _ _. rewrite P_obs3.norm3_zero. lra. }
    apply dot3_zero. rewrite <- P_quat.norm3_sq. match goal with |- ?n * ?n = 0 => assert (0 <= n) by apply norm3_pos; replace n with 0 by lra; ring end. }
  assert (OM : scale3 (wc_gamma w * h - 1) (v_rate (z t0)) = sub3 (opp3 (v_rate (z (t0 + h)))) (scale3 (tr_mem tr' * wc_alpha w * h) (vec e))).
  { revert ST. unfold a. generalize (v_rate (z (t0 + h))) (v_rate (z t0)) (vec e). intros [p q r'] [l m n] [d1 d2 d3]. vunfoldg; rnumg. intros X. injection X as X1 X2 X3. apply mk3_c; lra. }
  assert (N1 := sub_norm (opp3 (v_rate (z (t0 + h)))) (scale3 (tr_mem tr' * wc_alpha w * h) (vec e))). rewrite <- OM, P_vec2.norm3_opp, !norm3_scal, (Rabs_right (wc_gamma w * h - 1)) in N1 by lra.
  assert (SA : Rabs (tr_mem tr' * wc_alpha w * h) = wc_alpha w * h). { rewrite !Rabs_mult, (Rabs_right h), (Rabs_right (wc_alpha w)) by lra. replace (Rabs (tr_mem tr')) with 1; [ring|]. destruct Q1 as [Q|Q]; rewrite Q; [rewrite Rabs_right; lra|rewrite Rabs_left; lra]. }
  rewrite SA in N1. assert (V1 : norm3 (vec e) <= 1) by (apply acq_vec; [exact UB|apply (seen_unit tgt (y t0)); [exact Uk|apply ENV, T0]]).
  rewrite <- (EQ _ I0), <- (EQ _ I1) in N1. set (v1 := norm3 (vec e)) in *. set (n0 := norm3 (v_rate (y t0))) in *. set (n1 := norm3 (v_rate (y (t0 + h)))) in *.
  assert (0 <= wc_alpha w * h) by (apply Rmult_le_pos; lra). assert (wc_alpha w * h * v1 <= wc_alpha w * h * 1) by (apply Rmult_le_compat_l; assumption).
  assert (B2 : (wc_gamma w * h - 1) * (r + (wc_gamma w * h - 1) ^ k * (norm3 (v_rate (y 0)) - r)) <= (wc_gamma w * h - 1) * n0) by (apply Rmult_le_compat_l; lra).
  cbn [pow]. set (pk := (wc_gamma w * h - 1) ^ k) in *. set (dd := norm3 (v_rate (y 0)) - r) in *. nra.
Qed.
Print Assumptions C131_long_period_refuted.

(** ** motions that meet the hypotheses: turns about x in front of a target on the z axis *)
Lemma ax_is h th0 p0 k : 0 < h -> ax_motion h th0 p0 (INR k * h) = axis_state (snd (fst (ax_seq h th0 p0 k))) (snd (ax_seq h th0 p0 k)).
Proof.
  intros H. rewrite (ax_agree h th0 p0 k) by (try exact H; rewrite S_INR; lra). unfold ax_at. destruct (ax_seq h th0 p0 k) as [[tr th] p]. cbv zeta. cbn [fst snd]. f_equal; replace (INR k * h - INR k * h) with 0 by ring; field.
Qed.
Lemma ax_hstare h th0 p0 k : 0 < h -> 0 < cos (snd (fst (ax_seq h th0 p0 k)) / 2) -> held_stare (ax_ctl h th0 p0 k) ez ez (fun _ => zero3) (fun _ => zero3) (ax_motion h th0 p0) (INR k * h) (INR (S k) * h) (ax_ctl h th0 p0 (S k)).
Proof.
  intros H C. destruct (ax_held h th0 p0 k H) as (u & acc & z & a & b & TR & US & WA & A0 & B0 & EQ & D). exists u, acc, z, a, b.
  assert (TS : tracking (ax_ctl h th0 p0 k) (ax_motion h th0 p0 (INR k * h)) (sandwich (v_att (ax_motion h th0 p0 (INR k * h))) (stare_rate_intl (v_pos (ax_motion h th0 p0 (INR k * h))) (v_vel (ax_motion h th0 p0 (INR k * h))) ez)) zero3 (stare_attitude (v_pos (ax_motion h th0 p0 (INR k * h))) (v_att (ax_motion h th0 p0 (INR k * h))) ez ez) = Ok (ax_ctl h th0 p0 (S k), u)).
  { rewrite <- TR, (ax_is h th0 p0 k H). set (th := snd (fst (ax_seq h th0 p0 k))) in *. set (p := snd (ax_seq h th0 p0 k)). rewrite axm_still, sandwich_0. unfold ax_ctl. set (tr := fst (fst (ax_seq h th0 p0 k))).
    rewrite (tracking_free (set_trig axis_ctl tr) (axis_state th p) zero3 zero3 q1 (fun _ => ex) eq_refl (or_intror eq_refl) ltac:(cbn; lia)).
    rewrite (tracking_free (set_trig axis_ctl tr) (axis_state th p) zero3 zero3 (stare_attitude (v_pos (axis_state th p)) (v_att (axis_state th p)) ez ez) (fun _ => ex) eq_refl (or_intror eq_refl) ltac:(cbn; lia)).
    cbv zeta. rewrite axm_error, axis_error by exact C. reflexivity. }
  split; [exact TS|]. split; [exact US|]. split; [unfold point_and_stare; cbn [cs_v]; rewrite TS; cbn [rbind]; rewrite WA; reflexivity|]. split; [exact A0|]. split; [exact B0|]. split; [exact EQ|exact D].
Qed.
Lemma ax_motion_is h th0 p0 t : exists th p, ax_motion h th0 p0 t = axis_state th p.
Proof. unfold ax_motion, ax_at. destruct (ax_seq h th0 p0 (Z.to_nat (up (t / h) - 1))) as [[tr th] p]. cbv zeta. eexists. eexists. reflexivity. Qed.
Lemma ball_inv v : norm3 (mv (s_inv_tot free_ball) v) <= / 4 * norm3 v.
Proof.
  change (s_inv_tot free_ball) with (inv3 (s_total_moment free_ball)). rewrite free_ball_total. replace (mv (inv3 (scalem 4 id3)) v) with (scale3 (/ 4) v) by (destruct v as [a b c]; vunfoldg; cbn [x3 y3 z3 row1 row2 row3]; rnumg; apply mk3_c; field).
  rewrite norm3_scal, Rabs_right by lra. apply Rle_refl.
Qed.
(** half a radian off the target, from rest, with every short period *)
Example C131_ex : exists w h1, whl_new free_ball [] (Some (fun _ => ex)) 0.707 0.1 = Ok w /\ tr_mem (wc_trig w) = 1 /\ 0 < tr_hw (wc_trig w) /\ spanning (s_rw (wc_sat w)) /\ det3 (s_total_moment (wc_sat w)) <> 0 /\ (forall v, norm3 (mv (s_inv_tot (wc_sat w)) v) <= / 4 * norm3 v) /\ 0 < h1 /\
  forall h, 0 < h <= h1 -> exists y c, unitq (v_att (y 0)) /\ aim ez ez (y 0) = cos 0.5 /\ c 0%nat = w /\ (forall k, held_stare (c k) ez ez (fun _ => zero3) (fun _ => zero3) y (INR k * h) (INR (S k) * h) (c (S k))) /\
    (forall t, 0 <= t -> v_pos (y t) <> ez /\ sight_rate ez (y t) = 0 /\ norm3 (body_momentum (wc_sat w) (y t)) <= 0) /\ 2 * wc_alpha w * (1 - sqrt ((1 + aim ez ez (y 0)) / 2)) + rate2 (y 0) / 2 <= wc_alpha w.
Proof.
  set (al := 2 * 0.1 ^ 2). set (ga := 2 * 0.707 * 0.1). assert (AL : 0 < al) by (unfold al; lra).
  destruct (C107_sampled al ga 0.3 al (/ 4) 0) as (lam & h0 & L0 & H0 & X); [exact AL|unfold ga; lra|lra|lra|lra|lra|]. exists axis_ctl, h0.
  split. { unfold whl_new, axis_ctl. cbn [forallb map]. f_equal. f_equal. rewrite trig_new_eq. destruct (Rlt_dec 1 0); [lra|reflexivity]. }
  split; [reflexivity|]. split; [cbn [axis_ctl wc_trig tr_hw]; lra|]. split; [exact free_ball_spanning|]. split; [exact ball_det|]. split; [exact ball_inv|]. split; [exact H0|].
  intros h Hh. assert (Hp : 0 < h) by lra. assert (CB : 1 - 1 / 32 <= cos 0.25). { assert (Q := cos_bound 0.25 0 ltac:(assert (P := PI2_3_2); lra) ltac:(assert (P := PI2_3_2); lra)). unfold cos_approx, cos_term in Q. cbn in Q. lra. }
  assert (O0 : off_target 1 q1 (ax_motion h 0.5 0 0) <= 1 / 16) by (rewrite (ax_start h _ _ Hp), ax_off; replace (0.5 / 2) with 0.25 by lra; lra).
  assert (R0 : rate2 (ax_motion h 0.5 0 0) = 0) by (rewrite (ax_start h _ _ Hp); unfold rate2, axis_state; cbn [v_rate]; vunfoldg; cbn [x3 y3 z3]; rnumg; ring).
  destruct (X axis_ctl (fun _ => ex) q1 (fun _ => zero3) (ax_motion h 0.5 0) (ax_ctl h 0.5 0) h eq_refl eq_refl eq_refl) as (_ & BD).
  { left; reflexivity. } { reflexivity. } { right; reflexivity. } { exact free_ball_spanning. } { exact ball_det. } { exact ball_inv. }
  { rewrite (ax_start h _ _ Hp). change (wc_sat axis_ctl) with free_ball. rewrite ax_still, P_obs3.norm3_zero. lra. } { unfold unitq, q1; vunfoldg; cbn [qw qx qy qz]; rnumg; ring. } { rewrite (ax_start h _ _ Hp). apply ax_unit. } { exact Hh. } { reflexivity. } { intros k. apply ax_held, Hp. }
  { change (tr_mem (wc_trig axis_ctl)) with 1. rewrite R0. assert (al * off_target 1 q1 (ax_motion h 0.5 0 0) <= al * (1 / 16)) by (apply Rmult_le_compat_l; lra). lra. }
  change (tr_mem (wc_trig axis_ctl)) with 1 in BD. rewrite R0 in BD.
  assert (CP : forall k, 0 < cos (snd (fst (ax_seq h 0.5 0 k)) / 2)).
  { intros k. assert (T0 : 0 <= INR k * h) by (apply Rmult_le_pos; [apply pos_INR|lra]). assert (Q := BD _ T0). rewrite (ax_is h 0.5 0 k Hp), ax_off in Q. set (cc := cos (snd (fst (ax_seq h 0.5 0 k)) / 2)) in *. assert (N := dot3_nonneg (v_rate (axis_state (snd (fst (ax_seq h 0.5 0 k))) (snd (ax_seq h 0.5 0 k))))). fold (rate2 (axis_state (snd (fst (ax_seq h 0.5 0 k))) (snd (ax_seq h 0.5 0 k)))) in N.
    assert (E1 : exp (- lam * (INR k * h)) <= 1). { rewrite <- exp_0. assert (Z : - lam * (INR k * h) <= 0) by (assert (0 <= lam * (INR k * h)) by (apply Rmult_le_pos; lra); lra). destruct Z as [Z|Z]; [left; apply exp_increasing, Z|rewrite Z; lra]. } assert (E2 := exp_pos (- lam * (INR k * h))). set (ee := exp _) in *. set (o := off_target 1 q1 (ax_motion h 0.5 0 0)) in *.
    assert (O1 : 12 * (2 * al * o + 0) * ee <= 12 * (2 * al * (1 / 16)) * 1). { apply (Rle_trans _ (12 * (2 * al * (1 / 16)) * ee)); [apply Rmult_le_compat_r; [lra|]; assert (al * o <= al * (1 / 16)) by (apply Rmult_le_compat_l; lra); lra|apply Rmult_le_compat_l; lra]. }
    assert (O2 : al * (2 * (1 - cc)) <= al * (3 / 4)) by lra. assert (O3 : 2 * (1 - cc) <= 3 / 4) by (apply (Rmult_le_reg_l al); [exact AL|exact O2]). lra. }
  exists (ax_motion h 0.5 0), (ax_ctl h 0.5 0). split; [rewrite (ax_start h _ _ Hp); apply ax_unit|]. split; [rewrite (ax_start h _ _ Hp); apply axm_aim|]. split; [reflexivity|]. split; [intros k; apply ax_hstare; [exact Hp|apply CP]|]. split.
  - intros t _. destruct (ax_motion_is h 0.5 0 t) as (th & p & ->). split; [apply axm_away|]. split; [unfold sight_rate; rewrite axm_still; apply P_obs3.norm3_zero|]. change (wc_sat axis_ctl) with free_ball. rewrite ax_still, P_obs3.norm3_zero. lra.
  - rewrite R0. change (wc_alpha axis_ctl) with al. assert (Z := sqrt_pos ((1 + aim ez ez (ax_motion h 0.5 0 0)) / 2)). rewrite (ax_start h _ _ Hp), axm_aim in *.
    assert (HH := axm_hcos 0.5 0 ltac:(replace (0.5 / 2) with 0.25 by lra; lra)). unfold hcos in HH. rewrite <- aim_seen, axm_aim in HH. rewrite HH. replace (0.5 / 2) with 0.25 by lra. assert (al * (1 - cos 0.25) <= al * (1 / 32)) by (apply Rmult_le_compat_l; lra). lra.
Qed.
(** a period of 4 / gamma: at every call the satellite is on the target and has turned ever faster, by whole turns *)
Example C131_long_ex : let ga := 2 * 0.707 * 0.1 in let h := 4 / ga in exists y c, c 0%nat = axis_ctl /\ 2 < wc_gamma axis_ctl * h /\ unitq (v_att (y 0)) /\ body_momentum free_ball (y 0) = zero3 /\
  wc_alpha axis_ctl * h / (wc_gamma axis_ctl * h - 2) < norm3 (v_rate (y 0)) /\
  (forall t, 0 <= t -> v_pos (y t) <> ez /\ sight_rate ez (y t) = 0) /\ forall k, held_stare (c k) ez ez (fun _ => zero3) (fun _ => zero3) y (INR k * h) (INR (S k) * h) (c (S k)).
Proof.
  intros ga h. assert (GP : 0 < ga) by (unfold ga; lra). assert (GH : ga * h = 4) by (unfold h; field; lra). assert (Hp : 0 < h) by (unfold h; apply Rdiv_lt_0_compat; lra). assert (PP := PI2_3_2). set (p0 := 4 * PI / h). assert (PH : p0 * h = 4 * PI) by (unfold p0; field; lra).
  assert (SEQ : forall k, exists n z : Z, ax_seq h 0 p0 k = (mkTr 1 0.3, IZR n * (4 * PI), IZR z * p0)).
  { induction k as [|k (n & z & IH)]; [exists 0%Z, 1%Z; cbn [ax_seq]; f_equal; [f_equal|]; ring|]. cbn [ax_seq]. rewrite IH.
    assert (C1 : cos (IZR n * (4 * PI) / 2) = 1). { replace (IZR n * (4 * PI) / 2) with (2 * (IZR n * PI)) by field. rewrite cos_2a_sin. replace (sin (IZR n * PI)) with 0; [ring|]. symmetry. apply sin_eq_0_1. exists n. reflexivity. }
    assert (S1 : sin (IZR n * (4 * PI) / 2) = 0). { apply sin_eq_0_1. exists (2 * n)%Z. rewrite mult_IZR. field. }
    rewrite C1. rewrite (trig_keep 1 (mkTr 1 0.3)) by (cbn [tr_mem tr_hw]; lra). unfold ax_u. cbn [tr_mem]. rewrite S1. fold ga. exists (n - z)%Z, (- 3 * z)%Z. rewrite minus_IZR, mult_IZR. cbv zeta. f_equal; [f_equal|].
    - replace (IZR n * (4 * PI) + IZR z * p0 * h + (- (1) * (2 * 0.1 ^ 2) * 0 - ga * (IZR z * p0)) * h ^ 2 / 2) with (IZR n * (4 * PI) + IZR z * (p0 * h) - ga * h * (IZR z * (p0 * h)) / 2) by field. rewrite GH, PH. field.
    - replace (IZR z * p0 + (- (1) * (2 * 0.1 ^ 2) * 0 - ga * (IZR z * p0)) * h) with (IZR z * p0 - ga * h * (IZR z * p0)) by ring. rewrite GH. ring. }
  exists (ax_motion h 0 p0), (ax_ctl h 0 p0). split; [reflexivity|]. change (wc_gamma axis_ctl) with ga. rewrite GH. split; [lra|]. rewrite (ax_start h _ _ Hp). split; [apply ax_unit|]. split; [apply ax_still|].
  split. { change (wc_alpha axis_ctl) with (2 * 0.1 ^ 2). replace (norm3 (v_rate (axis_state 0 p0))) with p0. - unfold p0. apply (Rmult_lt_reg_r h); [exact Hp|]. replace (4 * PI / h * h) with (4 * PI) by (field; lra). assert (HB : h <= 28.5) by (unfold ga in GH; lra). assert (HH : h * h <= 28.5 * 28.5) by (apply Rmult_le_compat; lra). replace (2 * 0.1 ^ 2 * h / (4 - 2) * h) with (0.1 ^ 2 * (h * h)) by (unfold Rdiv; replace (/ (4 - 2)) with (/ 2) by (f_equal; lra); lra). lra.
    - assert (P0 : 0 <= p0) by (unfold p0; apply Rlt_le, Rdiv_lt_0_compat; lra). cbn [axis_state v_rate]. unfold norm3. vunfoldg; cbn [x3 y3 z3]; rnumg. replace (p0 * p0 + 0 * 0 + 0 * 0) with (p0 * p0) by ring. symmetry. apply sqrt_square, P0. }
  split.
  - intros t _. destruct (ax_motion_is h 0 p0 t) as (th & p & ->). split; [apply axm_away|]. unfold sight_rate; rewrite axm_still; apply P_obs3.norm3_zero.
  - intros k. apply ax_hstare; [exact Hp|]. destruct (SEQ k) as (n & z & ->). cbn [fst snd]. replace (IZR n * (4 * PI) / 2) with (2 * (IZR n * PI)) by field. rewrite cos_2a_sin. replace (sin (IZR n * PI)) with 0; [lra|]. symmetry. apply sin_eq_0_1. exists n. reflexivity.
Qed.
