(** * Property C107: tracking with commands held over a control period *)
From Coq Require Import Reals ZArith List Bool Lra Lia Psatz.
From Verif Require Import Num Vec M_vector M_quaternion M_jday M_struct M_dyn M_ctrl S_rot S_dyn S_ctrl.
From Verif Require Import P_quat P_struct P_wheel P_dyn P_dyn2 P_obs P_ctrl P_ctrl2 P_ctrl3 P_ctrl4 P_ctrl5 P_conv P_tot3 P_orb3 P_posf P_detum P_samp P_samp2 Props_ctrl2 Props_conv.
Import ListNotations.
Local Open Scope R_scope.

(** the controller in state w is called at time t0, for the target attitude qc at rest; it ends in state w', and the satellite moves by the code's
    equations under that one command until t1, with no external torque.  The motion of the period is the restriction of one defined on a little more than the period *)
Definition held (w : WhlCtl) (qc : quat) (F : R -> v3) (y : R -> SVec) (t0 t1 : R) (w' : WhlCtl) : Prop :=
  exists u acc z a b, tracking w (y t0) zero3 zero3 qc = Ok (w', u) /\ unsaturated (s_rw (wc_sat w)) (opp3 u) /\ whl_actuator_commands w' u = Ok acc /\
    a < t0 /\ t1 < b /\ (forall t, t0 <= t <= t1 -> y t = z t) /\
    forall t, a < t < b -> deriv_sv z t (derivative (wc_sat w) (z t) (F t) zero3 (rw_torque (s_rw (wc_sat w)) acc) (rw_momentum (s_rw (wc_sat w)) (v_whl (z t))) acc).
(** angular momentum of body and wheels, in the body frame *)
Definition body_momentum (sat : Satellite) (v : SVec) : v3 := add3 (mv (s_total_moment sat) (v_rate v)) (rw_momentum (s_rw sat) (v_whl v)).

Lemma held_rot w f qc F y t0 t1 w' : wc_sun w = Some f -> zone_free w -> spanning (s_rw (wc_sat w)) -> det3 (s_total_moment (wc_sat w)) <> 0 -> t0 < t1 -> unitq qc -> unitq (v_att (y t0)) ->
  held w qc F y t0 t1 w' ->
  w' = set_trig w (trig_step (qw (error_quat (v_att (y t0)) qc)) (wc_trig w)) /\
  exists z : R -> SVec, (forall t, t0 <= t <= t1 -> y t = z t) /\ forall t, t0 <= t <= t1 ->
    let E := fun u => error_quat (v_att (z u)) qc in let om := fun u => v_rate (z u) in let H := fun u => body_momentum (wc_sat w) (z u) in
    unitq (v_att (z t)) /\ unitq (E t) /\ derivq E t (scaleq 0.5 (product (E t) (pure (om t)))) /\
    deriv3 om t (sm_a (wc_alpha w) (wc_gamma w) (tr_mem (wc_trig w')) t0 (s_inv_tot (wc_sat w)) E om H t) /\
    deriv3 H t (opp3 (cross3 (om t) (H t))) /\ norm3 (H t) = norm3 (H t0).
Proof.
  intros HS HZ SP DJ T01 UC U0 (u & acc & z & a & b & TR & US & WA & A0 & B0 & EQ & D).
  assert (HL := tracking_len _ _ _ _ _ _ TR). rewrite (tracking_free w (y t0) zero3 zero3 qc f HS HZ HL) in TR. cbv zeta in TR.
  set (w1 := set_trig w _) in TR. assert (EW : w' = w1) by congruence. assert (EU := f_equal (fun r => match r with Ok (_, x) => x | Raise _ => zero3 end) TR). cbv beta iota in EU. split; [exact EW|].
  assert (TA : rw_torque (s_rw (wc_sat w)) acc = opp3 u). { destruct (unsat_torque _ _ SP US) as (a' & EA & _ & TA). subst w'. unfold whl_actuator_commands in WA. change (wc_sat w1) with (wc_sat w) in WA. rewrite EA in WA. injection WA as <-. exact TA. }
  assert (Z0 : y t0 = z t0) by (apply EQ; lra). exists z. split; [exact EQ|].
  set (J := s_total_moment (wc_sat w)) in *. set (E := fun u => error_quat (v_att (z u)) qc). set (om := fun u => v_rate (z u)). set (H := fun u => body_momentum (wc_sat w) (z u)).
  assert (DQ : forall t, a < t < b -> derivq (fun u => v_att (z u)) t (scaleq 0.5 (product (v_att (z t)) (pure (om t))))) by (intros t Ht; destruct (D t Ht) as (_ & _ & X & _); exact X).
  assert (UN : forall t, a < t < b -> unitq (v_att (z t))).
  { intros t Ht. unfold unitq. rewrite <- U0, Z0. apply (const_of_deriv (fun u => dotq (v_att (z u)) (v_att (z u))) a b); [|lra|lra].
    intros v Hv. eapply d_eq; [apply d_dotq; exact (DQ v Hv)|]. cbv beta. generalize (v_att (z v)) (om v). clear. intros [p q r s] [x y z]. unfold pure, product. replace 0.5 with (1/2) by lra. vunfoldg; cbn [x3 y3 z3 qw qx qy qz]; rnumg. field. }
  assert (DO : forall t, a < t < b -> deriv3 om t (mv (inv3 J) (sub3 u (cross3 (om t) (H t))))).
  { intros t Ht. destruct (D t Ht) as (_ & _ & _ & X & _). eapply d3_eq; [exact X|]. cbn [derivative v_rate]. rewrite TA. change (s_inv_tot (wc_sat w)) with (inv3 J). f_equal. unfold om, H, body_momentum. fold J.
    generalize (mv J (v_rate (z t))) (rw_momentum (s_rw (wc_sat w)) (v_whl (z t))) (v_rate (z t)). clear. intros [p q r] [l m n] [d e f]. destruct u as [g h i]. vunfoldg; rnumg. apply mk3_c; ring. }
  assert (DH : forall t, a < t < b -> deriv3 H t (opp3 (cross3 (om t) (H t)))).
  { intros t Ht. unfold H at 1, body_momentum. destruct (D t Ht) as (_ & _ & _ & _ & X). eapply d3_eq; [apply d3_add; [apply d3_mv, DO, Ht|apply d3_momentum; exact X]|]. cbn [derivative v_whl]. rewrite TA. fold J. rewrite mv_inv3 by exact DJ.
    generalize (cross3 (om t) (H t)). clear. intros [p q r]. destruct u as [g h i]. vunfoldg; rnumg. apply mk3_c; ring. }
  intros t Ht. assert (IT : a < t < b) by lra. cbv zeta. split; [apply UN, IT|]. split; [apply error_quat_unit; [apply UN, IT|exact UC]|]. split; [|split; [|split]].
  - assert (X := dq_error (fun u => v_att (z u)) (fun _ => qc) t (om t) zero3 (DQ t IT) (dq_const qc t) (UN t IT) UC). cbv zeta in X. rewrite sandwich_0, sub3_0_r in X. exact X.
  - eapply d3_eq; [apply DO, IT|]. rewrite <- EU. change (s_inv_tot (wc_sat w)) with (inv3 J). unfold sm_a, sm_ex, sm_G.
    rewrite Z0, !sandwich_0, cross_0_r. fold (om t0) (E t0). change (add3 (mv J (om t0)) (rw_momentum (s_rw (wc_sat w)) (v_whl (z t0)))) with (H t0).
    replace (tr_mem (trig_step (qw (E t0)) (wc_trig w))) with (tr_mem (wc_trig w')) by (rewrite EW; unfold w1; rewrite Z0; reflexivity).
    set (c := sub3 (scale3 (- tr_mem (wc_trig w') * wc_alpha w) (vec (E t0))) (scale3 (wc_gamma w) (om t0))). replace (sub3 (sub3 (scale3 (- tr_mem (wc_trig w') * wc_alpha w) (vec (E t0))) (scale3 (wc_gamma w) (sub3 (om t0) zero3))) (add3 zero3 zero3)) with c.
    + rewrite <- (inv3_mv J c DJ) at 2. rewrite <- mv_add3. f_equal. generalize (mv J c) (cross3 (om t0) (H t0)) (cross3 (om t) (H t)). clear. intros [p q r] [l m n] [d e f]. vunfoldg; rnumg. apply mk3_c; ring.
    + unfold c. generalize (scale3 (- tr_mem (wc_trig w') * wc_alpha w) (vec (E t0))) (om t0) (wc_gamma w). clear. intros [p q r] [l m n] d. vunfoldg; rnumg. apply mk3_c; ring.
  - apply DH, IT.
  - assert (K : dot3 (H t) (H t) = dot3 (H t0) (H t0)). { apply (const_of_deriv (fun u => dot3 (H u) (H u)) a b); [|lra|lra]. intros v Hv. eapply d_eq; [apply d_dot3; exact (DH v Hv)|]. generalize (H v) (om v). clear. intros [p q r] [l m n]. vunfoldg; rnumg. ring. }
    unfold norm3. rewrite K. reflexivity.
Qed.

(** energy of the error, and the same with the mixed term *)
Definition en (al s : R) (qc : quat) (v : SVec) : R := 2 * al * (1 - s * qw (error_quat (v_att v) qc)) + rate2 v / 2.
Definition enw (al e s : R) (qc : quat) (v : SVec) : R := en al s qc v + e * (s * dot3 (vec (error_quat (v_att v) qc)) (v_rate v)).
Lemma en_off al s qc v : s * s = 1 -> unitq (v_att v) -> unitq qc -> en al s qc v = al * off_target s qc v + rate2 v / 2.
Proof. intros S U UC. rewrite (off_eq s qc v S U UC). unfold en. ring. Qed.
Lemma enw_near al e s qc v : 0 < al -> 0 < e -> s * s = 1 -> unitq (v_att v) -> unitq qc -> 0 <= en al s qc v /\ Rabs (enw al e s qc v - en al s qc v) <= e * (/ (2 * al) + 1) * en al s qc v.
Proof.
  intros A E0 S U UC. assert (UE : unitq (error_quat (v_att v) qc)) by (apply error_quat_unit; assumption).
  assert (T : sm_T 1 0 0) by (unfold sm_T; lra).
  split; [exact (proj1 (V_nonneg al s 1 0 (fun _ => error_quat (v_att v) qc) (fun _ => v_rate v) A S (fun _ _ => UE) 0 T))|].
  exact (W_V al e s 1 0 (fun _ => error_quat (v_att v) qc) (fun _ => v_rate v) A E0 S (fun _ _ => UE) 0 T (proj1 (proj1 (NR s 1 0 _ (fun _ => v_rate v) S (fun _ _ => UE) 0 T)))).
Qed.
Lemma set_trig_id w : set_trig w (wc_trig w) = w. Proof. destruct w. reflexivity. Qed.

Lemma one_period al ga de e m N B w f qc F y t0 h w' : 0 < al -> 0 < ga -> 0 < de -> 0 < e -> e <= cv_eps al ga -> 0 <= m -> 0 <= N -> 0 <= B -> 0 < h ->
  wc_alpha w = al -> wc_gamma w = ga -> tr_hw (wc_trig w) = 1 - 2 * de -> pm1 (tr_mem (wc_trig w)) ->
  wc_sun w = Some f -> zone_free w -> spanning (s_rw (wc_sat w)) -> det3 (s_total_moment (wc_sat w)) <> 0 -> (forall v, norm3 (mv (s_inv_tot (wc_sat w)) v) <= m * norm3 v) ->
  unitq qc -> unitq (v_att (y t0)) -> norm3 (body_momentum (wc_sat w) (y t0)) <= N ->
  h * sm_C0 al ga m N <= 1 / 4 -> 8 * (h * sm_C4 al ga m N B e) <= Rmin ga (e * de / 4) -> h * sqrt (2 * B) <= de ->
  let s := tr_mem (wc_trig w) in en al s qc (y t0) <= B -> - (1 - 2 * de) < s * qw (error_quat (v_att (y t0)) qc) -> held w qc F y t0 (t0 + h) w' ->
  w' = w /\ unitq (v_att (y (t0 + h))) /\ norm3 (body_momentum (wc_sat w) (y (t0 + h))) <= N /\
  (forall t, t0 <= t <= t0 + h -> unitq (v_att (y t)) /\ en al s qc (y t) <= 2 * en al s qc (y t0)) /\
  enw al e s qc (y (t0 + h)) <= enw al e s qc (y t0) - Rmin ga (e * de / 4) / 4 * en al s qc (y t0) * h.
Proof.
  intros A G D E0 EC M0 N0 B0 H0 EA EG EH PM HS HZ SP DJ NJ UC U0 NH K0 K4 KX s VB X0 HH.
  destruct (held_rot w f qc F y t0 (t0 + h) w' HS HZ SP DJ ltac:(lra) UC U0 HH) as (EW & z & EQ & P). cbv zeta in P.
  assert (KEEP : trig_step (qw (error_quat (v_att (y t0)) qc)) (wc_trig w) = wc_trig w) by (apply trig_keep; rewrite EH; fold s; lra).
  rewrite KEEP, set_trig_id in EW. subst w'. split; [reflexivity|]. rewrite EA, EG in P. fold s in P.
  assert (I0 : t0 <= t0 <= t0 + h) by lra. assert (I1 : t0 <= t0 + h <= t0 + h) by lra.
  split; [rewrite (EQ _ I1); apply (P _ I1)|].
  assert (NC : forall t, t0 <= t <= t0 + h -> norm3 (body_momentum (wc_sat w) (z t)) <= N). { intros t Ht. destruct (P t Ht) as (_ & _ & _ & _ & _ & ->). rewrite <- (EQ _ I0). exact NH. }
  split; [rewrite (EQ _ I1); apply NC, I1|].
  assert (SS := pm1_sq _ PM). fold s in SS.
  assert (Q := period_W al ga de e m N B s h t0 (s_inv_tot (wc_sat w)) (fun u => error_quat (v_att (z u)) qc) (fun u => v_rate (z u)) (fun u => body_momentum (wc_sat w) (z u)) A G D E0 EC M0 N0 B0 SS H0
    (fun t Ht => proj1 (proj2 (proj2 (P t Ht)))) (fun t Ht => proj1 (proj2 (proj2 (proj2 (P t Ht))))) (fun t Ht => proj1 (proj2 (proj2 (proj2 (proj2 (P t Ht)))))) (fun t Ht => proj1 (proj2 (P t Ht))) NC NJ).
  assert (V0 : sm_V al s (fun u => error_quat (v_att (z u)) qc) (fun u => v_rate (z u)) t0 <= B) by (rewrite (EQ _ I0) in VB; exact VB).
  assert (X0' : -1 + 2 * de <= sm_x s (fun u => error_quat (v_att (z u)) qc) t0) by (rewrite (EQ _ I0) in X0; unfold sm_x; lra).
  specialize (Q V0 X0' K0 K4 KX). split.
  - intros t Ht. rewrite (EQ _ Ht), (EQ _ I0). split; [apply (P _ Ht)|]. exact (proj1 (Q t Ht)).
  - rewrite (EQ _ I1), (EQ _ I0). destruct (Q _ I1) as [_ L]. replace (t0 + h - t0) with h in L by ring. exact L.
Qed.

Lemma step_of t h : 0 < h -> 0 <= t -> exists k : nat, INR k * h <= t <= INR k * h + h.
Proof.
  intros H T. assert (X : exists n : nat, t <= INR n * h).
  { destruct (archimed (t / h)) as [U _]. assert (Q : 0 <= t / h) by (apply Rmult_le_pos; [exact T|left; apply Rinv_0_lt_compat, H]). exists (Z.to_nat (up (t / h))). rewrite INR_IZR_INZ, Z2Nat.id by (apply le_IZR; lra).
    replace t with (t / h * h) at 1 by (field; lra). apply Rmult_le_compat_r; lra. }
  destruct X as [n L]. induction n as [|n IH]; [cbn in L; exists 0%nat; cbn; lra|]. destruct (Rle_dec t (INR n * h)) as [Y|Y]; [apply IH, Y|]. exists n. rewrite S_INR in L. lra.
Qed.

(** for every choice of gains and band, and every bound on the energy below that of a turn at the edge of the band, on the inverse inertia and on the momentum of
    the satellite, there are a longest period and a rate such that sampled tracking with any shorter period converges at that rate *)
Theorem C107_sampled : forall al ga hw E m N, 0 < al -> 0 < ga -> 0 < hw < 1 -> 0 <= E < 2 * al * (1 + hw) -> 0 <= m -> 0 <= N ->
  exists lam h0, 0 < lam /\ 0 < h0 /\
  forall w f qc F y c h, wc_alpha w = al -> wc_gamma w = ga -> tr_hw (wc_trig w) = hw -> pm1 (tr_mem (wc_trig w)) ->
  wc_sun w = Some f -> zone_free w -> spanning (s_rw (wc_sat w)) -> det3 (s_total_moment (wc_sat w)) <> 0 ->
  (forall v, norm3 (mv (s_inv_tot (wc_sat w)) v) <= m * norm3 v) -> norm3 (body_momentum (wc_sat w) (y 0)) <= N ->
  unitq qc -> unitq (v_att (y 0)) -> 0 < h <= h0 -> c 0%nat = w -> (forall k, held (c k) qc F y (INR k * h) (INR (S k) * h) (c (S k))) ->
  let s := tr_mem (wc_trig w) in al * off_target s qc (y 0) + rate2 (y 0) / 2 <= E ->
  (forall k, c k = w) /\
  forall t, 0 <= t -> 2 * al * off_target s qc (y t) + rate2 (y t) <= 12 * (2 * al * off_target s qc (y 0) + rate2 (y 0)) * exp (- lam * t).
Proof.
  intros al ga hw E m N A G HW HE M0 N0. set (B := 2 * al * (1 + hw)) in *. assert (B0 : 0 < B) by lra. set (de := (1 - hw) / 2). assert (D : 0 < de) by (unfold de; lra).
  destruct (cv_eps_spec al ga A G) as (EP & _). set (kq := / (2 * al) + 1). assert (KQ : 0 < kq) by (unfold kq; assert (0 < / (2 * al)) by (apply Rinv_0_lt_compat; lra); lra).
  set (e := Rmin (cv_eps al ga) (Rmin (1 / 2) ((B - E) / (4 * B)) / kq)).
  assert (TH0 : 0 < Rmin (1 / 2) ((B - E) / (4 * B))) by (apply Rmin_pos; [lra|apply Rdiv_lt_0_compat; lra]).
  assert (E0 : 0 < e) by (apply Rmin_pos; [exact EP|apply Rdiv_lt_0_compat; assumption]). assert (EC : e <= cv_eps al ga) by apply Rmin_l.
  assert (TH : e * kq <= Rmin (1 / 2) ((B - E) / (4 * B))). { apply (Rle_trans _ (Rmin (1 / 2) ((B - E) / (4 * B)) / kq * kq)); [apply Rmult_le_compat_r; [lra|apply Rmin_r]|]. right. field. lra. }
  assert (TH1 := Rle_trans _ _ _ TH (Rmin_l _ _)). assert (TH2 := Rle_trans _ _ _ TH (Rmin_r _ _)). set (th := e * kq) in *. assert (TP : 0 < th) by (apply Rmult_lt_0_compat; assumption).
  assert (TB : E * (1 + 4 * th) < B).
  { assert (T3 : 4 * th <= (B - E) / B) by (replace ((B - E) / B) with (4 * ((B - E) / (4 * B))) by (field; lra); lra). apply (Rle_lt_trans _ (E * (1 + (B - E) / B))); [apply Rmult_le_compat_l; lra|].
    apply (Rmult_lt_reg_r B); [exact B0|]. replace (E * (1 + (B - E) / B) * B) with (E * (2 * B - E)) by (field; lra). nra. }
  set (l := Rmin ga (e * de / 4)). assert (L0 : 0 < l) by (apply Rmin_pos; [exact G|assert (0 < e * de) by (apply Rmult_lt_0_compat; assumption); lra]). assert (LG : l <= ga) by apply Rmin_l.
  destruct (ka_spec al A) as (K0 & _). assert (MN : 0 <= m * N) by (apply Rmult_le_pos; assumption).
  assert (C1p : 2 * ga <= sm_C1 al ga m N) by (unfold sm_C1; assert (0 <= al * sm_ka al) by (apply Rmult_le_pos; lra); lra).
  assert (C0p : 4 * ga <= sm_C0 al ga m N) by (unfold sm_C0; assert (0 <= al * sm_ka al) by (apply Rmult_le_pos; lra); lra).
  assert (SB : 0 < sqrt (2 * B)) by (apply sqrt_lt_R0; lra).
  assert (C2p : 0 < sm_C2 al ga m N B). { unfold sm_C2. assert (0 <= ga * sm_C1 al ga m N) by (apply Rmult_le_pos; lra). assert (0 <= m * N * (sm_C1 al ga m N + 4 * sqrt (2 * B))) by (apply Rmult_le_pos; lra). lra. }
  assert (C4p : 0 < sm_C4 al ga m N B e). { unfold sm_C4. apply Rmult_lt_0_compat; [|exact C2p]. assert (0 < e * sm_ka al) by (apply Rmult_lt_0_compat; assumption). lra. }
  set (c0 := sm_C0 al ga m N) in *. set (c4 := sm_C4 al ga m N B e) in *.
  set (h0 := Rmin (/ (4 * c0)) (Rmin (l / (8 * c4)) (de / sqrt (2 * B)))).
  exists (l / 6), h0. split; [lra|]. split. { apply Rmin_pos; [apply Rinv_0_lt_compat; lra|]. apply Rmin_pos; apply Rdiv_lt_0_compat; lra. }
  intros w f qc F y c h EA EG EH PM HS HZ SP DJ NJ NH UC U0 (Hp & Hh) C0 HD s HV.
  assert (H1 : h * c0 <= 1 / 4). { apply (Rmult_le_reg_r (/ c0)); [apply Rinv_0_lt_compat; lra|]. replace (h * c0 * / c0) with h by (field; lra). replace (1 / 4 * / c0) with (/ (4 * c0)) by (field; lra). eapply Rle_trans; [exact Hh|apply Rmin_l]. }
  assert (H2 : 8 * (h * c4) <= l). { apply (Rmult_le_reg_r (/ (8 * c4))); [apply Rinv_0_lt_compat; lra|]. replace (8 * (h * c4) * / (8 * c4)) with h by (field; lra). eapply Rle_trans; [exact Hh|]. eapply Rle_trans; [apply Rmin_r|apply Rmin_l]. }
  assert (H3 : h * sqrt (2 * B) <= de). { apply (Rmult_le_reg_r (/ sqrt (2 * B))); [apply Rinv_0_lt_compat; lra|]. replace (h * sqrt (2 * B) * / sqrt (2 * B)) with h by (field; lra). eapply Rle_trans; [exact Hh|]. eapply Rle_trans; apply Rmin_r. }
  assert (SS := pm1_sq _ PM). fold s in SS. rewrite <- (en_off al s qc (y 0) SS U0 UC) in HV.
  destruct (enw_near al e s qc (y 0) A E0 SS U0 UC) as (V0 & W0). fold kq in W0. fold th in W0. apply rabs_b in W0. set (w0 := enw al e s qc (y 0)) in *. set (v0 := en al s qc (y 0)) in *.
  assert (W0p : 0 <= w0) by nra.
  assert (BND : forall v, unitq (v_att v) -> enw al e s qc v <= w0 -> en al s qc v < B /\ - hw < s * qw (error_quat (v_att v) qc) /\ 0 <= en al s qc v <= 2 * enw al e s qc v /\ 2 / 3 * enw al e s qc v <= en al s qc v).
  { intros v Uv Lv. destruct (enw_near al e s qc v A E0 SS Uv UC) as (Vv & Wv). fold kq in Wv. fold th in Wv. apply rabs_b in Wv. set (vv := en al s qc v) in *. set (wv := enw al e s qc v) in *.
    assert (P1 : th * vv <= 1 / 2 * vv) by (apply Rmult_le_compat_r; lra). assert (P2 : (1 - th) * vv <= (1 + th) * v0) by lra.
    assert (P3 : vv <= (1 + 4 * th) * v0). { apply (Rmult_le_reg_l (1 - th)); [lra|]. assert ((1 + th) * v0 <= (1 - th) * (1 + 4 * th) * v0) by (apply Rmult_le_compat_r; [exact V0|nra]). lra. }
    assert (P4 : (1 + 4 * th) * v0 <= (1 + 4 * th) * E) by (apply Rmult_le_compat_l; lra). assert (P5 : vv < B) by lra. split; [exact P5|]. split; [|split; lra].
    unfold vv, en, B in P5. assert (R2 : 0 <= rate2 v) by apply dot3_nonneg. assert (P6 : al * (1 - s * qw (error_quat (v_att v) qc)) < al * (1 + hw)) by lra. apply Rmult_lt_reg_l in P6; lra. }
  assert (ST : forall k, INR k * h + h = INR (S k) * h) by (intros k; rewrite S_INR; ring).
  assert (EHW : hw = 1 - 2 * de) by (unfold de; lra).
  assert (INV : forall k, c k = w /\ unitq (v_att (y (INR k * h))) /\ norm3 (body_momentum (wc_sat w) (y (INR k * h))) <= N /\ enw al e s qc (y (INR k * h)) <= w0 /\ enw al e s qc (y (INR k * h)) <= w0 * exp (- (l / 6) * (INR k * h))).
  { induction k as [|k IH].
    - cbn [INR]. rewrite Rmult_0_l, Rmult_0_r, exp_0. split; [exact C0|]. split; [exact U0|]. split; [exact NH|]. fold w0. split; lra.
    - destruct IH as (Ck & Uk & Nk & Wk & Xk). destruct (BND _ Uk Wk) as (B1 & B2 & B3 & B4). assert (HK := HD k). rewrite Ck, <- ST in HK.
      destruct (one_period al ga de e m N B w f qc F y (INR k * h) h (c (S k)) A G D E0 EC M0 N0 (Rlt_le _ _ B0) Hp EA EG ltac:(lra) PM HS HZ SP DJ NJ UC Uk Nk H1 H2 H3 ltac:(fold s; lra) ltac:(fold s; lra) HK) as (Q1 & Q2 & Q3 & _ & Q5).
      fold s in Q5. fold l in Q5. rewrite ST in *. split; [exact Q1|]. split; [exact Q2|]. split; [exact Q3|].
      set (vk := en al s qc (y (INR k * h))) in *. set (wk := enw al e s qc (y (INR k * h))) in *. set (wn := enw al e s qc (y (INR (S k) * h))) in *.
      assert (T1 : 0 <= l * h) by (apply Rmult_le_pos; lra). assert (T2 : l / 4 * vk * h >= l * h * (wk / 6)) by (assert (l * h * (2 / 3 * wk) <= l * h * vk) by (apply Rmult_le_compat_l; lra); lra).
      assert (wk0 : 0 <= wk) by lra. assert (T3 : 0 <= l * h * (wk / 6)) by (apply Rmult_le_pos; lra). split; [lra|].
      rewrite <- ST. replace (- (l / 6) * (INR k * h + h)) with (- (l / 6) * (INR k * h) + - (l * h / 6)) by field. rewrite exp_plus, <- Rmult_assoc.
      assert (T4 := exp_ineq1_le (- (l * h / 6))). assert (T5 := exp_pos (- (l * h / 6))).
      apply (Rle_trans _ (wk * (1 + - (l * h / 6)))); [lra|]. apply (Rle_trans _ (wk * exp (- (l * h / 6)))); [apply Rmult_le_compat_l; lra|]. apply Rmult_le_compat_r; lra. }
  split; [intros k; apply INV|]. intros t Ht. destruct (step_of t h Hp Ht) as (k & Hk). destruct (INV k) as (Ck & Uk & Nk & Wk & Xk). destruct (BND _ Uk Wk) as (B1 & B2 & B3 & B4). assert (HK := HD k). rewrite Ck, <- ST in HK.
  destruct (one_period al ga de e m N B w f qc F y (INR k * h) h (c (S k)) A G D E0 EC M0 N0 (Rlt_le _ _ B0) Hp EA EG ltac:(lra) PM HS HZ SP DJ NJ UC Uk Nk H1 H2 H3 ltac:(fold s; lra) ltac:(fold s; lra) HK) as (_ & _ & _ & Q4 & _).
  destruct (Q4 t Hk) as (Ut & Vt). fold s in Vt.
  assert (Z1 := en_off al s qc (y t) SS Ut UC). assert (Z0 := en_off al s qc (y 0) SS U0 UC). fold v0 in Z0.
  replace (2 * al * off_target s qc (y t) + rate2 (y t)) with (2 * en al s qc (y t)) by (rewrite Z1; field). replace (2 * al * off_target s qc (y 0) + rate2 (y 0)) with (2 * v0) by (rewrite Z0; field).
  assert (LH : l * h <= 1 / 16) by (assert (h * (4 * ga) <= h * c0) by (apply Rmult_le_compat_l; lra); assert (l * h <= ga * h) by (apply Rmult_le_compat_r; lra); lra).
  assert (X1 : exp (- (l / 6) * (INR k * h)) <= 2 * exp (- (l / 6) * t)).
  { replace (- (l / 6) * t) with (- (l / 6) * (INR k * h) + - (l / 6) * (t - INR k * h)) by ring. rewrite exp_plus. set (x := exp (- (l / 6) * (INR k * h))). assert (xp : 0 < x) by apply exp_pos.
    assert (T4 := exp_ineq1_le (- (l / 6) * (t - INR k * h))). assert (l * (t - INR k * h) <= l * h) by (apply Rmult_le_compat_l; lra). assert (T5 : 1 / 2 <= exp (- (l / 6) * (t - INR k * h))) by lra.
    assert (x * (1 / 2) <= x * exp (- (l / 6) * (t - INR k * h))) by (apply Rmult_le_compat_l; lra). lra. }
  assert (X2 : w0 * exp (- (l / 6) * (INR k * h)) <= 3 / 2 * v0 * (2 * exp (- (l / 6) * t))).
  { apply Rmult_le_compat; [exact W0p|left; apply exp_pos| |exact X1]. assert (th * v0 <= 1 / 2 * v0) by (apply Rmult_le_compat_r; lra). lra. }
  lra.
Qed.
Print Assumptions C107_sampled.

(** ** from rest *)
Lemma mv_bounded (M : m3) : exists m, 0 <= m /\ forall v, norm3 (mv M v) <= m * norm3 v.
Proof.
  exists (norm3 (row1 M) + norm3 (row2 M) + norm3 (row3 M)). assert (P1 := norm3_pos (row1 M)). assert (P2 := norm3_pos (row2 M)). assert (P3 := norm3_pos (row3 M)). split; [lra|]. intros v.
  assert (D1 := dot_norm (row1 M) v). assert (D2 := dot_norm (row2 M) v). assert (D3 := dot_norm (row3 M) v). set (a := norm3 (row1 M)) in *. set (b := norm3 (row2 M)) in *. set (c := norm3 (row3 M)) in *. set (n := norm3 v) in *. assert (N0 : 0 <= n) by apply norm3_pos.
  apply P_exist3.norm3_le_sq; [apply Rmult_le_pos; lra|]. set (x := dot3 (row1 M) v) in *. set (y := dot3 (row2 M) v) in *. set (z := dot3 (row3 M) v) in *.
  replace (dot3 (mv M v) (mv M v)) with (x ^ 2 + y ^ 2 + z ^ 2) by (change (dot3 (mv M v) (mv M v)) with (x * x + y * y + z * z); ring).
  rewrite <- (pow2_abs x), <- (pow2_abs y), <- (pow2_abs z). assert (X := Rabs_pos x). assert (Y := Rabs_pos y). assert (Z := Rabs_pos z).
  assert (S1 : Rabs x ^ 2 <= (a * n) ^ 2) by (apply pow_incr; lra). assert (S2 : Rabs y ^ 2 <= (b * n) ^ 2) by (apply pow_incr; lra). assert (S3 : Rabs z ^ 2 <= (c * n) ^ 2) by (apply pow_incr; lra).
  assert (0 <= a * n) by (apply Rmult_le_pos; assumption). assert (0 <= b * n) by (apply Rmult_le_pos; assumption). assert (0 <= c * n) by (apply Rmult_le_pos; assumption).
  assert (0 <= a * n * (b * n)) by (apply Rmult_le_pos; assumption). assert (0 <= a * n * (c * n)) by (apply Rmult_le_pos; assumption). assert (0 <= b * n * (c * n)) by (apply Rmult_le_pos; assumption). lra.
Qed.
(** a controller built by the constructor with positive damping and frequency, whatever calls it has had before (memory s): from rest in any attitude, with any
    spin of the wheels, there is a longest period below which the satellite turns to the target and stays; only the first call can flip the trigger *)
Theorem C107_rest : forall sat sun damping freq w0 s qc v0, 0 < damping -> 0 < freq -> whl_new sat [] (Some sun) damping freq = Ok w0 ->
  spanning (s_rw sat) -> det3 (s_total_moment sat) <> 0 -> pm1 s -> unitq qc -> unitq (v_att v0) -> v_rate v0 = zero3 ->
  exists lam h0, 0 < lam /\ 0 < h0 /\
  forall F y c h, y 0 = v0 -> 0 < h <= h0 -> c 0%nat = set_trig w0 (mkTr s 0.3) -> (forall k, held (c k) qc F y (INR k * h) (INR (S k) * h) (c (S k))) ->
  let s' := tr_mem (wc_trig (c 1%nat)) in pm1 s' /\ (forall k, c (S k) = c 1%nat) /\
  forall t, 0 <= t -> 4 * freq ^ 2 * off_target s' qc (y t) + rate2 (y t) <= 48 * freq ^ 2 * off_target s' qc (y 0) * exp (- lam * t).
Proof.
  intros sat sun damping freq w0 s qc v0 HD HF HN SP DJ PM UC U0 W0. unfold whl_new in HN. cbn [forallb] in HN. injection HN as <-.
  assert (F2 : 0 < freq ^ 2) by (apply pow_lt; exact HF). set (w1 := set_trig _ (mkTr s 0.3)). set (x := qw (error_quat (v_att v0) qc)).
  destruct (trig_after x (wc_trig w1)) as (T1 & T2 & T3); [exact PM|cbn; lra|]. change (tr_hw (wc_trig w1)) with 0.3 in T2, T3.
  set (w2 := set_trig w1 (trig_step x (wc_trig w1))). set (s' := tr_mem (trig_step x (wc_trig w1))) in *.
  assert (EF := off_eq s' qc v0 (pm1_sq _ T1) U0 UC). fold x in EF.
  assert (R0 : rate2 v0 = 0) by (unfold rate2; rewrite W0; vunfoldg; rnumg; ring).
  assert (X1 : s' * x <= 1). { assert (UE := error_quat_unit _ _ U0 UC). assert (SP1 := unit_split _ UE). fold x in SP1. assert (N := dot3_nonneg (vec (error_quat (v_att v0) qc))). destruct T1 as [Q|Q]; rewrite Q; nra. }
  destruct (mv_bounded (s_inv_tot sat)) as (m & M0 & NJ).
  destruct (C107_sampled (2 * freq ^ 2) (2 * damping * freq) 0.3 (2 * freq ^ 2 * off_target s' qc v0) m (norm3 (body_momentum sat v0))) as (lam & h0 & L & H0 & C);
    [lra|apply Rmult_lt_0_compat; lra|lra|rewrite EF; split; [apply Rmult_le_pos; lra|nra]|exact M0|apply norm3_pos|].
  exists lam, h0. split; [exact L|]. split; [exact H0|]. intros F y c h Y0 Hh C0 HH s''.
  assert (I0 : INR 0 * h = 0) by (cbn; ring). assert (I1 : INR 1 * h = h) by (cbn; ring).
  assert (HD0 := HH 0%nat). rewrite C0, I0, I1 in HD0. unfold held in HD0. destruct HD0 as (u & acc & z & a & b & TR & US & WA & A0 & B0 & EQ & D). rewrite Y0 in TR. assert (HL := tracking_len _ _ _ _ _ _ TR).
  assert (TF := tracking_free w1 v0 zero3 zero3 qc sun eq_refl (or_intror eq_refl) HL). cbv zeta in TF. fold x in TF. fold s' in TF. rewrite TF in TR. fold w2 in TR, TF.
  assert (E1 : c 1%nat = w2) by congruence.
  assert (TF2 := tracking_free w2 v0 zero3 zero3 qc sun eq_refl (or_intror eq_refl) HL). cbv zeta in TF2. fold x in TF2.
  assert (KP : trig_step x (wc_trig w2) = wc_trig w2). { apply trig_keep. change (wc_trig w2) with (trig_step x (wc_trig w1)). rewrite T2. fold s'. lra. }
  rewrite KP, set_trig_id in TF2. change (tr_mem (wc_trig w2)) with s' in TF2.
  assert (ES : s'' = s') by (unfold s''; rewrite E1; reflexivity). rewrite ES. split; [exact T1|].
  set (c' := fun k => match k with O => w2 | S _ => c k end).
  assert (HH' : forall k, held (c' k) qc F y (INR k * h) (INR (S k) * h) (c' (S k))).
  { intros k. destruct k as [|k]; [|exact (HH (S k))]. cbn [c']. rewrite I0, I1, E1. exists u, acc, z, a, b. rewrite Y0.
    split; [rewrite TF2; change (wc_sat w2) with (wc_sat w1); change (wc_alpha w2) with (wc_alpha w1); change (wc_gamma w2) with (wc_gamma w1); assert (EU := f_equal (fun r => match r with Ok (_, v) => v | Raise _ => zero3 end) TR); cbv beta iota in EU; rewrite <- EU; reflexivity|].
    split; [exact US|]. split; [rewrite <- E1; exact WA|]. split; [exact A0|]. split; [exact B0|]. split; [exact EQ|exact D]. }
  destruct (C w2 sun qc F y c' h eq_refl eq_refl T2 T1 eq_refl (or_intror eq_refl) SP DJ NJ) as (K1 & K2); try assumption; try reflexivity; try (rewrite Y0; first [exact U0|apply Rle_refl]).
  - change (tr_mem (wc_trig w2)) with s'. rewrite Y0, R0. lra.
  - change (tr_mem (wc_trig w2)) with s' in K2. split; [intros k; rewrite E1; exact (K1 (S k))|]. intros t Ht. assert (Q := K2 t Ht). rewrite Y0, R0 in Q. rewrite Y0. lra.
Qed.
Print Assumptions C107_rest.

(** ** too long a period *)
(** with a period longer than 2 / gamma, a satellite without total momentum that turns fast enough turns ever faster: every motion does, whatever the target *)
Theorem C107_long_period_refuted : forall w f qc F y c h, 0 <= wc_alpha w -> 0 < h -> 2 < wc_gamma w * h -> 0 < tr_hw (wc_trig w) -> pm1 (tr_mem (wc_trig w)) ->
  wc_sun w = Some f -> zone_free w -> spanning (s_rw (wc_sat w)) -> det3 (s_total_moment (wc_sat w)) <> 0 ->
  unitq qc -> unitq (v_att (y 0)) -> body_momentum (wc_sat w) (y 0) = zero3 -> c 0%nat = w -> (forall k, held (c k) qc F y (INR k * h) (INR (S k) * h) (c (S k))) ->
  let r := wc_alpha w * h / (wc_gamma w * h - 2) in
  forall k, r + (wc_gamma w * h - 1) ^ k * (norm3 (v_rate (y 0)) - r) <= norm3 (v_rate (y (INR k * h))).
Proof.
  intros w f qc F y c h A H0 G HW PM HS HZ SP DJ UC U0 M0 C0 HH r.
  assert (RR : r * (wc_gamma w * h - 2) = wc_alpha w * h) by (unfold r; field; lra).
  assert (INV : forall k, (exists tr, c k = set_trig w tr /\ pm1 (tr_mem tr) /\ tr_hw tr = tr_hw (wc_trig w)) /\ unitq (v_att (y (INR k * h))) /\ norm3 (body_momentum (wc_sat w) (y (INR k * h))) = 0 /\
    r + (wc_gamma w * h - 1) ^ k * (norm3 (v_rate (y 0)) - r) <= norm3 (v_rate (y (INR k * h)))).
  { induction k as [|k IH].
    - cbn [INR]. rewrite Rmult_0_l. split; [exists (wc_trig w); rewrite set_trig_id; split; [exact C0|]; split; [exact PM|reflexivity]|]. split; [exact U0|]. split; [rewrite M0; unfold norm3; replace (dot3 (zero3 (T:=R)) zero3) with 0 by (vunfoldg; rnumg; ring); rnumg; apply sqrt_0|]. cbn [pow]. lra.
    - destruct IH as ((tr & Ck & Tk & Hk) & Uk & Nk & Bk). assert (HK := HH k). rewrite Ck in HK. set (t0 := INR k * h) in *. assert (E1 : INR (S k) * h = t0 + h) by (rewrite S_INR; unfold t0; ring). rewrite E1 in *.
      destruct (held_rot (set_trig w tr) f qc F y t0 (t0 + h) (c (S k)) HS HZ SP DJ ltac:(lra) UC Uk HK) as (EW & z & EQ & P). cbv zeta in P.
      change (wc_sat (set_trig w tr)) with (wc_sat w) in P. change (wc_alpha (set_trig w tr)) with (wc_alpha w) in P. change (wc_gamma (set_trig w tr)) with (wc_gamma w) in P. change (wc_trig (set_trig w tr)) with tr in EW.
      destruct (trig_after (qw (error_quat (v_att (y t0)) qc)) tr Tk ltac:(lra)) as (Q1 & Q2 & _). set (tr' := trig_step _ tr) in *.
      assert (EW' : c (S k) = set_trig w tr') by (rewrite EW; reflexivity). rewrite EW' in P. change (tr_mem (wc_trig (set_trig w tr'))) with (tr_mem tr') in P.
      split; [exists tr'; split; [exact EW'|]; split; [exact Q1|lra]|].
      assert (I0 : t0 <= t0 <= t0 + h) by lra. assert (I1 : t0 <= t0 + h <= t0 + h) by lra.
      split; [rewrite (EQ _ I1); apply (P _ I1)|]. assert (NZ : forall t, t0 <= t <= t0 + h -> body_momentum (wc_sat w) (z t) = zero3).
      { intros t Ht. destruct (P t Ht) as (_ & _ & _ & _ & _ & N). rewrite <- (EQ _ I0), Nk in N. apply dot3_zero. rewrite <- P_quat.norm3_sq, N. ring. }
      split; [rewrite (EQ _ I1), (NZ _ I1), <- Nk, (EQ _ I0), (NZ _ I0); reflexivity|].
      set (a := sm_ex (wc_alpha w) (wc_gamma w) (tr_mem tr') (fun u => error_quat (v_att (z u)) qc) (fun u => v_rate (z u)) t0).
      assert (DA : forall t, t0 <= t <= t0 + h -> deriv3 (fun u => v_rate (z u)) t a).
      { intros t Ht. destruct (P t Ht) as (_ & _ & _ & X & _). eapply d3_eq; [exact X|]. unfold sm_a. fold a. unfold sm_G. rewrite (NZ _ I0), (NZ _ Ht).
        replace (sub3 (cross3 (v_rate (z t0)) zero3) (cross3 (v_rate (z t)) zero3)) with (zero3 (T:=R)) by (generalize (v_rate (z t0)) (v_rate (z t)); clear; intros [p q r] [l m n]; vunfoldg; rnumg; apply mk3_c; ring). rewrite mv_zero3. generalize a. clear. intros [p q r]. vunfoldg; rnumg; apply mk3_c; ring. }
      assert (ST : sub3 (sub3 (v_rate (z (t0 + h))) (scale3 (t0 + h) a)) (sub3 (v_rate (z t0)) (scale3 t0 a)) = zero3).
      { assert (K : norm3 (sub3 (sub3 (v_rate (z (t0 + h))) (scale3 (t0 + h) a)) (sub3 (v_rate (z t0)) (scale3 t0 a))) <= 0 * (t0 + h - t0)).
        { apply (vmvt (fun u => sub3 (v_rate (z u)) (scale3 u a)) (fun _ => zero3) t0 (t0 + h) 0); [lra| |].
          - intros t Ht. eapply d3_eq; [apply d3_sub; [apply DA, Ht|]|].
            + instantiate (1 := a). destruct a as [p q r']. split; [|split]; cbn [scale3 x3 y3 z3]; rnumg; (eapply d_eq; [apply d_mult; [apply d_id|apply d_const]|]; cbv beta; ring).
            + generalize a. clear. intros [p q r]. vunfoldg; rnumg; apply mk3_c; ring.
          - intros _ _. replace (norm3 (zero3 (T:=R))) with 0; [lra|]. unfold norm3; replace (dot3 (zero3 (T:=R)) zero3) with 0 by (vunfoldg; rnumg; ring). rnumg. symmetry. apply sqrt_0. }
        apply dot3_zero. rewrite <- P_quat.norm3_sq. match goal with |- ?n * ?n = 0 => assert (0 <= n) by apply norm3_pos; replace n with 0 by lra; ring end. }
      assert (OM : scale3 (wc_gamma w * h - 1) (v_rate (z t0)) = sub3 (opp3 (v_rate (z (t0 + h)))) (scale3 (tr_mem tr' * wc_alpha w * h) (vec (error_quat (v_att (z t0)) qc)))).
      { revert ST. unfold a, sm_ex. generalize (v_rate (z (t0 + h))) (v_rate (z t0)) (vec (error_quat (v_att (z t0)) qc)). clear. intros [p q r] [l m n] [d e f]. vunfoldg; rnumg. intros X. injection X as X1 X2 X3. apply mk3_c; lra. }
      assert (N1 := sub_norm (opp3 (v_rate (z (t0 + h)))) (scale3 (tr_mem tr' * wc_alpha w * h) (vec (error_quat (v_att (z t0)) qc)))). rewrite <- OM, P_vec2.norm3_opp, !norm3_scal, (Rabs_right (wc_gamma w * h - 1)) in N1 by lra.
      assert (SA : Rabs (tr_mem tr' * wc_alpha w * h) = wc_alpha w * h). { rewrite !Rabs_mult, (Rabs_right h), (Rabs_right (wc_alpha w)) by lra. replace (Rabs (tr_mem tr')) with 1; [ring|]. destruct Q1 as [Q|Q]; rewrite Q; [rewrite Rabs_right; lra|rewrite Rabs_left; lra]. }
      rewrite SA in N1. assert (V1 : norm3 (vec (error_quat (v_att (z t0)) qc)) <= 1). { apply P_exist3.norm3_le_sq; [lra|]. destruct (P _ I0) as (_ & UE & _). rewrite (unit_split _ UE). assert (0 <= qw (error_quat (v_att (z t0)) qc) ^ 2) by apply pow2_ge_0. lra. }
      rewrite <- (EQ _ I0), <- (EQ _ I1) in N1. rewrite <- (EQ _ I0) in V1. set (v1 := norm3 (vec _)) in *. set (n0 := norm3 (v_rate (y t0))) in *. set (n1 := norm3 (v_rate (y (t0 + h)))) in *.
      assert (0 <= wc_alpha w * h) by (apply Rmult_le_pos; lra). assert (wc_alpha w * h * v1 <= wc_alpha w * h * 1) by (apply Rmult_le_compat_l; assumption).
      assert (B2 : (wc_gamma w * h - 1) * (r + (wc_gamma w * h - 1) ^ k * (norm3 (v_rate (y 0)) - r)) <= (wc_gamma w * h - 1) * n0) by (apply Rmult_le_compat_l; lra).
      cbn [pow]. set (pk := (wc_gamma w * h - 1) ^ k) in *. set (d0 := norm3 (v_rate (y 0)) - r) in *. nra. }
  intros k. apply INV.
Qed.
Print Assumptions C107_long_period_refuted.

(** ** motions that meet the hypotheses: turns about one axis, for every period and every start *)
Definition ax_u (tr : Trigger R) (th p : R) : R := - tr_mem tr * (2 * 0.1 ^ 2) * sin (th / 2) - 2 * 0.707 * 0.1 * p.
Fixpoint ax_seq (h th0 p0 : R) (k : nat) : Trigger R * R * R :=
  match k with
  | O => (mkTr 1 0.3, th0, p0)
  | S k => let '(tr, th, p) := ax_seq h th0 p0 k in let tr' := trig_step (cos (th / 2)) tr in (tr', th + p * h + ax_u tr' th p * h ^ 2 / 2, p + ax_u tr' th p * h)
  end.
Definition ax_at (h th0 p0 : R) (k : nat) (t : R) : SVec :=
  let '(tr, th, p) := ax_seq h th0 p0 k in let u := ax_u (trig_step (cos (th / 2)) tr) th p in axis_state (th + p * (t - INR k * h) + u * (t - INR k * h) ^ 2 / 2) (p + u * (t - INR k * h)).
Definition ax_motion (h th0 p0 t : R) : SVec := ax_at h th0 p0 (Z.to_nat (up (t / h) - 1)) t.
Definition ax_ctl (h th0 p0 : R) (k : nat) : WhlCtl := set_trig axis_ctl (fst (fst (ax_seq h th0 p0 k))).
Lemma ax_index h k t : 0 < h -> INR k * h <= t < INR (S k) * h -> Z.to_nat (up (t / h) - 1) = k.
Proof.
  intros H [A B]. assert (U : up (t / h) = (Z.of_nat k + 1)%Z).
  { symmetry. apply tech_up; rewrite plus_IZR, <- INR_IZR_INZ.
    - apply (Rmult_lt_reg_r h); [exact H|]. replace (t / h * h) with t by (field; lra). rewrite S_INR in B. exact B.
    - apply Rplus_le_compat_r. apply (Rmult_le_reg_r h); [exact H|]. replace (t / h * h) with t by (field; lra). exact A. }
  rewrite U. replace (Z.of_nat k + 1 - 1)%Z with (Z.of_nat k) by lia. apply Nat2Z.id.
Qed.
Lemma ax_agree h th0 p0 k t : 0 < h -> INR k * h <= t <= INR (S k) * h -> ax_motion h th0 p0 t = ax_at h th0 p0 k t.
Proof.
  intros H [A [B|B]].
  - unfold ax_motion. rewrite (ax_index h k t H (conj A B)). reflexivity.
  - subst t. unfold ax_motion. rewrite (ax_index h (S k) (INR (S k) * h) H) by (rewrite (S_INR (S k)); lra). unfold ax_at. cbn [ax_seq]. destruct (ax_seq h th0 p0 k) as [[tr th] p]. cbv zeta.
    rewrite S_INR. f_equal; [|]; replace ((INR k + 1) * h - (INR k + 1) * h) with 0 by ring; replace ((INR k + 1) * h - INR k * h) with h by ring; field.
Qed.
Lemma ax_held h th0 p0 k : 0 < h -> held (ax_ctl h th0 p0 k) q1 (fun _ => zero3) (ax_motion h th0 p0) (INR k * h) (INR (S k) * h) (ax_ctl h th0 p0 (S k)).
Proof.
  intros H. assert (LE : INR k * h < INR (S k) * h) by (rewrite S_INR; lra).
  assert (Y0 : ax_motion h th0 p0 (INR k * h) = axis_state (snd (fst (ax_seq h th0 p0 k))) (snd (ax_seq h th0 p0 k))).
  { rewrite (ax_agree h th0 p0 k) by (try exact H; lra). unfold ax_at. destruct (ax_seq h th0 p0 k) as [[tr th] p]. cbv zeta. cbn [fst snd]. f_equal; replace (INR k * h - INR k * h) with 0 by ring; field. }
  assert (EC : ax_ctl h th0 p0 (S k) = set_trig axis_ctl (trig_step (cos (snd (fst (ax_seq h th0 p0 k)) / 2)) (fst (fst (ax_seq h th0 p0 k))))) by (unfold ax_ctl; cbn [ax_seq]; destruct (ax_seq h th0 p0 k) as [[tr th] p]; reflexivity).
  rewrite EC. assert (AG := fun t => ax_agree h th0 p0 k t H). unfold ax_at in AG. unfold ax_ctl. clear EC. destruct (ax_seq h th0 p0 k) as [[tr th] p]. cbn [fst snd] in *. set (tr' := trig_step (cos (th / 2)) tr) in *. set (u := ax_u tr' th p) in *. set (t0 := INR k * h) in *.
  exists (mk3 (4 * u) 0 0), [- (4 * u); 0; 0], (fun t => axis_state (th + p * (t - t0) + u * (t - t0) ^ 2 / 2) (p + u * (t - t0))), (t0 - 1), (INR (S k) * h + 1).
  split.
  { rewrite Y0. assert (T := tracking_free (set_trig axis_ctl tr) (axis_state th p) zero3 zero3 q1 (fun _ => ex) eq_refl (or_intror eq_refl) ltac:(cbn; lia)). cbv zeta in T. rewrite axis_error in T. cbn [qw] in T. change (wc_trig (set_trig axis_ctl tr)) with tr in T. fold tr' in T. rewrite T. f_equal. f_equal.
    change (wc_sat (set_trig axis_ctl tr)) with free_ball. change (wc_alpha (set_trig axis_ctl tr)) with (2 * 0.1 ^ 2). change (wc_gamma (set_trig axis_ctl tr)) with (2 * 0.707 * 0.1). rewrite free_ball_total, !sandwich_0, cross_0_r. unfold u, ax_u.
    unfold rw_momentum, w_momentum. cbn [free_ball s_rw rw_wheels zip_with axis_state v_whl v_rate sum3 fold_right w_par w_axis vec qx qy qz]. generalize (2 * 0.1 ^ 2) (2 * 0.707 * 0.1) (tr_mem tr'). intros b1 b2 b3. vunfoldg; cbn [x3 y3 z3 row1 row2 row3]; rnumg. apply mk3_c; ring. }
  split; [left; reflexivity|]. split; [exact (axis_accel (4 * u))|]. split; [lra|]. split; [lra|]. split; [exact AG|].
  intros t _. change (wc_sat (set_trig axis_ctl tr)) with free_ball. set (T := fun t => th + p * (t - t0) + u * (t - t0) ^ 2 / 2). set (P := fun t => p + u * (t - t0)).
  change (deriv_sv (fun t => axis_state (T t) (P t)) t (derivative free_ball (axis_state (T t) (P t)) zero3 zero3 (rw_torque (s_rw free_ball) [- (4 * u); 0; 0]) (rw_momentum (s_rw free_ball) (v_whl (axis_state (T t) (P t)))) [- (4 * u); 0; 0])).
  assert (DL : derivable_pt_lim (fun t => t - t0) t 1) by (eapply d_eq; [apply d_minus; [apply d_id|apply d_const]|]; ring).
  assert (DP : derivable_pt_lim P t u) by (unfold P; eapply d_eq; [apply d_plus; [apply d_const|apply d_scal, DL]|]; ring).
  assert (DT : derivable_pt_lim T t (P t)). { unfold T, P. eapply d_eq; [apply d_plus; [apply d_plus; [apply d_const|apply d_scal, DL]|unfold Rdiv; apply d_mult; [apply d_scal; cbn [pow]; apply d_mult; [exact DL|apply d_mult; [exact DL|apply d_const]]|apply d_const]]|]. cbv beta. field. }
  assert (H2 : derivable_pt_lim (fun u => T u / 2) t (P t / 2)) by (eapply d_eq; [unfold Rdiv; apply d_mult; [exact DT|apply d_const]|]; cbv beta; field).
  assert (DC : derivable_pt_lim (fun u => cos (T u / 2)) t (- sin (T t / 2) * (P t / 2))) by (apply (derivable_pt_lim_comp (fun u => T u / 2) cos); [exact H2|apply derivable_pt_lim_cos]).
  assert (DS : derivable_pt_lim (fun u => sin (T u / 2)) t (cos (T t / 2) * (P t / 2))) by (apply (derivable_pt_lim_comp (fun u => T u / 2) sin); [exact H2|apply derivable_pt_lim_sin]).
  unfold derivative. cbn [axis_state v_pos v_vel v_att v_rate v_whl]. split; [|split; [|split; [|split]]]; unfold axis_state; cbn [v_pos v_vel v_att v_rate v_whl].
  - exact (d3_const zero3 t).
  - eapply d3_eq; [exact (d3_const zero3 t)|]. vunfoldg; cbn [x3 y3 z3]; rnumg. apply mk3_c; unfold Rdiv; ring.
  - unfold derivq, product, scaleq. cbn [qw qx qy qz x3 y3 z3]. vunfoldg; cbn [x3 y3 z3 qw qx qy qz]; rnumg. replace 0.5 with (1 / 2) by lra.
    split; [|split; [|split]]; (eapply d_eq; [first [exact DC|exact DS|exact (d_const 0 t)]|]); field.
  - eapply (d3_eq _ _ (mk3 u 0 0)); [split; [exact DP|split; exact (d_const 0 t)]|].
    change (s_inv_tot free_ball) with (inv3 (s_total_moment free_ball)). rewrite free_ball_total. unfold rw_torque, rw_momentum, w_momentum, w_torque.
    cbn [free_ball s_rw rw_wheels zip_with sum3 fold_right w_par w_axis]. clearbody u. vunfoldg; cbn [x3 y3 z3 row1 row2 row3]; rnumg. apply mk3_c; field.
  - intros i. destruct i as [|[|[|i]]]; cbn [nth].
    + eapply d_eq; [apply d_scal; exact DP|]. ring.
    + exact (d_const 0 t).
    + exact (d_const 0 t).
    + destruct i; exact (d_const 0 t).
Qed.
Lemma ax_start h th0 p0 : 0 < h -> ax_motion h th0 p0 0 = axis_state th0 p0.
Proof. intros H. rewrite (ax_agree h th0 p0 0) by (try exact H; cbn; lra). unfold ax_at. cbn [ax_seq INR]. f_equal; replace (0 - 0 * h) with 0 by ring; field. Qed.
Lemma ax_unit th p : unitq (v_att (axis_state th p)).
Proof. unfold axis_state. cbn [v_att]. unfold unitq, dotq; cbn [qw qx qy qz]; rnumg. assert (H := sin2_cos2 (th / 2)). unfold Rsqr in H. lra. Qed.
Lemma ax_still th p : body_momentum free_ball (axis_state th p) = zero3.
Proof. unfold body_momentum. rewrite free_ball_total. unfold rw_momentum, w_momentum. cbn [free_ball s_rw rw_wheels zip_with axis_state v_whl v_rate sum3 fold_right w_par w_axis]. vunfoldg; cbn [x3 y3 z3 row1 row2 row3]; rnumg. apply mk3_c; ring. Qed.
Lemma ax_off th p : off_target 1 q1 (axis_state th p) = 2 * (1 - cos (th / 2)).
Proof. rewrite off_eq; [|ring|apply ax_unit|unfold unitq, q1; vunfoldg; cbn [qw qx qy qz]; rnumg; ring]. rewrite axis_error. cbn [qw]. ring. Qed.
(** a slew of two radians from rest, with any period *)
Example C107_ex : exists w0, whl_new free_ball [] (Some (fun _ => ex)) 0.707 0.1 = Ok w0 /\ set_trig w0 (mkTr 1 0.3) = axis_ctl /\ spanning (s_rw free_ball) /\ det3 (s_total_moment free_ball) <> 0 /\
  (forall v, norm3 (mv (s_inv_tot free_ball) v) <= / 4 * norm3 v) /\
  forall h, 0 < h -> exists y c, unitq (q1 : quat) /\ unitq (v_att (y 0)) /\ v_rate (y 0) = zero3 /\ y 0 = axis_state 2 0 /\ off_target 1 q1 (y 0) <> 0 /\ norm3 (body_momentum free_ball (y 0)) <= 0 /\ c 0%nat = axis_ctl /\
    2 * 0.1 ^ 2 * off_target 1 q1 (y 0) + rate2 (y 0) / 2 <= 0.02 /\ 0.02 < 2 * (2 * 0.1 ^ 2) * (1 + 0.3) /\ forall k, held (c k) q1 (fun _ => zero3) y (INR k * h) (INR (S k) * h) (c (S k)).
Proof.
  exists axis_ctl. split. { unfold whl_new, axis_ctl. cbn [forallb map]. f_equal. f_equal. rewrite trig_new_eq. destruct (Rlt_dec 1 0); [lra|reflexivity]. }
  split; [reflexivity|]. split; [exact free_ball_spanning|]. split; [exact ball_det|]. split.
  { intros v. change (s_inv_tot free_ball) with (inv3 (s_total_moment free_ball)). rewrite free_ball_total. replace (mv (inv3 (scalem 4 id3)) v) with (scale3 (/ 4) v) by (destruct v as [a b c]; vunfoldg; cbn [x3 y3 z3 row1 row2 row3]; rnumg; apply mk3_c; field).
    rewrite norm3_scal, Rabs_right by lra. apply Rle_refl. }
  intros h H. exists (ax_motion h 2 0), (ax_ctl h 2 0). rewrite (ax_start h 2 0 H). split; [unfold unitq, q1; vunfoldg; cbn [qw qx qy qz]; rnumg; ring|]. split; [apply ax_unit|]. split; [reflexivity|]. split; [reflexivity|].
  rewrite ax_off, ax_still. replace (2 / 2) with 1 by lra. assert (C1 : 1 / 2 < cos 1). { rewrite <- cos_PI3. apply cos_decreasing_1; assert (P1 := PI2_3_2); assert (P2 := PI_4); lra. }
  assert (C2 : cos 1 < cos 0) by (apply cos_decreasing_1; assert (P1 := PI2_3_2); lra). rewrite cos_0 in C2.
  split; [lra|]. split. { replace (norm3 (zero3 (T:=R))) with 0; [lra|]. unfold norm3; replace (dot3 (zero3 (T:=R)) zero3) with 0 by (vunfoldg; rnumg; ring). rnumg. symmetry. apply sqrt_0. }
  split; [reflexivity|]. split. { replace (rate2 (axis_state 2 0)) with 0 by (unfold rate2, axis_state; vunfoldg; cbn [v_rate x3 y3 z3]; rnumg; ring). nra. } split; [lra|]. intros k. apply ax_held, H.
Qed.
(** a turn at one radian per second with a period of twenty seconds *)
Example C107_ex2 : exists y c h, 0 <= wc_alpha axis_ctl /\ 0 < h /\ 2 < wc_gamma axis_ctl * h /\ body_momentum (wc_sat axis_ctl) (y 0) = zero3 /\ unitq (v_att (y 0)) /\ c 0%nat = axis_ctl /\
  wc_alpha axis_ctl * h / (wc_gamma axis_ctl * h - 2) < norm3 (v_rate (y 0)) /\ forall k, held (c k) q1 (fun _ => zero3) y (INR k * h) (INR (S k) * h) (c (S k)).
Proof.
  exists (ax_motion 20 0 1), (ax_ctl 20 0 1), 20. rewrite (ax_start 20 0 1) by lra. cbn [axis_ctl wc_alpha wc_gamma wc_sat]. split; [lra|]. split; [lra|]. split; [lra|]. split; [apply ax_still|]. split; [apply ax_unit|]. split; [reflexivity|].
  split; [|intros k; apply ax_held; lra]. replace (norm3 (v_rate (axis_state 0 1))) with 1. 2:{ unfold norm3, axis_state. cbn [v_rate]. replace (dot3 (mk3 1 0 0) (mk3 1 0 0)) with 1 by (vunfoldg; rnumg; ring). rnumg. symmetry. apply sqrt_1. }
  apply (Rmult_lt_reg_r (2 * 0.707 * 0.1 * 20 - 2)); [lra|]. replace (2 * 0.1 ^ 2 * 20 / (2 * 0.707 * 0.1 * 20 - 2) * (2 * 0.707 * 0.1 * 20 - 2)) with (2 * 0.1 ^ 2 * 20); [lra|]. symmetry. unfold Rdiv. rewrite Rmult_assoc, Rinv_l; lra.
Qed.
