(** * C132: POINT mode with the command held between calls and computed from an estimated state, and the whole daemon *)
From Coq Require Import Reals ZArith List Bool Lra Lia Psatz.
From Coquelicot Require Import Coquelicot.
From Verif Require Import Num Vec Mat6 M_vector M_quaternion M_frame M_jday M_struct M_dyn M_integ M_obs M_ctrl M_fsm M_mgr S_rot S_dyn S_ctrl.
From Verif Require Import P_quat P_vec2 P_struct P_wheel P_dyn P_dyn2 P_obs P_obs3 P_ctrl P_ctrl2 P_ctrl3 P_ctrl4 P_ctrl5 P_conv P_ode P_tot3 P_orb3 P_posf P_detum P_samp P_samp2 Props_struct Props_ctrl2 Props_conv Props_samp Props_dist P_stare Props_stare P_hstare Props_hstare Props_mgr Props_half Props_asleep Props_parkd.
Import ListNotations.
Local Open Scope R_scope.

(** the state x told to the controller is within d of the state v: where the target is seen in body axes, the rate and the momentum, and its attitude is a unit quaternion *)
Definition told_near (d : R) (sat : Satellite) (tgt : v3) (x v : SVec) : Prop :=
  unitq (v_att x) /\ v_pos x <> tgt /\ sight_rate tgt x <= d /\ norm3 (sub3 (seen tgt x) (seen tgt v)) <= d /\ norm3 (sub3 (v_rate x) (v_rate v)) <= d /\ norm3 (sub3 (body_momentum sat x) (body_momentum sat v)) <= d.
(** the controller in state w is called in POINT mode at time t0 with the state x; it ends in state w', and the satellite moves by the code's equations under
    that one command until t1, with the external force F and torque T *)
Definition held_told (w : WhlCtl) (b tgt : v3) (F T : R -> v3) (x : SVec) (y : R -> SVec) (t0 t1 : R) (w' : WhlCtl) : Prop :=
  exists u acc z a c, tracking w x (sandwich (v_att x) (stare_rate_intl (v_pos x) (v_vel x) tgt)) zero3 (stare_attitude (v_pos x) (v_att x) b tgt) = Ok (w', u) /\
    unsaturated (s_rw (wc_sat w)) (opp3 u) /\ point_and_stare w (mkCS x zero3) b tgt = Ok (w', acc) /\
    a < t0 /\ t1 < c /\ (forall t, t0 <= t <= t1 -> y t = z t) /\
    forall t, a < t < c -> deriv_sv z t (derivative (wc_sat w) (z t) (F t) (T t) (rw_torque (s_rw (wc_sat w)) acc) (rw_momentum (s_rw (wc_sat w)) (v_whl (z t))) acc).

Lemma held_told_rot w f b tgt F T x y t0 t1 w' : wc_sun w = Some f -> zone_free w -> spanning (s_rw (wc_sat w)) -> det3 (s_total_moment (wc_sat w)) <> 0 -> t0 < t1 -> unitq (v_att (y t0)) -> unitq (v_att x) ->
  held_told w b tgt F T x y t0 t1 w' ->
  let e := conjugate (acquire_target (v_pos x) (v_att x) b tgt) in
  w' = set_trig w (trig_step (qw e) (wc_trig w)) /\
  exists z : R -> SVec, (forall t, t0 <= t <= t1 -> y t = z t) /\ forall t, t0 <= t <= t1 ->
    let om := fun u => v_rate (z u) in let H := fun u => body_momentum (wc_sat w) (z u) in
    unitq (v_att (z t)) /\ derivq (fun u => v_att (z u)) t (scaleq 0.5 (product (v_att (z t)) (pure (v_rate (z t))))) /\ deriv3 (fun u => v_pos (z u)) t (v_vel (z t)) /\
    deriv3 om t (add3 (mv (s_inv_tot (wc_sat w)) (T t)) (add3 (asks (wc_alpha w) (wc_gamma w) (tr_mem (wc_trig w')) e (v_rate x) (told b tgt x)) (mv (s_inv_tot (wc_sat w)) (sub3 (cross3 (v_rate x) (body_momentum (wc_sat w) x)) (cross3 (om t) (H t)))))) /\
    deriv3 H t (sub3 (T t) (cross3 (om t) (H t))).
Proof.
  intros HS HZ SP DJ T01 U0 UX (u & acc & z & a & c & TR & US & PS & A0 & B0 & EQ & D) e.
  unfold point_and_stare in PS. cbn [cs_v] in PS. rewrite TR in PS. cbn [rbind] in PS. destruct (whl_actuator_commands w' u) as [acc'|] eqn:WA; cbn [rbind] in PS; [|discriminate]. assert (acc' = acc) by congruence. subst acc'. clear PS.
  assert (HL := tracking_len _ _ _ _ _ _ TR). rewrite (tracking_free w x _ _ _ f HS HZ HL) in TR. cbv zeta in TR. rewrite stare_error in TR by exact UX. fold e in TR. fold (told b tgt x) in TR.
  change (sandwich e (sandwich (v_att x) (stare_rate_intl (v_pos x) (v_vel x) tgt))) with (told b tgt x) in TR. rewrite sandwich_0 in TR.
  set (w1 := set_trig w _) in TR. assert (EW : w' = w1) by congruence. assert (EU := f_equal (fun r => match r with Ok (_, x) => x | Raise _ => zero3 end) TR). cbv beta iota in EU. split; [exact EW|].
  assert (TA : rw_torque (s_rw (wc_sat w)) acc = opp3 u). { destruct (unsat_torque _ _ SP US) as (a' & EA & _ & TA). subst w'. unfold whl_actuator_commands in WA. change (wc_sat w1) with (wc_sat w) in WA. rewrite EA in WA. injection WA as <-. exact TA. }
  assert (Z0 : y t0 = z t0) by (apply EQ; lra). exists z. split; [exact EQ|].
  set (J := s_total_moment (wc_sat w)) in *. set (om := fun u => v_rate (z u)). set (H := fun u => body_momentum (wc_sat w) (z u)).
  assert (DQ : forall t, a < t < c -> derivq (fun u => v_att (z u)) t (scaleq 0.5 (product (v_att (z t)) (pure (om t))))) by (intros t Ht; destruct (D t Ht) as (_ & _ & X & _); exact X).
  assert (UN : forall t, a < t < c -> unitq (v_att (z t))).
  { intros t Ht. unfold unitq. rewrite <- U0, Z0. apply (const_of_deriv (fun u => dotq (v_att (z u)) (v_att (z u))) a c); [|lra|lra].
    intros v Hv. eapply d_eq; [apply d_dotq; exact (DQ v Hv)|]. cbv beta. generalize (v_att (z v)) (om v). clear. intros [p q r s] [x y z]. unfold pure, product. replace 0.5 with (1/2) by lra. vunfoldg; cbn [x3 y3 z3 qw qx qy qz]; rnumg. field. }
  assert (DO : forall t, a < t < c -> deriv3 om t (mv (inv3 J) (add3 (T t) (sub3 u (cross3 (om t) (H t)))))).
  { intros t Ht. destruct (D t Ht) as (_ & _ & _ & X & _). eapply d3_eq; [exact X|]. cbn [derivative v_rate]. rewrite TA. change (s_inv_tot (wc_sat w)) with (inv3 J). f_equal. unfold om, H, body_momentum. fold J.
    generalize (mv J (v_rate (z t))) (rw_momentum (s_rw (wc_sat w)) (v_whl (z t))) (v_rate (z t)) (T t). clear. intros [p q r] [l m n] [d e f] [s1 s2 s3]. destruct u as [g h i]. vunfoldg; rnumg. apply mk3_c; ring. }
  assert (DH : forall t, a < t < c -> deriv3 H t (sub3 (T t) (cross3 (om t) (H t)))).
  { intros t Ht. unfold H at 1, body_momentum. destruct (D t Ht) as (_ & _ & _ & _ & X). eapply d3_eq; [apply d3_add; [apply d3_mv, DO, Ht|apply d3_momentum; exact X]|]. cbn [derivative v_whl]. rewrite TA. fold J. rewrite mv_inv3 by exact DJ.
    generalize (cross3 (om t) (H t)) (T t). clear. intros [p q r] [s1 s2 s3]. destruct u as [g h i]. vunfoldg; rnumg. apply mk3_c; ring. }
  intros t Ht. assert (IT : a < t < c) by lra. cbv zeta. split; [apply UN, IT|]. split; [apply DQ, IT|]. split; [destruct (D t IT) as (X & _); exact X|]. split; [|apply DH, IT].
  eapply d3_eq; [apply DO, IT|]. rewrite <- EU. change (s_inv_tot (wc_sat w)) with (inv3 J).
  change (add3 (mv J (v_rate x)) (rw_momentum (s_rw (wc_sat w)) (v_whl x))) with (body_momentum (wc_sat w) x).
  replace (tr_mem (trig_step (qw e) (wc_trig w))) with (tr_mem (wc_trig w')) by (rewrite EW; reflexivity).
  set (c0 := asks _ _ _ _ _ _). replace (sub3 (sub3 (scale3 (- tr_mem (wc_trig w') * wc_alpha w) (vec e)) (scale3 (wc_gamma w) (sub3 (v_rate x) (told b tgt x)))) (add3 (cross3 (v_rate x) (told b tgt x)) zero3)) with c0.
  - rewrite <- (inv3_mv J c0 DJ) at 2. rewrite <- !mv_add3. f_equal. generalize (mv J c0) (cross3 (v_rate x) (body_momentum (wc_sat w) x)) (cross3 (om t) (H t)) (T t). clear. intros [p q r] [l m n] [d e f] [s1 s2 s3]. vunfoldg; rnumg. apply mk3_c; ring.
  - unfold c0, asks. generalize (scale3 (- tr_mem (wc_trig w') * wc_alpha w) (vec e)) (scale3 (wc_gamma w) (sub3 (v_rate x) (told b tgt x))) (cross3 (v_rate x) (told b tgt x)). clear. intros [p q r] [l m n] [d e f]. unfold zero3. vunfoldg; cbn [x3 y3 z3]; rnumg. apply mk3_c; ring.
Qed.

(** the axis of the error moves with the sight of the target *)
Lemma haxis_lip (b D D' : v3) kap : unit3 b -> unit3 D -> unit3 D' -> 0 < kap <= 1 -> kap <= hcos b D -> kap <= hcos b D' -> norm3 (sub3 (haxis b D') (haxis b D)) <= / kap * / kap * norm3 (sub3 D' D).
Proof.
  intros UB UD UD' (K0 & K1) P P'. destruct (hcos_facts b D UB UD) as (_ & S). destruct (hcos_facts b D' UB UD') as (_ & S'). destruct (haxis_sq b D UB UD ltac:(lra)) as (HX & CX). set (h := hcos b D) in *. set (h' := hcos b D') in *. set (X := haxis b D) in *.
  set (n := norm3 (sub3 D' D)). assert (N0 : 0 <= n) by apply norm3_pos. assert (NX : norm3 X <= 1) by (unfold norm3; rewrite HX; change (nsqrt (T:=R)) with sqrt; apply (Rle_trans _ (sqrt 1)); [apply sqrt_le_1_alt; nra|rewrite sqrt_1; lra]). assert (NX0 := norm3_pos X).
  assert (NB : norm3 b = 1) by (unfold norm3; rewrite UB; apply sqrt_1).
  assert (BD : Rabs (dot3 b (sub3 D' D)) <= n) by (eapply Rle_trans; [apply dot_norm|rewrite NB; unfold n; lra]).
  assert (HD : (h' - h) * (h' + h) = dot3 b (sub3 D' D) / 2). { replace ((h' - h) * (h' + h)) with (h' * h' - h * h) by ring. rewrite S, S'. generalize b D D'. clear. intros [b1 b2 b3] [d1 d2 d3] [e1 e2 e3]. vunfoldg; cbn [x3 y3 z3]; rnumg. field. }
  apply rabs_b in BD. set (ik := / kap). assert (IK : ik * kap = 1) by (unfold ik; field; lra). assert (IK0 : 1 <= ik) by (unfold ik; rewrite <- Rinv_1; apply Rinv_le_contravar; lra).
  assert (HH : Rabs (h' - h) <= ik * n / 4).
  { apply Rabs_le. assert (Q : 0 <= ik * n) by (apply Rmult_le_pos; lra). assert (KN : kap * (ik * n) = n) by (rewrite <- Rmult_assoc, (Rmult_comm kap), IK; ring). split.
    - apply Rnot_lt_le. intros C. assert ((h - h') * (2 * kap) <= (h - h') * (h' + h)) by (apply Rmult_le_compat_l; lra). assert (ik * n / 4 * (2 * kap) < (h - h') * (2 * kap)) by (apply Rmult_lt_compat_r; lra). lra.
    - apply Rnot_lt_le. intros C. assert ((h' - h) * (2 * kap) <= (h' - h) * (h' + h)) by (apply Rmult_le_compat_l; lra). assert (ik * n / 4 * (2 * kap) < (h' - h) * (2 * kap)) by (apply Rmult_lt_compat_r; lra). lra. }
  assert (IH : 0 < / h' <= ik) by (split; [apply Rinv_0_lt_compat; lra|apply Rinv_le_contravar; lra]).
  assert (EX : sub3 (haxis b D') X = add3 (scale3 (/ h' / 2) (cross3 b (sub3 D' D))) (scale3 (/ h' * (h - h')) X)).
  { assert (C2 : cross3 b D' = add3 (cross3 b (sub3 D' D)) (scale3 (2 * h) X)) by (rewrite <- CX; generalize b D D'; clear; intros [b1 b2 b3] [d1 d2 d3] [e1 e2 e3]; vunfoldg; cbn [x3 y3 z3]; rnumg; apply mk3_c; ring).
    unfold haxis. fold h'. rewrite C2. assert (NZ : h' <> 0) by lra. revert NZ. generalize (cross3 b (sub3 D' D)) X h h'. clear. intros [a1 a2 a3] [c1 c2 c3] k l NZ. vunfoldg; cbn [x3 y3 z3]; rnumg. apply mk3_c; field; exact NZ. }
  rewrite EX. eapply Rle_trans; [apply norm3_triangle|]. rewrite !norm3_scal.
  assert (Q1 : Rabs (/ h' / 2) * norm3 (cross3 b (sub3 D' D)) <= ik / 2 * n). { rewrite Rabs_pos_eq by lra. apply Rmult_le_compat; [lra|apply norm3_pos|lra|]. eapply Rle_trans; [apply cross_norm|rewrite NB; unfold n; lra]. }
  assert (Q2 : Rabs (/ h' * (h - h')) * norm3 X <= ik * (ik * n / 4)). { rewrite Rabs_mult, (Rabs_pos_eq (/ h')) by lra. replace (Rabs (h - h')) with (Rabs (h' - h)) by (rewrite <- Rabs_Ropp; f_equal; ring). assert (Z := Rabs_pos (h' - h)).
    assert (/ h' * Rabs (h' - h) <= ik * (ik * n / 4)) by (apply Rmult_le_compat; lra). assert (0 <= / h' * Rabs (h' - h)) by (apply Rmult_le_pos; lra). apply (Rle_trans _ (/ h' * Rabs (h' - h) * 1)); [apply Rmult_le_compat_l; lra|lra]. }
  assert (Q3 : ik * n <= ik * ik * n) by (apply Rmult_le_compat_r; [exact N0|]; rewrite <- (Rmult_1_r ik) at 1; apply Rmult_le_compat_l; lra). assert (Q4 : 0 <= ik * n) by (apply Rmult_le_pos; lra). lra.
Qed.
(** the command computed from x differs from that computed from v by no more than a multiple of d *)
Lemma ask_near al ga m N Rb kap d Ji (b D D' v v' H H' r : v3) : 0 <= al -> 0 <= ga -> 0 <= m -> 0 <= N -> 0 <= d <= 1 -> unit3 b -> unit3 D -> unit3 D' -> 0 < kap <= 1 -> kap <= hcos b D -> kap <= hcos b D' ->
  (forall u, norm3 (mv Ji u) <= m * norm3 u) -> norm3 (sub3 D' D) <= d -> norm3 (sub3 v' v) <= d -> norm3 (sub3 H' H) <= d -> norm3 r <= 1 -> norm3 v <= Rb -> norm3 H <= N ->
  norm3 (add3 (sub3 (sub3 (sub3 (scale3 al (haxis b D')) (scale3 ga (sub3 v' r))) (cross3 v' r)) (sub3 (sub3 (scale3 al (haxis b D)) (scale3 ga (sub3 v r))) (cross3 v r))) (mv Ji (sub3 (cross3 v' H') (cross3 v H)))) <= (al * (/ kap * / kap) + ga + 1 + m * (N + 1 + Rb)) * d.
Proof.
  intros A G M N0 Hd UB UD UD' KP P P' NJ ND NV NH NR NW NN.
  replace (sub3 (sub3 (sub3 (scale3 al (haxis b D')) (scale3 ga (sub3 v' r))) (cross3 v' r)) (sub3 (sub3 (scale3 al (haxis b D)) (scale3 ga (sub3 v r))) (cross3 v r))) with (sub3 (sub3 (scale3 al (sub3 (haxis b D') (haxis b D))) (scale3 ga (sub3 v' v))) (cross3 (sub3 v' v) r)).
  2:{ generalize (haxis b D') (haxis b D). clear. intros [a1 a2 a3] [c1 c2 c3]. destruct v' as [p1 p2 p3], v as [q1' q2' q3'], r as [s1 s2 s3]. vunfoldg; cbn [x3 y3 z3]; rnumg. apply mk3_c; ring. }
  replace (sub3 (cross3 v' H') (cross3 v H)) with (add3 (cross3 (sub3 v' v) H') (cross3 v (sub3 H' H))) by (clear; destruct v' as [p1 p2 p3], v as [q1' q2' q3'], H' as [s1 s2 s3], H as [t1 t2 t3]; vunfoldg; cbn [x3 y3 z3]; rnumg; apply mk3_c; ring).
  assert (HX := haxis_lip b D D' kap UB UD UD' KP P P'). set (ik := / kap * / kap) in *. assert (IK : 0 < ik) by (unfold ik; assert (0 < / kap) by (apply Rinv_0_lt_compat; lra); apply Rmult_lt_0_compat; assumption).
  assert (HX2 : norm3 (sub3 (haxis b D') (haxis b D)) <= ik * d) by (eapply Rle_trans; [exact HX|]; apply Rmult_le_compat_l; lra).
  assert (NH' : norm3 H' <= N + 1). { replace H' with (add3 H (sub3 H' H)) by (clear; destruct H' as [s1 s2 s3], H as [t1 t2 t3]; vunfoldg; cbn [x3 y3 z3]; rnumg; apply mk3_c; ring). eapply Rle_trans; [apply norm3_triangle|lra]. }
  assert (Z1 : norm3 (scale3 al (sub3 (haxis b D') (haxis b D))) <= al * (ik * d)) by (rewrite norm3_scal, Rabs_pos_eq by lra; apply Rmult_le_compat_l; lra).
  assert (Z2 : norm3 (scale3 ga (sub3 v' v)) <= ga * d) by (rewrite norm3_scal, Rabs_pos_eq by lra; apply Rmult_le_compat_l; lra).
  assert (Z3 : norm3 (cross3 (sub3 v' v) r) <= d * 1) by (eapply Rle_trans; [apply cross_norm|]; apply Rmult_le_compat; try apply norm3_pos; lra).
  assert (Z4 : norm3 (cross3 (sub3 v' v) H') <= d * (N + 1)) by (eapply Rle_trans; [apply cross_norm|]; apply Rmult_le_compat; try apply norm3_pos; lra).
  assert (Z5 : norm3 (cross3 v (sub3 H' H)) <= Rb * d) by (eapply Rle_trans; [apply cross_norm|]; apply Rmult_le_compat; try apply norm3_pos; lra).
  assert (Z6 : norm3 (mv Ji (add3 (cross3 (sub3 v' v) H') (cross3 v (sub3 H' H)))) <= m * (d * (N + 1) + Rb * d)) by (eapply Rle_trans; [apply NJ|]; apply Rmult_le_compat_l; [exact M|]; eapply Rle_trans; [apply norm3_triangle|lra]).
  eapply Rle_trans; [apply norm3_triangle|]. assert (Z7 := sub_norm (sub3 (scale3 al (sub3 (haxis b D') (haxis b D))) (scale3 ga (sub3 v' v))) (cross3 (sub3 v' v) r)). assert (Z8 := sub_norm (scale3 al (sub3 (haxis b D') (haxis b D))) (scale3 ga (sub3 v' v))).
  replace ((al * ik + ga + 1 + m * (N + 1 + Rb)) * d) with (al * (ik * d) + ga * d + d * 1 + m * (d * (N + 1) + Rb * d)) by ring. lra.
Qed.

(** for every choice of gains and every bound on the energy below that of the antipode, on the inverse inertia and on the momentum, there are a longest period, a largest error
    and a rate such that with any shorter period and states told within any smaller error d of the truth the boresight is carried to the target within a multiple of d^2 *)
Theorem C132_points : forall al ga E m N, 0 < al -> 0 < ga -> 0 <= E < 2 * al -> 0 <= m -> 0 <= N -> exists lam h0 d0 K, 0 < lam /\ 0 < h0 /\ 0 < d0 /\ 0 < K /\
  forall w f b tgt F T x y c h d, wc_alpha w = al -> wc_gamma w = ga -> tr_mem (wc_trig w) = 1 -> 0 < tr_hw (wc_trig w) ->
  wc_sun w = Some f -> zone_free w -> spanning (s_rw (wc_sat w)) -> det3 (s_total_moment (wc_sat w)) <> 0 -> (forall v, norm3 (mv (s_inv_tot (wc_sat w)) v) <= m * norm3 v) ->
  unit3 b -> unitq (v_att (y 0)) -> (forall k, told_near d (wc_sat w) tgt (x k) (y (INR k * h))) -> 0 < h <= h0 -> 0 <= d <= d0 -> c 0%nat = w -> (forall k, held_told (c k) b tgt F T (x k) y (INR k * h) (INR (S k) * h) (c (S k))) ->
  (forall t, 0 <= t -> v_pos (y t) <> tgt /\ sight_rate tgt (y t) <= d /\ norm3 (T t) <= d /\ norm3 (body_momentum (wc_sat w) (y t)) <= N) ->
  2 * al * (1 - sqrt ((1 + aim b tgt (y 0)) / 2)) + rate2 (y 0) / 2 <= E ->
  (forall k, c k = w) /\
  forall t, 0 <= t -> al * (1 - aim b tgt (y t)) + rate2 (y t) <= 6 * (al * (1 - aim b tgt (y 0)) + rate2 (y 0)) * exp (- lam * t) + K * d ^ 2.
Proof.
  intros al ga E m N A G HE M0 N0. set (B := (E + 2 * al) / 2). assert (B0 : 0 < B) by (unfold B; lra). assert (BE : E < B < 2 * al) by (unfold B; lra). set (kap := (1 - B / (2 * al)) / 2).
  assert (KP : 0 < kap <= 1). { unfold kap. assert (B / (2 * al) < 1) by (apply (Rmult_lt_reg_r (2 * al)); [lra|]; replace (B / (2 * al) * (2 * al)) with B by (field; lra); lra). assert (0 < B / (2 * al)) by (apply Rdiv_lt_0_compat; lra). lra. }
  set (kq := / (2 * al) + 1). assert (KQ : 0 < kq) by (unfold kq; assert (0 < / (2 * al)) by (apply Rinv_0_lt_compat; lra); lra). set (kk := / kap). assert (KK : 0 < kk) by (apply Rinv_0_lt_compat; lra).
  assert (TH0 : 0 < Rmin (1 / 2) ((B - E) / (4 * B))) by (apply Rmin_pos; [lra|apply Rdiv_lt_0_compat; lra]).
  set (e := Rmin (Rmin (ga / 4 * kap) (al / (4 * ga))) (Rmin (1 / 2) ((B - E) / (4 * B)) / kq)).
  assert (E0 : 0 < e). { apply Rmin_pos; [apply Rmin_pos; [apply Rmult_lt_0_compat; lra|apply Rdiv_lt_0_compat; lra]|apply Rdiv_lt_0_compat; assumption]. }
  assert (E1 : e * kk <= ga / 4). { apply (Rle_trans _ (ga / 4 * kap * kk)); [apply Rmult_le_compat_r; [lra|]; eapply Rle_trans; [apply Rmin_l|apply Rmin_l]|]. right. unfold kk. field. lra. }
  assert (E2 : e * ga <= al / 4). { apply (Rle_trans _ (al / (4 * ga) * ga)); [apply Rmult_le_compat_r; [lra|]; eapply Rle_trans; [apply Rmin_l|apply Rmin_r]|]. right. field. lra. }
  assert (TH : e * kq <= Rmin (1 / 2) ((B - E) / (4 * B))). { apply (Rle_trans _ (Rmin (1 / 2) ((B - E) / (4 * B)) / kq * kq)); [apply Rmult_le_compat_r; [lra|apply Rmin_r]|]. right. field. lra. }
  assert (TH1 := Rle_trans _ _ _ TH (Rmin_l _ _)). assert (TH2 := Rle_trans _ _ _ TH (Rmin_r _ _)). set (th := e * kq) in *. assert (TP : 0 < th) by (apply Rmult_lt_0_compat; assumption).
  assert (TB : E * (1 + 4 * th) < B).
  { assert (T3 : 4 * th <= (B - E) / B) by (replace ((B - E) / B) with (4 * ((B - E) / (4 * B))) by (field; lra); lra). apply (Rle_lt_trans _ (E * (1 + (B - E) / B))); [apply Rmult_le_compat_l; lra|].
    apply (Rmult_lt_reg_r B); [exact B0|]. replace (E * (1 + (B - E) / B) * B) with (E * (2 * B - E)) by (field; lra). assert (0 < (B - E) * (B - E)) by (apply Rmult_lt_0_compat; lra). lra. }
  set (l := Rmin (ga / 6) (e / 12)). assert (L0 : 0 < l) by (apply Rmin_pos; lra). assert (L1 : l <= ga / 6) by apply Rmin_l. assert (L2 : l <= e / 12) by apply Rmin_r.
  set (M := sp_M al ga e kk). assert (MP : 0 < M).
  { unfold M, sp_M. assert (0 < e * kk) by (apply Rmult_lt_0_compat; assumption). assert (0 < e * ga) by (apply Rmult_lt_0_compat; assumption). assert (0 < sp_P al ga e) by (unfold sp_P; lra). assert (0 < sp_Q ga e kk) by (unfold sp_Q; lra). apply Rplus_lt_0_compat; apply Rdiv_lt_0_compat; try assumption; apply Rmult_lt_0_compat; assumption. }
  set (M2 := 2 * M + ga / 8). assert (M2P : 0 < M2) by (unfold M2; lra).
  set (g0 := Rmin 1 (l * B / (4 * M2))). assert (Gp : 0 < g0) by (apply Rmin_pos; [lra|apply Rdiv_lt_0_compat; [apply Rmult_lt_0_compat; assumption|lra]]).
  set (Rb := sqrt (2 * B) + 2). assert (RbP : 2 <= Rb) by (unfold Rb; assert (Z := sqrt_pos (2 * B)); lra).
  assert (MN : 0 <= m * N) by (apply Rmult_le_pos; assumption). set (C2 := hs_C2 al ga m N). assert (C2P : 2 < C2) by (unfold C2, hs_C2; lra).
  set (C3 := hs_C3 al ga m N kap Rb). assert (C3P : 0 < C3).
  { unfold C3, hs_C3. fold C2 kk. assert (0 < al * kk) by (apply Rmult_lt_0_compat; assumption). assert (0 < ga * C2) by (apply Rmult_lt_0_compat; lra). assert (0 <= m * (C2 * N + Rb * (3 * N + 1))); [|lra]. apply Rmult_le_pos; [exact M0|]. assert (0 <= C2 * N) by (apply Rmult_le_pos; lra). assert (0 <= Rb * (3 * N + 1)) by (apply Rmult_le_pos; lra). lra. }
  assert (EA0 : 0 < e * al) by (apply Rmult_lt_0_compat; assumption).
  set (s0 := Rmin 1 (Rmin (ga / 8) (e * al / 4) / (24 * M))). assert (S0 : 0 < s0) by (apply Rmin_pos; [lra|apply Rdiv_lt_0_compat; [apply Rmin_pos; lra|lra]]).
  set (h0 := Rmin (/ (2 * (C2 + 4 * kk))) (Rmin (3 * (kap * kap) / (2 * Rb)) (s0 / C3))). assert (KK2 : 0 < kap * kap) by (apply Rmult_lt_0_compat; lra).
  assert (H0 : 0 < h0). { apply Rmin_pos; [apply Rinv_0_lt_compat; lra|]. apply Rmin_pos; apply Rdiv_lt_0_compat; lra. }
  set (C4 := al * (/ kap * / kap) + ga + 1 + m * (N + 1 + Rb)). assert (C4P : 0 < C4). { unfold C4. fold kk. assert (0 < al * (kk * kk)) by (apply Rmult_lt_0_compat; [exact A|apply Rmult_lt_0_compat; exact KK]). assert (0 <= m * (N + 1 + Rb)) by (apply Rmult_le_pos; lra). lra. }
  set (C5 := 1 + m + C4). assert (C5P : 1 < C5) by (unfold C5; lra).
  exists l, h0, (Rmin (6 * (kap * kap)) (g0 / C5)), (4 * (M2 / l) * (C5 * C5)). assert (ML : 0 < M2 / l) by (apply Rdiv_lt_0_compat; assumption). split; [exact L0|]. split; [exact H0|]. split; [apply Rmin_pos; [lra|apply Rdiv_lt_0_compat; lra]|]. split; [apply Rmult_lt_0_compat; [lra|apply Rmult_lt_0_compat; lra]|].
  intros w f b tgt F T x y c h d0 EA EG TM HW HS HZ SP DJ NJ UB U0 TN (Hp & Hh) Hd0 C0 HD ENV HV.
  assert (Hd1 : d0 <= g0 / C5) by (eapply Rle_trans; [apply Hd0|apply Rmin_r]). assert (Hd6 : d0 <= 6 * (kap * kap)) by (eapply Rle_trans; [apply Hd0|apply Rmin_l]).
  set (d := C5 * d0). assert (Hd : 0 <= d <= g0). { unfold d. split; [apply Rmult_le_pos; lra|]. apply (Rle_trans _ (C5 * (g0 / C5))); [apply Rmult_le_compat_l; lra|right; field; lra]. }
  assert (D1 : d <= 1) by (eapply Rle_trans; [apply Hd|apply Rmin_l]). assert (D0d : d0 <= d) by (unfold d; rewrite <- (Rmult_1_l d0) at 1; apply Rmult_le_compat_r; lra). assert (DC : d = d0 + m * d0 + C4 * d0) by (unfold d, C5; ring).
  assert (H1 : h * (C2 + 4 * kk) <= 1 / 2). { apply (Rle_trans _ (/ (2 * (C2 + 4 * kk)) * (C2 + 4 * kk))); [apply Rmult_le_compat_r; [lra|eapply Rle_trans; [exact Hh|apply Rmin_l]]|right; field; lra]. }
  assert (H2 : 2 * (h * Rb) <= 3 * (kap * kap)). { apply (Rle_trans _ (2 * (3 * (kap * kap) / (2 * Rb) * Rb))); [apply Rmult_le_compat_l; [lra|]; apply Rmult_le_compat_r; [lra|]; eapply Rle_trans; [exact Hh|]; eapply Rle_trans; [apply Rmin_r|apply Rmin_l]|right; field; lra]. }
  assert (HS3 : h * C3 <= s0). { apply (Rle_trans _ (s0 / C3 * C3)); [apply Rmult_le_compat_r; [lra|]; eapply Rle_trans; [exact Hh|]; eapply Rle_trans; [apply Rmin_r|apply Rmin_r]|right; field; lra]. }
  assert (HC0 : 0 <= h * C3) by (apply Rmult_le_pos; lra).
  assert (H34 : M * (24 * (h * C3 * (h * C3))) <= Rmin (ga / 8) (e * al / 4)).
  { assert (S1 : s0 <= 1) by apply Rmin_l. assert (Q1 := sq_le1 (h * C3) ltac:(lra)). assert (Q2 : h * C3 * (h * C3) <= Rmin (ga / 8) (e * al / 4) / (24 * M)) by (eapply Rle_trans; [exact Q1|]; eapply Rle_trans; [exact HS3|apply Rmin_r]).
    apply (Rle_trans _ (M * (24 * (Rmin (ga / 8) (e * al / 4) / (24 * M))))); [apply Rmult_le_compat_l; lra|right; field; lra]. }
  assert (H3 := Rle_trans _ _ _ H34 (Rmin_l _ _)). assert (H4 := Rle_trans _ _ _ H34 (Rmin_r _ _)).
  set (q := M2 / l * (d * d)). assert (Q0 : 0 <= q) by (apply Rmult_le_pos; [lra|apply Rmult_le_pos; lra]).
  assert (QB : 2 * q < B).
  { assert (D2 : d <= l * B / (4 * M2)) by (eapply Rle_trans; [apply Hd|apply Rmin_r]). assert (DDd : d * d <= 1 * (l * B / (4 * M2))) by (apply Rmult_le_compat; lra).
    assert (Z : q <= M2 / l * (l * B / (4 * M2))) by (apply Rmult_le_compat_l; lra). replace (M2 / l * (l * B / (4 * M2))) with (B / 4) in Z by (field; lra). lra. }
  set (V := fun v => sv al b (seen tgt v) (v_rate v)). set (W := fun v => sw al e b (seen tgt v) (v_rate v)).
  assert (NEAR : forall v, unitq (v_att v) -> v_pos v <> tgt -> 0 < hcos b (seen tgt v) -> (1 - th) * V v <= W v <= (1 + th) * V v /\ 0 <= V v /\ th * V v <= 1 / 2 * V v).
  { intros v U N' P. assert (UD := seen_unit tgt v U N'). assert (X := sw_near al e b (seen tgt v) (v_rate v) A E0 UB UD P). fold kq in X. fold th in X. apply rabs_b in X. destruct (sv_facts al b (seen tgt v) (v_rate v) A UB UD P) as (_ & _ & _ & X4). fold (V v) in X, X4. fold (W v) in X. split; [lra|]. split; [exact X4|]. apply Rmult_le_compat_r; lra. }
  assert (HP : forall v, unitq (v_att v) -> v_pos v <> tgt -> V v <= B -> 2 * kap <= hcos b (seen tgt v) /\ norm3 (v_rate v) + 2 <= Rb).
  { intros v U N' L. assert (N1 := dot3_nonneg (v_rate v)). destruct (hcos_facts b (seen tgt v) UB (seen_unit tgt v U N')) as (HC & _). unfold V, sv in L. split.
    - unfold kap. apply (Rmult_le_reg_l (2 * al)); [lra|]. replace (2 * al * (2 * ((1 - B / (2 * al)) / 2))) with (2 * al - B) by (field; lra). lra.
    - unfold Rb. apply Rplus_le_compat_r. unfold norm3. apply sqrt_le_1_alt. assert (0 <= al * (1 - hcos b (seen tgt v))) by (apply Rmult_le_pos; lra). lra. }
  assert (PER : forall t0 w' xx, 0 <= t0 -> unitq (v_att (y t0)) -> V (y t0) <= B -> told_near d0 (wc_sat w) tgt xx (y t0) -> held_told w b tgt F T xx y t0 (t0 + h) w' ->
    w' = w /\ forall t, t0 <= t <= t0 + h -> unitq (v_att (y t)) /\ 0 < hcos b (seen tgt (y t)) /\ W (y t) - q <= (W (y t0) - q) * exp (- l * (t - t0))).
  { intros t0 w' xx T0 Ut VB (UX & XP & XS & XD & XR & XH) HH. destruct (held_told_rot w f b tgt F T xx y t0 (t0 + h) w' HS HZ SP DJ ltac:(lra) Ut UX HH) as (EW & z & EQ & P). cbv zeta in P.
    assert (I0 : t0 <= t0 <= t0 + h) by lra. destruct (ENV t0 T0) as (NP0 & NS0 & NT0 & NH0). destruct (HP (y t0) Ut NP0 VB) as (HK & HR). assert (UD0 := seen_unit tgt (y t0) Ut NP0). assert (PC : 0 < hcos b (seen tgt (y t0))) by lra.
    assert (UDX := seen_unit tgt xx UX XP).
    assert (PX : kap <= hcos b (seen tgt xx)).
    { destruct (hcos_facts b (seen tgt xx) UB UDX) as (Z1 & Z2). destruct (hcos_facts b (seen tgt (y t0)) UB UD0) as (_ & Z3). assert (Z4 := dot_norm b (sub3 (seen tgt xx) (seen tgt (y t0)))). replace (norm3 b) with 1 in Z4 by (symmetry; unfold norm3; rewrite UB; apply sqrt_1). assert (Z5 : Rabs (dot3 b (sub3 (seen tgt xx) (seen tgt (y t0)))) <= d0) by lra. apply rabs_b in Z5.
      replace (dot3 b (sub3 (seen tgt xx) (seen tgt (y t0)))) with (dot3 b (seen tgt xx) - dot3 b (seen tgt (y t0))) in Z5 by (generalize b (seen tgt xx) (seen tgt (y t0)); clear; intros [b1 b2 b3] [p1 p2 p3] [r1 r2' r3]; vunfoldg; cbn [x3 y3 z3]; rnumg; ring).
      assert (Z6 : 2 * kap * (2 * kap) <= hcos b (seen tgt (y t0)) * hcos b (seen tgt (y t0))) by (apply Rmult_le_compat; lra). apply Rnot_lt_le. intros CC. assert (hcos b (seen tgt xx) * hcos b (seen tgt xx) < kap * kap) by (apply Rmult_le_0_lt_compat; lra). lra. }
    assert (PX0 : 0 < hcos b (seen tgt xx)) by lra. assert (AQ := stare_acq (v_pos xx) (v_att xx) b tgt UB UDX PX0). fold (seen tgt xx) in AQ. rewrite AQ in EW, P. cbn [conjugate qw] in EW. change (nopp (T:=R)) with Ropp in P.
    assert (KEEP : trig_step (hcos b (seen tgt xx)) (wc_trig w) = wc_trig w) by (apply trig_keep; rewrite TM; lra). rewrite KEEP, set_trig_id in EW. subst w'. split; [reflexivity|]. rewrite EA, EG, TM in P.
    assert (ZE : forall t, t0 <= t <= t0 + h -> v_pos (z t) <> tgt /\ sight_rate tgt (z t) <= d0 /\ norm3 (T t) <= d0 /\ norm3 (body_momentum (wc_sat w) (z t)) <= N) by (intros t Ht; rewrite <- (EQ t Ht); apply ENV; lra).
    assert (UZ : forall t, t0 <= t <= t0 + h -> unit3 (seen tgt (z t))) by (intros t Ht; apply seen_unit; [apply (P t Ht)|apply (ZE t Ht)]).
    set (pt := add3 (sub3 (sub3 (sub3 (scale3 al (haxis b (seen tgt xx))) (scale3 ga (sub3 (v_rate xx) (told b tgt xx)))) (cross3 (v_rate xx) (told b tgt xx))) (sub3 (sub3 (scale3 al (haxis b (seen tgt (y t0)))) (scale3 ga (sub3 (v_rate (y t0)) (told b tgt xx)))) (cross3 (v_rate (y t0)) (told b tgt xx))))
      (mv (s_inv_tot (wc_sat w)) (sub3 (cross3 (v_rate xx) (body_momentum (wc_sat w) xx)) (cross3 (v_rate (y t0)) (body_momentum (wc_sat w) (y t0)))))).
    assert (TX : norm3 (told b tgt xx) <= d0) by (rewrite told_norm by (first [assumption|lra]); exact XS).
    assert (NPT : norm3 pt <= C4 * d0) by (apply ask_near; try assumption; lra).
    assert (PD := hs_period al ga e kap m N Rb d h t0 b (s_inv_tot (wc_sat w)) (told b tgt xx) (fun u => seen tgt (z u)) (fun u => v_rate (z u)) (fun u => sandwich (v_att (z u)) (stare_rate_intl (v_pos (z u)) (v_vel (z u)) tgt))
      (fun u => body_momentum (wc_sat w) (z u)) T (fun u => add3 (mv (s_inv_tot (wc_sat w)) (T u)) pt) A G E0 KP M0 N0 (conj (proj1 Hd) D1) Hp UB UZ). cbv beta in PD.
    assert (RES : forall t, t0 <= t <= t0 + h -> kap <= hcos b (seen tgt (z t)) /\ sw al e b (seen tgt (z t)) (v_rate (z t)) - M2 / l * (d * d) <= (sw al e b (seen tgt (z t0)) (v_rate (z t0)) - M2 / l * (d * d)) * exp (- l * (t - t0))).
    { apply (fun a1 a2 a3 a4 a5 a6 a7 a8 a9 a10 => PD a1 a2 a3 a4 a5 a6 a7 a8 a9 H1 H2 M l E1 E2 TH1 eq_refl (Rlt_le _ _ MP) L0 L1 L2 H3 a10).
      - intros t Ht. apply stare_sight; [apply (P t Ht)|apply (P t Ht)|apply (P t Ht)|apply (ZE t Ht)].
      - intros t Ht. destruct (P t Ht) as (_ & _ & _ & X & _). eapply d3_eq; [exact X|]. unfold pt. rewrite <- !(EQ t0 I0). set (c0 := asks al ga 1 _ _ _). replace c0 with (sub3 (sub3 (scale3 al (haxis b (seen tgt xx))) (scale3 ga (sub3 (v_rate xx) (told b tgt xx)))) (cross3 (v_rate xx) (told b tgt xx))).
        2:{ unfold c0, asks. f_equal. f_equal. generalize (haxis b (seen tgt xx)) (hcos b (seen tgt xx)). clear. intros [p1 p2 p3] k. unfold conjugate. vunfoldg; cbn [x3 y3 z3 qw qx qy qz vec]; rnumg. apply mk3_c; ring. }
        rewrite !P_obs.mv_sub3. generalize (sub3 (sub3 (scale3 al (haxis b (seen tgt xx))) (scale3 ga (sub3 (v_rate xx) (told b tgt xx)))) (cross3 (v_rate xx) (told b tgt xx))) (sub3 (sub3 (scale3 al (haxis b (seen tgt (y t0)))) (scale3 ga (sub3 (v_rate (y t0)) (told b tgt xx)))) (cross3 (v_rate (y t0)) (told b tgt xx)))
          (mv (s_inv_tot (wc_sat w)) (cross3 (v_rate xx) (body_momentum (wc_sat w) xx))) (mv (s_inv_tot (wc_sat w)) (cross3 (v_rate (y t0)) (body_momentum (wc_sat w) (y t0)))) (mv (s_inv_tot (wc_sat w)) (cross3 (v_rate (z t)) (body_momentum (wc_sat w) (z t)))) (mv (s_inv_tot (wc_sat w)) (T t)). clear.
        intros [a1 a2 a3] [c1 c2 c3] [g1 g2 g3] [h1 h2 h3] [k1 k2 k3] [l1 l2 l3]. vunfoldg; cbn [x3 y3 z3]; rnumg. apply mk3_c; ring.
      - intros t Ht. apply (P t Ht).
      - intros t Ht. apply (ZE t Ht).
      - exact NJ.
      - intros t Ht. destruct (ZE t Ht) as (_ & Z2 & Z3 & _). split; [rewrite norm_sand; destruct (P t Ht) as (-> & _); unfold sight_rate in Z2; lra|]. split; [|lra]. eapply Rle_trans; [apply norm3_triangle|]. assert (Z4 := NJ (T t)). assert (m * norm3 (T t) <= m * d0) by (apply Rmult_le_compat_l; lra). lra.
      - lra.
      - rewrite <- (EQ t0 I0). exact HK.
      - rewrite <- (EQ t0 I0). exact HR.
      - exact H4. }
    intros t Ht. destruct (RES t Ht) as (R1 & R2). rewrite <- (EQ t Ht), <- (EQ t0 I0) in R2. rewrite <- (EQ t Ht) in R1. split; [rewrite (EQ t Ht); apply (P t Ht)|]. split; [lra|]. exact R2. }
  assert (NP0 := proj1 (ENV 0 (Rle_refl 0))). assert (UD0 := seen_unit tgt (y 0) U0 NP0).
  assert (V0E : V (y 0) <= E). { unfold V, sv. rewrite aim_seen in HV. exact HV. }
  destruct (HP (y 0) U0 NP0 ltac:(lra)) as (HK0 & _). destruct (NEAR (y 0) U0 NP0 ltac:(lra)) as (NR0 & V00 & TV0).
  assert (BELOW : forall t, 0 <= t -> unitq (v_att (y t)) -> 0 < hcos b (seen tgt (y t)) -> W (y t) - q <= (W (y 0) - q) * exp (- l * t) -> V (y t) <= B /\ V (y t) <= 3 * V (y 0) * exp (- l * t) + 2 * q).
  { intros t Ht Ut P LL. destruct (NEAR (y t) Ut (proj1 (ENV t Ht)) P) as (NT & VT & TT). assert (X := exp_pos (- l * t)). assert (X1 : exp (- l * t) <= 1). { rewrite <- exp_0. assert (Z : - l * t <= 0) by (assert (0 <= l * t) by (apply Rmult_le_pos; lra); lra). destruct Z as [Z|Z]; [left; apply exp_increasing, Z|rewrite Z; lra]. }
    set (ex' := exp (- l * t)) in *. split.
    - destruct (Rle_dec (W (y 0)) q) as [C|C].
      + assert ((W (y 0) - q) * ex' <= 0 * ex') by (apply Rmult_le_compat_r; lra). lra.
      + assert (WW : W (y t) <= W (y 0)) by (assert ((W (y 0) - q) * ex' <= (W (y 0) - q) * 1) by (apply Rmult_le_compat_l; lra); lra). assert (P2 : (1 - th) * V (y t) <= (1 + th) * V (y 0)) by lra.
        assert (P3 : V (y t) <= (1 + 4 * th) * V (y 0)). { apply (Rmult_le_reg_l (1 - th)); [lra|]. assert ((1 + th) * V (y 0) <= (1 - th) * (1 + 4 * th) * V (y 0)) by (apply Rmult_le_compat_r; [exact V00|nra]). lra. }
        assert (P4 : (1 + 4 * th) * V (y 0) <= (1 + 4 * th) * E) by (apply Rmult_le_compat_l; lra). lra.
    - assert (W (y 0) * ex' <= 3 / 2 * V (y 0) * ex') by (apply Rmult_le_compat_r; lra). assert (0 <= q * ex') by (apply Rmult_le_pos; lra). lra. }
  assert (ST : forall k, INR k * h + h = INR (S k) * h) by (intros k; rewrite S_INR; ring).
  assert (IP : forall k, 0 <= INR k * h) by (intros k; apply Rmult_le_pos; [apply pos_INR|lra]).
  assert (GLUE : forall t0 t, W (y t0) - q <= (W (y 0) - q) * exp (- l * t0) -> W (y t) - q <= (W (y t0) - q) * exp (- l * (t - t0)) -> W (y t) - q <= (W (y 0) - q) * exp (- l * t)).
  { intros t0 t X1 X2. eapply Rle_trans; [exact X2|]. replace (- l * t) with (- l * t0 + - l * (t - t0)) by ring. rewrite exp_plus, <- Rmult_assoc. apply Rmult_le_compat_r; [left; apply exp_pos|exact X1]. }
  assert (INV : forall k, c k = w /\ unitq (v_att (y (INR k * h))) /\ 0 < hcos b (seen tgt (y (INR k * h))) /\ W (y (INR k * h)) - q <= (W (y 0) - q) * exp (- l * (INR k * h))).
  { induction k as [|k IH].
    - cbn [INR]. rewrite Rmult_0_l, Rmult_0_r, exp_0. split; [exact C0|]. split; [exact U0|]. split; lra.
    - destruct IH as (Ck & Uk & Pk & Wk). assert (HK := HD k). rewrite Ck, <- ST in HK. destruct (BELOW _ (IP k) Uk Pk Wk) as (Bk & _). destruct (PER _ _ _ (IP k) Uk Bk (TN k) HK) as (Q1 & Q2). rewrite <- ST. assert (I1 : INR k * h <= INR k * h + h <= INR k * h + h) by lra. destruct (Q2 _ I1) as (R1 & R2 & R3).
      split; [exact Q1|]. split; [exact R1|]. split; [exact R2|]. apply (GLUE (INR k * h)); assumption. }
  split; [intros k; apply INV|]. intros t Ht. destruct (step_of t h Hp Ht) as (k & Hk). destruct (INV k) as (Ck & Uk & Pk & Wk). assert (HK := HD k). rewrite Ck, <- ST in HK. destruct (BELOW _ (IP k) Uk Pk Wk) as (Bk & _). destruct (PER _ _ _ (IP k) Uk Bk (TN k) HK) as (_ & Q2). destruct (Q2 t Hk) as (Ut & Pt & Wt).
  destruct (BELOW t Ht Ut Pt (GLUE _ _ Wk Wt)) as (_ & BB). assert (NPt := proj1 (ENV t Ht)). assert (UDt := seen_unit tgt (y t) Ut NPt).
  rewrite !aim_seen. destruct (hcos_facts b (seen tgt (y t)) UB UDt) as (R1 & Q1). destruct (hcos_facts b (seen tgt (y 0)) UB UD0) as (R0 & Q0'). unfold V, sv in BB. fold (rate2 (y t)) (rate2 (y 0)) in BB.
  set (hh := hcos b (seen tgt (y t))) in *. set (k0 := hcos b (seen tgt (y 0))) in *. replace (dot3 b (seen tgt (y t))) with (2 * (hh * hh) - 1) by lra. replace (dot3 b (seen tgt (y 0))) with (2 * (k0 * k0) - 1) by lra.
  assert (EX := exp_pos (- l * t)). set (ex' := exp (- l * t)) in *. assert (R20 : 0 <= rate2 (y 0)) by apply dot3_nonneg.
  assert (Y1 : al * (1 - (2 * (hh * hh) - 1)) <= al * (4 * (1 - hh))) by (apply Rmult_le_compat_l; nra). assert (Y2 : al * (2 * (1 - k0)) <= al * (1 - (2 * (k0 * k0) - 1))) by (apply Rmult_le_compat_l; nra).
  assert (Y3 : (2 * al * (1 - k0) + rate2 (y 0) / 2) * ex' <= (al * (1 - (2 * (k0 * k0) - 1)) + rate2 (y 0)) * ex') by (apply Rmult_le_compat_r; lra).
  replace (4 * (M2 / l) * (C5 * C5) * d0 ^ 2) with (2 * (2 * q)) by (unfold q, d; ring). lra.
Qed.
Print Assumptions C132_points.
