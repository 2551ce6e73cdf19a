(** * Property C114: tracking on an estimated state *)
From Coq Require Import Reals ZArith List Bool Lra Lia Psatz.
From Verif Require Import Num Vec M_vector M_quaternion M_jday M_struct M_dyn M_ctrl S_rot S_dyn S_ctrl.
From Verif Require Import P_quat P_struct P_wheel P_dyn P_dyn2 P_obs P_ctrl P_ctrl2 P_ctrl3 P_ctrl4 P_ctrl5 P_conv P_ode P_tot3 P_orb3 P_posf P_detum P_samp P_samp2 Props_struct Props_ctrl2 Props_conv Props_samp Props_dist P_meas.
Import ListNotations.
Local Open Scope R_scope.

(** at time t the wheels obey the command the controller computes, for the target attitude qc at rest, from the state m t it is given; the satellite, whose state is y t,
    moves by the code's equations under that command and the external torque T t *)
Definition obeys_given (w : WhlCtl) (qc : quat) (F T : R -> v3) (y m : R -> SVec) (t : R) : Prop :=
  exists w' u acc, tracking w (m t) zero3 zero3 qc = Ok (w', u) /\ unsaturated (s_rw (wc_sat w)) (opp3 u) /\ whl_actuator_commands w' u = Ok acc /\
    deriv_sv y t (derivative (wc_sat w) (y t) (F t) (T t) (rw_torque (s_rw (wc_sat w)) acc) (rw_momentum (s_rw (wc_sat w)) (v_whl (y t))) acc).
(** the given state is off by at most d in the four components of the attitude together, in the rate and in the momentum of the wheels; its quaternion need not be a unit one *)
Definition astray (sat : Satellite) (d : R) (v m : SVec) : Prop :=
  dotq (subq (v_att m) (v_att v)) (subq (v_att m) (v_att v)) <= d ^ 2 /\ norm3 (sub3 (v_rate m) (v_rate v)) <= d /\
  norm3 (sub3 (rw_momentum (s_rw sat) (v_whl m)) (rw_momentum (s_rw sat) (v_whl v))) <= d.

Lemma given_alg (x y z g g' : v3) (a c : R) : add3 x (sub3 (sub3 (scale3 a g) (scale3 c (sub3 y zero3))) (add3 zero3 zero3)) =
  add3 (add3 x (sub3 (scale3 a (sub3 g g')) (scale3 c (sub3 y z)))) (sub3 (scale3 a g') (scale3 c z)).
Proof. destruct x as [x1 x2 x3'], y as [y1 y2 y3'], z as [u v w], g as [g1 g2 g3], g' as [h1 h2 h3]. vunfoldg; rnumg. cbn [x3 y3 z3]. apply mk3_c; ring. Qed.
(** acceleration by which the motion differs from the loop on the true state *)
Definition misled (w : WhlCtl) (qc : quat) (T : v3) (v m : SVec) : v3 :=
  let sat := wc_sat w in let s := tr_mem (trig_step (qw (error_quat (v_att m) qc)) (wc_trig w)) in
  add3 (add3 (push sat T) (mv (s_inv_tot sat) (sub3 (cross3 (v_rate m) (body_momentum sat m)) (cross3 (v_rate v) (body_momentum sat v)))))
       (sub3 (scale3 (- s * wc_alpha w) (sub3 (vec (error_quat (v_att m) qc)) (vec (error_quat (v_att v) qc)))) (scale3 (wc_gamma w) (sub3 (v_rate m) (v_rate v)))).
Lemma given_rot w f qc F T y m t : wc_sun w = Some f -> zone_free w -> spanning (s_rw (wc_sat w)) -> det3 (s_total_moment (wc_sat w)) <> 0 -> obeys_given w qc F T y m t ->
  let s := tr_mem (trig_step (qw (error_quat (v_att (m t)) qc)) (wc_trig w)) in
  derivq (fun u => v_att (y u)) t (scaleq 0.5 (product (v_att (y t)) (pure (v_rate (y t))))) /\
  deriv3 (fun u => v_rate (y u)) t (add3 (misled w qc (T t) (y t) (m t)) (sub3 (scale3 (- s * wc_alpha w) (vec (error_quat (v_att (y t)) qc))) (scale3 (wc_gamma w) (v_rate (y t))))) /\
  deriv3 (fun u => body_momentum (wc_sat w) (y u)) t (sub3 (T t) (cross3 (v_rate (y t)) (body_momentum (wc_sat w) (y t)))) /\
  exists u, tracking w (m t) zero3 zero3 qc = Ok (set_trig w (trig_step (qw (error_quat (v_att (m t)) qc)) (wc_trig w)), u).
Proof.
  intros HS HZ SP DJ (w' & u & acc & TR & US & WA & D). cbv zeta. assert (HL := tracking_len _ _ _ _ _ _ TR).
  rewrite (tracking_free w (m t) zero3 zero3 qc f HS HZ HL) in TR. cbv zeta in TR.
  set (w1 := set_trig w _) in TR. assert (EW : w1 = w') by congruence. assert (EU := f_equal (fun r => match r with Ok (_, x) => x | Raise _ => zero3 end) TR). cbv beta iota in EU.
  assert (TA : rw_torque (s_rw (wc_sat w)) acc = opp3 u). { destruct (unsat_torque _ _ SP US) as (a' & EA & _ & TA). subst w'. unfold whl_actuator_commands in WA. change (wc_sat w1) with (wc_sat w) in WA. rewrite EA in WA. injection WA as <-. exact TA. }
  destruct D as (_ & _ & D1 & D2 & D3). split; [exact D1|].
  set (J := s_total_moment (wc_sat w)) in *. set (sg := tr_mem (trig_step _ (wc_trig w))) in *.
  assert (DO : deriv3 (fun u => v_rate (y u)) t (mv (inv3 J) (add3 (T t) (sub3 u (cross3 (v_rate (y t)) (body_momentum (wc_sat w) (y t))))))).
  { eapply d3_eq; [exact D2|]. cbn [derivative v_rate]. rewrite TA. change (s_inv_tot (wc_sat w)) with (inv3 J). f_equal. unfold body_momentum. fold J.
    generalize (mv J (v_rate (y t))) (rw_momentum (s_rw (wc_sat w)) (v_whl (y t))) (v_rate (y t)) (T t). clear. intros [p q r] [l m n] [d e f] [a b c]. destruct u as [g h i]. vunfoldg; rnumg. apply mk3_c; ring. }
  split; [|split].
  - eapply d3_eq; [exact DO|]. rewrite <- EU. unfold misled, push. fold sg. change (s_inv_tot (wc_sat w)) with (inv3 J). rewrite !sandwich_0, cross_0_r.
    change (add3 (mv J (v_rate (m t))) (rw_momentum (s_rw (wc_sat w)) (v_whl (m t)))) with (body_momentum (wc_sat w) (m t)).
    set (c := sub3 (sub3 (scale3 (- sg * wc_alpha w) (vec (error_quat (v_att (m t)) qc))) (scale3 (wc_gamma w) (sub3 (v_rate (m t)) zero3))) (add3 zero3 zero3)).
    set (gm := cross3 (v_rate (m t)) _). set (gy := cross3 (v_rate (y t)) _).
    rewrite <- (given_alg (add3 (mv (inv3 J) (T t)) (mv (inv3 J) (sub3 gm gy))) (v_rate (m t)) (v_rate (y t)) (vec (error_quat (v_att (m t)) qc)) (vec (error_quat (v_att (y t)) qc))). fold c.
    rewrite <- (inv3_mv J c DJ) at 2. rewrite <- !mv_add3. f_equal. generalize (mv J c) gm gy (T t). clear. intros [p q r] [l m n] [d e f] [g h i]. vunfoldg; rnumg. apply mk3_c; ring.
  - eapply d3_eq; [unfold body_momentum at 1; apply d3_add; [apply d3_mv, DO|apply d3_momentum; exact D3]|]. cbn [derivative v_whl]. rewrite TA. fold J. rewrite mv_inv3 by exact DJ.
    generalize (cross3 (v_rate (y t)) (body_momentum (wc_sat w) (y t))) (T t). clear. intros [p q r] [a b c]. destruct u as [g h i]. vunfoldg; rnumg. apply mk3_c; ring.
  - eexists. exact (tracking_free w (m t) zero3 zero3 qc f HS HZ HL).
Qed.
Lemma given_unit w f qc F T y m a : a < 0 -> wc_sun w = Some f -> zone_free w -> spanning (s_rw (wc_sat w)) -> det3 (s_total_moment (wc_sat w)) <> 0 ->
  (forall t, a < t -> obeys_given w qc F T y m t) -> unitq (v_att (y 0)) -> forall t, a < t -> unitq (v_att (y t)).
Proof.
  intros A HS HZ SP DJ HO U t Ht. unfold unitq in *. rewrite <- U. apply (const_of_deriv (fun u => dotq (v_att (y u)) (v_att (y u))) a (Rmax t 0 + 1)).
  - intros u Hu. destruct (given_rot w f qc F T y m u HS HZ SP DJ (HO u ltac:(lra))) as [D _]. eapply d_eq; [apply d_dotq; exact D|].
    cbv beta. generalize (v_att (y u)) (v_rate (y u)). clear. intros [p q r s] [x y z]. unfold pure, product. replace 0.5 with (1/2) by lra. vunfoldg; cbn [x3 y3 z3 qw qx qy qz]; rnumg. field.
  - assert (M := Rmax_l t 0). lra.
  - assert (M := Rmax_r t 0). lra.
Qed.
(** the error quaternion is off by as much as the given attitude *)
Lemma err_shift (p q c : quat) d : 0 <= d -> unitq c -> dotq (subq p q) (subq p q) <= d ^ 2 ->
  Rabs (qw (error_quat p c) - qw (error_quat q c)) <= d /\ norm3 (sub3 (vec (error_quat p c)) (vec (error_quat q c))) <= d.
Proof.
  intros D U H. set (k := error_quat (subq p q) c). assert (KK : dotq k k = dotq (subq p q) (subq p q)).
  { unfold k. unfold unitq in U. transitivity (dotq (subq p q) (subq p q) * dotq c c); [|rewrite U; ring]. generalize (subq p q). intros [a b c' e]. destruct c as [f g h i]. unfold error_quat, conjugate, product. vunfoldg; cbn [qw qx qy qz]; rnumg. ring. }
  assert (E1 : qw (error_quat p c) - qw (error_quat q c) = qw k) by (unfold k; destruct p as [a b c' e], q as [a' b' c'' e'], c as [f g h i]; unfold error_quat, conjugate, product; vunfoldg; cbn [qw qx qy qz]; rnumg; ring).
  assert (E2 : sub3 (vec (error_quat p c)) (vec (error_quat q c)) = vec k) by (unfold k; destruct p as [a b c' e], q as [a' b' c'' e'], c as [f g h i]; unfold error_quat, conjugate, product; vunfoldg; cbn [qw qx qy qz]; rnumg; apply mk3_c; ring).
  rewrite E1, E2. assert (SP : dotq k k = qw k ^ 2 + dot3 (vec k) (vec k)) by (destruct k as [a b c' e]; vunfoldg; cbn [qw qx qy qz x3 y3 z3]; rnumg; ring). assert (P := dot3_nonneg (vec k)). assert (P' := pow2_ge_0 (qw k)).
  split; [apply Rabs_le; split; nra|]. apply P_exist3.norm3_le_sq; [exact D|]. lra.
Qed.
Lemma cross_split (a b h k : v3) : sub3 (cross3 a h) (cross3 b k) = add3 (cross3 b (sub3 h k)) (add3 (cross3 (sub3 a b) k) (cross3 (sub3 a b) (sub3 h k))).
Proof. destruct a as [a1 a2 a3], b as [b1 b2 b3], h as [h1 h2 h3], k as [k1 k2 k3]. vunfoldg; rnumg. cbn [x3 y3 z3]. apply mk3_c; ring. Qed.
Lemma momentum_shift sat v m : sub3 (body_momentum sat m) (body_momentum sat v) = add3 (mv (s_total_moment sat) (sub3 (v_rate m) (v_rate v))) (sub3 (rw_momentum (s_rw sat) (v_whl m)) (rw_momentum (s_rw sat) (v_whl v))).
Proof. unfold body_momentum. generalize (s_total_moment sat) (rw_momentum (s_rw sat) (v_whl m)) (rw_momentum (s_rw sat) (v_whl v)) (v_rate m) (v_rate v). vring. Qed.
Lemma misled_size w qc T v m mi mj N O d p : 0 <= wc_alpha w -> 0 <= wc_gamma w -> 0 < tr_hw (wc_trig w) -> pm1 (tr_mem (wc_trig w)) -> unitq qc -> 0 <= mi -> 0 <= mj ->
  (forall v, norm3 (mv (s_inv_tot (wc_sat w)) v) <= mi * norm3 v) -> (forall v, norm3 (mv (s_total_moment (wc_sat w)) v) <= mj * norm3 v) ->
  norm3 (body_momentum (wc_sat w) v) <= N -> norm3 (v_rate v) <= O -> 0 <= d <= 1 -> astray (wc_sat w) d v m -> norm3 (push (wc_sat w) T) <= p ->
  norm3 (misled w qc T v m) <= p + (mi * (O * (mj + 1) + N + (mj + 1)) + wc_alpha w + wc_gamma w) * d.
Proof.
  intros A G HW PM UC MI MJ BI BJ HN HO HD (A1 & A2 & A3) HP. destruct (err_shift _ _ qc d (proj1 HD) UC A1) as (_ & EV). unfold misled.
  set (sg := tr_mem _). assert (S1 : Rabs (- sg * wc_alpha w) = wc_alpha w). { destruct (trig_after (qw (error_quat (v_att m) qc)) (wc_trig w) PM HW) as (Q & _). fold sg in Q. rewrite Rabs_mult, Rabs_Ropp, (Rabs_right (wc_alpha w)) by lra. destruct Q as [Q|Q]; rewrite Q; [rewrite Rabs_right; lra|rewrite Rabs_left; lra]. }
  set (dH := sub3 (body_momentum (wc_sat w) m) (body_momentum (wc_sat w) v)). assert (DH : norm3 dH <= (mj + 1) * d).
  { unfold dH. rewrite momentum_shift. eapply Rle_trans; [apply norm3_triangle|]. assert (X := BJ (sub3 (v_rate m) (v_rate v))). assert (mj * norm3 (sub3 (v_rate m) (v_rate v)) <= mj * d) by (apply Rmult_le_compat_l; assumption). lra. }
  assert (GY : norm3 (sub3 (cross3 (v_rate m) (body_momentum (wc_sat w) m)) (cross3 (v_rate v) (body_momentum (wc_sat w) v))) <= (O * (mj + 1) + N + (mj + 1)) * d).
  { rewrite cross_split. fold dH. eapply Rle_trans; [apply norm3_triangle|]. assert (X1 := cross_norm (v_rate v) dH). assert (X2 := norm3_triangle (cross3 (sub3 (v_rate m) (v_rate v)) (body_momentum (wc_sat w) v)) (cross3 (sub3 (v_rate m) (v_rate v)) dH)).
    assert (X3 := cross_norm (sub3 (v_rate m) (v_rate v)) (body_momentum (wc_sat w) v)). assert (X4 := cross_norm (sub3 (v_rate m) (v_rate v)) dH).
    assert (P1 := norm3_pos (v_rate v)). assert (P2 := norm3_pos dH). assert (P3 := norm3_pos (sub3 (v_rate m) (v_rate v))). assert (P4 := norm3_pos (body_momentum (wc_sat w) v)).
    assert (Y1 : norm3 (v_rate v) * norm3 dH <= O * ((mj + 1) * d)) by (apply Rmult_le_compat; assumption).
    assert (Y2 : norm3 (sub3 (v_rate m) (v_rate v)) * norm3 (body_momentum (wc_sat w) v) <= d * N) by (apply Rmult_le_compat; assumption).
    assert (Y3 : norm3 (sub3 (v_rate m) (v_rate v)) * norm3 dH <= 1 * ((mj + 1) * d)) by (apply Rmult_le_compat; try assumption; lra). lra. }
  eapply Rle_trans; [apply norm3_triangle|]. eapply Rle_trans; [apply Rplus_le_compat; [apply norm3_triangle|apply sub_norm]|]. rewrite !norm3_scal, S1, (Rabs_right (wc_gamma w)) by lra.
  assert (Z1 := BI (sub3 (cross3 (v_rate m) (body_momentum (wc_sat w) m)) (cross3 (v_rate v) (body_momentum (wc_sat w) v)))).
  assert (Z2 : mi * norm3 (sub3 (cross3 (v_rate m) (body_momentum (wc_sat w) m)) (cross3 (v_rate v) (body_momentum (wc_sat w) v))) <= mi * ((O * (mj + 1) + N + (mj + 1)) * d)) by (apply Rmult_le_compat_l; assumption).
  assert (Z3 : wc_alpha w * norm3 (sub3 (vec (error_quat (v_att m) qc)) (vec (error_quat (v_att v) qc))) <= wc_alpha w * d) by (apply Rmult_le_compat_l; assumption).
  assert (Z4 : wc_gamma w * norm3 (sub3 (v_rate m) (v_rate v)) <= wc_gamma w * d) by (apply Rmult_le_compat_l; assumption). lra.
Qed.

(** for all gains, band, bound on the energy below that of a turn at the edge of the band, bounds on the inertia, its inverse and the momentum there are a rate, a largest error and a factor:
    with the given state off by at most d and the acceleration of the external torque at most p, the trigger never flips and the error falls exponentially to a size given by the square of d + p *)
Theorem C114_measured : forall al ga hw E mi mj N, 0 < al -> 0 < ga -> 0 < hw < 1 -> 0 <= E < 2 * al * (1 + hw) -> 0 <= mi -> 0 <= mj -> 0 <= N -> exists lam d0 K, 0 < lam /\ 0 < d0 /\ 0 < K /\
  forall w f qc F T y m a d p, wc_alpha w = al -> wc_gamma w = ga -> tr_hw (wc_trig w) = hw -> pm1 (tr_mem (wc_trig w)) ->
  wc_sun w = Some f -> zone_free w -> spanning (s_rw (wc_sat w)) -> det3 (s_total_moment (wc_sat w)) <> 0 ->
  (forall v, norm3 (mv (s_inv_tot (wc_sat w)) v) <= mi * norm3 v) -> (forall v, norm3 (mv (s_total_moment (wc_sat w)) v) <= mj * norm3 v) ->
  unitq qc -> unitq (v_att (y 0)) -> a < 0 -> (forall t, a < t -> obeys_given w qc F T y m t) ->
  0 <= d -> 0 <= p -> d + p <= d0 ->
  (forall t, 0 <= t -> astray (wc_sat w) d (y t) (m t) /\ norm3 (push (wc_sat w) (T t)) <= p /\ norm3 (body_momentum (wc_sat w) (y t)) <= N) ->
  let s := tr_mem (wc_trig w) in
  al * off_target s qc (y 0) + rate2 (y 0) / 2 <= E ->
  forall t, 0 <= t ->
    (exists u, tracking w (m t) zero3 zero3 qc = Ok (w, u)) /\
    2 * al * off_target s qc (y t) + rate2 (y t) <= 3 * (2 * al * off_target s qc (y 0) + rate2 (y 0)) * exp (- lam * t) + K * (d + p) ^ 2.
Proof.
  intros al ga hw E mi mj N A G HW HE MI MJ HN. set (e1 := E / (2 * al) - 1). assert (E1 : -1 <= e1 < hw).
  { assert (X : 0 <= E / (2 * al)) by (apply Rmult_le_pos; [lra|left; apply Rinv_0_lt_compat; lra]). assert (Y : E / (2 * al) < 1 + hw) by (apply (Rmult_lt_reg_r (2 * al)); [lra|]; replace (E / (2 * al) * (2 * al)) with E by (field; lra); lra). unfold e1. lra. }
  set (h1 := (hw + e1) / 2). assert (H1 : -1 < h1 < 1) by (unfold h1; lra). assert (H1h : h1 < hw) by (unfold h1; lra).
  assert (HE1 : 0 <= E < 2 * al * (1 + h1)). { split; [lra|]. replace E with (2 * al * (1 + e1)) by (unfold e1; field; lra). apply Rmult_lt_compat_l; unfold h1; lra. }
  destruct (loop_bounded al ga h1 E A G H1 HE1) as (lam & d1 & K & L0 & D1 & K0 & CORE). set (B := 2 * al * (1 + h1)) in *.
  set (O := sqrt (2 * B)). assert (O0 := sqrt_pos (2 * B)). fold O in O0. assert (OO := sqrt_sqrt (2 * B) ltac:(lra)). fold O in OO.
  set (c := 1 + (mi * (O * (mj + 1) + N + (mj + 1)) + al + ga)). assert (C0 : 1 <= c). { unfold c. assert (0 <= O * (mj + 1)) by (apply Rmult_le_pos; lra). assert (0 <= mi * (O * (mj + 1) + N + (mj + 1))) by (apply Rmult_le_pos; lra). lra. }
  set (d0 := Rmin (Rmin 1 (hw - h1)) (d1 / c)). assert (D0 : 0 < d0) by (apply Rmin_pos; [apply Rmin_pos; lra|apply Rdiv_lt_0_compat; lra]).
  exists lam, d0, (2 * K * c ^ 2). split; [exact L0|]. split; [exact D0|]. split; [apply Rmult_lt_0_compat; [lra|apply pow_lt; lra]|].
  intros w f qc F T y m a d p EA EG EH PM HS HZ SP DJ BI BJ UC U0 HA HO Hd Hp Hdp HM s HV. assert (SS := pm1_sq _ PM). fold s in SS.
  assert (UN := given_unit w f qc F T y m a HA HS HZ SP DJ HO U0).
  assert (M1 : d + p <= 1) by (eapply Rle_trans; [exact Hdp|]; eapply Rle_trans; [apply Rmin_l|apply Rmin_l]). assert (M2 : d + p <= hw - h1) by (eapply Rle_trans; [exact Hdp|]; eapply Rle_trans; [apply Rmin_l|apply Rmin_r]).
  assert (M3 : c * (d + p) <= d1) by (apply (Rle_trans _ (c * (d1 / c))); [apply Rmult_le_compat_l; [lra|]; eapply Rle_trans; [exact Hdp|apply Rmin_r]|right; field; lra]).
  set (er := fun t => error_quat (v_att (y t)) qc). assert (UE : forall t, a < t -> unitq (er t)) by (intros t Ht; apply error_quat_unit; [apply UN, Ht|exact UC]).
  set (sg := fun t => tr_mem (trig_step (qw (error_quat (v_att (m t)) qc)) (wc_trig w))).
  assert (DE : forall t, a < t -> derivq er t (scaleq 0.5 (product (er t) (pure (v_rate (y t)))))).
  { intros t Ht. destruct (given_rot w f qc F T y m t HS HZ SP DJ (HO t Ht)) as [DD _].
    assert (X := dq_error (fun u => v_att (y u)) (fun _ => qc) t (v_rate (y t)) zero3 DD (dq_const qc t) (UN t Ht) UC). cbv zeta in X. rewrite sandwich_0, sub3_0_r in X. exact X. }
  assert (KEEP : forall t, 0 <= t -> - h1 < s * qw (er t) -> trig_step (qw (error_quat (v_att (m t)) qc)) (wc_trig w) = wc_trig w).
  { intros t Ht Hx. destruct (HM t Ht) as ((A1 & _) & _). destruct (err_shift _ _ qc d Hd UC A1) as (QE & _). fold (er t) in QE. apply rabs_b in QE. apply trig_keep. rewrite EH. fold s.
    destruct PM as [PM|PM]; fold s in PM; rewrite PM in *; lra. }
  assert (C := CORE s (c * (d + p)) a er (fun t => v_rate (y t)) (fun t => misled w qc (T t) (y t) (m t)) sg SS).
  assert (CC : forall t, 0 <= t -> - h1 < s * qw (er t) /\ ev al s (er t) (v_rate (y t)) <= 3 * ev al s (er 0) (v_rate (y 0)) * exp (- lam * t) + K * (c * (d + p)) ^ 2).
  { apply C.
    - split; [apply Rmult_le_pos; lra|exact M3].
    - exact HA.
    - exact UE.
    - exact DE.
    - intros t Ht. destruct (given_rot w f qc F T y m t HS HZ SP DJ (HO t Ht)) as (_ & X & _). rewrite EA, EG in X. exact X.
    - intros t Ht Hx. unfold sg. rewrite (KEEP t Ht Hx). reflexivity.
    - intros t Ht HB. destruct (HM t Ht) as (X1 & X2 & X3). destruct (ev_facts al s (er t) (v_rate (y t)) A SS (UE t ltac:(lra))) as (_ & F2 & _ & F4 & _).
      assert (HOt : norm3 (v_rate (y t)) <= O) by (apply P_exist3.norm3_le_sq; [exact O0|]; rewrite OO; lra).
      assert (Z := misled_size w qc (T t) (y t) (m t) mi mj N O d p ltac:(lra) ltac:(lra) ltac:(lra) PM UC MI MJ BI BJ X3 HOt ltac:(lra) X1 X2). rewrite EA, EG in Z. eapply Rle_trans; [exact Z|]. unfold c.
      set (k := mi * (O * (mj + 1) + N + (mj + 1)) + al + ga) in *. unfold c in C0. fold k in C0. assert (0 <= k * p) by (apply Rmult_le_pos; lra). lra.
    - change (ev al s (er 0) (v_rate (y 0))) with (en al s qc (y 0)). rewrite (en_off al s qc (y 0) SS U0 UC). exact HV. }
  intros t Ht. destruct (CC t Ht) as (X1 & X2). split.
  - destruct (given_rot w f qc F T y m t HS HZ SP DJ (HO t ltac:(lra))) as (_ & _ & _ & u & TR). exists u. rewrite (KEEP t Ht X1), set_trig_id in TR. exact TR.
  - change (ev al s (er t) (v_rate (y t))) with (en al s qc (y t)) in X2. change (ev al s (er 0) (v_rate (y 0))) with (en al s qc (y 0)) in X2. rewrite (en_off al s qc (y 0) SS U0 UC), (en_off al s qc (y t) SS (UN t ltac:(lra)) UC) in X2.
    replace (2 * K * c ^ 2 * (d + p) ^ 2) with (2 * (K * (c * (d + p)) ^ 2)) by ring. lra.
Qed.
Print Assumptions C114_measured.

Lemma dot3_zero_r (a : v3) : dot3 a zero3 = 0. Proof. vring. Qed.
Lemma mv_sub3 (m : m3) (a b : v3) : mv m (sub3 a b) = sub3 (mv m a) (mv m b). Proof. vring. Qed.
Lemma norm_zero : norm3 (zero3 (T:=R)) = 0.
Proof. unfold norm3. replace (dot3 (zero3 (T:=R)) zero3) with 0 by vring. apply sqrt_0. Qed.
(** with no external torque the momentum keeps its size *)
Lemma momentum_kept w f qc F y m a : wc_sun w = Some f -> zone_free w -> spanning (s_rw (wc_sat w)) -> det3 (s_total_moment (wc_sat w)) <> 0 ->
  (forall t, a < t -> obeys_given w qc F (fun _ => zero3) y m t) -> a < 0 -> forall t, 0 <= t -> norm3 (body_momentum (wc_sat w) (y t)) = norm3 (body_momentum (wc_sat w) (y 0)).
Proof.
  intros HS HZ SP DJ HO HA t Ht. unfold norm3. f_equal. apply (const_of_deriv (fun u => dot3 (body_momentum (wc_sat w) (y u)) (body_momentum (wc_sat w) (y u))) a (t + 1)); [|lra|lra].
  intros v Hv. destruct (given_rot w f qc F (fun _ => zero3) y m v HS HZ SP DJ (HO v ltac:(lra))) as (_ & _ & X & _). eapply d_eq; [apply d_dot3; exact X|].
  cbv beta. unfold zero3. generalize (body_momentum (wc_sat w) (y v)) (v_rate (y v)). clear. intros [p q r] [l m n]. vunfoldg; rnumg. cbn [x3 y3 z3]. ring.
Qed.
(** without external torque only the momentum at the start has to be bounded *)
Theorem C114_alone : forall al ga hw E mi mj N, 0 < al -> 0 < ga -> 0 < hw < 1 -> 0 <= E < 2 * al * (1 + hw) -> 0 <= mi -> 0 <= mj -> 0 <= N -> exists lam d0 K, 0 < lam /\ 0 < d0 /\ 0 < K /\
  forall w f qc F y m a d, wc_alpha w = al -> wc_gamma w = ga -> tr_hw (wc_trig w) = hw -> pm1 (tr_mem (wc_trig w)) ->
  wc_sun w = Some f -> zone_free w -> spanning (s_rw (wc_sat w)) -> det3 (s_total_moment (wc_sat w)) <> 0 ->
  (forall v, norm3 (mv (s_inv_tot (wc_sat w)) v) <= mi * norm3 v) -> (forall v, norm3 (mv (s_total_moment (wc_sat w)) v) <= mj * norm3 v) ->
  unitq qc -> unitq (v_att (y 0)) -> a < 0 -> (forall t, a < t -> obeys_given w qc F (fun _ => zero3) y m t) ->
  0 <= d <= d0 -> (forall t, 0 <= t -> astray (wc_sat w) d (y t) (m t)) -> norm3 (body_momentum (wc_sat w) (y 0)) <= N ->
  let s := tr_mem (wc_trig w) in
  al * off_target s qc (y 0) + rate2 (y 0) / 2 <= E ->
  forall t, 0 <= t ->
    (exists u, tracking w (m t) zero3 zero3 qc = Ok (w, u)) /\
    2 * al * off_target s qc (y t) + rate2 (y t) <= 3 * (2 * al * off_target s qc (y 0) + rate2 (y 0)) * exp (- lam * t) + K * d ^ 2.
Proof.
  intros al ga hw E mi mj N A G HW HE MI MJ HN. destruct (C114_measured al ga hw E mi mj N A G HW HE MI MJ HN) as (lam & d0 & K & L0 & D0 & K0 & C).
  exists lam, d0, K. split; [exact L0|]. split; [exact D0|]. split; [exact K0|]. intros w f qc F y m a d EA EG EH PM HS HZ SP DJ BI BJ UC U0 HA HO Hd HM HN0 s HV.
  replace (K * d ^ 2) with (K * (d + 0) ^ 2) by ring. apply (C w f qc F (fun _ => zero3) y m a d 0); try assumption; try lra.
  intros t Ht. split; [apply HM, Ht|]. split.
  - replace (push (wc_sat w) zero3) with (zero3 (T:=R)) by (unfold push; rewrite mv_zero3; reflexivity). rewrite norm_zero. lra.
  - rewrite (momentum_kept w f qc F y m a HS HZ SP DJ HO HA t Ht). exact HN0.
Qed.
Print Assumptions C114_alone.

(** the state with a bias b on the rate *)
Definition biased (b : v3) (v : SVec) : SVec := mkSV (v_pos v) (v_vel v) (v_att v) (add3 (v_rate v) b) (v_whl v).
Lemma add_sub (a b : v3) : sub3 (add3 a b) a = b. Proof. destruct a as [a1 a2 a3], b as [b1 b2 b3]. vunfoldg; rnumg. cbn [x3 y3 z3]. apply mk3_c; ring. Qed.
Lemma biased_dot (b o h k x : v3) : dot3 b (sub3 (cross3 (add3 o b) (add3 h k)) (cross3 o h)) = dot3 b (cross3 o k).
Proof. destruct b as [b1 b2 b3], o as [o1 o2 o3], h as [h1 h2 h3], k as [k1 k2 k3]. vunfoldg; rnumg. cbn [x3 y3 z3]. ring. Qed.
Lemma biased_momentum sat b v : body_momentum sat (biased b v) = add3 (body_momentum sat v) (mv (s_total_moment sat) b).
Proof. unfold body_momentum, biased. cbn [v_rate v_whl]. generalize (s_total_moment sat) (rw_momentum (s_rw sat) (v_whl v)) (v_rate v). destruct b as [b1 b2 b3]. intros [[a1 a2 a3] [c1 c2 c3] [d1 d2 d3]] [h1 h2 h3] [o1 o2 o3]. vunfoldg; rnumg. cbn [x3 y3 z3 row1 row2 row3]. apply mk3_c; ring. Qed.
Lemma symm_dot (J : m3) (a b : v3) : tr3 J = J -> dot3 a (mv J b) = dot3 (mv J a) b.
Proof. intros S. rewrite <- S at 1. destruct J as [[a1 a2 a3] [c1 c2 c3] [d1 d2 d3]], a as [p q r], b as [l m n]. vunfoldg; rnumg. cbn [x3 y3 z3 row1 row2 row3]. ring. Qed.
(** the biased loop along J b *)
Lemma biased_pull w qc b v : det3 (s_total_moment (wc_sat w)) <> 0 -> let J := s_total_moment (wc_sat w) in let sg := tr_mem (trig_step (qw (error_quat (v_att v) qc)) (wc_trig w)) in
  dot3 (mv J b) (add3 (misled w qc zero3 v (biased b v)) (sub3 (scale3 (- sg * wc_alpha w) (vec (error_quat (v_att v) qc))) (scale3 (wc_gamma w) (v_rate v)))) =
  dot3 b (cross3 (v_rate v) (mv J b)) - wc_gamma w * dot3 b (mv J b) + dot3 (mv J b) (sub3 (scale3 (- sg * wc_alpha w) (vec (error_quat (v_att v) qc))) (scale3 (wc_gamma w) (v_rate v))).
Proof.
  intros DJ J sg. unfold misled. rewrite biased_momentum. change (v_rate (biased b v)) with (add3 (v_rate v) b). change (v_att (biased b v)) with (v_att v). fold sg J. unfold push. rewrite mv_zero3, add_sub. change (s_inv_tot (wc_sat w)) with (inv3 J).
  set (g := sub3 (cross3 _ _) _). assert (G : dot3 (mv J b) (mv (inv3 J) g) = dot3 b (cross3 (v_rate v) (mv J b))) by (rewrite <- (symm_dot J b _ (total_symm (wc_sat w))), mv_inv3 by exact DJ; apply (biased_dot b (v_rate v) (body_momentum (wc_sat w) v) (mv J b) zero3)).
  rewrite <- G. assert (Q : dot3 b (mv J b) = dot3 (mv J b) b) by exact (symm_dot J b b (total_symm (wc_sat w))). rewrite Q. set (e := vec (error_quat (v_att v) qc)). set (x := sub3 (scale3 (- sg * wc_alpha w) e) (scale3 (wc_gamma w) (v_rate v))).
  generalize (mv J b) (mv (inv3 J) g) x e (- sg * wc_alpha w) (wc_gamma w). clear. intros [c1 c2 c3] [g1 g2 g3] [x1 x2 x3'] [e1 e2 e3] k l. destruct b as [b1 b2 b3]. vunfoldg; rnumg. cbn [x3 y3 z3]. ring.
Qed.
Lemma sg_size w x : 0 <= wc_alpha w -> 0 < tr_hw (wc_trig w) -> pm1 (tr_mem (wc_trig w)) -> Rabs (- tr_mem (trig_step x (wc_trig w)) * wc_alpha w) = wc_alpha w.
Proof. intros A HW PM. destruct (trig_after x (wc_trig w) PM HW) as (Q & _). rewrite Rabs_mult, Rabs_Ropp, (Rabs_right (wc_alpha w)) by lra. destruct Q as [Q|Q]; rewrite Q; [rewrite Rabs_right; lra|rewrite Rabs_left; lra]. Qed.
(** the size is of the right order: with a constant bias of the given rate, however long one waits, the error comes back to a multiple of the bias *)
Theorem C114_bias_refuted : forall w f qc F y a b, 0 <= wc_alpha w -> 0 < wc_gamma w -> 0 < tr_hw (wc_trig w) -> pm1 (tr_mem (wc_trig w)) ->
  wc_sun w = Some f -> zone_free w -> spanning (s_rw (wc_sat w)) -> det3 (s_total_moment (wc_sat w)) <> 0 ->
  let Jb := mv (s_total_moment (wc_sat w)) b in 0 < dot3 b Jb -> (forall t, a < t -> obeys_given w qc F (fun _ => zero3) y (fun t => biased b (y t)) t) ->
  forall t0, a < t0 -> exists t, t0 <= t /\ wc_gamma w * (dot3 b Jb / norm3 Jb) / 2 <= wc_alpha w * norm3 (vec (error_quat (v_att (y t)) qc)) + (wc_gamma w + norm3 b) * norm3 (v_rate (y t)).
Proof.
  intros w f qc F y a b A G HW PM HS HZ SP DJ Jb HQ HO t0 H0. set (Q := dot3 b Jb) in *. assert (P0 := norm3_pos Jb). assert (Pb := norm3_pos b).
  assert (PP : 0 < norm3 Jb). { destruct P0 as [P0|P0]; [exact P0|]. exfalso. assert (Z : Jb = zero3) by (apply dot3_zero; rewrite <- P_quat.norm3_sq, <- P0; ring). unfold Q in HQ. rewrite Z, dot3_zero_r in HQ. lra. }
  set (n := norm3 Jb) in *. set (t1 := t0 + 4 / wc_gamma w). assert (T1 : t0 < t1) by (unfold t1; assert (0 < 4 / wc_gamma w) by (apply Rdiv_lt_0_compat; lra); lra).
  set (er := fun t => vec (error_quat (v_att (y t)) qc)). set (z := fun t => wc_alpha w * norm3 (er t) + (wc_gamma w + norm3 b) * norm3 (v_rate (y t))).
  set (z0 := wc_gamma w * (Q / n) / 2). assert (Z0 : n * z0 = wc_gamma w * Q / 2) by (unfold z0; field; lra).
  destruct (Classical_Prop.classic (exists t, t0 <= t <= t1 /\ z0 <= z t)) as [(t & Ht & Hz)|NO]; [exists t; split; [lra|exact Hz]|]. exfalso.
  assert (SM : forall t, t0 <= t <= t1 -> z t < z0) by (intros t Ht; destruct (Rlt_dec (z t) z0) as [L|L]; [exact L|]; exfalso; apply NO; exists t; split; [exact Ht|lra]).
  set (sg := fun t => tr_mem (trig_step (qw (error_quat (v_att (y t)) qc)) (wc_trig w))).
  set (x := fun u => sub3 (scale3 (- sg u * wc_alpha w) (er u)) (scale3 (wc_gamma w) (v_rate (y u)))).
  assert (NN : forall t, 0 <= wc_alpha w * norm3 (er t)) by (intros t; apply Rmult_le_pos; [exact A|apply norm3_pos]).
  assert (K : wc_gamma w * Q / 2 * t1 + dot3 Jb (v_rate (y t1)) <= wc_gamma w * Q / 2 * t0 + dot3 Jb (v_rate (y t0))).
  { apply (le_of_deriv (fun u => wc_gamma w * Q / 2 * u + dot3 Jb (v_rate (y u))) (fun u => wc_gamma w * Q / 2 + dot3 Jb (add3 (misled w qc zero3 (y u) (biased b (y u))) (x u))) t0 t1 ltac:(lra)).
    - intros u Hu. apply d_plus; [eapply d_eq; [apply d_scal, d_id|ring]|]. apply (dot_const Jb (fun u => v_rate (y u))). exact (proj1 (proj2 (given_rot w f qc F (fun _ => zero3) y (fun t => biased b (y t)) u HS HZ SP DJ (HO u ltac:(lra))))).
    - intros u Hu. unfold x, sg, er, Jb. rewrite (biased_pull w qc b (y u) DJ). fold Jb Q (er u) (sg u) (x u).
      assert (C1 : norm3 (x u) <= wc_alpha w * norm3 (er u) + wc_gamma w * norm3 (v_rate (y u))) by (unfold x; eapply Rle_trans; [apply sub_norm|]; unfold sg; rewrite !norm3_scal, (sg_size w _ A HW PM), (Rabs_right (wc_gamma w)) by lra; lra).
      assert (C2 := dot_norm Jb (x u)). fold n in C2. apply rabs_b in C2. assert (C3 := SM u Hu). unfold z in C3.
      assert (C4 := dot_norm b (cross3 (v_rate (y u)) Jb)). apply rabs_b in C4. assert (C5 := cross_norm (v_rate (y u)) Jb). fold n in C5.
      assert (C6 : norm3 b * norm3 (cross3 (v_rate (y u)) Jb) <= norm3 b * (norm3 (v_rate (y u)) * n)) by (apply Rmult_le_compat_l; assumption).
      assert (C7 : n * norm3 (x u) <= n * (wc_alpha w * norm3 (er u) + wc_gamma w * norm3 (v_rate (y u)))) by (apply Rmult_le_compat_l; lra).
      assert (C8 : n * (wc_alpha w * norm3 (er u) + (wc_gamma w + norm3 b) * norm3 (v_rate (y u))) <= n * z0) by (apply Rmult_le_compat_l; lra). lra. }
  assert (V : forall t, t0 <= t <= t1 -> Rabs (dot3 Jb (v_rate (y t))) <= Q / 2).
  { intros t Ht. eapply Rle_trans; [apply dot_norm|]. fold n. assert (X := SM t Ht). unfold z in X. assert (Y := NN t). assert (P := norm3_pos (v_rate (y t))). assert (0 <= norm3 b * norm3 (v_rate (y t))) by (apply Rmult_le_pos; assumption).
    apply (Rmult_le_reg_l (wc_gamma w)); [exact G|]. assert (n * (wc_gamma w * norm3 (v_rate (y t))) <= n * z0) by (apply Rmult_le_compat_l; lra). lra. }
  assert (V0 := V t0 ltac:(lra)). assert (V1 := V t1 ltac:(lra)). apply rabs_b in V0. apply rabs_b in V1.
  assert (E : wc_gamma w * Q / 2 * t1 - wc_gamma w * Q / 2 * t0 = 2 * Q) by (unfold t1; field; lra). lra.
Qed.
Print Assumptions C114_bias_refuted.
(** the attitude in which a satellite comes to rest under a biased rate, and that it is not the target *)
Theorem C114_rest : forall w f qc F y a b, 0 < wc_gamma w ->
  wc_sun w = Some f -> zone_free w -> spanning (s_rw (wc_sat w)) -> det3 (s_total_moment (wc_sat w)) <> 0 ->
  (forall t, a < t -> obeys_given w qc F (fun _ => zero3) y (fun t => biased b (y t)) t) -> (forall t, a < t -> v_rate (y t) = zero3) ->
  forall t, a < t -> let s := tr_mem (trig_step (qw (error_quat (v_att (y t)) qc)) (wc_trig w)) in let e := vec (error_quat (v_att (y t)) qc) in
    let Jb := mv (s_total_moment (wc_sat w)) b in
    scale3 (s * wc_alpha w) e = sub3 (mv (s_inv_tot (wc_sat w)) (cross3 b (add3 Jb (rw_momentum (s_rw (wc_sat w)) (v_whl (y t)))))) (scale3 (wc_gamma w) b) /\
    (dot3 b Jb <> 0 -> e <> zero3).
Proof.
  intros w f qc F y a b G HS HZ SP DJ HO HR t Ht s e Jb.
  assert (D := proj1 (proj2 (given_rot w f qc F (fun _ => zero3) y (fun t => biased b (y t)) t HS HZ SP DJ (HO t Ht)))). cbv zeta beta in D. change (v_att (biased b (y t))) with (v_att (y t)) in D. fold s e in D.
  assert (Z : add3 (misled w qc zero3 (y t) (biased b (y t))) (sub3 (scale3 (- s * wc_alpha w) e) (scale3 (wc_gamma w) (v_rate (y t)))) = zero3).
  { assert (U : forall (g : R -> R) l, derivable_pt_lim g t l -> (forall u, a < u -> g u = 0) -> l = 0).
    { intros g l X Y. apply (uniqueness_limite g t l 0 X). intros eps He. exists (mkposreal (t - a) ltac:(lra)). intros h Hh Hb. cbn in Hb. rewrite (Y t Ht), (Y (t + h)) by (apply Rabs_def2 in Hb; lra). replace ((0 - 0) / h - 0) with 0 by (field; exact Hh). rewrite Rabs_R0. exact He. }
    destruct D as (D1 & D2 & D3). apply V3_eq; [apply (U _ _ D1)|apply (U _ _ D2)|apply (U _ _ D3)]; intros u Hu; rewrite (HR u Hu); reflexivity. }
  assert (EQ : scale3 (s * wc_alpha w) e = sub3 (mv (s_inv_tot (wc_sat w)) (cross3 b (add3 Jb (rw_momentum (s_rw (wc_sat w)) (v_whl (y t)))))) (scale3 (wc_gamma w) b)).
  { unfold misled in Z. rewrite biased_momentum in Z. change (v_rate (biased b (y t))) with (add3 (v_rate (y t)) b) in Z. change (v_att (biased b (y t))) with (v_att (y t)) in Z. fold s e in Z. unfold push in Z. rewrite mv_zero3, add_sub in Z. rewrite (HR t Ht) in Z.
    unfold body_momentum in Z. rewrite (HR t Ht), mv_zero3 in Z. fold Jb in Z. set (h := rw_momentum (s_rw (wc_sat w)) (v_whl (y t))) in *.
    replace (sub3 (cross3 (add3 zero3 b) (add3 (add3 zero3 h) Jb)) (cross3 zero3 (add3 zero3 h))) with (cross3 b (add3 Jb h)) in Z.
    2:{ generalize Jb h. destruct b as [b1 b2 b3]. intros [c1 c2 c3] [h1 h2 h3]. vunfoldg; rnumg. cbn [x3 y3 z3]. apply mk3_c; ring. }
    set (g := mv (s_inv_tot (wc_sat w)) (cross3 b (add3 Jb h))) in *. clearbody g e s. clear -Z. destruct g as [g1 g2 g3], e as [e1 e2 e3], b as [b1 b2 b3]. unfold zero3 in *. vunfold; rnum. cbn [x3 y3 z3] in *. injection Z as Z1 Z2 Z3. apply mk3_c; lra. }
  split; [exact EQ|]. intros NB E0. rewrite E0 in EQ. apply NB.
  assert (X : dot3 b (mv (s_total_moment (wc_sat w)) (sub3 (mv (s_inv_tot (wc_sat w)) (cross3 b (add3 Jb (rw_momentum (s_rw (wc_sat w)) (v_whl (y t)))))) (scale3 (wc_gamma w) b))) = - wc_gamma w * dot3 b Jb).
  { change (s_inv_tot (wc_sat w)) with (inv3 (s_total_moment (wc_sat w))). set (k := add3 Jb _). rewrite mv_sub3, mv_inv3, mv_scale3 by exact DJ. fold Jb. clearbody k Jb. clear. destruct b as [b1 b2 b3], k as [k1 k2 k3], Jb as [c1 c2 c3]. vunfoldg; rnumg. cbn [x3 y3 z3]. ring. }
  rewrite <- EQ in X. replace (scale3 (s * wc_alpha w) (zero3 (T:=R))) with (zero3 (T:=R)) in X by (unfold zero3; vunfoldg; rnumg; cbn [x3 y3 z3]; apply mk3_c; ring). rewrite mv_zero3, dot3_zero_r in X.
  destruct (Rmult_integral (wc_gamma w) (dot3 b Jb)) as [Y|Y]; lra.
Qed.
Print Assumptions C114_rest.

(** a satellite at rest for ever off its target, its controller misled by a bias of the rate *)
Definition resting (th : R) : SVec := mkSV zero3 zero3 (mkq (cos (th / 2)) (sin (th / 2)) 0 0) zero3 [0; 0; 0].
Definition resting_bias (th : R) : v3 := mk3 (- (2 * 0.1 ^ 2 * sin (th / 2)) / (2 * 0.707 * 0.1)) 0 0.
Lemma resting_obeys th t : - 0.3 < cos (th / 2) -> obeys_given axis_ctl q1 (fun _ => zero3) (fun _ => zero3) (fun _ => resting th) (fun _ => biased (resting_bias th) (resting th)) t.
Proof.
  intros HC. set (k := 2 * 0.1 ^ 2 * sin (th / 2)). exists axis_ctl, (mk3 0 0 0), [- 0; 0; 0]. split; [|split; [left; reflexivity|split; [exact (axis_accel 0)|]]].
  { assert (T := tracking_free axis_ctl (biased (resting_bias th) (resting th)) zero3 zero3 q1 (fun _ => ex) eq_refl (or_intror eq_refl) ltac:(cbn; lia)). cbv zeta in T. change (error_quat (v_att (biased (resting_bias th) (resting th))) q1) with (error_quat (v_att (axis_state th 0)) q1) in T. rewrite axis_error in T. cbn [qw] in T.
    rewrite (trig_keep (cos (th / 2)) (wc_trig axis_ctl)) in T by (cbn [axis_ctl wc_trig tr_mem tr_hw]; lra). rewrite T. f_equal. f_equal.
    cbn [axis_ctl wc_sat wc_trig wc_alpha wc_gamma tr_mem]. rewrite free_ball_total, !sandwich_0, cross_0_r. clear T.
    unfold rw_momentum, w_momentum, resting_bias. fold k. replace k with (2 * 0.1 ^ 2 * sin (th / 2)) by reflexivity.
    cbn [free_ball s_rw rw_wheels zip_with biased resting v_whl v_rate sum3 fold_right w_par w_axis vec qx qy qz].
    assert (GA : 2 * 0.707 * 0.1 <> 0) by lra. revert GA. generalize (2 * 0.1 ^ 2) (2 * 0.707 * 0.1). intros b1 b2 GA. clear k. vunfoldg; cbn [x3 y3 z3 row1 row2 row3]; rnumg. apply mk3_c; field; exact GA. }
  unfold derivative. cbn [axis_ctl wc_sat resting v_pos v_vel v_att v_rate v_whl]. split; [|split; [|split; [|split]]]; unfold resting; cbn [v_pos v_vel v_att v_rate v_whl].
  - exact (d3_const zero3 t).
  - eapply d3_eq; [exact (d3_const zero3 t)|]. vunfoldg; cbn [x3 y3 z3]; rnumg. apply mk3_c; unfold Rdiv; ring.
  - unfold derivq, product, scaleq. cbn [qw qx qy qz x3 y3 z3]. vunfoldg; cbn [x3 y3 z3 qw qx qy qz]; rnumg. replace 0.5 with (1 / 2) by lra.
    split; [|split; [|split]]; (eapply d_eq; [exact (d_const _ t)|]); field.
  - eapply d3_eq; [exact (d3_const zero3 t)|].
    change (s_inv_tot free_ball) with (inv3 (s_total_moment free_ball)). rewrite free_ball_total. unfold rw_torque, rw_momentum, w_momentum, w_torque.
    cbn [free_ball s_rw rw_wheels zip_with sum3 fold_right w_par w_axis]. vunfoldg; cbn [x3 y3 z3 row1 row2 row3]; rnumg. apply mk3_c; field.
  - intros i. destruct i as [|[|[|i]]]; cbn [nth]; [eapply d_eq; [exact (d_const 0 t)|ring]|exact (d_const 0 t)|exact (d_const 0 t)|destruct i; exact (d_const 0 t)].
Qed.
Example C114_ex : forall d0, 0 < d0 -> exists y b d, 0 <= d <= d0 /\ b <> zero3 /\
  (forall t, -1 < t -> obeys_given axis_ctl q1 (fun _ => zero3) (fun _ => zero3) y (fun t => biased b (y t)) t) /\ (forall t, 0 <= t -> astray (wc_sat axis_ctl) d (y t) (biased b (y t))) /\
  unitq (v_att (y 0)) /\ pm1 (tr_mem (wc_trig axis_ctl)) /\ spanning (s_rw (wc_sat axis_ctl)) /\ det3 (s_total_moment (wc_sat axis_ctl)) <> 0 /\
  (forall v, norm3 (mv (s_inv_tot free_ball) v) <= / 4 * norm3 v) /\ (forall v, norm3 (mv (s_total_moment free_ball) v) <= 4 * norm3 v) /\ norm3 (body_momentum free_ball (y 0)) <= 1 /\
  2 * 0.1 ^ 2 * off_target 1 q1 (y 0) + rate2 (y 0) / 2 <= 0.02 /\ 0.02 < 2 * (2 * 0.1 ^ 2) * (1 + 0.3) /\ 0 < dot3 b (mv (s_total_moment free_ball) b) /\
  forall t, v_rate (y t) = zero3 /\ off_target 1 q1 (y t) <> 0.
Proof.
  intros d0 H. set (th := Rmin 1 d0). assert (T0 : 0 < th) by (apply Rmin_pos; lra). assert (T1 : th <= 1) by apply Rmin_l. assert (T2 : th <= d0) by apply Rmin_r. assert (P1 := PI2_3_2). assert (P4 := PI_4).
  assert (S0 : 0 < sin (th / 2)) by (apply sin_gt_0; lra). assert (S1 : sin (th / 2) < th / 2) by (apply sin_lt_x; lra).
  assert (C1 : 1 / 2 < cos (th / 2)). { rewrite <- cos_PI3. apply cos_decreasing_1; lra. } assert (C2 : cos (th / 2) < 1). { rewrite <- cos_0. apply cos_decreasing_1; lra. }
  set (k := 2 * 0.1 ^ 2 * sin (th / 2) / (2 * 0.707 * 0.1)). assert (K0 : 0 < k) by (apply Rdiv_lt_0_compat; lra). assert (K1 : k <= th). { apply (Rmult_le_reg_r (2 * 0.707 * 0.1)); [lra|]. unfold k. replace (2 * 0.1 ^ 2 * sin (th / 2) / (2 * 0.707 * 0.1) * (2 * 0.707 * 0.1)) with (2 * 0.1 ^ 2 * sin (th / 2)) by (assert (DV : forall a b, b <> 0 -> a = a / b * b) by (intros; field; assumption); apply DV; lra). lra. }
  assert (BK : resting_bias th = mk3 (- k) 0 0) by (unfold resting_bias, k; f_equal; set (g := 2 * 0.707 * 0.1); set (v := 2 * 0.1 ^ 2 * sin (th / 2)); clearbody g v; unfold Rdiv; ring).
  exists (fun _ => resting th), (resting_bias th), k. split; [lra|]. split; [rewrite BK; intros X; injection X as X; lra|]. split; [intros t _; apply resting_obeys; lra|].
  change (wc_sat axis_ctl) with free_ball. split.
  { intros t _. unfold astray, biased. cbn [v_att v_rate v_whl resting]. rewrite BK. split; [|split].
    - replace (dotq _ _) with 0 by (vunfoldg; cbn [qw qx qy qz]; rnumg; ring). nra.
    - rewrite add_sub. apply P_exist3.norm3_le_sq; [lra|]. vunfoldg; cbn [x3 y3 z3]; rnumg. lra.
    - apply P_exist3.norm3_le_sq; [lra|]. replace (dot3 _ _) with 0; [nra|]. generalize (rw_momentum (s_rw free_ball) [0; 0; 0]). clear. intros [a b c]. vunfoldg; rnumg. cbn [x3 y3 z3]. ring. }
  assert (OF : off_target 1 q1 (resting th) = 2 * (1 - cos (th / 2))) by (rewrite <- (ax_off th 0); reflexivity).
  split; [exact (ax_unit th 0)|]. split; [left; reflexivity|]. split; [exact free_ball_spanning|]. split; [exact ball_det|].
  assert (NS : forall (c : R) (v : v3), 0 <= c -> norm3 (scale3 c v) <= c * norm3 v) by (intros c v Hc; rewrite norm3_scal, Rabs_right by lra; lra).
  split. { intros v. change (s_inv_tot free_ball) with (inv3 (s_total_moment free_ball)). rewrite free_ball_total. replace (mv (inv3 (scalem 4 id3)) v) with (scale3 (/ 4) v); [apply NS; lra|]. destruct v as [a b c]. vunfoldg; cbn [x3 y3 z3 row1 row2 row3]; rnumg. apply mk3_c; field. }
  split. { intros v. rewrite free_ball_total. replace (mv (scalem 4 id3) v) with (scale3 4 v); [apply NS; lra|]. destruct v as [a b c]. vunfoldg; cbn [x3 y3 z3 row1 row2 row3]; rnumg. apply mk3_c; ring. }
  split. { apply P_exist3.norm3_le_sq; [lra|]. unfold body_momentum. rewrite free_ball_total. unfold rw_momentum, w_momentum. cbn [free_ball s_rw rw_wheels zip_with resting v_whl v_rate sum3 fold_right w_par w_axis]. vunfoldg; cbn [x3 y3 z3 row1 row2 row3]; rnumg. lra. }
  rewrite OF. split. { replace (rate2 (resting th)) with 0 by (unfold rate2, resting; vunfoldg; cbn [v_rate x3 y3 z3]; rnumg; ring). nra. }
  split; [lra|]. split. { rewrite BK, free_ball_total. clearbody k. vunfoldg; cbn [x3 y3 z3 row1 row2 row3]; rnumg. nra. }
  intros t. split; [reflexivity|]. rewrite ?OF. lra.
Qed.
