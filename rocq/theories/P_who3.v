(** * Lemmas: the tracking error over one control period, with the command held and slightly wrong *)
From Coq Require Import Reals Lra Psatz Lia.
From Verif Require Import Num Vec M_vector M_quaternion S_rot S_dyn P_quat P_struct P_dyn P_dyn2 P_ctrl2 P_vec2 P_conv P_tot3 P_orb3 P_posf P_detum P_samp P_samp2 P_meas.
From Verif Require P_exist3 P_ctrl3.
Local Open Scope R_scope.

(** one period of length h: the acceleration is the feedback computed at its start, up to q; the torques T change the momentum H *)
Lemma hold_period al ga m N : 0 < al -> 0 < ga -> 0 <= m -> 0 <= N -> exists e l h0 r0 C, 0 < e /\ e * (/ (2 * al) + 1) <= 1 / 2 /\ 0 < l /\ 0 < h0 <= 1 / 4 /\ 0 < r0 /\ 0 < C /\
  forall s h t0 Ji (E : R -> quat) (om H a q T : R -> v3) d, s * s = 1 -> 0 < h <= h0 -> 0 <= d ->
  (forall t, t0 <= t <= t0 + h -> unitq (E t) /\ derivq E t (scaleq 0.5 (product (E t) (pure (om t)))) /\ deriv3 om t (a t) /\ deriv3 H t (sub3 (T t) (cross3 (om t) (H t))) /\ norm3 (H t) <= N /\ norm3 (T t) <= d /\ norm3 (q t) <= d /\
    a t = add3 (add3 (sub3 (scale3 (- s * al) (vec (E t0))) (scale3 ga (om t0))) (mv Ji (sub3 (cross3 (om t0) (H t0)) (cross3 (om t) (H t))))) (q t)) ->
  (forall v, norm3 (mv Ji v) <= m * norm3 v) -> ev al s (E t0) (om t0) <= r0 -> d * d <= r0 ->
  (forall t, t0 <= t <= t0 + h -> ev al s (E t) (om t) <= 2 * ev al s (E t0) (om t0) + d * d /\ norm3 (a t) * norm3 (a t) <= C * (ev al s (E t0) (om t0) + d * d)) /\
  evw al e s (E (t0 + h)) (om (t0 + h)) <= evw al e s (E t0) (om t0) - l * h * ev al s (E t0) (om t0) + C * h * (d * d).
Proof.
  intros A G M0 N0. destruct (cv_eps_spec al ga A G) as (EP & _). set (kq := / (2 * al) + 1). assert (KQ : 0 < kq) by (unfold kq; assert (0 < / (2 * al)) by (apply Rinv_0_lt_compat; lra); lra).
  set (e := Rmin (cv_eps al ga) (/ (2 * kq))). assert (E0 : 0 < e) by (apply Rmin_pos; [exact EP|apply Rinv_0_lt_compat; lra]). assert (EC : e <= cv_eps al ga) by apply Rmin_l.
  assert (EK : e * kq <= 1 / 2). { apply (Rle_trans _ (/ (2 * kq) * kq)); [apply Rmult_le_compat_r; [lra|apply Rmin_r]|right; field; lra]. }
  set (l := Rmin ga (e * 1 / 4)). assert (L0 : 0 < l) by (apply Rmin_pos; lra).
  destruct (ka_spec al A) as (K0 & K1). set (ka := sm_ka al) in *. set (g := 2 + e * ka). assert (G2 : 2 < g) by (unfold g; assert (0 < e * ka) by (apply Rmult_lt_0_compat; assumption); lra).
  set (C1 := sm_C1 al ga m N). assert (C1p : 0 <= C1) by (unfold C1, sm_C1; fold ka; assert (0 <= al * ka) by (apply Rmult_le_pos; lra); assert (0 <= m * N) by (apply Rmult_le_pos; lra); lra).
  set (C0 := 2 * al * ka + 2 * C1). assert (C0p : 0 <= C0) by (unfold C0; assert (0 <= al * ka) by (apply Rmult_le_pos; lra); lra).
  set (C2 := al + ga * (C1 + 1) + m * (C1 * N + 5 * N + 2)). assert (C2p : 0 <= C2) by (unfold C2; assert (0 <= ga * (C1 + 1)) by (apply Rmult_le_pos; lra); assert (0 <= C1 * N) by (apply Rmult_le_pos; lra); assert (0 <= m * (C1 * N + 5 * N + 2)) by (apply Rmult_le_pos; lra); lra).
  set (C5 := l * (C0 + 1) + 2 * g * C2). assert (C5p : 0 < C5) by (unfold C5; assert (0 < l * (C0 + 1)) by (apply Rmult_lt_0_compat; lra); assert (0 <= 2 * g * C2) by (apply Rmult_le_pos; lra); lra).
  set (h0 := Rmin (1 / 4) (Rmin (/ (4 * (C0 + 1))) (l / (16 * C5)))). assert (H0 : 0 < h0) by (apply Rmin_pos; [lra|apply Rmin_pos; [apply Rinv_0_lt_compat; lra|apply Rdiv_lt_0_compat; lra]]).
  set (r0 := Rmin 1 al / 3). assert (R0p : 0 < Rmin 1 al) by (apply Rmin_pos; lra). assert (R01 := Rmin_l 1 al). assert (R0a := Rmin_r 1 al).
  set (Cw := 3 * l / 16 + 4 * (g * g) / l). assert (CWp : 0 < Cw) by (unfold Cw; assert (0 < 4 * (g * g) / l) by (apply Rdiv_lt_0_compat; nra); lra).
  exists e, (3 / 4 * l), h0, r0, (Cw + (4 * (C1 * C1) + 2)). assert (CC1 : 0 <= C1 * C1) by (apply Rmult_le_pos; lra).
  split; [exact E0|]. split; [exact EK|]. split; [lra|]. split; [split; [exact H0|apply Rmin_l]|]. split; [unfold r0; lra|]. split; [lra|].
  intros s h t0 Ji E om H a q T d SS Hh D0 HY NJ V0B DB0.
  assert (HH : 0 < h) by lra. assert (UE : forall t, sm_T h t0 t -> unitq (E t)) by (intros t Ht; apply (HY t Ht)). assert (NH : forall t, sm_T h t0 t -> norm3 (H t) <= N) by (intros t Ht; apply (HY t Ht)).
  assert (DE : forall t, sm_T h t0 t -> derivq E t (scaleq 0.5 (product (E t) (pure (om t))))) by (intros t Ht; apply (HY t Ht)).
  assert (DO : forall t, sm_T h t0 t -> deriv3 om t (a t)) by (intros t Ht; apply (HY t Ht)).
  assert (T0 : sm_T h t0 t0) by (unfold sm_T; lra).
  assert (AE : forall t, sm_T h t0 t -> a t = add3 (sm_a al ga s t0 Ji E om H t) (q t)) by (intros t Ht; destruct (HY t Ht) as (_ & _ & _ & _ & _ & _ & _ & X); exact X).
  set (V := sm_V al s E om). set (x := sm_x s E). set (n := sm_n om). set (r := sm_r s E om).
  assert (EV : forall t, ev al s (E t) (om t) = V t) by reflexivity. assert (EW : forall t, evw al e s (E t) (om t) = V t + e * r t) by reflexivity. rewrite EV in V0B.
  assert (FA : forall t, sm_T h t0 t -> (-1 <= x t <= 1) /\ 0 <= n t /\ r t ^ 2 <= (1 - x t ^ 2) * n t /\ 0 <= V t).
  { intros t Ht. destruct (NR s h t0 E om SS UE t Ht) as (B1 & B2 & B3 & _). destruct (V_nonneg al s h t0 E om A SS UE t Ht) as (B4 & _). repeat split; try assumption; apply B1. }
  assert (DX : forall t, sm_T h t0 t -> derivable_pt_lim x t (- (r t / 2))) by (intros t Ht; apply (DX s h t0 E om DE t Ht)).
  assert (DN : forall t, sm_T h t0 t -> derivable_pt_lim n t (2 * dot3 (om t) (a t))).
  { intros t Ht. unfold n, sm_n. eapply d_eq; [apply d_dot3; exact (DO t Ht)|]. cbv beta. generalize (om t) (a t). clear. intros [a b c] [d e f]; vunfoldg; rnumg; ring. }
  assert (DR : forall t, sm_T h t0 t -> derivable_pt_lim r t (x t * n t / 2 + s * dot3 (vec (E t)) (a t))).
  { intros t Ht. unfold r, sm_r. eapply d_eq; [apply d_scal; apply d_dot3; [apply d3_vec; exact (DE t Ht)|exact (DO t Ht)]|]. cbv beta. rewrite err_v_dot. unfold x, n, sm_x, sm_n. field. }
  assert (DV : forall t, sm_T h t0 t -> derivable_pt_lim V t (al * r t + dot3 (om t) (a t))).
  { intros t Ht. eapply d_eq. { apply (d_plus (fun u => 2 * al * (1 - x u)) (fun u => n u / 2)); [apply d_scal, d_minus; [apply d_const|apply DX, Ht]|unfold Rdiv; apply d_mult; [apply DN, Ht|apply d_const]]. } cbv beta. field. }
  destruct (continuity_ab_maj V t0 (t0 + h)) as (tm & MX & Hm); [lra|intros c Hc; apply derivable_continuous_pt; eexists; apply DV; exact Hc|].
  destruct (FA tm Hm) as (_ & _ & _ & Vm). set (R0 := sqrt (V tm)). assert (RR : R0 * R0 = V tm) by (apply sqrt_sqrt, Vm). assert (RP : 0 <= R0) by apply sqrt_pos.
  assert (VR : forall t, sm_T h t0 t -> V t <= R0 * R0) by (intros t Ht; rewrite RR; apply MX, Ht).
  assert (OMR := om_R al s h t0 E om A SS UE R0 RP VR). assert (EVR := ev_R al s h t0 E om A SS UE R0 RP VR). fold ka in EVR.
  assert (S1 : Rabs s = 1) by (assert (Z := pow2_abs s); assert (Z' := Rabs_pos s); assert (s ^ 2 = 1) by (rewrite <- SS; ring); nra).
  assert (AR : forall t, sm_T h t0 t -> norm3 (a t) <= C1 * R0 + d).
  { intros t Ht. rewrite (AE t Ht). eapply Rle_trans; [apply norm3_triangle|]. apply Rplus_le_compat; [|apply (HY t Ht)].
    assert (GR : forall u, sm_T h t0 u -> norm3 (sm_G om H u) <= 2 * R0 * N). { intros u Hu. unfold sm_G. eapply Rle_trans; [apply cross_norm|]. assert (P := norm3_pos (om u)). assert (P' := norm3_pos (H u)). apply Rmult_le_compat; [assumption|assumption|apply OMR, Hu|apply NH, Hu]. }
    unfold sm_a. eapply Rle_trans; [apply norm3_triangle|]. assert (X1 : norm3 (sm_ex al ga s E om t0) <= (al * ka + 2 * ga) * R0).
    { unfold sm_ex. eapply Rle_trans; [apply sub_norm|]. rewrite !norm3_scal, Rabs_mult, Rabs_Ropp, S1, (Rabs_right al), (Rabs_right ga) by lra. assert (O := OMR t0 T0). assert (W := EVR t0 T0). nra. }
    assert (X2 := NJ (sub3 (sm_G om H t0) (sm_G om H t))). assert (X3 := sub_norm (sm_G om H t0) (sm_G om H t)). assert (X4 := GR t0 T0). assert (X5 := GR t Ht). unfold C1, sm_C1. fold ka.
    assert (m * norm3 (sub3 (sm_G om H t0) (sm_G om H t)) <= m * (4 * (R0 * N))) by (apply Rmult_le_compat_l; lra). lra. }
  assert (RD : 2 * (R0 * d) <= R0 * R0 + d * d) by (assert (Z := pow2_ge_0 (R0 - d)); lra).
  assert (DD0 : 0 <= d * d) by (apply Rmult_le_pos; lra). assert (RR0 : 0 <= R0 * R0) by (apply Rmult_le_pos; lra). assert (RDp : 0 <= R0 * d) by (apply Rmult_le_pos; lra).
  set (cv := (C0 + 1) * (R0 * R0) + d * d).
  assert (VRATE : forall t, sm_T h t0 t -> Rabs (al * r t + dot3 (om t) (a t)) <= cv).
  { intros t Ht. assert (X1 : Rabs (r t) <= 2 * ka * (R0 * R0)).
    { unfold r, sm_r. rewrite Rabs_mult, S1. assert (O := OMR t Ht). assert (W := EVR t Ht). assert (P := norm3_pos (om t)). assert (Q := norm3_pos (vec (E t))). assert (Z := dot_norm (vec (E t)) (om t)). assert (norm3 (vec (E t)) * norm3 (om t) <= ka * R0 * (2 * R0)) by (apply Rmult_le_compat; assumption). lra. }
    assert (X2 := dot_norm (om t) (a t)). assert (P := norm3_pos (om t)). assert (Q := norm3_pos (a t)). assert (X3 : norm3 (om t) * norm3 (a t) <= 2 * R0 * (C1 * R0 + d)) by (apply Rmult_le_compat; [assumption|assumption|apply OMR, Ht|apply AR, Ht]).
    eapply Rle_trans; [apply Rabs_triang|]. rewrite Rabs_mult, (Rabs_right al) by lra. assert (al * Rabs (r t) <= al * (2 * ka * (R0 * R0))) by (apply Rmult_le_compat_l; lra). unfold cv, C0. lra. }
  assert (cv0 : 0 <= cv) by (unfold cv; assert (0 <= (C0 + 1) * (R0 * R0)) by (apply Rmult_le_pos; lra); lra).
  assert (LIN : forall c u, derivable_pt_lim (fun u => c * u) u c) by (intros c u; eapply d_eq; [apply d_scal, d_id|]; ring).
  assert (VMOVE : forall t, sm_T h t0 t -> - (h * cv) <= V t - V t0 <= h * cv).
  { intros t Ht. assert (IN : forall u, t0 <= u <= t -> sm_T h t0 u) by (unfold sm_T in *; intros; lra).
    assert (Q1 : V t - cv * t <= V t0 - cv * t0).
    { apply (le_of_deriv (fun u => V u - cv * u) (fun u => al * r u + dot3 (om u) (a u) - cv) t0 t (proj1 Ht)); intros u Hu; [apply d_minus; [apply DV, IN, Hu|apply LIN]|]. assert (K := VRATE u (IN u Hu)). apply rabs_b in K. lra. }
    assert (Q2 : - V t - cv * t <= - V t0 - cv * t0).
    { apply (le_of_deriv (fun u => - V u - cv * u) (fun u => - (al * r u + dot3 (om u) (a u)) - cv) t0 t (proj1 Ht)); intros u Hu; [apply d_minus; [apply d_opp, DV, IN, Hu|apply LIN]|]. assert (K := VRATE u (IN u Hu)). apply rabs_b in K. lra. }
    assert (cv * (t - t0) <= cv * h) by (apply Rmult_le_compat_l; [exact cv0|unfold sm_T in Ht; lra]). lra. }
  assert (H1 : h <= 1 / 4) by (eapply Rle_trans; [apply Hh|apply Rmin_l]).
  assert (H2 : h * (C0 + 1) <= 1 / 4). { apply (Rle_trans _ (/ (4 * (C0 + 1)) * (C0 + 1))); [apply Rmult_le_compat_r; [lra|]|right; field; lra]. eapply Rle_trans; [apply Hh|]. eapply Rle_trans; [apply Rmin_r|apply Rmin_l]. }
  assert (H3 : h * C5 <= l / 16). { apply (Rle_trans _ (l / (16 * C5) * C5)); [apply Rmult_le_compat_r; [lra|]|right; field; lra]. eapply Rle_trans; [apply Hh|]. eapply Rle_trans; [apply Rmin_r|apply Rmin_r]. }
  assert (HCV : h * cv <= 1 / 4 * (R0 * R0) + 1 / 4 * (d * d)).
  { unfold cv. assert (h * (C0 + 1) * (R0 * R0) <= 1 / 4 * (R0 * R0)) by (apply Rmult_le_compat_r; assumption). assert (h * (d * d) <= 1 / 4 * (d * d)) by (apply Rmult_le_compat_r; assumption). lra. }
  assert (V00 : 0 <= V t0) by apply (FA t0 T0).
  assert (RB : R0 * R0 <= 2 * V t0 + d * d). { assert (K := VMOVE tm Hm). rewrite <- RR in K. lra. }
  assert (RS : R0 * R0 <= Rmin 1 al) by (unfold r0 in *; lra). assert (R1 : R0 <= 1) by nra.
  assert (X12 : forall t, sm_T h t0 t -> -1 + 1 <= x t <= 1).
  { intros t Ht. destruct (FA t Ht) as (F1 & F2 & _). split; [|apply F1]. assert (K := VR t Ht). change (V t) with (2 * al * (1 - x t) + n t / 2) in K. assert (K2 : al * (1 - x t) <= al * 1) by lra. apply Rmult_le_reg_l in K2; lra. }
  set (df := fun t => sub3 (a t) (sm_ex al ga s E om t)).
  assert (DB : forall t, sm_T h t0 t -> norm3 (df t) <= h * (C2 * (R0 + d)) + d).
  { intros t Ht. assert (IN : forall u, t0 <= u <= t -> sm_T h t0 u) by (unfold sm_T in *; intros; lra). assert (TH : t - t0 <= h) by (unfold sm_T in Ht; lra). assert (TP : t0 <= t) by apply Ht.
    assert (Q1 : norm3 (sub3 (vec (E t)) (vec (E t0))) <= R0 * h).
    { assert (X := vmvt (fun u => vec (E u)) (fun u => vec (scaleq 0.5 (product (E u) (pure (om u))))) t0 t R0 TP).
      eapply Rle_trans; [apply X; intros u Hu; [apply d3_vec, DE, IN, Hu|]|]; [|apply Rmult_le_compat_l; lra].
      eapply Rle_trans; [apply err_v_norm, UE, IN, Hu|]. assert (O := OMR u (IN u Hu)). lra. }
    assert (CR : 0 <= C1 * R0 + d) by (assert (0 <= C1 * R0) by (apply Rmult_le_pos; lra); lra).
    assert (Q2 : norm3 (sub3 (om t) (om t0)) <= (C1 * R0 + d) * h).
    { eapply Rle_trans; [apply (vmvt om a t0 t (C1 * R0 + d) TP); intros u Hu; [apply DO, IN, Hu|apply AR, IN, Hu]|]. apply Rmult_le_compat_l; lra. }
    set (cg := (C1 * N + 4 * N) * R0 + (N + 2) * d). assert (CG : 0 <= cg). { unfold cg. assert (0 <= C1 * N) by (apply Rmult_le_pos; lra). assert (0 <= (C1 * N + 4 * N) * R0) by (apply Rmult_le_pos; lra). assert (0 <= (N + 2) * d) by (apply Rmult_le_pos; lra). lra. }
    assert (Q3 : norm3 (sub3 (sm_G om H t) (sm_G om H t0)) <= cg * h).
    { eapply Rle_trans; [apply (vmvt (sm_G om H) (fun u => add3 (cross3 (a u) (H u)) (cross3 (om u) (sub3 (T u) (cross3 (om u) (H u))))) t0 t cg TP); intros u Hu|].
      - unfold sm_G. apply P_exist3.d3_cross; [apply DO, IN, Hu|]. destruct (HY u (IN u Hu)) as (_ & _ & _ & X & _). exact X.
      - eapply Rle_trans; [apply norm3_triangle|]. assert (T1 := cross_norm (a u) (H u)). assert (T2 := cross_norm (om u) (sub3 (T u) (cross3 (om u) (H u)))). assert (T4 := sub_norm (T u) (cross3 (om u) (H u))). assert (T3 := cross_norm (om u) (H u)).
        assert (U1 := AR u (IN u Hu)). assert (U2 := OMR u (IN u Hu)). assert (U3 := NH u (IN u Hu)). assert (U4 : norm3 (T u) <= d) by apply (HY u (IN u Hu)). assert (P1 := norm3_pos (a u)). assert (P2 := norm3_pos (om u)). assert (P3 := norm3_pos (H u)). assert (P4 := norm3_pos (sub3 (T u) (cross3 (om u) (H u)))).
        assert (Z1 : norm3 (a u) * norm3 (H u) <= (C1 * R0 + d) * N) by (apply Rmult_le_compat; assumption).
        assert (Z2 : norm3 (om u) * norm3 (H u) <= 2 * R0 * N) by (apply Rmult_le_compat; assumption).
        assert (Z3 : norm3 (om u) * norm3 (sub3 (T u) (cross3 (om u) (H u))) <= 2 * R0 * (d + 2 * R0 * N)) by (apply Rmult_le_compat; [assumption|assumption|assumption|lra]).
        assert (Z4 : R0 * N * R0 <= R0 * N * 1) by (apply Rmult_le_compat_l; [apply Rmult_le_pos; assumption|exact R1]). assert (Z5 : R0 * d <= 1 * d) by (apply Rmult_le_compat_r; assumption). unfold cg. lra.
      - apply Rmult_le_compat_l; [exact CG|lra]. }
    assert (Q4 := NJ (sub3 (sm_G om H t0) (sm_G om H t))).
    assert (SW : norm3 (sub3 (sm_G om H t0) (sm_G om H t)) = norm3 (sub3 (sm_G om H t) (sm_G om H t0))) by (rewrite <- norm3_opp; f_equal; generalize (sm_G om H t0) (sm_G om H t); clear; intros [a b c] [d e f]; vunfoldg; rnumg; apply mk3_c; ring).
    rewrite SW in Q4.
    assert (DD : df t = add3 (add3 (add3 (scale3 (s * al) (sub3 (vec (E t)) (vec (E t0)))) (scale3 ga (sub3 (om t) (om t0)))) (mv Ji (sub3 (sm_G om H t0) (sm_G om H t)))) (q t)).
    { unfold df. rewrite (AE t Ht). unfold sm_a, sm_ex. generalize (mv Ji (sub3 (sm_G om H t0) (sm_G om H t))) (vec (E t)) (vec (E t0)) (om t) (om t0) (q t). clear. intros [a b c] [d e f] [g h i] [j k l] [m n o] [u v w]; vunfoldg; rnumg; apply mk3_c; ring. }
    rewrite DD. eapply Rle_trans; [apply norm3_triangle|]. eapply Rle_trans; [apply Rplus_le_compat_r; eapply Rle_trans; [apply norm3_triangle|apply Rplus_le_compat_r, norm3_triangle]|]. rewrite !norm3_scal, Rabs_mult, S1, (Rabs_right al), (Rabs_right ga) by lra.
    assert (Y0 : norm3 (q t) <= d) by apply (HY t Ht).
    assert (Y1 : 1 * al * norm3 (sub3 (vec (E t)) (vec (E t0))) <= 1 * al * (R0 * h)) by (apply Rmult_le_compat_l; lra).
    assert (Y2 : ga * norm3 (sub3 (om t) (om t0)) <= ga * ((C1 * R0 + d) * h)) by (apply Rmult_le_compat_l; lra).
    assert (Y3 : m * norm3 (sub3 (sm_G om H t) (sm_G om H t0)) <= m * (cg * h)) by (apply Rmult_le_compat_l; lra).
    assert (Y4 : al * R0 + ga * (C1 * R0 + d) + m * cg <= C2 * (R0 + d)).
    { unfold C2, cg. assert (0 <= al * d) by (apply Rmult_le_pos; lra). assert (0 <= ga * R0) by (apply Rmult_le_pos; lra). assert (0 <= ga * (C1 * d)) by (apply Rmult_le_pos; [lra|apply Rmult_le_pos; lra]).
      assert (0 <= m * R0) by (apply Rmult_le_pos; lra). assert (0 <= m * N) by (apply Rmult_le_pos; lra). assert (0 <= m * N * R0) by (apply Rmult_le_pos; lra). assert (0 <= m * N * d) by (apply Rmult_le_pos; lra). assert (0 <= m * N * d * C1) by (apply Rmult_le_pos; lra). lra. }
    assert (Y5 : h * (al * R0 + ga * (C1 * R0 + d) + m * cg) <= h * (C2 * (R0 + d))) by (apply Rmult_le_compat_l; lra). lra. }
  split.
  - intros t Ht. rewrite !EV. split; [assert (K := VR t Ht); lra|]. assert (K := AR t Ht). assert (P := norm3_pos (a t)). assert (K2 : norm3 (a t) * norm3 (a t) <= (C1 * R0 + d) * (C1 * R0 + d)) by (apply Rmult_le_compat; assumption).
    assert (Z := pow2_ge_0 (C1 * R0 - d)). assert (K3 : C1 * C1 * (R0 * R0) <= C1 * C1 * (2 * V t0 + d * d)) by (apply Rmult_le_compat_l; assumption). assert (0 <= C1 * C1 * V t0) by (apply Rmult_le_pos; lra). assert (0 <= C1 * C1 * (d * d)) by (apply Rmult_le_pos; lra). assert (0 <= Cw * (V t0 + d * d)) by (apply Rmult_le_pos; lra). lra.
  - rewrite !EW, EV. set (cw := - (3 / 4 * l) * V t0 + Cw * (d * d)).
    assert (WB : forall t, sm_T h t0 t -> al * r t + dot3 (om t) (a t) + e * (x t * n t / 2 + s * dot3 (vec (E t)) (a t)) <= cw).
    { intros t Ht. destruct (FA t Ht) as (_ & N1 & N2 & _). destruct (w_point al ga 1 e (x t) (n t) (r t) A G ltac:(lra) E0 EC (X12 t Ht) N1 N2) as [_ P]. fold l in P. change (2 * al * (1 - x t) + n t / 2) with (V t) in P.
      assert (EQ : al * r t + dot3 (om t) (a t) + e * (x t * n t / 2 + s * dot3 (vec (E t)) (a t)) =
        (- ga * n t + e * (x t * n t / 2 - al * (1 - x t ^ 2) - ga * r t)) + (dot3 (om t) (df t) + e * (s * dot3 (vec (E t)) (df t)))).
      { assert (AD : a t = add3 (sm_ex al ga s E om t) (df t)) by (unfold df; generalize (a t) (sm_ex al ga s E om t); clear; intros [a b c] [d e f]; vunfoldg; rnumg; apply mk3_c; ring). rewrite AD.
        assert (U := unit_split _ (UE t Ht)). assert (X2 : 1 - x t ^ 2 = s * s * dot3 (vec (E t)) (vec (E t))) by (rewrite U; unfold x, sm_x; replace ((s * qw (E t)) ^ 2) with (s * s * qw (E t) ^ 2) by ring; rewrite SS; ring).
        rewrite X2. unfold sm_ex, r, sm_r. generalize (df t). unfold n, sm_n. generalize (vec (E t)) (om t) (x t). clear. intros [a b c] [d e' f] X [g h i]. vunfoldg; rnumg. cbn [x3 y3 z3]. ring. }
      rewrite EQ. assert (DT := DB t Ht). assert (P1 := dot_norm (om t) (df t)). assert (P2 := dot_norm (vec (E t)) (df t)).
      assert (O := OMR t Ht). assert (W := EVR t Ht). assert (Pd := norm3_pos (df t)). assert (Po := norm3_pos (om t)). assert (Pv := norm3_pos (vec (E t))). set (z := h * (C2 * (R0 + d)) + d) in *.
      assert (Z1 : norm3 (om t) * norm3 (df t) <= 2 * R0 * z) by (apply Rmult_le_compat; assumption).
      assert (Z2 : norm3 (vec (E t)) * norm3 (df t) <= ka * R0 * z) by (apply Rmult_le_compat; assumption).
      assert (Z3 : s * dot3 (vec (E t)) (df t) <= ka * R0 * z) by (eapply Rle_trans; [apply Rle_abs|]; rewrite Rabs_mult, S1; lra).
      assert (Z4 : e * (s * dot3 (vec (E t)) (df t)) <= e * (ka * R0 * z)) by (apply Rmult_le_compat_l; lra).
      assert (Z5 := Rle_abs (dot3 (om t) (df t))).
      assert (Z6 : 2 * R0 * z + e * (ka * R0 * z) = h * (g * C2) * (R0 * R0 + R0 * d) + g * (R0 * d)) by (unfold g, z; ring).
      assert (GC : 0 <= h * (g * C2)) by (apply Rmult_le_pos; [lra|apply Rmult_le_pos; lra]).
      assert (Z7 : h * (g * C2) * (R0 * R0 + R0 * d) <= h * (g * C2) * (2 * (R0 * R0 + d * d))) by (apply Rmult_le_compat_l; lra).
      assert (Z8 : g * (R0 * d) <= l / 16 * (R0 * R0) + 4 * (g * g) / l * (d * d)).
      { assert (X := pow2_ge_0 (l * R0 / 4 - 2 * g * d)). apply (Rmult_le_reg_r l); [exact L0|]. replace ((l / 16 * (R0 * R0) + 4 * (g * g) / l * (d * d)) * l) with (l * l / 16 * (R0 * R0) + 4 * (g * g) * (d * d)) by (field; lra). lra. }
      assert (VM := VMOVE t Ht). assert (Z9 : l * (V t0 - h * cv) <= l * V t) by (apply Rmult_le_compat_l; lra).
      assert (Z10 : l * (h * cv) + h * (g * C2) * (2 * (R0 * R0 + d * d)) <= h * C5 * (R0 * R0 + d * d)).
      { unfold cv, C5. assert (0 <= l * (h * (C0 * (d * d)))) by (apply Rmult_le_pos; [lra|apply Rmult_le_pos; [lra|apply Rmult_le_pos; lra]]). lra. }
      assert (Z11 : h * C5 * (R0 * R0 + d * d) <= l / 16 * (R0 * R0 + d * d)) by (apply Rmult_le_compat_r; lra).
      assert (Z12 : l / 8 * (R0 * R0) <= l / 8 * (2 * V t0 + d * d)) by (apply Rmult_le_compat_l; lra).
      unfold cw, Cw. lra. }
    assert (Q : V (t0 + h) + e * r (t0 + h) - cw * (t0 + h) <= V t0 + e * r t0 - cw * t0).
    { apply (le_of_deriv (fun u => V u + e * r u - cw * u) (fun u => al * r u + dot3 (om u) (a u) + e * (x u * n u / 2 + s * dot3 (vec (E u)) (a u)) - cw) t0 (t0 + h) ltac:(lra)); intros u Hu; [|assert (K := WB u Hu); lra].
      apply d_minus; [apply d_plus; [apply DV, Hu|apply d_scal, DR, Hu]|apply LIN]. }
    assert (0 <= (4 * (C1 * C1) + 2) * h * (d * d)) by (apply Rmult_le_pos; [apply Rmult_le_pos; lra|exact DD0]). unfold cw in Q. lra.
Qed.
