(** * Sampled tracking: the Lyapunov function over one control period *)
From Coq Require Import Reals Lra Psatz Lia.
From Verif Require Import Num Vec M_vector M_quaternion S_rot S_dyn P_quat P_struct P_dyn P_dyn2 P_ctrl2 P_vec2 P_conv P_tot3 P_orb3 P_posf P_detum P_samp.
From Verif Require P_exist3 P_ctrl3.
Local Open Scope R_scope.

Lemma rabs_b x b : Rabs x <= b -> - b <= x <= b.
Proof. intros K. assert (A := Rle_abs x). assert (B := Rle_abs (- x)). rewrite Rabs_Ropp in B. lra. Qed.
Definition sm_ka (al : R) : R := / sqrt al.
Definition sm_C1 (al ga m N : R) : R := al * sm_ka al + 2 * ga + 4 * m * N.
Definition sm_C0 (al ga m N : R) : R := 2 * al * sm_ka al + 2 * sm_C1 al ga m N.
Definition sm_C2 (al ga m N B : R) : R := al + ga * sm_C1 al ga m N + m * N * (sm_C1 al ga m N + 4 * sqrt (2 * B)).
Definition sm_C4 (al ga m N B e : R) : R := (2 + e * sm_ka al) * sm_C2 al ga m N B.
Lemma ka_spec al : 0 < al -> 0 < sm_ka al /\ al * (sm_ka al * sm_ka al) = 1.
Proof. intros A. assert (S := sqrt_lt_R0 al A). assert (Q := sqrt_sqrt al ltac:(lra)). unfold sm_ka. split; [apply Rinv_0_lt_compat, S|]. rewrite <- Q at 1. field. lra. Qed.

Section Period.
Variables (al ga de e m N B s h t0 : R) (Ji : m3) (E : R -> quat) (om H : R -> v3).
Hypotheses (A : 0 < al) (G : 0 < ga) (D : 0 < de) (E0 : 0 < e) (EC : e <= cv_eps al ga) (M0 : 0 <= m) (N0 : 0 <= N) (B0 : 0 <= B) (SS : s * s = 1) (h0 : 0 < h).
Definition sm_T (t : R) : Prop := t0 <= t <= t0 + h.
Definition sm_x (t : R) : R := s * qw (E t).
Definition sm_n (t : R) : R := dot3 (om t) (om t).
Definition sm_r (t : R) : R := s * dot3 (vec (E t)) (om t).
Definition sm_V (t : R) : R := 2 * al * (1 - sm_x t) + sm_n t / 2.
Definition sm_W (t : R) : R := sm_V t + e * sm_r t.
Definition sm_G (t : R) : v3 := cross3 (om t) (H t).
Definition sm_ex (t : R) : v3 := sub3 (scale3 (- s * al) (vec (E t))) (scale3 ga (om t)).
Definition sm_a (t : R) : v3 := add3 (sm_ex t0) (mv Ji (sub3 (sm_G t0) (sm_G t))).
Definition sm_d (t : R) : v3 := sub3 (sm_a t) (sm_ex t).
Hypothesis DE : forall t, sm_T t -> derivq E t (scaleq 0.5 (product (E t) (pure (om t)))).
Hypothesis DO : forall t, sm_T t -> deriv3 om t (sm_a t).
Hypothesis DH : forall t, sm_T t -> deriv3 H t (opp3 (cross3 (om t) (H t))).
Hypothesis UE : forall t, sm_T t -> unitq (E t).
Hypothesis NH : forall t, sm_T t -> norm3 (H t) <= N.
Hypothesis NJ : forall v, norm3 (mv Ji v) <= m * norm3 v.
Hypothesis VB : sm_V t0 <= B.
Hypothesis X0 : -1 + 2 * de <= sm_x t0.
Hypothesis HC0 : h * sm_C0 al ga m N <= 1 / 4.
Hypothesis HC4 : 8 * (h * sm_C4 al ga m N B e) <= Rmin ga (e * de / 4).
Hypothesis HX : h * sqrt (2 * B) <= de.

Lemma T_0 : sm_T t0. Proof. unfold sm_T. lra. Qed.
Lemma NR t : sm_T t -> -1 <= sm_x t <= 1 /\ 0 <= sm_n t /\ sm_r t ^ 2 <= (1 - sm_x t ^ 2) * sm_n t /\ dot3 (vec (E t)) (vec (E t)) <= 2 * (1 - sm_x t) /\ dot3 (vec (E t)) (vec (E t)) <= 1.
Proof.
  intros Ht. assert (U := unit_split _ (UE t Ht)). assert (V0 := P_quat.dot3_nonneg (vec (E t))).
  assert (X2 : sm_x t ^ 2 = qw (E t) ^ 2) by (unfold sm_x; replace ((s * qw (E t)) ^ 2) with (s * s * qw (E t) ^ 2) by ring; rewrite SS; ring).
  assert (B1 : -1 <= sm_x t <= 1) by nra. split; [exact B1|]. split; [apply P_quat.dot3_nonneg|]. split; [|split; nra].
  unfold sm_r. replace ((s * dot3 (vec (E t)) (om t)) ^ 2) with (s * s * dot3 (vec (E t)) (om t) ^ 2) by ring. rewrite SS, X2, <- U.
  assert (K := P_quat.dot3_nonneg (cross3 (vec (E t)) (om t))).
  assert (Q : dot3 (cross3 (vec (E t)) (om t)) (cross3 (vec (E t)) (om t)) = dot3 (vec (E t)) (vec (E t)) * dot3 (om t) (om t) - dot3 (vec (E t)) (om t) ^ 2) by (generalize (vec (E t)) (om t); clear; intros [a b c] [d e f]; vunfoldg; rnumg; ring).
  unfold sm_n. lra.
Qed.
Lemma V_nonneg t : sm_T t -> 0 <= sm_V t /\ sm_n t <= 2 * sm_V t /\ al * dot3 (vec (E t)) (vec (E t)) <= sm_V t.
Proof. intros Ht. destruct (NR t Ht) as (B1 & B2 & _ & B4 & _). unfold sm_V. assert (0 <= 2 * al * (1 - sm_x t)) by (apply Rmult_le_pos; lra). split; [lra|]. split; [lra|]. nra. Qed.

Lemma DX t : sm_T t -> derivable_pt_lim sm_x t (- (sm_r t / 2)).
Proof. intros Ht. unfold sm_x. eapply d_eq; [apply d_scal; exact (proj1 (DE t Ht))|]. rewrite err_w. unfold sm_r. field. Qed.
Lemma DN t : sm_T t -> derivable_pt_lim sm_n t (2 * dot3 (om t) (sm_a t)).
Proof. intros Ht. unfold sm_n. eapply d_eq; [apply d_dot3; exact (DO t Ht)|]. generalize (om t) (sm_a t). clear. intros [a b c] [d e f]; vunfoldg; rnumg; ring. Qed.
Lemma DR t : sm_T t -> derivable_pt_lim sm_r t (sm_x t * sm_n t / 2 + s * dot3 (vec (E t)) (sm_a t)).
Proof.
  intros Ht. unfold sm_r. eapply d_eq; [apply d_scal; apply d_dot3; [apply d3_vec; exact (DE t Ht)|exact (DO t Ht)]|].
  cbv beta. rewrite err_v_dot. unfold sm_x, sm_n. field.
Qed.
Lemma DV t : sm_T t -> derivable_pt_lim sm_V t (al * sm_r t + dot3 (om t) (sm_a t)).
Proof.
  intros Ht. unfold sm_V. eapply d_eq. { apply d_plus; [apply d_scal, d_minus; [apply d_const|apply DX, Ht]|unfold Rdiv; apply d_mult; [apply DN, Ht|apply d_const]]. } cbv beta. field.
Qed.
Lemma DW t : sm_T t -> derivable_pt_lim sm_W t (al * sm_r t + dot3 (om t) (sm_a t) + e * (sm_x t * sm_n t / 2 + s * dot3 (vec (E t)) (sm_a t))).
Proof. intros Ht. unfold sm_W. apply d_plus; [apply DV, Ht|apply d_scal, DR, Ht]. Qed.

(** the largest energy over the period *)
Lemma V_max : exists tm, sm_T tm /\ forall t, sm_T t -> sm_V t <= sm_V tm.
Proof.
  destruct (continuity_ab_maj sm_V t0 (t0 + h)) as (tm & M & HM); [lra| |].
  - intros c Hc. apply derivable_continuous_pt. eexists. apply DV. exact Hc.
  - exists tm. split; [exact HM|exact M].
Qed.
Section Max.
Variable R0 : R.
Hypothesis (RP : 0 <= R0) (VR : forall t, sm_T t -> sm_V t <= R0 * R0).
Local Notation ka := (sm_ka al).
Local Notation C1 := (sm_C1 al ga m N).
Lemma om_R t : sm_T t -> norm3 (om t) <= 2 * R0.
Proof. intros Ht. apply P_exist3.norm3_le_sq; [lra|]. destruct (V_nonneg t Ht) as (_ & K & _). assert (V := VR t Ht). unfold sm_n in K. nra. Qed.
Lemma ev_R t : sm_T t -> norm3 (vec (E t)) <= ka * R0.
Proof.
  intros Ht. destruct (ka_spec al A) as (K0 & K1). apply P_exist3.norm3_le_sq; [apply Rmult_le_pos; lra|]. destruct (V_nonneg t Ht) as (_ & _ & K). assert (V := VR t Ht).
  apply (Rmult_le_reg_l al); [exact A|]. replace (al * (ka * R0 * (ka * R0))) with (al * (ka * ka) * (R0 * R0)) by ring. rewrite K1. lra.
Qed.
Lemma r_R t : sm_T t -> Rabs (sm_r t) <= 2 * ka * (R0 * R0) /\ Rabs (sm_r t) <= 2 * R0.
Proof.
  intros Ht. assert (O := om_R t Ht). assert (V := ev_R t Ht). assert (P := norm3_pos (om t)). assert (Q := norm3_pos (vec (E t))). assert (K := dot_norm (vec (E t)) (om t)).
  assert (S1 : Rabs s = 1) by (apply Rsqr_inj_abs in SS || (assert (Z := pow2_abs s); assert (Z' := Rabs_pos s); assert (s ^ 2 = 1) by (rewrite <- SS; ring); nra); lra).
  assert (I1 : norm3 (vec (E t)) <= 1) by (apply P_exist3.norm3_le_sq; [lra|]; destruct (NR t Ht) as (_ & _ & _ & _ & L); lra).
  unfold sm_r. rewrite Rabs_mult, S1. split; nra.
Qed.
Lemma ex_R t : sm_T t -> norm3 (sm_ex t) <= (al * ka + 2 * ga) * R0.
Proof.
  intros Ht. unfold sm_ex. eapply Rle_trans; [apply sub_norm|]. rewrite !norm3_scal. assert (O := om_R t Ht). assert (V := ev_R t Ht).
  assert (S1 : Rabs (- s * al) = al). { rewrite Rabs_mult, Rabs_Ropp, (Rabs_right al) by lra. assert (Z := pow2_abs s); assert (Z' := Rabs_pos s); assert (s ^ 2 = 1) by (rewrite <- SS; ring). assert (Rabs s = 1) by nra. nra. }
  rewrite S1, (Rabs_right ga) by lra. nra.
Qed.
Lemma G_R t : sm_T t -> norm3 (sm_G t) <= 2 * R0 * N.
Proof. intros Ht. unfold sm_G. eapply Rle_trans; [apply cross_norm|]. assert (O := om_R t Ht). assert (P := norm3_pos (om t)). assert (Q := norm3_pos (H t)). assert (K := NH t Ht). apply Rmult_le_compat; assumption. Qed.
Lemma a_R t : sm_T t -> norm3 (sm_a t) <= C1 * R0.
Proof.
  intros Ht. unfold sm_a. eapply Rle_trans; [apply norm3_triangle|]. assert (K1 := ex_R t0 T_0). assert (K2 := NJ (sub3 (sm_G t0) (sm_G t))). assert (K3 := sub_norm (sm_G t0) (sm_G t)).
  assert (K4 := G_R t0 T_0). assert (K5 := G_R t Ht). unfold sm_C1.
  assert (m * norm3 (sub3 (sm_G t0) (sm_G t)) <= m * (4 * (R0 * N))) by (apply Rmult_le_compat_l; lra). lra.
Qed.
Lemma V_rate t : sm_T t -> Rabs (al * sm_r t + dot3 (om t) (sm_a t)) <= sm_C0 al ga m N * (R0 * R0).
Proof.
  intros Ht. destruct (r_R t Ht) as [K1 _]. assert (K2 := dot_norm (om t) (sm_a t)). assert (K3 := om_R t Ht). assert (K4 := a_R t Ht). assert (P := norm3_pos (om t)). assert (Q := norm3_pos (sm_a t)).
  eapply Rle_trans; [apply Rabs_triang|]. rewrite Rabs_mult, (Rabs_right al) by lra. unfold sm_C0.
  assert (al * Rabs (sm_r t) <= al * (2 * ka * (R0 * R0))) by (apply Rmult_le_compat_l; lra). assert (norm3 (om t) * norm3 (sm_a t) <= 2 * R0 * (C1 * R0)) by (apply Rmult_le_compat; assumption). lra.
Qed.
Lemma V_move t : sm_T t -> Rabs (sm_V t - sm_V t0) <= h * sm_C0 al ga m N * (R0 * R0).
Proof.
  intros Ht. set (c := sm_C0 al ga m N * (R0 * R0)). assert (C : 0 <= c) by (assert (K := V_rate t0 T_0); assert (Q := Rabs_pos (al * sm_r t0 + dot3 (om t0) (sm_a t0))); unfold c; lra).
  assert (L1 := le_of_deriv (fun u => sm_V u - c * u) (fun u => al * sm_r u + dot3 (om u) (sm_a u) - c) t0 t (proj1 Ht)).
  assert (L2 := le_of_deriv (fun u => - sm_V u - c * u) (fun u => - (al * sm_r u + dot3 (om u) (sm_a u)) - c) t0 t (proj1 Ht)).
  assert (LIN : forall u, derivable_pt_lim (fun u => c * u) u c) by (intros u; eapply d_eq; [apply d_scal, d_id|]; ring).
  assert (IN : forall u, t0 <= u <= t -> sm_T u) by (unfold sm_T in *; intros; lra).
  assert (Q1 : sm_V t - c * t <= sm_V t0 - c * t0).
  { apply L1; intros u Hu; [apply d_minus; [apply DV, IN, Hu|apply LIN]|]. assert (K := V_rate u (IN u Hu)). fold c in K. apply rabs_b in K. lra. }
  assert (Q2 : - sm_V t - c * t <= - sm_V t0 - c * t0).
  { apply L2; intros u Hu; [apply d_minus; [apply d_opp, DV, IN, Hu|apply LIN]|]. assert (K := V_rate u (IN u Hu)). fold c in K. apply rabs_b in K. lra. }
  assert (c * (t - t0) <= c * h) by (apply Rmult_le_compat_l; [exact C|unfold sm_T in Ht; lra]). apply Rabs_le. unfold c in *. lra.
Qed.
End Max.

Lemma V_range : forall t, sm_T t -> sm_V t0 / 2 <= sm_V t <= 2 * sm_V t0.
Proof.
  destruct V_max as (tm & Hm & MX). destruct (V_nonneg tm Hm) as (Vm & _). set (R0 := sqrt (sm_V tm)). assert (RR : R0 * R0 = sm_V tm) by (apply sqrt_sqrt, Vm). assert (RP : 0 <= R0) by apply sqrt_pos.
  assert (MV := V_move R0 RP ltac:(intros u Hu; rewrite RR; apply MX, Hu)). rewrite RR in MV. assert (KC : h * sm_C0 al ga m N * sm_V tm <= 1 / 4 * sm_V tm) by (apply Rmult_le_compat_r; lra).
  assert (K := MV tm Hm). apply rabs_b in K. intros t Ht. assert (Kt := MV t Ht). apply rabs_b in Kt. lra.
Qed.
Local Notation C1 := (sm_C1 al ga m N).
Local Notation C2 := (sm_C2 al ga m N B).
Local Notation l := (Rmin ga (e * de / 4)).
Lemma period_W : forall t, sm_T t -> sm_V t <= 2 * sm_V t0 /\ sm_W t <= sm_W t0 - l / 4 * sm_V t0 * (t - t0).
Proof.
  destruct (V_nonneg t0 T_0) as (V0 & _). set (R0 := sqrt (2 * sm_V t0)). assert (RR : R0 * R0 = 2 * sm_V t0) by (apply sqrt_sqrt; lra). assert (RP : 0 <= R0) by apply sqrt_pos.
  assert (RB : R0 <= sqrt (2 * B)) by (apply sqrt_le_1; lra). set (RM := sqrt (2 * B)) in *.
  assert (VR : forall t, sm_T t -> sm_V t <= R0 * R0) by (intros t Ht; rewrite RR; apply V_range, Ht).
  destruct (ka_spec al A) as (K0 & K1). set (ka := sm_ka al) in *.
  assert (S1 : Rabs s = 1) by (assert (Z := pow2_abs s); assert (Z' := Rabs_pos s); assert (s ^ 2 = 1) by (rewrite <- SS; ring); nra).
  assert (C1p : 0 <= C1) by (unfold sm_C1; fold ka; assert (0 <= al * ka) by (apply Rmult_le_pos; lra); assert (0 <= m * N) by (apply Rmult_le_pos; lra); lra).
  assert (XT : forall t, sm_T t -> -1 + de <= sm_x t <= 1).
  { intros t Ht. split; [|apply (NR t Ht)]. assert (L := le_of_deriv (fun u => - sm_x u - RM * u) (fun u => - - (sm_r u / 2) - RM) t0 t (proj1 Ht)).
    assert (IN : forall u, t0 <= u <= t -> sm_T u) by (unfold sm_T in *; intros; lra).
    assert (Q : - sm_x t - RM * t <= - sm_x t0 - RM * t0).
    { apply L; intros u Hu; [apply d_minus; [apply d_opp, DX, IN, Hu|eapply d_eq; [apply d_scal, d_id|]; ring]|]. destruct (r_R R0 RP VR u (IN u Hu)) as [_ K]. apply rabs_b in K. lra. }
    assert (RM * (t - t0) <= RM * h) by (apply Rmult_le_compat_l; [apply sqrt_pos|unfold sm_T in Ht; lra]). lra. }
  assert (DB : forall t, sm_T t -> norm3 (sm_d t) <= h * (C2 * R0)).
  { intros t Ht. assert (IN : forall u, t0 <= u <= t -> sm_T u) by (unfold sm_T in *; intros; lra). assert (TH : t - t0 <= h) by (unfold sm_T in Ht; lra). assert (TP : t0 <= t) by apply Ht.
    assert (Q1 : norm3 (sub3 (vec (E t)) (vec (E t0))) <= R0 * h).
    { assert (X := vmvt (fun u => vec (E u)) (fun u => vec (scaleq 0.5 (product (E u) (pure (om u))))) t0 t R0 TP).
      eapply Rle_trans; [apply X; intros u Hu; [apply d3_vec, DE, IN, Hu|]|]; [|apply Rmult_le_compat_l; lra].
      eapply Rle_trans; [apply err_v_norm, UE, IN, Hu|]. assert (O := om_R R0 RP VR u (IN u Hu)). lra. }
    assert (Q2 : norm3 (sub3 (om t) (om t0)) <= C1 * R0 * h).
    { eapply Rle_trans; [apply (vmvt om sm_a t0 t (C1 * R0) TP); intros u Hu; [apply DO, IN, Hu|apply (a_R R0 RP VR), IN, Hu]|]. apply Rmult_le_compat_l; [apply Rmult_le_pos; lra|lra]. }
    assert (Q3 : norm3 (sub3 (sm_G t) (sm_G t0)) <= R0 * N * (C1 + 4 * RM) * h).
    { eapply Rle_trans; [apply (vmvt sm_G (fun u => add3 (cross3 (sm_a u) (H u)) (cross3 (om u) (opp3 (cross3 (om u) (H u))))) t0 t (R0 * N * (C1 + 4 * RM)) TP); intros u Hu|].
      - unfold sm_G. apply P_exist3.d3_cross; [apply DO, IN, Hu|apply DH, IN, Hu].
      - eapply Rle_trans; [apply norm3_triangle|]. assert (T1 := cross_norm (sm_a u) (H u)). assert (T2 := cross_norm (om u) (opp3 (cross3 (om u) (H u)))). rewrite norm3_opp in T2. assert (T3 := cross_norm (om u) (H u)).
        assert (U1 := a_R R0 RP VR u (IN u Hu)). assert (U2 := om_R R0 RP VR u (IN u Hu)). assert (U3 := NH u (IN u Hu)). assert (P1 := norm3_pos (sm_a u)). assert (P2 := norm3_pos (om u)). assert (P3 := norm3_pos (H u)). assert (P4 := norm3_pos (cross3 (om u) (H u))).
        assert (Z1 : norm3 (sm_a u) * norm3 (H u) <= C1 * R0 * N) by (apply Rmult_le_compat; assumption).
        assert (Z2 : norm3 (om u) * norm3 (H u) <= 2 * R0 * N) by (apply Rmult_le_compat; assumption).
        assert (Z3 : norm3 (om u) * norm3 (cross3 (om u) (H u)) <= 2 * R0 * (2 * R0 * N)) by (apply Rmult_le_compat; [assumption|assumption|assumption|lra]).
        assert (Z4 : R0 * N * R0 <= R0 * N * RM) by (apply Rmult_le_compat_l; [apply Rmult_le_pos; assumption|exact RB]). lra.
      - apply Rmult_le_compat_l; [|lra]. apply Rmult_le_pos; [apply Rmult_le_pos; lra|]. assert (0 <= RM) by apply sqrt_pos. lra. }
    assert (Q4 := NJ (sub3 (sm_G t0) (sm_G t))).
    assert (SW : norm3 (sub3 (sm_G t0) (sm_G t)) = norm3 (sub3 (sm_G t) (sm_G t0))) by (rewrite <- norm3_opp; f_equal; generalize (sm_G t0) (sm_G t); clear; intros [a b c] [d e f]; vunfoldg; rnumg; apply mk3_c; ring).
    rewrite SW in Q4.
    assert (DD : sm_d t = add3 (add3 (scale3 (s * al) (sub3 (vec (E t)) (vec (E t0)))) (scale3 ga (sub3 (om t) (om t0)))) (mv Ji (sub3 (sm_G t0) (sm_G t)))).
    { unfold sm_d, sm_a, sm_ex. generalize (mv Ji (sub3 (sm_G t0) (sm_G t))) (vec (E t)) (vec (E t0)) (om t) (om t0). clear. intros [a b c] [d e f] [g h i] [j k l] [m n o]; vunfoldg; rnumg; apply mk3_c; ring. }
    rewrite DD. eapply Rle_trans; [apply norm3_triangle|]. eapply Rle_trans; [apply Rplus_le_compat_r, norm3_triangle|]. rewrite !norm3_scal, Rabs_mult, S1, (Rabs_right al), (Rabs_right ga) by lra.
    assert (Y1 : 1 * al * norm3 (sub3 (vec (E t)) (vec (E t0))) <= 1 * al * (R0 * h)) by (apply Rmult_le_compat_l; lra).
    assert (Y2 : ga * norm3 (sub3 (om t) (om t0)) <= ga * (C1 * R0 * h)) by (apply Rmult_le_compat_l; lra).
    assert (Y3 : m * norm3 (sub3 (sm_G t) (sm_G t0)) <= m * (R0 * N * (C1 + 4 * RM) * h)) by (apply Rmult_le_compat_l; lra).
    unfold sm_C2. fold RM. lra. }
  assert (WB : forall t, sm_T t -> al * sm_r t + dot3 (om t) (sm_a t) + e * (sm_x t * sm_n t / 2 + s * dot3 (vec (E t)) (sm_a t)) <= - (l / 4) * sm_V t0).
  { intros t Ht. destruct (NR t Ht) as (_ & N1 & N2 & _). destruct (w_point al ga de e (sm_x t) (sm_n t) (sm_r t) A G D E0 EC (XT t Ht) N1 N2) as [_ P]. fold (sm_V t) in P.
    assert (EQ : al * sm_r t + dot3 (om t) (sm_a t) + e * (sm_x t * sm_n t / 2 + s * dot3 (vec (E t)) (sm_a t)) =
      (- ga * sm_n t + e * (sm_x t * sm_n t / 2 - al * (1 - sm_x t ^ 2) - ga * sm_r t)) + (dot3 (om t) (sm_d t) + e * (s * dot3 (vec (E t)) (sm_d t)))).
    { assert (AD : sm_a t = add3 (sm_ex t) (sm_d t)) by (unfold sm_d; generalize (sm_a t) (sm_ex t); clear; intros [a b c] [d e f]; vunfoldg; rnumg; apply mk3_c; ring). rewrite AD.
      assert (U := unit_split _ (UE t Ht)). assert (X2 : 1 - sm_x t ^ 2 = s * s * dot3 (vec (E t)) (vec (E t))) by (rewrite U; unfold sm_x; replace ((s * qw (E t)) ^ 2) with (s * s * qw (E t) ^ 2) by ring; rewrite SS; ring).
      rewrite X2. unfold sm_ex, sm_r. generalize (sm_d t). unfold sm_n. generalize (vec (E t)) (om t) (sm_x t). clear. intros [a b c] [d e' f] X [g h i]. vunfoldg; rnumg. cbn [x3 y3 z3]. ring. }
    rewrite EQ. assert (DT := DB t Ht). assert (P1 := dot_norm (om t) (sm_d t)). assert (P2 := dot_norm (vec (E t)) (sm_d t)).
    assert (O := om_R R0 RP VR t Ht). assert (V := ev_R R0 RP VR t Ht). fold ka in V. assert (Pd := norm3_pos (sm_d t)). assert (Po := norm3_pos (om t)). assert (Pv := norm3_pos (vec (E t))).
    assert (Z1 : norm3 (om t) * norm3 (sm_d t) <= 2 * R0 * (h * (C2 * R0))) by (apply Rmult_le_compat; assumption).
    assert (Z2 : norm3 (vec (E t)) * norm3 (sm_d t) <= ka * R0 * (h * (C2 * R0))) by (apply Rmult_le_compat; assumption).
    assert (Z3 : s * dot3 (vec (E t)) (sm_d t) <= ka * R0 * (h * (C2 * R0))).
    { eapply Rle_trans; [apply Rle_abs|]. rewrite Rabs_mult, S1. lra. }
    assert (Z4 : e * (s * dot3 (vec (E t)) (sm_d t)) <= e * (ka * R0 * (h * (C2 * R0)))) by (apply Rmult_le_compat_l; lra).
    assert (Z5 := Rle_abs (dot3 (om t) (sm_d t))).
    assert (Z6 : 2 * R0 * (h * (C2 * R0)) + e * (ka * R0 * (h * (C2 * R0))) = h * sm_C4 al ga m N B e * (R0 * R0)) by (unfold sm_C4; fold ka; ring).
    rewrite RR in Z6. destruct (V_range t Ht) as [VL _]. assert (L0 : 0 < l) by (apply Rmin_pos; [exact G|]; assert (0 < e * de) by (apply Rmult_lt_0_compat; assumption); lra).
    assert (Z7 : - l * sm_V t <= - l * (sm_V t0 / 2)) by nra.
    assert (Z8 : h * sm_C4 al ga m N B e * (2 * sm_V t0) <= l / 8 * (2 * sm_V t0)) by (apply Rmult_le_compat_r; lra). lra. }
  intros t Ht. split; [apply V_range, Ht|].
  assert (IN : forall u, t0 <= u <= t -> sm_T u) by (unfold sm_T in *; intros; lra).
  assert (L := le_of_deriv (fun u => sm_W u + l / 4 * sm_V t0 * u) (fun u => al * sm_r u + dot3 (om u) (sm_a u) + e * (sm_x u * sm_n u / 2 + s * dot3 (vec (E u)) (sm_a u)) + l / 4 * sm_V t0) t0 t (proj1 Ht)).
  assert (Q : sm_W t + l / 4 * sm_V t0 * t <= sm_W t0 + l / 4 * sm_V t0 * t0).
  { apply L; intros u Hu; [apply d_plus; [apply DW, IN, Hu|eapply d_eq; [apply d_scal, d_id|]; ring]|]. assert (K := WB u (IN u Hu)). lra. }
  lra.
Qed.
Lemma W_V t : sm_T t -> -1 <= sm_x t -> Rabs (sm_W t - sm_V t) <= e * (/ (2 * al) + 1) * sm_V t.
Proof.
  intros Ht _. unfold sm_W. replace (sm_V t + e * sm_r t - sm_V t) with (e * sm_r t) by ring. destruct (NR t Ht) as (B1 & N1 & N2 & _).
  rewrite Rabs_mult, (Rabs_right e), Rmult_assoc by lra. apply Rmult_le_compat_l; [lra|].
  assert (RA : Rabs (sm_r t) <= (1 - sm_x t ^ 2 + sm_n t) / 2). { apply Rabs_le. assert (0 <= (1 - sm_x t ^ 2 - sm_n t) ^ 2) by apply pow2_ge_0. assert (0 <= 1 - sm_x t ^ 2) by nra. split; nra. }
  assert (I : 0 < / (2 * al)) by (apply Rinv_0_lt_compat; lra). unfold sm_V.
  replace ((/ (2 * al) + 1) * (2 * al * (1 - sm_x t) + sm_n t / 2)) with ((1 - sm_x t) + sm_n t / 2 + (2 * al * (1 - sm_x t)) + / (2 * al) * (sm_n t / 2)) by (field; lra).
  assert (0 <= / (2 * al) * (sm_n t / 2)) by (apply Rmult_le_pos; lra). assert (0 <= 2 * al * (1 - sm_x t)) by nra. nra.
Qed.
End Period.
