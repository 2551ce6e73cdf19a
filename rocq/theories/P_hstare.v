(** * P_hstare: one period of POINT with the command held *)
From Coq Require Import Reals ZArith List Bool Lra Lia Psatz.
From Verif Require Import Num Vec M_vector M_quaternion M_jday M_struct M_dyn M_ctrl S_rot S_dyn S_ctrl.
From Verif Require Import P_quat P_struct P_wheel P_dyn P_dyn2 P_obs P_ctrl P_ctrl2 P_ctrl3 P_ctrl4 P_ctrl5 P_conv P_ode P_tot3 P_orb3 P_posf P_detum P_samp P_samp2 Props_ctrl2 Props_conv Props_samp Props_dist P_stare.
Local Open Scope R_scope.

Definition hs_C2 (al ga m N : R) : R := 2 + al + ga + 4 * (m * N).
Definition hs_C3 (al ga m N kap Rb : R) : R := 4 * (al * / kap) + ga * hs_C2 al ga m N + hs_C2 al ga m N + m * (hs_C2 al ga m N * N + Rb * (3 * N + 1)).

Lemma pull_from (W W' : R -> R) l q t0 h : 0 < h -> (forall u, t0 <= u <= t0 + h -> derivable_pt_lim W u (W' u)) -> (forall u, t0 <= u <= t0 + h -> W' u <= - l * (W u - q)) ->
  forall t, t0 <= t <= t0 + h -> W t - q <= (W t0 - q) * exp (- l * (t - t0)).
Proof.
  intros H D L t Ht. assert (DS : forall u, 0 <= u <= t - t0 -> derivable_pt_lim (fun v => W (t0 + v)) u (W' (t0 + u))).
  { intros u Hu. eapply d_eq; [apply (derivable_pt_lim_comp (fun v => t0 + v) W); [eapply d_eq; [apply d_plus; [apply d_const|apply d_id]|reflexivity]|apply D; lra]|]. cbv beta. ring. }
  assert (X := Props_dist.pull (fun v => W (t0 + v)) (fun v => W' (t0 + v)) l q (t - t0)). cbv beta in X. replace (t0 + (t - t0)) with t in X by ring. rewrite Rplus_0_r in X. apply X.
  - lra.
  - intros u Hu. apply DS. lra.
  - intros u Hu. apply dcont. eexists. apply DS, Hu.
  - intros u Hu. apply L. lra.
Qed.

Section Period.
Variables (al ga e kap m N Rb d h t0 : R) (b : v3) (Ji : m3) (WC0 : v3) (D w OM H TT pp : R -> v3).
Let X (t : R) : v3 := haxis b (D t).
Let G (t : R) : v3 := cross3 (w t) (H t).
Let ac (t : R) : v3 := add3 (pp t) (add3 (sub3 (sub3 (scale3 al (X t0)) (scale3 ga (sub3 (w t0) WC0))) (cross3 (w t0) WC0)) (mv Ji (sub3 (G t0) (G t)))).
Let T (t : R) : Prop := t0 <= t <= t0 + h.
Hypothesis A : 0 < al. Hypothesis Ga : 0 < ga. Hypothesis E0 : 0 < e. Hypothesis KP : 0 < kap <= 1. Hypothesis M0 : 0 <= m. Hypothesis N0 : 0 <= N. Hypothesis Hd : 0 <= d <= 1. Hypothesis Hh : 0 < h.
Hypothesis UB : unit3 b. Hypothesis UD : forall t, T t -> unit3 (D t).
Hypothesis DD : forall t, T t -> deriv3 D t (cross3 (D t) (sub3 (w t) (OM t))).
Hypothesis DW : forall t, T t -> deriv3 w t (ac t).
Hypothesis DH : forall t, T t -> deriv3 H t (sub3 (TT t) (cross3 (w t) (H t))).
Hypothesis NH : forall t, T t -> norm3 (H t) <= N.
Hypothesis NJ : forall v, norm3 (mv Ji v) <= m * norm3 v.
Hypothesis SM : forall t, T t -> norm3 (OM t) <= d /\ norm3 (pp t) <= d /\ norm3 (TT t) <= d.
Hypothesis SW : norm3 WC0 <= d.
Hypothesis K0 : 2 * kap <= hcos b (D t0).
Hypothesis NR : norm3 (w t0) + 2 <= Rb.
Hypothesis H1 : h * (hs_C2 al ga m N + 4 * / kap) <= 1 / 2.
Hypothesis H2 : 2 * (h * Rb) <= 3 * (kap * kap).

Let n0 : R := norm3 (w t0).
Let x0 : R := norm3 (X t0).
Let r : R := n0 + x0 + d.
Let C2 : R := hs_C2 al ga m N.
Let C3 : R := hs_C3 al ga m N kap Rb.

Lemma hs_T0 : T t0. Proof. unfold T. lra. Qed.
Lemma hs_h0 : 0 < hcos b (D t0). Proof. lra. Qed.
Lemma hs_x1 t : T t -> 0 < hcos b (D t) -> norm3 (X t) <= 1.
Proof.
  intros Ht P. apply P_exist3.norm3_le_sq; [lra|]. destruct (haxis_sq b (D t) UB (UD t Ht) P) as (S & _). fold (X t) in S. rewrite S. assert (0 < hcos b (D t) * hcos b (D t)) by (apply Rmult_lt_0_compat; exact P). lra.
Qed.
Lemma hs_mN : 0 <= m * N. Proof. apply Rmult_le_pos; assumption. Qed.
Lemma hs_C2p : 2 < C2. Proof. unfold C2, hs_C2. assert (Z := hs_mN). lra. Qed.
Lemma hs_kk : 0 < / kap. Proof. apply Rinv_0_lt_compat. lra. Qed.
Lemma hs_hC2 : h * C2 <= 1 / 2.
Proof. assert (Z : 0 < h * / kap) by (apply Rmult_lt_0_compat; [exact Hh|exact hs_kk]). fold C2 in H1. lra. Qed.
Lemma hs_r0 : 0 <= n0 /\ 0 <= x0 <= 1 /\ 0 <= r <= Rb.
Proof. assert (Z1 := norm3_pos (w t0)). assert (Z2 := norm3_pos (X t0)). assert (Z3 := hs_x1 t0 hs_T0 hs_h0). unfold r. fold n0 in Z1, NR. fold x0 in Z2, Z3. fold n0. lra. Qed.

Lemma hs_ac M t : T t -> norm3 (w t) <= M -> norm3 (ac t) <= (2 + al + ga + m * N) * r + m * N * M.
Proof.
  intros Ht HM. destruct hs_r0 as (R1 & R2 & R3). assert (MN := hs_mN). unfold ac. destruct (SM t Ht) as (_ & S2 & _).
  eapply Rle_trans; [apply norm3_triangle|]. assert (Y1 := norm3_triangle (sub3 (sub3 (scale3 al (X t0)) (scale3 ga (sub3 (w t0) WC0))) (cross3 (w t0) WC0)) (mv Ji (sub3 (G t0) (G t)))).
  assert (Y2 := sub_norm (sub3 (scale3 al (X t0)) (scale3 ga (sub3 (w t0) WC0))) (cross3 (w t0) WC0)). assert (Y3 := sub_norm (scale3 al (X t0)) (scale3 ga (sub3 (w t0) WC0))). rewrite !norm3_scal, (Rabs_right al), (Rabs_right ga) in Y3 by lra. fold x0 in Y3.
  assert (Y4 := sub_norm (w t0) WC0). assert (Y5 := cross_norm (w t0) WC0). fold n0 in Y4, Y5.
  assert (Y6 : ga * norm3 (sub3 (w t0) WC0) <= ga * (n0 + d)) by (apply Rmult_le_compat_l; lra). assert (Y7 : n0 * norm3 WC0 <= n0 * 1) by (apply Rmult_le_compat_l; lra).
  assert (Y8 := NJ (sub3 (G t0) (G t))). assert (Y9 := sub_norm (G t0) (G t)).
  assert (G0 : norm3 (G t0) <= n0 * N). { unfold G. eapply Rle_trans; [apply cross_norm|]. fold n0. apply Rmult_le_compat_l; [exact R1|apply NH, hs_T0]. }
  assert (G1 : norm3 (G t) <= M * N). { unfold G. eapply Rle_trans; [apply cross_norm|]. apply Rmult_le_compat; try apply norm3_pos; [exact HM|apply NH, Ht]. }
  assert (Y10 : m * norm3 (sub3 (G t0) (G t)) <= m * (n0 * N + M * N)) by (apply Rmult_le_compat_l; lra).
  assert (Z1 : al * x0 <= al * r) by (apply Rmult_le_compat_l; unfold r; lra). assert (Z2 : ga * (n0 + d) <= ga * r) by (apply Rmult_le_compat_l; unfold r; lra). assert (Z3 : m * N * n0 <= m * N * r) by (apply Rmult_le_compat_l; unfold r; lra). assert (Z4 : n0 <= r /\ d <= r) by (unfold r; lra). lra.
Qed.
Lemma hs_wmax : exists tm, T tm /\ forall t, T t -> norm3 (w t) <= norm3 (w tm).
Proof.
  destruct (continuity_ab_maj (fun t => dot3 (w t) (w t)) t0 (t0 + h)) as (tm & HM & I); [lra| |].
  - intros t Ht. apply dcont. eexists. apply d_dot3; apply DW, Ht.
  - exists tm. split; [exact I|]. intros t Ht. unfold norm3. apply sqrt_le_1_alt. apply HM, Ht.
Qed.
Lemma hs_w t : T t -> norm3 (w t) <= 3 * r /\ norm3 (ac t) <= C2 * r.
Proof.
  destruct hs_wmax as (tm & IM & MX). destruct hs_r0 as (R1 & R2 & R3). set (M := norm3 (w tm)) in *. assert (MN := hs_mN). assert (HC := hs_hC2). assert (M1 := norm3_pos (w tm)). fold M in M1.
  assert (Q := vmvt w ac t0 tm ((2 + al + ga + m * N) * r + m * N * M)). assert (I2 : t0 <= tm <= t0 + h) by exact IM.
  assert (MV : norm3 (sub3 (w tm) (w t0)) <= ((2 + al + ga + m * N) * r + m * N * M) * (tm - t0)).
  { apply Q; [lra|intros u Hu; apply DW; unfold T; lra|]. intros u Hu. apply hs_ac; [unfold T; lra|]. apply MX. unfold T. lra. }
  assert (TR : M <= n0 + norm3 (sub3 (w tm) (w t0))). { unfold M, n0. replace (w tm) with (add3 (w t0) (sub3 (w tm) (w t0))) at 1; [apply norm3_triangle|]. generalize (w tm) (w t0). clear. intros [a1 a2 a3] [c1 c2 c3]. vunfoldg; cbn [x3 y3 z3]; rnumg. apply mk3_c; ring. }
  assert (P1 : 0 <= (2 + al + ga + m * N) * r) by (apply Rmult_le_pos; lra). assert (P2 : 0 <= m * N * M) by (apply Rmult_le_pos; assumption).
  assert (MV2 : ((2 + al + ga + m * N) * r + m * N * M) * (tm - t0) <= ((2 + al + ga + m * N) * r + m * N * M) * h) by (apply Rmult_le_compat_l; lra).
  assert (C2u : C2 = 2 + al + ga + 4 * (m * N)) by reflexivity. assert (HM1 : h * (2 + al + ga + m * N) <= 1 / 2) by (assert (0 <= h * (m * N)) by (apply Rmult_le_pos; lra); rewrite C2u in HC; lra).
  assert (HM2 : h * (m * N) <= 1 / 8). { rewrite C2u in HC. assert (0 < h * (2 + al + ga)) by (apply Rmult_lt_0_compat; lra). lra. }
  assert (Z1 : h * (2 + al + ga + m * N) * r <= 1 / 2 * r) by (apply Rmult_le_compat_r; lra). assert (Z2 : h * (m * N) * M <= 1 / 8 * M) by (apply Rmult_le_compat_r; lra).
  assert (MB : M <= 3 * r) by (assert (n0 <= r) by (unfold r; lra); lra). intros Ht. assert (WT := MX t Ht). split; [lra|].
  eapply Rle_trans; [apply (hs_ac M); [exact Ht|exact WT]|]. assert (m * N * M <= m * N * (3 * r)) by (apply Rmult_le_compat_l; lra). rewrite C2u. lra.
Qed.
Lemma hs_dw t : T t -> norm3 (sub3 (w t) (w t0)) <= h * (C2 * r).
Proof.
  intros Ht. assert (I2 : t0 <= t <= t0 + h) by exact Ht. destruct hs_r0 as (_ & _ & R3). assert (Z := hs_C2p). assert (P : 0 <= C2 * r) by (apply Rmult_le_pos; lra).
  eapply Rle_trans; [apply (vmvt w ac t0 t (C2 * r)); [lra|intros u Hu; apply DW; unfold T; lra|intros u Hu; apply hs_w; unfold T; lra]|]. rewrite Rmult_comm. apply Rmult_le_compat_r; lra.
Qed.
Lemma hs_rel t : T t -> norm3 (sub3 (w t) (OM t)) <= 4 * r.
Proof. intros Ht. eapply Rle_trans; [apply sub_norm|]. destruct (hs_w t Ht) as (W1 & _). destruct (SM t Ht) as (S1 & _). destruct hs_r0 as (R1 & R2 & _). assert (d <= r) by (unfold r; lra). lra. Qed.
Lemma hs_hc t : T t -> kap <= hcos b (D t).
Proof.
  intros Ht. assert (I2 : t0 <= t <= t0 + h) by exact Ht. destruct hs_r0 as (_ & _ & R3).
  assert (MV : norm3 (sub3 (D t) (D t0)) <= 4 * r * (t - t0)).
  { apply (vmvt D (fun u => cross3 (D u) (sub3 (w u) (OM u)))); [lra|intros u Hu; apply DD; unfold T; lra|]. intros u Hu. assert (Tu : T u) by (unfold T; lra). eapply Rle_trans; [apply cross_norm|]. assert (ND : norm3 (D u) = 1) by (unfold norm3; rewrite (UD u Tu); apply sqrt_1). rewrite ND, Rmult_1_l. apply hs_rel, Tu. }
  assert (NB : norm3 b = 1) by (unfold norm3; rewrite UB; apply sqrt_1). assert (Q := dot_norm b (sub3 (D t) (D t0))). rewrite NB, Rmult_1_l in Q. apply rabs_b in Q.
  assert (EQ : dot3 b (sub3 (D t) (D t0)) = dot3 b (D t) - dot3 b (D t0)) by (generalize (D t) (D t0); clear; intros [a1 a2 a3] [c1 c2 c3]; destruct b as [b1 b2 b3]; vunfoldg; cbn [x3 y3 z3]; rnumg; ring). rewrite EQ in Q.
  destruct (hcos_facts b (D t) UB (UD t Ht)) as (F1 & F2). destruct (hcos_facts b (D t0) UB (UD t0 hs_T0)) as (G1 & G2).
  assert (Z1 : 4 * r * (t - t0) <= 4 * Rb * h) by (apply Rmult_le_compat; lra). assert (Z2 : 2 * kap * (2 * kap) <= hcos b (D t0) * hcos b (D t0)) by (apply Rmult_le_compat; lra).
  assert (Z3 : kap * kap <= hcos b (D t) * hcos b (D t)) by lra. destruct (Rle_dec kap (hcos b (D t))) as [|C]; [assumption|]. exfalso. assert (hcos b (D t) * hcos b (D t) < kap * kap) by (apply Rmult_le_0_lt_compat; lra). lra.
Qed.
Lemma hs_dx t : T t -> norm3 (sub3 (X t) (X t0)) <= h * (4 * / kap * r).
Proof.
  intros Ht. assert (I2 : t0 <= t <= t0 + h) by exact Ht. destruct hs_r0 as (_ & _ & R3). assert (KK := hs_kk). assert (P : 0 <= / kap * r) by (apply Rmult_le_pos; lra).
  eapply Rle_trans; [apply (vmvt X (fun u => haxis' b (D u) (sub3 (w u) (OM u))) t0 t (4 * / kap * r)); [lra| |]|rewrite Rmult_comm; apply Rmult_le_compat_r; lra].
  - intros u Hu. assert (Tu : T u) by (unfold T; lra). assert (Z := hs_hc u Tu). apply d_haxis; [apply DD, Tu|exact UB|apply UD, Tu|lra].
  - intros u Hu. assert (Tu : T u) by (unfold T; lra). eapply Rle_trans; [apply (haxis'_size b (D u) _ kap UB (UD u Tu)); split; [lra|apply hs_hc, Tu]|]. replace (4 * / kap * r) with (/ kap * (4 * r)) by ring. apply Rmult_le_compat_l; [lra|apply hs_rel, Tu].
Qed.
Lemma hs_dH t : T t -> norm3 (sub3 (H t) (H t0)) <= h * ((3 * N + 1) * r).
Proof.
  intros Ht. assert (I2 : t0 <= t <= t0 + h) by exact Ht. destruct hs_r0 as (R1 & R2 & R3). assert (P : 0 <= (3 * N + 1) * r) by (apply Rmult_le_pos; lra).
  eapply Rle_trans; [apply (vmvt H (fun u => sub3 (TT u) (cross3 (w u) (H u))) t0 t ((3 * N + 1) * r)); [lra|intros u Hu; apply DH; unfold T; lra|]|rewrite Rmult_comm; apply Rmult_le_compat_r; lra].
  intros u Hu. assert (Tu : T u) by (unfold T; lra). eapply Rle_trans; [apply sub_norm|]. assert (Y := cross_norm (w u) (H u)). destruct (hs_w u Tu) as (W1 & _). destruct (SM u Tu) as (_ & _ & S3).
  assert (norm3 (w u) * norm3 (H u) <= 3 * r * N) by (apply Rmult_le_compat; try apply norm3_pos; [exact W1|apply NH, Tu]). assert (d <= r) by (unfold r; lra). lra.
Qed.
(** the command is as if computed from the present state, but for a disturbance of order h *)
Lemma hs_delta t : T t -> exists dl, norm3 dl <= h * (C3 * r) /\ ac t = add3 (add3 (pp t) dl) (sub3 (sub3 (scale3 al (X t)) (scale3 ga (sub3 (w t) WC0))) (cross3 (w t) WC0)).
Proof.
  intros Ht. destruct hs_r0 as (R1 & R2 & R3). assert (KK := hs_kk). assert (C2P := hs_C2p).
  set (dx := sub3 (X t) (X t0)). set (dw := sub3 (w t) (w t0)). set (dH := sub3 (H t) (H t0)). assert (B1 := hs_dx t Ht). assert (B2 := hs_dw t Ht). assert (B3 := hs_dH t Ht). fold dx in B1. fold dw in B2. fold dH in B3.
  exists (add3 (add3 (scale3 (- al) dx) (add3 (scale3 ga dw) (cross3 dw WC0))) (mv Ji (sub3 (scale3 (- 1) (cross3 dw (H t))) (cross3 (w t0) dH)))). split.
  - eapply Rle_trans; [apply norm3_triangle|]. assert (Y1 := norm3_triangle (scale3 (- al) dx) (add3 (scale3 ga dw) (cross3 dw WC0))). assert (Y2 := norm3_triangle (scale3 ga dw) (cross3 dw WC0)). rewrite norm3_scal, Rabs_Ropp, (Rabs_right al) in Y1 by lra. rewrite norm3_scal, (Rabs_right ga) in Y2 by lra.
    assert (Y3 := cross_norm dw WC0). assert (Y4 := NJ (sub3 (scale3 (- 1) (cross3 dw (H t))) (cross3 (w t0) dH))). assert (Y5 := sub_norm (scale3 (- 1) (cross3 dw (H t))) (cross3 (w t0) dH)). rewrite norm3_scal, (Rabs_left (- 1)) in Y5 by lra.
    assert (Y6 := cross_norm dw (H t)). assert (Y7 := cross_norm (w t0) dH). fold n0 in Y7. assert (P1 := norm3_pos dw). assert (P2 := norm3_pos dH).
    assert (Z1 : norm3 dw * norm3 WC0 <= h * (C2 * r) * 1) by (apply Rmult_le_compat; try apply norm3_pos; lra). assert (Z2 : norm3 dw * norm3 (H t) <= h * (C2 * r) * N) by (apply Rmult_le_compat; try apply norm3_pos; [lra|apply NH, Ht]).
    assert (Z3 : n0 * norm3 dH <= Rb * (h * ((3 * N + 1) * r))) by (apply Rmult_le_compat; [exact R1|exact P2|unfold r in R3; lra|lra]).
    assert (Z4 : m * norm3 (sub3 (scale3 (- 1) (cross3 dw (H t))) (cross3 (w t0) dH)) <= m * (h * (C2 * r) * N + Rb * (h * ((3 * N + 1) * r)))) by (apply Rmult_le_compat_l; lra).
    assert (Z5 : al * norm3 dx <= al * (h * (4 * / kap * r))) by (apply Rmult_le_compat_l; lra). assert (Z6 : ga * norm3 dw <= ga * (h * (C2 * r))) by (apply Rmult_le_compat_l; lra).
    unfold C3, hs_C3. fold C2. replace (h * ((4 * (al * / kap) + ga * C2 + C2 + m * (C2 * N + Rb * (3 * N + 1))) * r)) with (al * (h * (4 * / kap * r)) + (ga * (h * (C2 * r)) + h * (C2 * r) * 1) + m * (h * (C2 * r) * N + Rb * (h * ((3 * N + 1) * r)))) by ring. lra.
  - unfold ac, G. replace (sub3 (cross3 (w t0) (H t0)) (cross3 (w t) (H t))) with (sub3 (scale3 (- 1) (cross3 dw (H t))) (cross3 (w t0) dH)).
    2:{ unfold dw, dH. generalize (w t) (w t0) (H t) (H t0). clear. intros [a1 a2 a3] [c1 c2 c3] [g1 g2 g3] [k1 k2 k3]. vunfoldg; cbn [x3 y3 z3]; rnumg. apply mk3_c; ring. }
    generalize (mv Ji (sub3 (scale3 (- 1) (cross3 dw (H t))) (cross3 (w t0) dH))). unfold dx, dw. generalize (w t) (w t0) (X t) (X t0) (pp t) WC0 al ga. clear. intros [a1 a2 a3] [c1 c2 c3] [g1 g2 g3] [k1 k2 k3] [p1 p2 p3] [q1 q2 q3] al ga [l1 l2 l3]. vunfoldg; cbn [x3 y3 z3]; rnumg. apply mk3_c; ring.
Qed.
Lemma hs_r t : T t -> r * r <= 12 * (dot3 (w t) (w t) + dot3 (X t) (X t) + d * d).
Proof.
  intros Ht. destruct hs_r0 as (R1 & R2 & R3). assert (B1 := hs_dx t Ht). assert (B2 := hs_dw t Ht). set (n := norm3 (w t)). set (x := norm3 (X t)). assert (Pn := norm3_pos (w t)). assert (Px := norm3_pos (X t)). fold n in Pn. fold x in Px.
  assert (T1 : forall u v : v3, norm3 v <= norm3 u + norm3 (sub3 u v)). { intros u v. replace v with (sub3 u (sub3 u v)) at 1; [apply sub_norm|]. destruct u as [a1 a2 a3], v as [c1 c2 c3]. vunfoldg; cbn [x3 y3 z3]; rnumg. apply mk3_c; ring. }
  assert (Y1 := T1 (w t) (w t0)). assert (Y2 := T1 (X t) (X t0)). fold n n0 in Y1. fold x x0 in Y2. fold C2 in H1. assert (Z : h * (C2 + 4 * / kap) * r <= 1 / 2 * r) by (apply Rmult_le_compat_r; lra).
  assert (RR : r <= 2 * (n + x + d)) by (unfold r at 1; unfold r in Z at 2; fold r in Z |- *; unfold r in *; lra).
  rewrite <- !P_quat.norm3_sq. fold n x. assert (R2r : r * r <= 2 * (n + x + d) * (2 * (n + x + d))) by (apply Rmult_le_compat; lra).
  assert (S1 := Rle_0_sqr (n - x)). assert (S2 := Rle_0_sqr (n - d)). assert (S3 := Rle_0_sqr (x - d)). unfold Rsqr in *. lra.
Qed.

Variables (M l : R).
Hypothesis EK : e * / kap <= ga / 4. Hypothesis EG : e * ga <= al / 4. Hypothesis ET : e * (/ (2 * al) + 1) <= 1 / 2.
Hypothesis HM : M = sp_M al ga e (/ kap). Hypothesis MP : 0 <= M. Hypothesis L0 : 0 < l. Hypothesis L1 : l <= ga / 6. Hypothesis L2 : l <= e / 12.
Hypothesis H3 : M * (24 * (h * C3 * (h * C3))) <= ga / 8. Hypothesis H4 : M * (24 * (h * C3 * (h * C3))) <= e * al / 4.

Theorem hs_period : forall t, T t -> kap <= hcos b (D t) /\
  sw al e b (D t) (w t) - (2 * M + ga / 8) / l * (d * d) <= (sw al e b (D t0) (w t0) - (2 * M + ga / 8) / l * (d * d)) * exp (- l * (t - t0)).
Proof.
  intros t Ht. split; [apply hs_hc, Ht|]. set (q := (2 * M + ga / 8) / l * (d * d)).
  apply (pull_from (fun u => sw al e b (D u) (w u)) (fun u => - al * dot3 (sub3 (w u) (OM u)) (X u) + dot3 (w u) (ac u) - e * (dot3 (haxis' b (D u) (sub3 (w u) (OM u))) (w u) + dot3 (X u) (ac u))) l q t0 h Hh); [| |exact Ht]; clear t Ht.
  - intros t Ht. assert (Tt : T t) by exact Ht. assert (HK := hs_hc t Tt). assert (P : 0 < hcos b (D t)) by lra.
    apply (d_minus (fun u => sv al b (D u) (w u)) (fun u => e * dot3 (X u) (w u))).
    + eapply d_eq. { apply (d_plus (fun u => 2 * al * (1 - hcos b (D u))) (fun u => dot3 (w u) (w u) / 2)); [apply d_scal, d_minus; [apply d_const|exact (d_hcos b D _ t (DD t Tt) UB (UD t Tt) P)]|unfold Rdiv; apply d_mult; [apply d_dot3; apply DW, Tt|apply d_const]]. }
      cbv beta. rewrite (dot_comm3 (ac t) (w t)). fold (X t). field.
    + apply d_scal. exact (d_dot3 X w t _ _ (d_haxis b D _ t (DD t Tt) UB (UD t Tt) P) (DW t Tt)).
  - intros t Ht. assert (Tt : T t) by exact Ht. assert (HK := hs_hc t Tt). assert (P : 0 < hcos b (D t)) by lra. destruct (hs_delta t Tt) as (dl & NL & ->). destruct (SM t Tt) as (S1 & S2 & S3). destruct hs_r0 as (R1 & R2 & R3).
    set (dd := d + h * (C3 * r)). assert (DP := norm3_pos dl). assert (DDd : d <= dd) by (unfold dd; lra). assert (NP : norm3 (add3 (pp t) dl) <= dd) by (eapply Rle_trans; [apply norm3_triangle|]; unfold dd; lra).
    assert (KK := hs_kk). assert (Z := stare_point al ga e (/ kap) dd (X t) (w t) (OM t) WC0 (add3 (pp t) dl) (haxis' b (D t) (sub3 (w t) (OM t))) A Ga E0 (Rlt_le _ _ KK) EK EG). cbv zeta in Z.
    eapply Rle_trans; [apply Z; [lra|apply hs_x1; assumption|lra|lra|exact NP|apply haxis'_size; [exact UB|apply UD, Tt|lra]]|]. clear Z. rewrite <- HM.
    destruct (sv_facts al b (D t) (w t) A UB (UD t Tt) P) as (F1 & F2 & F3 & F4). fold (X t) in F2, F3. assert (NW := sw_near al e b (D t) (w t) A E0 UB (UD t Tt) P). apply rabs_b in NW. set (V := sv al b (D t) (w t)) in *. set (W := sw al e b (D t) (w t)) in *.
    assert (TV : e * (/ (2 * al) + 1) * V <= 1 / 2 * V) by (apply Rmult_le_compat_r; lra). assert (WV : W <= 3 / 2 * V) by lra. assert (RR := hs_r t Tt).
    set (n2 := dot3 (w t) (w t)) in *. set (x2 := dot3 (X t) (X t)) in *. assert (Y2 : 0 <= x2) by apply dot3_nonneg. assert (Dd : 0 <= d * d) by (apply Rmult_le_pos; lra).
    assert (D2 : dd * dd <= 2 * (d * d) + 24 * (h * C3 * (h * C3)) * (n2 + x2 + d * d)).
    { unfold dd. replace (h * (C3 * r)) with (h * C3 * r) by ring. set (g := h * C3). assert (GG : 0 <= g * g) by apply Rle_0_sqr. assert (g * g * (r * r) <= g * g * (12 * (n2 + x2 + d * d))) by (apply Rmult_le_compat_l; assumption). assert (SQ := Rle_0_sqr (d - g * r)). unfold Rsqr in SQ. lra. }
    set (gg := 24 * (h * C3 * (h * C3))) in *. assert (MD : M * (dd * dd) <= M * (2 * (d * d) + gg * (n2 + x2 + d * d))) by (apply Rmult_le_compat_l; assumption).
    assert (A1 : M * gg * n2 <= ga / 8 * n2) by (apply Rmult_le_compat_r; lra). assert (A2 : M * gg * x2 <= e * al / 4 * x2) by (apply Rmult_le_compat_r; lra). assert (A3 : M * gg * (d * d) <= ga / 8 * (d * d)) by (apply Rmult_le_compat_r; lra).
    assert (LW : l * W <= l * (3 * al * x2 + 3 / 4 * n2)) by (apply Rmult_le_compat_l; lra). assert (B1 : l * n2 <= ga / 6 * n2) by (apply Rmult_le_compat_r; lra). assert (B3 : 0 <= al * x2) by (apply Rmult_le_pos; lra). assert (B4 : l * (al * x2) <= e / 12 * (al * x2)) by (apply Rmult_le_compat_r; assumption).
    assert (LQ : l * q = (2 * M + ga / 8) * (d * d)) by (unfold q; field; lra). lra.
Qed.
End Period.
