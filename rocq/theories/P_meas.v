(** * Lemmas for property C114: the tracking loop when the controller is given an inexact state *)
From Coq Require Import Reals ZArith List Bool Lra Lia Psatz.
From Verif Require Import Num Vec M_vector M_quaternion M_jday M_struct M_dyn M_ctrl S_rot S_dyn S_ctrl.
From Verif Require Import P_quat P_struct P_wheel P_dyn P_dyn2 P_obs P_ctrl P_ctrl2 P_ctrl3 P_ctrl4 P_ctrl5 P_conv P_ode P_tot3 P_orb3 P_posf P_detum P_samp P_samp2 Props_ctrl2 Props_conv Props_samp Props_dist.
Import ListNotations.
Local Open Scope R_scope.

(** energy of an error quaternion and a rate *)
Definition ev (al s : R) (e : quat) (o : v3) : R := 2 * al * (1 - s * qw e) + dot3 o o / 2.
Definition evw (al p s : R) (e : quat) (o : v3) : R := ev al s e o + p * (s * dot3 (vec e) o).
Lemma ev_facts al s e o : 0 < al -> s * s = 1 -> unitq e ->
  -1 <= s * qw e <= 1 /\ 0 <= dot3 o o /\ (s * dot3 (vec e) o) ^ 2 <= (1 - (s * qw e) ^ 2) * dot3 o o /\ dot3 o o <= 2 * ev al s e o /\ al * dot3 (vec e) (vec e) <= ev al s e o /\ 0 <= ev al s e o.
Proof.
  intros A SS U. assert (I : sm_T 1 0 0) by (unfold sm_T; lra).
  destruct (NR s 1 0 (fun _ => e) (fun _ => o) SS (fun _ _ => U) 0 I) as (N1 & N2 & N3 & _). destruct (V_nonneg al s 1 0 (fun _ => e) (fun _ => o) A SS (fun _ _ => U) 0 I) as (V1 & V2 & V3).
  split; [exact N1|]. split; [exact N2|]. split; [exact N3|]. split; [exact V2|]. split; [exact V3|exact V1].
Qed.
Lemma evw_near al p s e o : 0 < al -> 0 < p -> s * s = 1 -> unitq e -> Rabs (evw al p s e o - ev al s e o) <= p * (/ (2 * al) + 1) * ev al s e o.
Proof.
  intros A P SS U. assert (I : sm_T 1 0 0) by (unfold sm_T; lra).
  exact (W_V al p s 1 0 (fun _ => e) (fun _ => o) A P SS (fun _ _ => U) 0 I (proj1 (proj1 (NR s 1 0 _ (fun _ => o) SS (fun _ _ => U) 0 I)))).
Qed.
(** an error that obeys the closed loop up to a bounded acceleration, as long as its energy is below B *)
Lemma loop_bounded al ga hw E : 0 < al -> 0 < ga -> -1 < hw < 1 -> 0 <= E < 2 * al * (1 + hw) -> exists lam d0 K, 0 < lam /\ 0 < d0 /\ 0 < K /\
  forall s d a (er : R -> quat) (om dd : R -> v3) (sg : R -> R), s * s = 1 -> 0 <= d <= d0 -> a < 0 -> (forall t, a < t -> unitq (er t)) ->
  (forall t, a < t -> derivq er t (scaleq 0.5 (product (er t) (pure (om t))))) ->
  (forall t, a < t -> deriv3 om t (add3 (dd t) (sub3 (scale3 (- sg t * al) (vec (er t))) (scale3 ga (om t))))) ->
  (forall t, 0 <= t -> - hw < s * qw (er t) -> sg t = s) ->
  (forall t, 0 <= t -> ev al s (er t) (om t) < 2 * al * (1 + hw) -> norm3 (dd t) <= d) ->
  ev al s (er 0) (om 0) <= E ->
  forall t, 0 <= t -> - hw < s * qw (er t) /\ ev al s (er t) (om t) <= 3 * ev al s (er 0) (om 0) * exp (- lam * t) + K * d ^ 2.
Proof.
  intros A G HW HE. set (B := 2 * al * (1 + hw)) in *. assert (B0 : 0 < B) by lra. set (de := 1 - hw). assert (D : 0 < de) by (unfold de; lra).
  destruct (cv_eps_spec al ga A G) as (EP & _). set (kq := / (2 * al) + 1). assert (KQ : 0 < kq) by (unfold kq; assert (0 < / (2 * al)) by (apply Rinv_0_lt_compat; lra); lra).
  set (e := Rmin (cv_eps al ga) (Rmin (1 / 2) ((B - E) / (4 * B)) / kq)).
  assert (TH0 : 0 < Rmin (1 / 2) ((B - E) / (4 * B))) by (apply Rmin_pos; [lra|apply Rdiv_lt_0_compat; lra]).
  assert (E0 : 0 < e) by (apply Rmin_pos; [exact EP|apply Rdiv_lt_0_compat; assumption]). assert (EC : e <= cv_eps al ga) by apply Rmin_l.
  assert (TH : e * kq <= Rmin (1 / 2) ((B - E) / (4 * B))). { apply (Rle_trans _ (Rmin (1 / 2) ((B - E) / (4 * B)) / kq * kq)); [apply Rmult_le_compat_r; [lra|apply Rmin_r]|]. right. field. lra. }
  assert (TH1 := Rle_trans _ _ _ TH (Rmin_l _ _)). assert (TH2 := Rle_trans _ _ _ TH (Rmin_r _ _)). set (th := e * kq) in *. assert (TP : 0 < th) by (apply Rmult_lt_0_compat; assumption).
  assert (TB : E * (1 + 4 * th) < B).
  { assert (T3 : 4 * th <= (B - E) / B) by (replace ((B - E) / B) with (4 * ((B - E) / (4 * B))) by (field; lra); lra). apply (Rle_lt_trans _ (E * (1 + (B - E) / B))); [apply Rmult_le_compat_l; lra|].
    apply (Rmult_lt_reg_r B); [exact B0|]. replace (E * (1 + (B - E) / B) * B) with (E * (2 * B - E)) by (field; lra). nra. }
  set (l := Rmin ga (e * de / 4)). assert (L0 : 0 < l) by (apply Rmin_pos; [exact G|assert (0 < e * de) by (apply Rmult_lt_0_compat; assumption); lra]).
  destruct (ka_spec al A) as (K0 & K1). set (ka := sm_ka al) in *. set (g := 2 + e * ka). assert (G2 : 2 < g) by (unfold g; assert (0 < e * ka) by (apply Rmult_lt_0_compat; assumption); lra).
  assert (SB := sqrt_lt_R0 B B0). assert (SQ := sqrt_sqrt B ltac:(lra)). set (d0 := l * sqrt B / (2 * g)).
  assert (Dp : 0 < d0) by (apply Rdiv_lt_0_compat; [apply Rmult_lt_0_compat; assumption|lra]).
  exists (l / 3), d0, (3 * g ^ 2 / l ^ 2). split; [lra|]. split; [exact Dp|]. split; [apply Rdiv_lt_0_compat; [apply Rmult_lt_0_compat; [lra|apply pow_lt; lra]|apply pow_lt; lra]|].
  intros s d a er om dd sg SS Hd HA UE DE DO KEEP HT HV.
  set (ac := fun t => add3 (dd t) (sub3 (scale3 (- sg t * al) (vec (er t))) (scale3 ga (om t)))).
  set (x := fun t => s * qw (er t)). set (n := fun t => dot3 (om t) (om t)). set (r := fun t => s * dot3 (vec (er t)) (om t)).
  assert (DX : forall t, a < t -> derivable_pt_lim x t (- (r t / 2))). { intros t Ht. unfold x. eapply d_eq; [apply d_scal; exact (proj1 (DE t Ht))|]. rewrite err_w. unfold r. field. }
  assert (DN : forall t, a < t -> derivable_pt_lim n t (2 * dot3 (om t) (ac t))). { intros t Ht. unfold n. eapply d_eq; [apply d_dot3; exact (DO t Ht)|]. fold (ac t). cbv beta. generalize (om t) (ac t). clear. intros [p q r] [l m o]; vunfoldg; rnumg; ring. }
  assert (DR : forall t, a < t -> derivable_pt_lim r t (x t * n t / 2 + s * dot3 (vec (er t)) (ac t))).
  { intros t Ht. unfold r. eapply d_eq; [apply d_scal; apply d_dot3; [apply d3_vec; exact (DE t Ht)|exact (DO t Ht)]|]. cbv beta. rewrite err_v_dot. unfold x, n. fold (ac t). field. }
  set (V := fun t => ev al s (er t) (om t)). set (W := fun t => evw al e s (er t) (om t)).
  assert (DV : forall t, a < t -> derivable_pt_lim V t (al * r t + dot3 (om t) (ac t))).
  { intros t Ht. eapply d_eq. { apply (d_plus (fun u => 2 * al * (1 - x u)) (fun u => n u / 2)); [apply d_scal, d_minus; [apply d_const|apply DX, Ht]|unfold Rdiv; apply d_mult; [apply DN, Ht|apply d_const]]. } cbv beta. field. }
  assert (DW : forall t, a < t -> derivable_pt_lim W t (al * r t + dot3 (om t) (ac t) + e * (x t * n t / 2 + s * dot3 (vec (er t)) (ac t)))).
  { intros t Ht. apply (d_plus V (fun u => e * r u)); [apply DV, Ht|apply d_scal, DR, Ht]. }
  assert (FA : forall t, a < t -> -1 <= x t <= 1 /\ 0 <= n t /\ r t ^ 2 <= (1 - x t ^ 2) * n t /\ n t <= 2 * V t /\ al * dot3 (vec (er t)) (vec (er t)) <= V t /\ 0 <= V t) by (intros t Ht; exact (ev_facts al s (er t) (om t) A SS (UE t Ht))).
  set (q := 3 * (g * d) ^ 2 / (2 * l ^ 2)). assert (L2 : 0 < l ^ 2) by (apply pow_lt; exact L0). assert (Q0 : 0 <= q) by (apply Rmult_le_pos; [assert (0 <= (g * d) ^ 2) by apply pow2_ge_0; lra|left; apply Rinv_0_lt_compat; lra]).
  assert (QB : 2 * q < B).
  { assert (Z : g * d <= l * sqrt B / 2). { apply (Rle_trans _ (g * d0)); [apply Rmult_le_compat_l; lra|]. unfold d0. right. field. lra. }
    assert (0 <= g * d) by (apply Rmult_le_pos; lra). assert (Z2 : (g * d) ^ 2 <= (l * sqrt B / 2) ^ 2) by (apply pow_incr; lra). replace ((l * sqrt B / 2) ^ 2) with (l ^ 2 * (sqrt B * sqrt B) / 4) in Z2 by field. rewrite SQ in Z2.
    unfold q. apply (Rmult_lt_reg_r (l ^ 2)); [exact L2|]. replace (2 * (3 * (g * d) ^ 2 / (2 * l ^ 2)) * l ^ 2) with (3 * (g * d) ^ 2) by (field; lra). nra. }
  assert (NEAR : forall t, a < t -> Rabs (W t - V t) <= th * V t) by (intros t Ht; apply (evw_near al e s (er t) (om t) A E0 SS (UE t Ht))).
  assert (XB : forall t, a < t -> V t < B -> - hw < x t). { intros t Ht L. destruct (FA t Ht) as (_ & F2 & _). change (V t) with (2 * al * (1 - x t) + n t / 2) in L. unfold B in L. assert (P6 : al * (1 - x t) < al * (1 + hw)) by lra. apply Rmult_lt_reg_l in P6; lra. }
  assert (DROP : forall t, 0 <= t -> V t < B -> al * r t + dot3 (om t) (ac t) + e * (x t * n t / 2 + s * dot3 (vec (er t)) (ac t)) <= - (l / 3) * (W t - q)).
  { intros t Ht HB. assert (At : a < t) by lra. destruct (FA t At) as (F1 & F2 & F3 & F4 & F5 & F6). assert (Hx := XB t At HB). assert (SG := KEEP t Ht Hx).
    destruct (w_point al ga de e (x t) (n t) (r t) A G D E0 EC ltac:(unfold de; lra) F2 F3) as [_ P]. fold l in P. change (2 * al * (1 - x t) + n t / 2) with (V t) in P.
    assert (EQ : al * r t + dot3 (om t) (ac t) + e * (x t * n t / 2 + s * dot3 (vec (er t)) (ac t)) =
      (- ga * n t + e * (x t * n t / 2 - al * (1 - x t ^ 2) - ga * r t)) + (dot3 (om t) (dd t) + e * (s * dot3 (vec (er t)) (dd t)))).
    { unfold ac. rewrite SG. assert (U := unit_split _ (UE t At)). assert (X2 : 1 - x t ^ 2 = s * s * dot3 (vec (er t)) (vec (er t))) by (rewrite U; unfold x; replace ((s * qw (er t)) ^ 2) with (s * s * qw (er t) ^ 2) by ring; rewrite SS; ring).
      rewrite X2. unfold r, n. generalize (dd t) (vec (er t)) (om t) (x t). clear. intros [g1 h i] [p b c] [d e' f] X. vunfoldg; rnumg. cbn [x3 y3 z3]. ring. }
    rewrite EQ. assert (SV := sqrt_pos (V t)). assert (VV := sqrt_sqrt (V t) F6). set (R0 := sqrt (V t)) in *.
    assert (O : norm3 (om t) <= 2 * R0) by (apply P_exist3.norm3_le_sq; [lra|]; unfold n in F4; nra).
    assert (EV : norm3 (vec (er t)) <= ka * R0). { apply P_exist3.norm3_le_sq; [apply Rmult_le_pos; lra|]. apply (Rmult_le_reg_l al); [exact A|]. replace (al * (ka * R0 * (ka * R0))) with (al * (ka * ka) * (R0 * R0)) by ring. rewrite K1. lra. }
    assert (P1 := dot_norm (om t) (dd t)). assert (P2 := dot_norm (vec (er t)) (dd t)). assert (Pd := norm3_pos (dd t)). assert (Po := norm3_pos (om t)). assert (Pv := norm3_pos (vec (er t))). assert (HTt := HT t Ht HB).
    assert (Z1 : norm3 (om t) * norm3 (dd t) <= 2 * R0 * d) by (apply Rmult_le_compat; assumption). assert (Z2 : norm3 (vec (er t)) * norm3 (dd t) <= ka * R0 * d) by (apply Rmult_le_compat; assumption).
    assert (S1 : Rabs s = 1) by (assert (Z := pow2_abs s); assert (Z' := Rabs_pos s); assert (s ^ 2 = 1) by (rewrite <- SS; ring); nra).
    assert (Z3 : s * dot3 (vec (er t)) (dd t) <= ka * R0 * d) by (eapply Rle_trans; [apply Rle_abs|]; rewrite Rabs_mult, S1; lra).
    assert (Z4 : e * (s * dot3 (vec (er t)) (dd t)) <= e * (ka * R0 * d)) by (apply Rmult_le_compat_l; lra). assert (Z5 := Rle_abs (dot3 (om t) (dd t))).
    assert (Z6 : 2 * R0 * d + e * (ka * R0 * d) = g * d * R0) by (unfold g; ring).
    assert (Z7 : g * d * R0 <= l / 2 * V t + (g * d) ^ 2 / (2 * l)).
    { assert (X := pow2_ge_0 (l * R0 - g * d)). rewrite <- VV. apply (Rmult_le_reg_r (2 * l)); [lra|]. replace ((l / 2 * (R0 * R0) + (g * d) ^ 2 / (2 * l)) * (2 * l)) with (l * l * (R0 * R0) + (g * d) ^ 2) by (field; lra). nra. }
    assert (Z8 : (g * d) ^ 2 / (2 * l) = l / 3 * q) by (unfold q; field; lra). rewrite Z8 in Z7.
    assert (NT := NEAR t At). apply rabs_b in NT. assert (th * V t <= 1 / 2 * V t) by (apply Rmult_le_compat_r; lra). assert (Z9 : W t <= 3 / 2 * V t) by lra. assert (l * W t <= l * (3 / 2 * V t)) by (apply Rmult_le_compat_l; lra). lra. }
  assert (LOW : forall t, 0 <= t -> (forall u, 0 <= u < t -> V u < B) -> W t - q <= (W 0 - q) * exp (- (l / 3) * t)).
  { intros t Ht HX. apply (Props_dist.pull W (fun t => al * r t + dot3 (om t) (ac t) + e * (x t * n t / 2 + s * dot3 (vec (er t)) (ac t))) (l / 3) q t Ht).
    - intros u Hu. apply DW. lra.
    - intros u Hu. apply derivable_continuous_pt. eexists. apply DW. lra.
    - intros u Hu. apply DROP; [lra|apply HX, Hu]. }
  fold (V 0) in HV. destruct (FA 0 HA) as (_ & _ & _ & _ & _ & V00). assert (N0 := NEAR 0 HA). apply rabs_b in N0. assert (TV : th * V 0 <= 1 / 2 * V 0) by (apply Rmult_le_compat_r; lra).
  assert (BELOW : forall t, 0 <= t -> (forall u, 0 <= u < t -> V u < B) -> V t < B).
  { intros t Ht HX. assert (LL := LOW t Ht HX). assert (At : a < t) by lra. destruct (FA t At) as (_ & _ & _ & _ & _ & VT). assert (NT := NEAR t At). apply rabs_b in NT. assert (TT : th * V t <= 1 / 2 * V t) by (apply Rmult_le_compat_r; lra).
    assert (X := exp_pos (- (l / 3) * t)). assert (X1 : exp (- (l / 3) * t) <= 1). { rewrite <- exp_0. assert (Z : - (l / 3) * t <= 0) by (assert (0 <= l * t) by (apply Rmult_le_pos; lra); lra). destruct Z as [Z|Z]; [left; apply exp_increasing, Z|rewrite Z; lra]. }
    set (ex := exp (- (l / 3) * t)) in *. destruct (Rle_dec (W 0) q) as [C|C].
    - assert (W t <= q) by nra. lra.
    - assert (WW : W t <= W 0) by nra. assert (P2 : (1 - th) * V t <= (1 + th) * V 0) by lra.
      assert (P3 : V t <= (1 + 4 * th) * V 0). { apply (Rmult_le_reg_l (1 - th)); [lra|]. assert ((1 + th) * V 0 <= (1 - th) * (1 + 4 * th) * V 0) by (apply Rmult_le_compat_r; [exact V00|nra]). lra. }
      assert (P4 : (1 + 4 * th) * V 0 <= (1 + 4 * th) * E) by (apply Rmult_le_compat_l; lra). lra. }
  assert (STAY : forall t, 0 <= t -> V t < B).
  { intros t Ht. destruct (Rlt_dec (V t) B) as [|NX]; [assumption|]. exfalso. assert (X0 : V 0 < B) by (apply BELOW; [lra|intros; lra]).
    destruct (first_time V B t) as (t1 & H1 & H2 & H3).
    - intros u Hu. apply derivable_continuous_pt. eexists. apply DV. lra.
    - exact Ht.
    - exact X0.
    - lra.
    - assert (Z := BELOW t1 ltac:(lra) H3). lra. }
  intros t Ht. split; [apply XB; [lra|apply STAY, Ht]|].
  assert (LL := LOW t Ht ltac:(intros u Hu; apply STAY; lra)). assert (At : a < t) by lra. destruct (FA t At) as (_ & _ & _ & _ & _ & VT). assert (NT := NEAR t At). apply rabs_b in NT. assert (TT : th * V t <= 1 / 2 * V t) by (apply Rmult_le_compat_r; lra).
  assert (X := exp_pos (- (l / 3) * t)). set (ex := exp (- (l / 3) * t)) in *. fold (V t). fold (V 0).
  replace (3 * g ^ 2 / l ^ 2 * d ^ 2) with (2 * q) by (unfold q; field; lra). assert (W 0 * ex <= 3 / 2 * V 0 * ex) by (apply Rmult_le_compat_r; lra). assert (0 <= q * ex) by (apply Rmult_le_pos; lra). lra.
Qed.
