(** * Lemmas: the delay at which the modes of an axis stop dying out *)
From Coq Require Import Reals Lra Psatz.
From Verif Require Import S_tdelay P_tdelay.
Local Open Scope R_scope.

Lemma half_angle x y : 0 <= x -> 0 < y -> 0 <= 2 * atan (x / y) < PI.
Proof. intros Hx Hy. assert (0 <= x / y) by (apply Rmult_le_pos; [lra|left; apply Rinv_0_lt_compat, Hy]). assert (A := atan_nonneg _ H). destruct (atan_bound (x / y)). lra. Qed.
Lemma phi_range a b x y : 0 < a -> 0 < b -> 0 <= x -> 0 < y -> 0 < atan (a * y / (a * x + b)) < PI / 2.
Proof.
  intros Ha Hb Hx Hy. split; [|apply atan_bound]. rewrite <- atan_0. apply atan_increasing. apply Rdiv_lt_0_compat; [apply Rmult_lt_0_compat; assumption|]. assert (0 <= a * x) by (apply Rmult_le_pos; lra). lra.
Qed.
(** gain and phase at a root *)
Lemma root_gain T a b x y : 0 < a -> 0 < b -> 0 <= x -> 0 < y -> root T a b x y -> (x * x + y * y) ^ 2 * exp (2 * (x * T)) = a ^ 2 * (x * x + y * y) + 2 * a * b * x + b ^ 2.
Proof.
  intros Ha Hb Hx Hy H. apply root_parts in H; try assumption. cbv zeta in H. destruct H as [H1 H2]. set (q := (a * x + b) * (a * x + b) + a * y * (a * y)) in *.
  assert (Q0 : 0 <= q) by (unfold q; assert (A := Rle_0_sqr (a * x + b)); assert (B := Rle_0_sqr (a * y)); unfold Rsqr in *; lra). assert (SQ := sqrt_sqrt q Q0). set (r := sqrt q) in *. set (E := exp (- (x * T))) in *.
  set (be := 2 * atan (x / y)) in *. set (de := y * T - atan (a * y / (a * x + b))) in *. assert (S1 := sin2_cos2 be). assert (S2 := sin2_cos2 de). unfold Rsqr in S1, S2. set (n := x * x + y * y) in *.
  assert (G : n * n = E * E * q). { rewrite <- SQ. transitivity ((n * cos be) * (n * cos be) + (n * sin be) * (n * sin be)); [replace (n * n) with (n * n * (sin be * sin be + cos be * cos be)) by (rewrite S1; ring); ring|]. rewrite H1, H2. replace (E * E * (r * r)) with (E * E * (r * r) * (sin de * sin de + cos de * cos de)) by (rewrite S2; ring). ring. }
  assert (EE : E * E * exp (2 * (x * T)) = 1) by (unfold E; rewrite <- !exp_plus, <- exp_0; f_equal; ring).
  replace (n ^ 2 * exp (2 * (x * T))) with (n * n * exp (2 * (x * T))) by ring. rewrite G. replace (E * E * q * exp (2 * (x * T))) with (E * E * exp (2 * (x * T)) * q) by ring. rewrite EE. unfold q, n. ring.
Qed.
Lemma root_phase T a b x y : 0 < a -> 0 < b -> 0 <= T -> 0 <= x -> 0 < y -> root T a b x y -> psi a b x y <= y * T.
Proof.
  intros Ha Hb HT Hx Hy H. apply root_parts in H; try assumption. cbv zeta in H. destruct H as [H1 H2]. set (q := (a * x + b) * (a * x + b) + a * y * (a * y)) in *.
  assert (Q0 : 0 < q). { unfold q. assert (A := Rle_0_sqr (a * x + b)). assert (B : 0 < a * y) by (apply Rmult_lt_0_compat; assumption). assert (0 < a * y * (a * y)) by (apply Rmult_lt_0_compat; assumption). unfold Rsqr in *. lra. }
  assert (R0 : 0 < sqrt q) by (apply sqrt_lt_R0, Q0). set (r := sqrt q) in *. set (E := exp (- (x * T))) in *. assert (E0 : 0 < E) by apply exp_pos. assert (P := PI_RGT_0).
  assert (BE := half_angle x y Hx Hy). assert (FR := phi_range a b x y Ha Hb Hx Hy). unfold psi. set (be := 2 * atan (x / y)) in *. set (f := atan (a * y / (a * x + b))) in *.
  assert (S1 := sin2_cos2 be). assert (S2 := sin2_cos2 (y * T - f)). unfold Rsqr in S1, S2. set (n := x * x + y * y) in *. set (m := E * r) in *. assert (M0 : 0 < m) by (apply Rmult_lt_0_compat; assumption).
  assert (N0 : 0 < n) by (unfold n; assert (0 <= x * x) by (apply Rmult_le_pos; lra); assert (0 < y * y) by (apply Rmult_lt_0_compat; lra); lra).
  assert (NM : n = m). { assert (G : n * n = m * m). { transitivity ((n * cos be) * (n * cos be) + (n * sin be) * (n * sin be)); [replace (n * n) with (n * n * (sin be * sin be + cos be * cos be)) by (rewrite S1; ring); ring|]. rewrite H1, H2. replace (m * m) with (m * m * (sin (y * T - f) * sin (y * T - f) + cos (y * T - f) * cos (y * T - f))) by (rewrite S2; ring). ring. } nra. }
  rewrite <- NM in H1, H2. apply Rmult_eq_reg_l in H1; [|lra]. apply Rmult_eq_reg_l in H2; [|lra]. assert (SB : 0 <= sin be) by (apply sin_ge_0; lra).
  apply Rnot_lt_le. intros L. assert (YT : 0 <= y * T) by (apply Rmult_le_pos; lra). assert (D0 : 0 <= y * T - f). { apply Rnot_lt_le. intros Z. assert (sin (y * T - f) < 0) by (apply sin_lt_0_var; lra). lra. }
  assert (cos be < cos (y * T - f)) by (apply cos_decreasing_1; lra). lra.
Qed.
Lemma psi_low a b x y : 0 < a -> 0 < b -> 0 <= x -> 0 < y -> atan (a * y / b) <= psi a b x y.
Proof.
  intros Ha Hb Hx Hy. unfold psi. assert (AX : 0 <= a * x) by (apply Rmult_le_pos; lra). assert (AY : 0 < a * y) by (apply Rmult_lt_0_compat; assumption). assert (XY : 0 <= x / y) by (apply Rmult_le_pos; [lra|left; apply Rinv_0_lt_compat, Hy]). assert (A0 := atan_nonneg _ XY).
  enough (atan (a * y / b) <= atan (a * y / (a * x + b)) + atan (x / y)) by lra. apply atan_sub.
  - left. apply Rdiv_lt_0_compat; lra.
  - unfold Rdiv. apply Rmult_le_compat_l; [lra|]. apply Rinv_le_contravar; lra.
  - exact XY.
  - apply (Rmult_le_reg_r (b * (a * x + b) * y)); [apply Rmult_lt_0_compat; [apply Rmult_lt_0_compat; lra|exact Hy]|].
    replace ((a * y / b - a * y / (a * x + b)) * (b * (a * x + b) * y)) with (a * y * (a * y) * x) by (field; lra).
    replace (x / y * (1 + a * y / b * (a * y / (a * x + b))) * (b * (a * x + b) * y)) with (x * (b * (a * x + b)) + a * y * (a * y) * x) by (field; lra).
    assert (0 <= x * (b * (a * x + b))) by (apply Rmult_le_pos; [lra|]; apply Rmult_le_pos; lra). lra.
Qed.
Lemma beyond (a b w t : R) : 0 < w -> w ^ 2 = a ^ 2 * w + b ^ 2 -> 0 < b -> w < t -> a ^ 2 * t + b ^ 2 < t ^ 2.
Proof.
  intros Hw E Hb L. assert (B2 : 0 < b ^ 2) by (apply pow_lt, Hb). assert (A2 := pow2_ge_0 a). set (p := a ^ 2) in *. set (q := b ^ 2) in *. clearbody p q. assert (0 < w - p). { apply (Rmult_lt_reg_l w); [exact Hw|]. lra. }
  assert (0 < (t - w) * (t + (w - p))) by (apply Rmult_lt_0_compat; lra). lra.
Qed.
(** no root of the closed right half plane lies above the gain crossover *)
Lemma root_low T a b w x y : 0 < a -> 0 < b -> 0 <= T -> 0 < w -> w ^ 4 = a ^ 2 * w ^ 2 + b ^ 2 -> 0 <= x -> 0 < y -> root T a b x y -> y <= w.
Proof.
  intros Ha Hb HT Hw W4 Hx Hy H. apply Rnot_lt_le. intros L. assert (G := root_gain T a b x y Ha Hb Hx Hy H). assert (P := root_phase T a b x y Ha Hb HT Hx Hy H). assert (Q := psi_low a b x y Ha Hb Hx Hy).
  assert (W2 : 0 < w ^ 2) by (apply pow_lt, Hw). assert (WY : w ^ 2 < y * y) by nra. assert (XX : 0 <= x * x) by (apply Rmult_le_pos; lra). set (n := x * x + y * y) in *. assert (NL : y * y <= n) by (unfold n; lra). clearbody n.
  assert (E2 : w ^ 2 ^ 2 = a ^ 2 * w ^ 2 + b ^ 2) by exact W4.
  assert (B1 := beyond a b (w ^ 2) n W2 ltac:(rewrite <- W4; ring) Hb ltac:(lra)). assert (B2 := beyond a b (w ^ 2) (y * y) W2 ltac:(rewrite <- W4; ring) Hb WY).
  assert (EX : 1 + 2 * (x * T) <= exp (2 * (x * T))) by (apply exp_ineq1_le). assert (AB : 0 < a * b) by (apply Rmult_lt_0_compat; assumption). assert (A2 : 0 < a ^ 2) by (apply pow_lt, Ha). assert (BB : 0 < b ^ 2) by (apply pow_lt, Hb).
  assert (AT : a * b <= y * y * y * atan (a * y / b)).
  { assert (AY : 0 < a * y) by (apply Rmult_lt_0_compat; assumption). assert (LO := atan_low (a * y / b) ltac:(left; apply Rdiv_lt_0_compat; assumption)). assert (Y3 : 0 < y * y * y) by (apply Rmult_lt_0_compat; [apply Rmult_lt_0_compat; assumption|assumption]).
    assert (S0 : 0 < a ^ 2 * (y * y) + b ^ 2) by (assert (0 < a ^ 2 * (y * y)) by (apply Rmult_lt_0_compat; [assumption|apply Rmult_lt_0_compat; assumption]); lra).
    assert (Z : a * y / b / (1 + (a * y / b) ^ 2) = a * b * y / (a ^ 2 * (y * y) + b ^ 2)) by (field; repeat split; try lra; apply Rgt_not_eq; replace (b ^ 2 + (a * y) ^ 2) with (a ^ 2 * (y * y) + b ^ 2) by ring; exact S0). rewrite Z in LO.
    apply Rle_trans with (y * y * y * (a * b * y / (a ^ 2 * (y * y) + b ^ 2))); [|apply Rmult_le_compat_l; lra].
    apply (Rmult_le_reg_r (a ^ 2 * (y * y) + b ^ 2)); [exact S0|]. replace (y * y * y * (a * b * y / (a ^ 2 * (y * y) + b ^ 2)) * (a ^ 2 * (y * y) + b ^ 2)) with (a * b * (y * y) ^ 2) by (field; lra). apply Rmult_le_compat_l; lra. }
  assert (XT : a * b * x <= n ^ 2 * (x * T)).
  { apply Rle_trans with (y * y * y * atan (a * y / b) * x); [apply Rmult_le_compat_r; assumption|]. apply Rle_trans with (y * y * y * (y * T) * x); [apply Rmult_le_compat_r; [exact Hx|]; apply Rmult_le_compat_l; [|lra]; apply Rmult_le_pos; [apply Rmult_le_pos|]; lra|].
    replace (y * y * y * (y * T) * x) with ((y * y) ^ 2 * (x * T)) by ring. apply Rmult_le_compat_r; [apply Rmult_le_pos; assumption|]. apply pow_incr. split; [apply Rmult_le_pos; lra|exact NL]. }
  assert (N2 : 0 < n ^ 2) by (apply pow_lt; assert (0 < y * y) by (apply Rmult_lt_0_compat; assumption); lra).
  assert (n ^ 2 * (1 + 2 * (x * T)) <= n ^ 2 * exp (2 * (x * T))) by (apply Rmult_le_compat_l; lra). lra.
Qed.
Lemma stable_root T a b w x y : 0 < a -> 0 < b -> 0 <= T -> 0 < w -> w ^ 4 = a ^ 2 * w ^ 2 + b ^ 2 -> T * w < atan (a * w / b) -> y <> 0 -> root T a b x y -> x < 0.
Proof.
  intros Ha Hb HT Hw W4 M NY H. apply Rnot_le_lt. intros Hx. assert (K : exists y', 0 < y' /\ root T a b x y'). { destruct (Rlt_dec 0 y) as [P|N]; [exists y; split; assumption|]. exists (- y). split; [lra|apply root_conj, H]. }
  clear y NY H. destruct K as (y & Hy & H). assert (YW := root_low T a b w x y Ha Hb HT Hw W4 Hx Hy H). assert (P := root_phase T a b x y Ha Hb HT Hx Hy H). assert (Q := psi_low a b x y Ha Hb Hx Hy).
  assert (R' := atan_ratio (a * y / b) (a * w / b)). assert (AY : 0 < a / b) by (apply Rdiv_lt_0_compat; assumption). replace (a * y / b) with (a / b * y) in * by (field; lra). replace (a * w / b) with (a / b * w) in * by (field; lra).
  assert (Y1 : 0 < a / b * y) by (apply Rmult_lt_0_compat; assumption). assert (Y2 : a / b * y <= a / b * w) by (apply Rmult_le_compat_l; lra). specialize (R' Y1 Y2). set (k := a / b) in *. clearbody k.
  assert (atan (k * w) * y <= atan (k * y) * w) by (apply (Rmult_le_reg_l k); [exact AY|]; lra).
  assert (atan (k * y) * w <= y * T * w) by (apply Rmult_le_compat_r; lra). assert (T * w * y < atan (k * w) * y) by (apply Rmult_lt_compat_r; assumption). lra.
Qed.
Lemma critical_root T a b w : 0 < a -> 0 < b -> 0 < w -> w ^ 4 = a ^ 2 * w ^ 2 + b ^ 2 -> T * w = atan (a * w / b) -> root T a b 0 w.
Proof.
  intros Ha Hb Hw W4 M. apply root_parts; try assumption; try lra. cbv zeta. replace (- (0 * T)) with 0 by ring. rewrite exp_0. replace (a * 0 + b) with b by ring. replace (0 / w) with 0 by (field; lra). rewrite atan_0. replace (2 * 0) with 0 by ring. rewrite (Rmult_comm w T), M, Rminus_eq_0, cos_0, sin_0.
  replace (b * b + a * w * (a * w)) with (w * w * (w * w)) by (transitivity (w ^ 4); [ring|rewrite W4; ring]). rewrite sqrt_square by (apply Rmult_le_pos; lra). split; ring.
Qed.
