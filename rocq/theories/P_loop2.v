(** * Lemmas: the closed loop in error coordinates, clamps removed *)
From Coq Require Import Reals ZArith List Bool Arith Lra Psatz Lia.
From Coquelicot Require Import Coquelicot.
From Verif Require Import Num Vec M_vector M_quaternion M_struct M_dyn M_ctrl S_rot S_dyn S_ctrl P_picard P_exist2 P_rk P_rk4 P_loop1.
From Verif Require Import P_quat P_wheel P_dyn P_dyn2 P_obs P_sat P_ctrl P_ctrl2 P_ctrl3 P_ctrl4 P_ctrl5 P_conv P_detum P_detum2 Props_ctrl Props_ctrl2 Props_ctrl3 Props_conv Props_detum P_dump P_dump2 Props_dump.
Import ListNotations.
Local Open Scope R_scope.

Lemma stays_below (f : R -> R) f' c : derivable_pt_lim f 0 f' -> f 0 < c -> exists a, a < 0 /\ forall t, a < t <= 0 -> f t < c.
Proof.
  intros D H. assert (C : continuity_pt f 0) by (apply derivable_continuous_pt; exists f'; exact D).
  destruct (C (c - f 0) ltac:(lra)) as (r & rp & HR). exists (- r). split; [lra|]. intros t Ht. destruct (Req_dec t 0) as [->|N]; [exact H|].
  specialize (HR t). cbn in HR. unfold D_x, no_cond, R_dist in HR. assert (Z : Rabs (f t - f 0) < c - f 0). { apply HR. split; [split; [exact I|lra]|]. rewrite Rminus_0_r, Rabs_left1; lra. }
  assert (Q := Rle_abs (f t - f 0)). lra.
Qed.
Lemma sq_lt x m : 0 < m -> x * x < m * m -> - m < x < m.
Proof. intros M H. split; apply Rnot_le_lt; intros L; [assert (0 <= (- m - x) * (m - x)) by (apply Rmult_le_pos; lra)|assert (0 <= (x - m) * (x + m)) by (apply Rmult_le_pos; lra)]; lra. Qed.
Lemma boxed_id D v : 0 < D -> dot3 v v < D * D -> boxed D v = v.
Proof.
  intros DP. destruct v as [p q r]. unfold boxed. cbn [x3 y3 z3]. vunfoldg. rnumg. intros H. assert (A := Rle_0_sqr p). assert (B := Rle_0_sqr q). assert (C := Rle_0_sqr r). unfold Rsqr in *.
  assert (P := sq_lt p D DP ltac:(lra)). assert (Q := sq_lt q D DP ltac:(lra)). assert (S := sq_lt r D DP ltac:(lra)). rewrite !clamp_id by lra. reflexivity.
Qed.
Lemma shrink_pos b z : 0 <= shrink b z.
Proof. unfold shrink. assert (M := Rmax_l 3 (n1 (scale3 (/ b) z))). apply Rdiv_le_0_compat; lra. Qed.
Lemma shrink_1 b z : 0 < b -> dot3 z z < 3 * (b * b) -> shrink b z = 1.
Proof.
  intros B H. unfold shrink. rewrite Rmax_left; [field|]. assert (Q := n1_sq (scale3 (/ b) z)). assert (P := n1_pos (scale3 (/ b) z)).
  assert (E : dot3 (scale3 (/ b) z) (scale3 (/ b) z) = / b * / b * dot3 z z) by (destruct z as [p q r]; vunfoldg; rnumg; ring). rewrite E in Q.
  assert (L : / b * / b * dot3 z z < 3). { assert (I := Rinv_0_lt_compat b B). replace 3 with (/ b * / b * (3 * (b * b))) by (field; lra). apply Rmult_lt_compat_l; [|exact H]. apply Rmult_lt_0_compat; exact I. }
  apply Rnot_lt_le. intros G. assert (3 * 3 < n1 (scale3 (/ b) z) * n1 (scale3 (/ b) z)) by (apply Rmult_le_0_lt_compat; lra). lra.
Qed.
Lemma over_dot (n v z : v3) : dot3 z (over n v) = dot3 z v - dot3 v n * dot3 z n.
Proof. unfold over. destruct n as [a b c], v as [d e f], z as [p q r]. vunfoldg. rnumg. ring. Qed.
Lemma over_sub (n u v : v3) : over n (sub3 u v) = sub3 (over n u) (over n v).
Proof. unfold over. destruct n as [a b c], v as [d e f], u as [p q r]. vunfoldg. rnumg. apply mk3_c; ring. Qed.
Lemma over_sq (n v : v3) : dot3 n n = 1 -> dot3 (over n v) (over n v) = dot3 v v - dot3 v n * dot3 v n.
Proof. intros U. rewrite over_dot. rewrite (dot_comm3 (over n v) v), (dot_comm3 (over n v) n), !over_dot, U. rewrite (dot_comm3 n v). ring. Qed.
(** what the clamped law does to the length of z *)
Lemma over_growth (n z L : v3) rho C th : dot3 n n = 1 -> 0 <= rho -> 0 <= C -> 0 < th -> dot3 L L <= C * (th * th) ->
  - (2 * dot3 z (over n (sub3 (scale3 rho z) L))) <= th * (dot3 z z + C).
Proof.
  intros U R0 C0 T HL. assert (E : dot3 z (over n (sub3 (scale3 rho z) L)) = rho * (dot3 z z - dot3 z n * dot3 z n) - dot3 z (over n L)).
  { rewrite !over_dot. destruct n as [a b c], L as [d e f], z as [p q r]. vunfoldg. rnumg. ring. }
  rewrite E. assert (K := cs3 z n). rewrite U in K. assert (K1 : 0 <= rho * (dot3 z z - dot3 z n * dot3 z n)) by (apply Rmult_le_pos; [exact R0|lra]).
  assert (O := over_sq n L U). assert (O1 := Rle_0_sqr (dot3 L n)). unfold Rsqr in O1.
  assert (Q := dot3_nonneg (sub3 (scale3 th z) (over n L))). assert (Q1 : dot3 (sub3 (scale3 th z) (over n L)) (sub3 (scale3 th z) (over n L)) = th * th * dot3 z z - 2 * th * dot3 z (over n L) + dot3 (over n L) (over n L)) by (generalize (over n L); clear; intros [d e f]; destruct z as [p q r]; vunfoldg; rnumg; ring).
  rewrite Q1 in Q. assert (F : th * (2 * dot3 z (over n L)) <= th * (th * (dot3 z z + C))) by lra. apply Rmult_le_reg_l in F; [|exact T]. lra.
Qed.
Lemma error_of_product (r e : quat) : unitq r -> error_quat (product r e) r = e.
Proof.
  unfold unitq, error_quat. intros U. rewrite <- product_assoc. assert (E : product (conjugate r) r = scaleq (dotq r r) q1) by (clear; revert r; qring). rewrite E, U. clear. revert e. qring.
Qed.
Lemma d_square (f : R -> v3) t f' : deriv3 f t f' -> derivable_pt_lim (fun s => dot3 (f s) (f s)) t (2 * dot3 (f t) f').
Proof. intros D. eapply d_eq; [exact (d_dot3 f f t f' f' D D)|]. rewrite (dot_comm3 f' (f t)). ring. Qed.
Lemma d_ext (f g : R -> R) t d : (forall s, f s = g s) -> derivable_pt_lim f t d -> derivable_pt_lim g t d.
Proof. intros E H eps ep. destruct (H eps ep) as (r & HR). exists r. intros h. rewrite <- !E. apply HR. Qed.
Lemma half_05 : 0.5 = 1 / 2. Proof. lra. Qed.

(** the rate error stays bounded whatever the attitude error does *)
Lemma rate_bounded al ga k (e : R -> quat) (d : R -> v3) : 0 < ga -> k * k = al * al -> (forall t, unitq (e t)) -> (forall t, deriv3 d t (sub3 (scale3 (- k) (vec (e t))) (scale3 ga (d t)))) ->
  forall t, 0 <= t -> dot3 (d t) (d t) <= al * al / (ga * ga) + dot3 (d 0) (d 0).
Proof.
  intros G KK UE DD t Ht. set (c := al * al / (ga * ga)). assert (cP : 0 <= c) by (apply Rdiv_le_0_compat; [apply Rle_0_sqr|apply Rmult_lt_0_compat; assumption]).
  assert (M : (dot3 (d t) (d t) - c) * exp (ga * t) <= (dot3 (d 0) (d 0) - c) * exp (ga * 0)).
  { apply (le_of_deriv (fun s => (dot3 (d s) (d s) - c) * exp (ga * s)) (fun s => (2 * dot3 (d s) (sub3 (scale3 (- k) (vec (e s))) (scale3 ga (d s))) - 0) * exp (ga * s) + (dot3 (d s) (d s) - c) * (exp (ga * s) * (ga * 1))) 0 t Ht).
    - intros s _. apply (derivable_pt_lim_mult (fun s => dot3 (d s) (d s) - c) (fun s => exp (ga * s))).
      + apply (derivable_pt_lim_minus (fun s => dot3 (d s) (d s)) (fun _ => c)); [apply d_square, DD|apply derivable_pt_lim_const].
      + apply (derivable_pt_lim_comp (fun s => ga * s) exp); [apply d_lin, d_id|apply derivable_pt_lim_exp].
    - intros s _. assert (U := UE s). set (x := vec (e s)) in *. assert (X : dot3 x x <= 1). { unfold unitq in U. assert (Q : qw (e s) ^ 2 + dot3 x x = 1) by (rewrite <- U; unfold x; generalize (e s); clear; intros [p q r v]; vunfoldg; cbn [x3 y3 z3 qw qx qy qz]; rnumg; ring). assert (Z := pow2_ge_0 (qw (e s))). lra. }
      assert (E : dot3 (d s) (sub3 (scale3 (- k) x) (scale3 ga (d s))) = - k * dot3 (d s) x - ga * dot3 (d s) (d s)) by (generalize (d s) x; clear; intros [p q r] [p' q' r']; vunfoldg; rnumg; ring). rewrite E.
      assert (EX := exp_pos (ga * s)). assert (N : 2 * (- k * dot3 (d s) x - ga * dot3 (d s) (d s)) - 0 + (dot3 (d s) (d s) - c) * (ga * 1) <= 0); [|set (g := exp (ga * s)) in *; assert (Z := Rmult_le_compat_r g _ _ (Rlt_le _ _ EX) N); rewrite Rmult_0_l in Z; lra].
      apply Rmult_le_reg_l with ga; [exact G|]. assert (Q := dot3_nonneg (add3 (scale3 ga (d s)) (scale3 k x))).
      assert (Q1 : dot3 (add3 (scale3 ga (d s)) (scale3 k x)) (add3 (scale3 ga (d s)) (scale3 k x)) = ga * ga * dot3 (d s) (d s) + 2 * ga * k * dot3 (d s) x + k * k * dot3 x x) by (generalize (d s) x; clear; intros [p q r] [p' q' r']; vunfoldg; rnumg; ring).
      rewrite Q1 in Q. assert (CC : ga * ga * c = al * al) by (unfold c; field; lra). assert (KX : k * k * dot3 x x <= al * al) by (rewrite KK; assert (Z := Rle_0_sqr al); unfold Rsqr in Z; assert (Z2 := Rmult_le_compat_l _ _ _ Z X); lra). lra. }
  rewrite Rmult_0_r, exp_0, Rmult_1_r in M. assert (EX : 1 <= exp (ga * t)) by (rewrite <- exp_0; destruct (Req_dec t 0) as [->|N]; [rewrite Rmult_0_r; lra|left; apply exp_increasing; apply Rmult_lt_0_compat; lra]).
  assert (P0 := dot3_nonneg (d 0)). apply Rnot_lt_le. intros L. assert (Z : (dot3 (d t) (d t) - c) * 1 <= (dot3 (d t) (d t) - c) * exp (ga * t)) by (apply Rmult_le_compat_l; lra). lra.
Qed.
(** the clamped momentum error stays bounded when what drives it dies out exponentially *)
Lemma drift_bounded kap lam C b (n z L : R -> v3) : 0 <= kap -> 0 < lam -> 0 <= C -> (forall t, dot3 (n t) (n t) = 1) ->
  (forall t, 0 <= t -> deriv3 z t (scale3 (- kap) (over (n t) (sub3 (scale3 (shrink b (z t)) (z t)) (L t))))) -> (forall t, 0 <= t -> dot3 (L t) (L t) <= C * exp (- lam * t)) ->
  forall t, 0 <= t -> dot3 (z t) (z t) + C <= (dot3 (z 0) (z 0) + C) * exp (2 * kap / lam).
Proof.
  intros KP LP CP NU DZ HL t Ht. set (th := fun s => exp (- (lam / 2) * s)). set (c := 2 * kap / lam). assert (cP : 0 <= c) by (apply Rdiv_le_0_compat; lra).
  assert (TP : forall s, 0 < th s) by (intros s; apply exp_pos).
  assert (M : (dot3 (z t) (z t) + C) * exp (c * th t) <= (dot3 (z 0) (z 0) + C) * exp (c * th 0)).
  { apply (le_of_deriv (fun s => (dot3 (z s) (z s) + C) * exp (c * th s)) (fun s => (2 * dot3 (z s) (scale3 (- kap) (over (n s) (sub3 (scale3 (shrink b (z s)) (z s)) (L s)))) + 0) * exp (c * th s) + (dot3 (z s) (z s) + C) * (exp (c * th s) * (c * (exp (- (lam / 2) * s) * (- (lam / 2) * 1))))) 0 t Ht).
    - intros s Hs. apply (derivable_pt_lim_mult (fun s => dot3 (z s) (z s) + C) (fun s => exp (c * th s))); [apply (derivable_pt_lim_plus (fun s => dot3 (z s) (z s)) (fun _ => C)); [apply d_square, DZ, Hs|apply derivable_pt_lim_const]|].
      apply (derivable_pt_lim_comp (fun s => c * th s) exp); [|apply derivable_pt_lim_exp]. apply d_lin. apply (derivable_pt_lim_comp (fun s => - (lam / 2) * s) exp); [apply d_lin, d_id|apply derivable_pt_lim_exp].
    - intros s Hs. change (exp (- (lam / 2) * s)) with (th s). set (v := over (n s) (sub3 (scale3 (shrink b (z s)) (z s)) (L s))).
      assert (E : dot3 (z s) (scale3 (- kap) v) = - kap * dot3 (z s) v) by (generalize (z s) v; clear; intros [p q r] [p' q' r']; vunfoldg; rnumg; ring). rewrite E.
      assert (G : - (2 * dot3 (z s) v) <= th s * (dot3 (z s) (z s) + C)). { apply over_growth; [apply NU|apply shrink_pos|exact CP|apply TP|]. eapply Rle_trans; [apply HL; lra|]. right. f_equal. unfold th. rewrite <- exp_plus. f_equal. lra. }
      assert (EX := exp_pos (c * th s)). set (X := exp (c * th s)) in *. set (V := dot3 (z s) (z s) + C) in *.
      assert (N : (2 * (- kap * dot3 (z s) v) + 0) + V * (c * (th s * (- (lam / 2) * 1))) <= 0). { replace (V * (c * (th s * (- (lam / 2) * 1)))) with (- (kap * (th s * V))) by (unfold c; field; lra). assert (Z := Rmult_le_compat_l kap _ _ KP G). lra. }
      assert (Z := Rmult_le_compat_r X _ _ (Rlt_le _ _ EX) N). rewrite Rmult_0_l in Z. lra. }
  assert (T0 : th 0 = 1) by (unfold th; rewrite Rmult_0_r; apply exp_0). rewrite T0, Rmult_1_r in M. fold c. eapply Rle_trans; [|exact M].
  assert (P := dot3_nonneg (z t)). rewrite <- (Rmult_1_r (dot3 (z t) (z t) + C)) at 1. apply Rmult_le_compat_l; [lra|]. assert (0 <= c * th t) by (apply Rmult_le_pos; [exact cP|left; apply TP]). destruct (Req_dec (c * th t) 0) as [->|NZ]; [rewrite exp_0; lra|]. rewrite <- exp_0. left. apply exp_increasing. lra.
Qed.

Lemma steady_lip qc wc : steady qc wc -> forall s t, let k := 2 * n1 wc in Rabs (qw (qc s) - qw (qc t)) <= k * Rabs (s - t) /\ Rabs (qx (qc s) - qx (qc t)) <= k * Rabs (s - t) /\ Rabs (qy (qc s) - qy (qc t)) <= k * Rabs (s - t) /\ Rabs (qz (qc s) - qz (qc t)) <= k * Rabs (s - t).
Proof.
  intros ST s t k. set (g := fun u => scaleq 0.5 (product (qc u) (pure wc))).
  assert (B : forall u, nq (g u) <= k).
  { intros u. unfold g. assert (E : nq (scaleq 0.5 (product (qc u) (pure wc))) = 1 / 2 * nq (product (qc u) (pure wc))). { generalize (product (qc u) (pure wc)). clear. intros [a b c d]. unfold nq. vunfoldg. rnumg. rewrite !Rabs_mult. rewrite (Rabs_pos_eq 0.5) by lra. lra. }
    rewrite E. assert (Z := nq_product (qc u) (pure wc)). rewrite pure_nq in Z. assert (Q := unit_nq (qc u) (proj1 (ST u))). assert (P := n1_pos wc). assert (Z2 := Rmult_le_compat_r (n1 wc) _ _ P Q). unfold k. lra. }
  assert (C : forall u, Rabs (qw (g u)) <= k /\ Rabs (qx (g u)) <= k /\ Rabs (qy (g u)) <= k /\ Rabs (qz (g u)) <= k).
  { intros u. assert (Z := B u). unfold nq in Z. assert (A0 := Rabs_pos (qw (g u))). assert (A1 := Rabs_pos (qx (g u))). assert (A2 := Rabs_pos (qy (g u))). assert (A3 := Rabs_pos (qz (g u))). lra. }
  assert (DQ : forall u, derivq qc u (g u)) by (intros u; apply ST).
  split; [|split; [|split]].
  - apply (mvt_lip (fun u => qw (qc u)) (fun u => qw (g u))); intros u; [destruct (DQ u) as (Z0 & Z1 & Z2 & Z3); exact Z0|destruct (C u) as (Z0 & Z1 & Z2 & Z3); exact Z0].
  - apply (mvt_lip (fun u => qx (qc u)) (fun u => qx (g u))); intros u; [destruct (DQ u) as (Z0 & Z1 & Z2 & Z3); exact Z1|destruct (C u) as (Z0 & Z1 & Z2 & Z3); exact Z1].
  - apply (mvt_lip (fun u => qy (qc u)) (fun u => qy (g u))); intros u; [destruct (DQ u) as (Z0 & Z1 & Z2 & Z3); exact Z2|destruct (C u) as (Z0 & Z1 & Z2 & Z3); exact Z2].
  - apply (mvt_lip (fun u => qz (qc u)) (fun u => qz (g u))); intros u; [destruct (DQ u) as (Z0 & Z1 & Z2 & Z3); exact Z3|destruct (C u) as (Z0 & Z1 & Z2 & Z3); exact Z3].
Qed.
Lemma loop_solution al ga (tr : Trigger R) kap J hr wc qc (n : R -> v3) kn e0 d0 z0 : 0 < al -> 0 < ga -> 0 < tr_hw tr < 1 -> pm1 (tr_mem tr) -> 0 <= kap -> steady qc wc -> 0 <= kn ->
  (forall t, dot3 (n t) (n t) = 1) -> (forall s t, n1 (sub3 (n s) (n t)) <= kn * Rabs (s - t)) -> cross3 wc (add3 (mv J wc) hr) = zero3 -> unitq e0 ->
  2 * al * (1 - tr_mem tr * qw e0) + dot3 d0 d0 / 2 < 2 * al * (1 + tr_hw tr) ->
  let N := sandwich_opp (qc 0) (add3 (mv J wc) hr) in
  exists e d z a, a < 0 /\ e 0 = e0 /\ d 0 = d0 /\ z 0 = z0 /\ (forall t, unitq (e t)) /\ forall t, a < t ->
    trig_step (qw (e t)) tr = tr /\ derivq e t (scaleq 0.5 (product (e t) (pure (d t)))) /\
    deriv3 d t (sub3 (scale3 (- tr_mem tr * al) (vec (e t))) (scale3 ga (d t))) /\
    deriv3 z t (scale3 (- kap) (over (n t) (sub3 (z t) (lo_L J hr wc N qc t (e t) (d t))))).
Proof.
  intros A G HW PM KP ST KN NU NL XK U0 HE N. set (s := tr_mem tr) in *. set (hw := tr_hw tr) in *. assert (SS := pm1_sq _ PM). fold s in SS.
  set (k := add3 (mv J wc) hr) in *. set (lam := cv_rate al ga (1 - hw)). assert (lp : 0 < lam) by (apply cv_rate_spec; lra).
  destruct (mv_bounded J) as (CJ & CJp & HJ). set (K0 := 12 * al * (1 - s * qw e0) + 4 * dot3 d0 d0). set (c2 := 16 * CJ * dot3 wc wc + 8 * dot3 k k).
  assert (SQ : forall q, unitq q -> -1 <= s * qw q <= 1 /\ dot3 (vec q) (vec q) <= 2 * (1 - s * qw q)).
  { intros q U. unfold unitq in U. assert (Q : qw q ^ 2 + dot3 (vec q) (vec q) = 1) by (rewrite <- U; generalize q; clear; intros [p q r v]; vunfoldg; cbn [x3 y3 z3 qw qx qy qz]; rnumg; ring).
    assert (Z := dot3_nonneg (vec q)). assert (E : s * qw q * (s * qw q) = qw q ^ 2) by (replace (s * qw q * (s * qw q)) with (s * s * qw q ^ 2) by ring; rewrite SS; ring).
    assert (S1 := Rle_0_sqr (1 - s * qw q)). unfold Rsqr in S1. split; [|lra]. split; nra. }
  assert (c2p : 0 <= c2) by (unfold c2; assert (X1 := dot3_nonneg wc); assert (X2 := dot3_nonneg k); nra).
  assert (K0p : 0 <= K0) by (unfold K0; assert (X1 := proj1 (SQ e0 U0)); assert (X2 := dot3_nonneg d0); nra).
  set (C := (4 * CJ + c2 / (2 * al)) * K0). assert (c3p : 0 <= c2 / (2 * al)) by (apply Rdiv_le_0_compat; lra). assert (CP : 0 <= C) by (apply Rmult_le_pos; [lra|exact K0p]).
  set (D := 1 + (al * al / (ga * ga) + dot3 d0 d0)). set (b := 1 + (dot3 z0 z0 + C) * exp (2 * kap / lam)).
  assert (D0 := dot3_nonneg d0). assert (Z0 := dot3_nonneg z0). assert (AG : 0 <= al * al / (ga * ga)) by (apply Rdiv_le_0_compat; [apply Rle_0_sqr|apply Rmult_lt_0_compat; assumption]).
  assert (DP : 1 <= D) by (unfold D; lra). assert (EXP := exp_pos (2 * kap / lam)). assert (bP : 1 <= b) by (unfold b; assert (0 <= (dot3 z0 z0 + C) * exp (2 * kap / lam)) by (apply Rmult_le_pos; lra); lra).
  destruct (loop_raw (s * al) ga kap J hr wc N qc n D b ltac:(lra) ltac:(lra) (2 * n1 wc) kn ltac:(assert (P := n1_pos wc); lra) KN (fun t => proj1 (ST t)) (steady_lip qc wc ST) NU NL e0 d0 z0 U0) as (e & d & z & E0 & DD0 & ZZ0 & UE & DE & DD & DZ).
  assert (DB : forall t, 0 <= t -> dot3 (d t) (d t) < D * D).
  { intros t Ht. assert (Z := rate_bounded al ga (s * al) e d G ltac:(replace (s * al * (s * al)) with (s * s * (al * al)) by ring; rewrite SS; ring) UE DD t Ht). rewrite DD0 in Z. assert (D <= D * D) by nra. unfold D in *. lra. }
  destruct (stays_below (fun t => dot3 (d t) (d t)) _ (D * D) (d_square d 0 _ (DD 0)) (DB 0 (Rle_refl 0))) as (a1 & A1 & B1).
  assert (DC : forall t, a1 < t -> boxed D (d t) = d t) by (intros t Ht; apply boxed_id; [lra|]; destruct (Rle_lt_dec t 0); [apply B1|apply DB]; lra).
  assert (DE' : forall t, a1 < t -> derivq e t (scaleq 0.5 (product (e t) (pure (d t))))) by (intros t Ht; assert (Z := DE t); rewrite (DC t Ht), <- half_05 in Z; exact Z).
  (* energy *)
  assert (DW : forall t, derivable_pt_lim (fun t => - (s * qw (e t))) t (- (s * (- (1 / 2) * dot3 (vec (e t)) (boxed D (d t)))))).
  { intros t. apply (derivable_pt_lim_opp (fun t => s * qw (e t))). apply d_lin. destruct (DE t) as (Z & _). eapply d_eq; [exact Z|]. generalize (e t) (boxed D (d t)). clear. intros [p q r v] [p' q' r']. unfold pure, product. vunfoldg; cbn [x3 y3 z3 qw qx qy qz]; rnumg. field. }
  assert (EN : forall t, 0 <= t -> 2 * al * (1 - s * qw (e t)) + dot3 (d t) (d t) / 2 <= 2 * al * (1 - s * qw e0) + dot3 d0 d0 / 2).
  { intros t Ht. rewrite <- E0, <- DD0.
    apply (le_of_deriv (fun t => 2 * al * (1 - s * qw (e t)) + dot3 (d t) (d t) / 2) (fun t => 2 * al * (- (s * (- (1 / 2) * dot3 (vec (e t)) (boxed D (d t))))) + 2 * dot3 (d t) (sub3 (scale3 (- (s * al)) (vec (e t))) (scale3 ga (d t))) * / 2) 0 t Ht).
    - intros u _. apply (derivable_pt_lim_plus (fun t => 2 * al * (1 - s * qw (e t))) (fun t => dot3 (d t) (d t) / 2)).
      + apply d_lin. apply (d_ext (fun t => 1 + - (s * qw (e t)))); [intros v; ring|]. eapply d_eq; [exact (derivable_pt_lim_plus (fun _ => 1) _ u _ _ (derivable_pt_lim_const 1 u) (DW u))|]. ring.
      + apply (d_ext (fun t => / 2 * dot3 (d t) (d t))); [intros v; field|]. eapply d_eq; [apply d_lin; exact (d_square d u _ (DD u))|]. ring.
    - intros u Hu. rewrite (DC u) by lra. assert (E : dot3 (d u) (sub3 (scale3 (- (s * al)) (vec (e u))) (scale3 ga (d u))) = - (s * al) * dot3 (vec (e u)) (d u) - ga * dot3 (d u) (d u)) by (generalize (d u) (vec (e u)); clear; intros [p q r] [p' q' r']; vunfoldg; rnumg; ring).
      rewrite E. assert (Z := dot3_nonneg (d u)). assert (0 <= ga * dot3 (d u) (d u)) by (apply Rmult_le_pos; lra). lra. }
  assert (WB : forall t, 0 <= t -> - (s * qw (e t)) < hw). { intros t Ht. assert (Z := EN t Ht). assert (P := dot3_nonneg (d t)). assert (Q : 2 * al * (1 - s * qw (e t)) < 2 * al * (1 + hw)) by lra. apply Rmult_lt_reg_l in Q; lra. }
  destruct (stays_below (fun t => - (s * qw (e t))) _ hw (DW 0) (WB 0 (Rle_refl 0))) as (a2 & A2 & B2).
  set (a3 := Rmax a1 a2). assert (A31 : a1 <= a3) by apply Rmax_l. assert (A32 : a2 <= a3) by apply Rmax_r. assert (A3 : a3 < 0) by (apply Rmax_lub_lt; assumption).
  assert (TS : forall t, a3 < t -> trig_step (qw (e t)) tr = tr). { intros t Ht. apply trig_keep. fold hw s. rewrite Rmult_comm. destruct (Rle_lt_dec t 0); [assert (Z := B2 t ltac:(lra))|assert (Z := WB t ltac:(lra))]; lra. }
  assert (DD' : forall t, deriv3 d t (sub3 (scale3 (- s * al) (vec (e t))) (scale3 ga (d t)))) by (intros t; replace (- s * al) with (- (s * al)) by ring; apply DD).
  assert (CV := error_converges al ga tr e d a3 A G HW PM A3 (fun t _ => UE t) (fun t Ht => DE' t ltac:(lra))).
  assert (CV' := CV ltac:(intros t Ht; rewrite (TS t Ht); apply DD')). cbv zeta in CV'. fold s hw lam in CV'. rewrite E0, DD0 in CV'. fold K0 in CV'. specialize (CV' HE). clear CV.
  assert (LB : forall t, 0 <= t -> let l := lo_L J hr wc N qc t (e t) (boxed D (d t)) in dot3 l l <= C * exp (- lam * t)).
  { intros t Ht l. destruct (ST t) as (UC & _). assert (EN' : N = sandwich_opp (qc t) k) by (unfold N; symmetry; apply (steady_keeps qc wc k ST XK)).
    assert (UQ : unitq (product (qc t) (e t))) by (unfold unitq; rewrite product_norm; rewrite (UE t : dotq _ _ = 1), (UC : dotq _ _ = 1); ring).
    assert (Y := whole_near J (product (qc t) (e t)) (qc t) (add3 (d t) (sandwich (e t) wc)) wc hr CJ UQ UC HJ ltac:(lra)). cbv zeta in Y. rewrite (error_of_product _ _ UC) in Y. fold k in Y. fold c2 in Y. rewrite <- EN' in Y.
    replace (sub3 (add3 (d t) (sandwich (e t) wc)) (sandwich (e t) wc)) with (d t) in Y by (generalize (d t) (sandwich (e t) wc); clear; vring).
    unfold l, lo_L. rewrite (DC t) by lra. eapply Rle_trans; [exact Y|]. destruct (CV' t Ht) as (_ & X). destruct (SQ (e t) (UE t)) as (S1 & S2). set (E := exp (- lam * t)) in *. assert (P := dot3_nonneg (d t)).
    assert (R1 : dot3 (d t) (d t) <= K0 * E) by nra. assert (R2 : dot3 (vec (e t)) (vec (e t)) <= K0 * E / (2 * al)) by (apply Rmult_le_reg_r with (2 * al); [lra|]; unfold Rdiv; rewrite Rmult_assoc, Rinv_l by lra; nra).
    unfold C. replace ((4 * CJ + c2 / (2 * al)) * K0 * E) with (4 * CJ * (K0 * E) + c2 * (K0 * E / (2 * al))) by (field; lra). apply Rplus_le_compat; apply Rmult_le_compat_l; lra. }
  assert (ZB : forall t, 0 <= t -> dot3 (z t) (z t) < 3 * (b * b)).
  { intros t Ht. assert (Z := drift_bounded kap lam C b n z (fun t => lo_L J hr wc N qc t (e t) (boxed D (d t))) KP lp CP NU (fun u _ => DZ u) LB t Ht). rewrite ZZ0 in Z. assert (b <= b * b) by nra. unfold b in *. lra. }
  destruct (stays_below (fun t => dot3 (z t) (z t)) _ (3 * (b * b)) (d_square z 0 _ (DZ 0)) (ZB 0 (Rle_refl 0))) as (a4 & A4 & B4).
  exists e, d, z, (Rmax a3 a4). assert (M1 : a3 <= Rmax a3 a4) by apply Rmax_l. assert (M2 : a4 <= Rmax a3 a4) by apply Rmax_r.
  split; [apply Rmax_lub_lt; assumption|]. split; [exact E0|]. split; [exact DD0|]. split; [exact ZZ0|]. split; [exact UE|]. intros t Ht. split; [apply TS; lra|]. split; [apply DE'; lra|]. split; [apply DD'|].
  assert (Z := DZ t). rewrite (DC t) in Z by lra. rewrite shrink_1 in Z; [|lra|destruct (Rle_lt_dec t 0); [apply B4|apply ZB]; lra].
  replace (scale3 1 (z t)) with (z t) in Z by (generalize (z t); clear; vring). exact Z.
Qed.
