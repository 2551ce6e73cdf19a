(** * Lemmas: one cycle of several gyro steps and a measurement *)
From Coq Require Import Reals Lra Psatz Lia.
From Verif Require Import Num Vec Mat6 M_vector M_quaternion M_obs S_rot S_obs S_steady P_quat P_wheel P_dyn P_dyn2 P_obs P_obs3 P_steady Props_obs P_farr P_est1 P_est2 P_est3 P_tot3 P_orb3 P_tri1 P_tri2 P_tri3 P_tri4 P_tri5 P_mul1 P_mul2 P_mul3.
Local Open Scope R_scope.

Lemma part_x dt m (w bs b : v3) : m <> 0 -> scale3 (dt / 2) (sub3 w b) = scale3 (/ m) (add3 (scale3 (m * dt / 2) (sub3 w bs)) (scale3 (m * dt / 2) (sub3 bs b))).
Proof. intros H. destruct w as [a1 a2 a3], b as [b1 b2 b3], bs as [c1 c2 c3]. vunfoldg. cbn [x3 y3 z3]. rnumg. f_equal; field; exact H. Qed.
Lemma part_sum m n (s x e : v3) : sub3 (add3 s (scale3 (/ m) (add3 e x))) (scale3 ((n + 1) / m) x) = add3 (sub3 s (scale3 (n / m) x)) (scale3 (/ m) e).
Proof. unfold Rdiv. generalize (/ m). intros k. vring. Qed.
Lemma sums dt N w (bs b : v3) d : 0 < dt -> (1 <= N)%nat -> let h := INR N * dt in let x := scale3 (h / 2) (sub3 bs b) in let X := fun n => scale3 (dt / 2) (sub3 (w n) b) in
  (forall n, (n < N)%nat -> norm3 (scale3 (h / 2) (sub3 (w n) bs)) <= d) -> norm3 (sub3 (sumX X N) x) <= d /\ sumN X N <= norm3 x + d /\ forall n, (n < N)%nat -> norm3 (X n) <= norm3 x + d.
Proof.
  intros H L h x X HW. assert (NP : 1 <= INR N) by (apply (le_INR 1), L). set (m := INR N) in *. assert (IM : 0 < / m <= 1) by (split; [apply Rinv_0_lt_compat; lra|rewrite <- Rinv_1; apply Rinv_le_contravar; lra]).
  assert (XE : forall n, X n = scale3 (/ m) (add3 (scale3 (h / 2) (sub3 (w n) bs)) x)) by (intros n; unfold X, x, h; apply part_x; lra). assert (X0 := n3pos x).
  assert (XN : forall n, (n < N)%nat -> norm3 (X n) <= / m * (norm3 x + d)). { intros n Ln. rewrite XE, nscale, Rabs_pos_eq by lra. apply Rmult_le_compat_l; [lra|]. eapply Rle_trans; [apply nadd|]. assert (Z := HW n Ln). lra. }
  assert (D0 : 0 <= d) by (eapply Rle_trans; [apply n3pos|apply (HW O); lia]).
  assert (IND : forall n, (n <= N)%nat -> norm3 (sub3 (sumX X n) (scale3 (INR n / m) x)) <= INR n / m * d /\ sumN X n <= INR n / m * (norm3 x + d)).
  { induction n as [|n IH]; intros Ln.
    - cbn [sumX sumN INR]. replace (0 / m) with 0 by (field; lra). replace (sub3 zero3 (scale3 0 x)) with (zero3 (T:=R)) by vring. rewrite nzero. lra.
    - destruct (IH ltac:(lia)) as [A B]. cbn [sumX sumN]. rewrite S_INR. split.
      + rewrite XE, part_sum. eapply Rle_trans; [apply nadd|]. rewrite nscale, Rabs_pos_eq by lra. assert (Z := HW n ltac:(lia)). assert (/ m * norm3 (scale3 (h / 2) (sub3 (w n) bs)) <= / m * d) by (apply Rmult_le_compat_l; lra). unfold Rdiv in *. lra.
      + assert (Z := XN n ltac:(lia)). unfold Rdiv in *. lra. }
  destruct (IND N (le_n N)) as [A B]. fold m in A, B. replace (m / m) with 1 in A, B by (field; lra). replace (scale3 1 x) with x in A by (symmetry; apply scale_one). split; [lra|]. split; [lra|]. intros n Ln. eapply Rle_trans; [apply XN, Ln|]. assert (/ m * (norm3 x + d) <= 1 * (norm3 x + d)) by (apply Rmult_le_compat_r; lra). lra.
Qed.
Lemma cycle_N dt N : 0 < dt -> (1 <= N)%nat -> exists c, 0 < c /\ forall eta B cov w z qs bs f f' d s, 0 < eta <= 1 -> 1 <= B -> psd3 cov -> (forall n, (n <= N)%nat -> sz3 (preN dt n cov) <= B) ->
  dotq (a_q f) (a_q f) = 1 -> dotq qs qs = 1 -> 0 <= qw (error_quat qs (a_q f)) -> a_dq f = zero3 -> within eta (a_P f) cov ->
  let h := INR N * dt in let u := vec (error_quat qs (a_q f)) in let x := scale3 (h / 2) (sub3 bs (a_b f)) in let v := SENSOR_SIGMA ^ 2 in let sE := (B / v + 1) * (2 * (eta * B) / v) in
  s = norm3 u + norm3 x -> 0 <= d -> normq (subq z qs) <= d -> (forall n, (n < N)%nat -> norm3 (scale3 (h / 2) (sub3 (w n) bs)) <= d) -> s + 2 * d <= 1 / 8 -> grow N * (s + 2 * d) <= 1 / 8 -> B * (2 * (s + d)) <= c * eta * dt -> sE <= 1 ->
  af_measurement z (gyro_steps dt w N f) = Ok f' ->
  let k1 := g1 h (nA dt N) cov in let k2 := g2 h (nA dt N) (nC dt N) cov in let W := s + 2 * d in let ee := grow N * (W * W) in let Y := norm3 (sub3 u x) + ee + 3 * d in
  dotq (a_q f') (a_q f') = 1 /\ 0 <= qw (error_quat qs (a_q f')) /\ a_dq f' = zero3 /\ within eta (a_P f') (nxg h (nA dt N) (nC dt N) (nD dt N) cov) /\ 0 < k1 < 1 /\
  norm3 (sub3 (vec (error_quat qs (a_q f'))) (scale3 (1 - k1 / 2) (sub3 u x))) <= 60 * ee + sE * Y + 2 * d /\
  norm3 (sub3 (scale3 (h / 2) (sub3 bs (a_b f'))) (add3 x (scale3 (- k2 * h / 2) (sub3 u x)))) <= h / 2 * (sE * Y + Rabs k2 * (ee + 3 * d)).
Proof.
  intros H L. destruct (steps_within dt H) as (c & C0 & SW). exists c. split; [exact C0|]. intros eta B cov w z qs bs f f' d s ET B1 PS SZ Uq Us E0 DQ BW h u x v sE ES D0 Hz Hw HS HG HB SE M k1 k2 W ee Y.
  assert (V := R_pos). fold v in V. destruct (noise_okN dt N H L) as (N0 & N1 & N2 & N3 & N4). fold h in N0, N2.
  destruct (sums dt N w bs (a_b f) d H L Hw) as (S1 & S2 & S3). fold h in S1, S2, S3. fold x in S1, S2, S3. set (Xn := fun n => scale3 (dt / 2) (sub3 (w n) (a_b f))) in *. set (X := sumX Xn N) in *.
  assert (Pu := n3pos u). assert (Px := n3pos x). assert (VN : forall n, (n < N)%nat -> let vn := sub3 (w n) (a_b f) in norm3 vn * dt <= 1 /\ B * norm3 vn <= c * eta).
  { intros n Ln vn. assert (Z := S3 n Ln). unfold Xn in Z. fold vn in Z. rewrite nscale, Rabs_pos_eq in Z by lra. split; [lra|]. apply Rmult_le_reg_r with dt; [exact H|]. eapply Rle_trans; [|exact HB]. rewrite Rmult_assoc. apply Rmult_le_compat_l; lra. }
  assert (BPR := SW eta B N cov w f ET PS SZ VN BW N (le_n N)). assert (W2 := sq0 W). assert (GN := grow_ge N).
  assert (CL := steps_close dt w f qs N W H Uq Us E0). cbv zeta in CL. fold u in CL. fold Xn in CL. assert (WWE : grow N * (W * W) <= 1). { assert (grow N * W * W <= 1 / 8 * W) by (apply Rmult_le_compat_r; [unfold W; lra|exact HG]). fold W in HS. lra. } specialize (CL ltac:(unfold W; lra) HS WWE N (le_n N)). fold X in CL. fold ee in CL.
  assert (SZN := SZ N (le_n N)). assert (PSN := preN_psd dt N cov H PS). destruct (steps_b dt w N f) as [AB1 DQ1]. rewrite DQ in DQ1. set (f1 := gyro_steps dt w N f) in *. clearbody f1.
  destruct cov as [[p q] r]. cbn [preN sz3 psd3 within g1 g2] in *. fold h in SZN, PSN, BPR. assert (P0 := pre_pos_w h (nA dt N) N1 p q r PS).
  assert (BME := measure_within z f1 f' eta _ _ _ ET PSN P0 BPR M). cbv zeta in BME.
  assert (GNR := gains_near eta (a_P f1) _ _ _ ET PSN P0 BPR). fold v in GNR. cbv zeta in GNR.
  assert (K1B : 0 < k1 < 1). { unfold k1. fold v. split; [apply Rdiv_lt_0_compat; lra|]. apply Rmult_lt_reg_r with (pre_p h (nA dt N) p q r + v); [lra|]. unfold Rdiv. rewrite Rmult_assoc, Rinv_l by lra. lra. }
  revert M. unfold af_measurement. destruct (Reqb_spec (det3 (addm af_R (b11 (a_P f1)))) 0) as [E|E]; [discriminate|]. destruct (af_gain (a_P f1)) as [K1 K2]. intros M. injection M as M.
  rewrite DQ1, sub3_0_r, AB1 in M. set (y := vec (error_quat z (a_q f1))) in *. unfold af_reset in M. cbn [a_dq a_db a_q a_b a_P] in M.
  assert (MQ : a_q f' = normalizeq (fixed_q (a_q f1) (mv K1 y))) by (rewrite <- M; reflexivity). assert (MB : a_b f' = add3 (a_b f) (mv K2 y)) by (rewrite <- M; reflexivity). assert (MD : a_dq f' = zero3) by (rewrite <- M; reflexivity).
  set (SZp := sz (pre_p h (nA dt N) p q r) (pre_q h (nC dt N) p q r) (pre_r (nD dt N) p q r)) in *. assert (SZp0 : 0 <= SZp) by apply sz_pos. assert (BV : 0 <= B / v) by (apply Rmult_le_pos; [lra|left; apply Rinv_0_lt_compat, V]). assert (SV : SZp / v <= B / v) by (apply Rmult_le_compat_r; [left; apply Rinv_0_lt_compat, V|exact SZN]).
  assert (EV : 0 <= 2 * (eta * SZp) / v <= 2 * (eta * B) / v). { split; [apply Rmult_le_pos; [|left; apply Rinv_0_lt_compat, V]; assert (0 <= eta * SZp) by (apply Rmult_le_pos; lra); lra|]. apply Rmult_le_compat_r; [left; apply Rinv_0_lt_compat, V|]. assert (eta * SZp <= eta * B) by (apply Rmult_le_compat_l; lra). lra. }
  assert (SV0 : 0 <= SZp / v) by (apply Rmult_le_pos; [lra|left; apply Rinv_0_lt_compat, V]). assert (G1 : 2 * (eta * SZp) / v <= sE). { unfold sE. apply Rle_trans with (1 * (2 * (eta * B) / v)); [lra|]. apply Rmult_le_compat_r; lra. } assert (G2 : (SZp / v + 1) * (2 * (eta * SZp) / v) <= sE) by (unfold sE; apply Rmult_le_compat; lra).
  destruct (GNR y) as [GA GB]. assert (NY := n3pos y). assert (GA' : norm3 (sub3 (mv K1 y) (scale3 k1 y)) <= sE * norm3 y) by (eapply Rle_trans; [exact GA|]; apply Rmult_le_compat_r; assumption). assert (GB' : norm3 (sub3 (mv K2 y) (scale3 k2 y)) <= sE * norm3 y) by (eapply Rle_trans; [exact GB|]; apply Rmult_le_compat_r; assumption). assert (SE0 : 0 <= sE) by lra.
  assert (NXx : norm3 X <= norm3 x + d). { rewrite (v_back X x). eapply Rle_trans; [apply nadd|]. lra. }
  assert (HV : norm3 (sub3 u X) + d <= W) by (assert (Z := nsub u X); unfold W; lra).
  destruct (fix_y (a_q f1) qs z (sub3 u X) W (grow N) d CL D0 Hz GN HV HS HG) as (Y1 & Y3 & _). fold y in Y1, Y3. fold ee in Y1.
  destruct (fix_q (a_q f1) qs z (sub3 u X) W (grow N) d CL D0 Hz GN HV HS HG k1 sE (mv K1 y)) as (C1 & C2 & C3); [lra|lra|exact GA'|]. rewrite <- MQ in C1, C2, C3. fold ee in C3. fold y in C3.
  assert (YY : norm3 y <= Y). { unfold Y. rewrite (v_back y (sub3 u x)). eapply Rle_trans; [apply nadd|]. rewrite (v_chain y (sub3 u X) (sub3 u x)). assert (Z0 := nadd (sub3 y (sub3 u X)) (sub3 (sub3 u X) (sub3 u x))). replace (sub3 (sub3 u X) (sub3 u x)) with (scale3 (-1) (sub3 X x)) in Z0 at 2 by (generalize u X x; clear; vring). rewrite nscale in Z0. replace (Rabs (-1)) with 1 in Z0 by (rewrite Rabs_left; lra). lra. }
  assert (SY : sE * norm3 y <= sE * Y) by (apply Rmult_le_compat_l; assumption).
  split; [exact C1|]. split; [exact C2|]. split; [exact MD|]. split; [exact BME|]. split; [exact K1B|]. split.
  - rewrite (v_chain _ (scale3 (1 - k1 / 2) (sub3 u X)) _). eapply Rle_trans; [apply nadd|]. rewrite vec_diff, nscale, Rabs_Ropp, (Rabs_pos_eq (1 - k1 / 2)) by lra. assert ((1 - k1 / 2) * norm3 (sub3 X x) <= 1 * d) by (apply Rmult_le_compat; try apply n3pos; lra). lra.
  - rewrite MB. replace (sub3 (scale3 (h / 2) (sub3 bs (add3 (a_b f) (mv K2 y)))) (add3 x (scale3 (- k2 * h / 2) (sub3 u x)))) with (scale3 (- (h / 2)) (add3 (sub3 (mv K2 y) (scale3 k2 y)) (scale3 k2 (add3 (sub3 y (sub3 u X)) (scale3 (-1) (sub3 X x)))))).
    2:{ unfold x. generalize (mv K2 y) y u X (a_b f) k2 h. clear. intros a b0 e g i k h0. destruct a as [a1 a2 a3], b0 as [b1 b2 b3], e as [e1 e2 e3], g as [g1 g2 g3], i as [h1 h2 h3], bs as [s1 s2 s3]. vunfoldg. cbn [x3 y3 z3]. rnumg. f_equal; field. }
    rewrite nscale, Rabs_Ropp, (Rabs_pos_eq (h / 2)) by lra. apply Rmult_le_compat_l; [lra|]. eapply Rle_trans; [apply nadd|]. rewrite (nscale k2). assert (Z1 := nadd (sub3 y (sub3 u X)) (scale3 (-1) (sub3 X x))). rewrite (nscale (-1)) in Z1. replace (Rabs (-1)) with 1 in Z1 by (rewrite Rabs_left; lra). assert (K20 := Rabs_pos k2).
    assert (Rabs k2 * norm3 (add3 (sub3 y (sub3 u X)) (scale3 (-1) (sub3 X x))) <= Rabs k2 * (ee + 3 * d)) by (apply Rmult_le_compat_l; [exact K20|]; lra). lra.
Qed.
