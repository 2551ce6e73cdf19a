(** * C101: the stability analysis' delay against a true delay *)
From Coq Require Import Reals List Lra Psatz Lia.
From Verif Require Import Num Vec Mat6 M_quaternion M_struct M_sim M_lqr M_margins S_rot S_lqr S_tdelay P_quat P_lqr P_lqr2 P_dare P_axis P_delay Props_sim Props_lqr Props_dare Props_axis Props_delay P_tdelay P_tdelay2 P_tdelay3 P_tdelay4.
Import ListNotations.
Local Open Scope R_scope.

Lemma cross_quartic a b w : 0 < b -> gain_crossover [a; b] [1; 0; 0] w -> 0 < w /\ w ^ 4 = a ^ 2 * w ^ 2 + b ^ 2.
Proof.
  intros Hb H. apply cross0_gn in H; [|exact Hb]. destruct H as [W G]. split; [exact W|]. assert (Q := gn_sq a b w W). rewrite G in Q. assert (W4 : 0 < w ^ 4) by (apply pow_lt, W).
  apply (Rmult_eq_reg_r (/ w ^ 4)); [|apply Rinv_neq_0_compat; lra]. replace ((a ^ 2 * w ^ 2 + b ^ 2) * / w ^ 4) with (b ^ 2 / w ^ 4 + a ^ 2 / w ^ 2) by (field; lra). rewrite <- Q. field. lra.
Qed.
Lemma cross_ex a b : 0 < a -> 0 < b -> exists w, gain_crossover [a; b] [1; 0; 0] w.
Proof.
  intros Ha Hb. set (y := (a ^ 2 + sqrt (a ^ 4 + 4 * b ^ 2)) / 2). assert (Y0 : 0 < y) by (unfold y; assert (0 <= sqrt (a ^ 4 + 4 * b ^ 2)) by apply sqrt_pos; assert (0 < a ^ 2) by (apply pow_lt, Ha); lra).
  exists (sqrt y). apply cross_iff; [assumption|assumption|]. split; [apply sqrt_lt_R0, Y0|]. fold y. cbn [pow]. rewrite Rmult_1_r. apply sqrt_def. lra.
Qed.

(** ** C101: below the margin every wave dies out *)
(** The loop (a s + b) / s^2 with a delay of T seconds in it, and not its approximation, moves by z'' = - a z' - b z with the right side
    T late.  At the gain crossover w the phase margin before the delay is atan (a w / b), and the delay takes T w of it.  If less than all
    of it is taken, every wave that is a motion of the loop dies out. *)
Theorem C101_stable : forall T a b w, 0 <= T -> 0 < a -> 0 < b -> gain_crossover [a; b] [1; 0; 0] w -> T * w < atan (a * w / b) ->
  forall x y c d, late_motion T a b (wave x y c d) -> (exists t, wave x y c d t <> 0) -> x < 0.
Proof.
  intros T a b w HT Ha Hb HW M x y c d H N. destruct (cross_quartic a b w Hb HW) as [W W4]. destruct (Req_dec y 0) as [->|NY].
  - assert (E := motion_real T a b x c d H N). apply Rnot_le_lt. intros X. assert (0 <= x * x) by (apply Rmult_le_pos; lra). assert (0 <= a * x) by (apply Rmult_le_pos; lra). assert (0 < exp (- (x * T)) * (a * x + b)) by (apply Rmult_lt_0_compat; [apply exp_pos|lra]). lra.
  - exact (stable_root T a b w x y Ha Hb HT W W4 M NY (motion_root T a b x y c d H N NY)).
Qed.
Print Assumptions C101_stable.
(** ** C101: at the margin the loop swings forever with the frequency w *)
Theorem C101_critical : forall T a b w, 0 < a -> 0 < b -> gain_crossover [a; b] [1; 0; 0] w -> T * w = atan (a * w / b) -> forall c d, late_motion T a b (wave 0 w c d).
Proof. intros T a b w Ha Hb HW M. destruct (cross_quartic a b w Hb HW) as [W W4]. apply root_motion, critical_root; assumption. Qed.
Print Assumptions C101_critical.
(** ** C101: beyond the margin some oscillation grows *)
Theorem C101_unstable : forall T a b w, 0 < a -> 0 < b -> gain_crossover [a; b] [1; 0; 0] w -> atan (a * w / b) < T * w ->
  exists x y, 0 < x /\ 0 < y /\ forall c d, late_motion T a b (wave x y c d).
Proof.
  intros T a b w Ha Hb HW M. destruct (cross_quartic a b w Hb HW) as [W W4]. assert (HT : 0 < T). { assert (0 < atan (a * w / b)) by (rewrite <- atan_0; apply atan_increasing; apply Rdiv_lt_0_compat; [apply Rmult_lt_0_compat; assumption|exact Hb]). apply (Rmult_lt_reg_r w); [exact W|]. lra. }
  destruct (growing_root T a b HT Ha Hb w W W4 M) as (x & y & X & Y & R'). exists x, y. split; [exact X|]. split; [exact Y|]. apply root_motion, R'.
Qed.
Print Assumptions C101_unstable.

(** ** C101: the phase margin that axis_margins reports decides which of them it is, but for (T w)^9 / 25401600 rad *)
(** The library measures the margin phi of the loop with the approximated delay.  With T w <= pi (a margin is only known up to whole turns):
    a positive one, by more than that error, and every wave of the loop with the true delay dies out; a negative one and some wave grows. *)
Theorem C101_verdict : forall T a b w phi, 0 < T -> 0 < a -> 0 < b -> let tf := delayed T a b in
  gain_crossover (fst tf) (snd tf) w -> phase_margin (fst tf) (snd tf) w phi -> T * w <= PI ->
  ((T * w) ^ 9 / 25401600 < phi -> forall x y c d, late_motion T a b (wave x y c d) -> (exists t, wave x y c d t <> 0) -> x < 0) /\
  (phi < 0 -> exists x y, 0 < x /\ 0 < y /\ forall c d, late_motion T a b (wave x y c d)).
Proof.
  intros T a b w phi HT Ha Hb tf HW HP TW. destruct C95_margins as (lg & (_ & _ & _ & LB & _) & MG). destruct (MG T a b HT Ha Hb) as (GC & PM & _). fold tf in GC, PM. apply PM in HP; [|exact HW]. apply GC in HW. destruct HP as [PR (k & E)].
  destruct (cross_quartic a b w Hb HW) as [W _]. assert (TP : 0 < T * w) by (apply Rmult_lt_0_compat; assumption). specialize (LB (T * w) ltac:(lra)). assert (P := PI_RGT_0). assert (AR := phi_range a b 0 w Ha Hb ltac:(lra) W). rewrite Rmult_0_r, Rplus_0_l in AR.
  assert (X9 : 0 <= (T * w) ^ 9 / 25401600) by (assert (0 < (T * w) ^ 9) by (apply pow_lt, TP); lra).
  assert (K : k = 0%Z). { assert (IZR k * PI < PI) by lra. assert (K1 : IZR k < 1) by (apply (Rmult_lt_reg_r PI); lra). assert (P2 := PI2_1).
    assert (S9 : (T * w) ^ 9 / 25401600 <= T * w + 1). { assert (P4 := PI_4). assert (Q : (T * w) ^ 9 <= 4 ^ 9) by (apply pow_incr; lra). lra. }
    assert (K2 : -1 < IZR k) by (apply (Rmult_lt_reg_r PI); [exact P|]; lra). apply lt_IZR in K1. apply lt_IZR in K2. lia. }
  subst k. rewrite Rmult_0_r, Rmult_0_l, Rplus_0_r in E. split.
  - intros H. apply (C101_stable T a b w); try assumption; lra.
  - intros H. apply (C101_unstable T a b w); try assumption; lra.
Qed.
Print Assumptions C101_verdict.

(** ** C101: the gain of the design stands a delay of half a sample *)
(** About every principal axis n of the satellite, of the moment j, the gains kq and kw give a = kw / j and b = kq / (2 j), and the damping
    ratio a / (2 sqrt b) is over 0.7 (a^2 > 2 b) whatever the sampling time and the weights.  So with any delay of up to half a sample
    (a held command arrives half a sample late on average) every wave dies out. *)
Theorem C101_design : forall dare J Ts max_error max_rate K n j, solver_ok dare J Ts max_error max_rate -> det3 J <> 0 -> 0 < Ts -> max_error <> 0 -> max_rate <> 0 ->
  get_gain_matrix dare J Ts max_error max_rate = Ok K ->
  dot3 n n = 1 -> mv J n = scale3 j n -> mv (tr3 J) n = scale3 j n -> 0 < j ->
  exists kq kw, mv (k1 K) n = scale3 kq n /\ mv (k2 K) n = scale3 kw n /\
  let a := kw / j in let b := kq / j / 2 in
  0 < a /\ 0 < b /\ 2 * b < a ^ 2 /\ Ts * a < 2 /\
  (forall w, gain_crossover [a; b] [1; 0; 0] w -> Ts / 2 * w < 1.1 < atan (a * w / b)) /\
  forall T x y c d, 0 <= T <= Ts / 2 -> late_motion T a b (wave x y c d) -> (exists t, wave x y c d t <> 0) -> x < 0.
Proof.
  intros dare J Ts e w [Kq Kw] n j HD DJ HT NE NW HK U E1 E2 Hj. destruct (C88_principal_axes dare J Ts e w (mkK Kq Kw) n j HD DJ HT NE NW HK U E1 E2 Hj) as (kq & kw & EQ & EW & Q0 & W0 & _). cbn [k1 k2] in *. exists kq, kw. split; [exact EQ|]. split; [exact EW|].
  destruct (gain_facts dare J Ts e w _ HD DJ HT NE NW HK) as (P & HR & HL & DO). rewrite <- lqr_R_eq in HR, HL. assert (HN : principal J n j) by (split; [exact U|split; assumption]).
  assert (DM := damped J Ts e w P Kq Kw n j kq kw DJ HT NE NW Hj HN EQ EW HR HL). assert (NF := not_too_fast J Ts e w P Kq Kw n j kq kw DJ HT NE NW Hj HN EQ EW HR HL DO).
  cbv zeta. set (a := kw / j). set (b := kq / j / 2). assert (A0 : 0 < a) by (apply Rdiv_lt_0_compat; assumption). assert (B0 : 0 < b) by (unfold b; assert (0 < kq / j) by (apply Rdiv_lt_0_compat; assumption); lra).
  assert (AB : 2 * b < a ^ 2). { unfold a, b. apply (Rmult_lt_reg_r (j * j)); [apply Rmult_lt_0_compat; assumption|]. replace (2 * (kq / j / 2) * (j * j)) with (j * kq) by (field; lra). replace ((kw / j) ^ 2 * (j * j)) with (kw ^ 2) by (field; lra). exact DM. }
  assert (TA : Ts * a < 2). { unfold a. apply (Rmult_lt_reg_r j); [exact Hj|]. replace (Ts * (kw / j) * j) with (Ts * kw) by (field; lra). exact NF. }
  assert (G : forall w, gain_crossover [a; b] [1; 0; 0] w -> Ts / 2 * w < 1.1 < atan (a * w / b)). { intros v HV. destruct (cross_quartic a b v B0 HV) as [V V4]. destruct (half_fits a b v Ts A0 B0 V HT V4 AB TA) as [F1 F2]. assert (A2 := atan_2). assert (atan 2 < atan (a * v / b)) by (apply atan_increasing, F2). lra. }
  split; [exact A0|]. split; [exact B0|]. split; [exact AB|]. split; [exact TA|]. split; [exact G|]. intros T x y c d HTT HM N. destruct (cross_ex a b A0 B0) as (v & HV). specialize (G v HV). destruct (cross_quartic a b v B0 HV) as [V _].
  apply (C101_stable T a b v ltac:(lra) A0 B0 HV) with (y := y) (c := c) (d := d); [|exact HM|exact N]. assert (T * v <= Ts / 2 * v) by (apply Rmult_le_compat_r; lra). lra.
Qed.
Print Assumptions C101_design.

(** the hypotheses can be met: a = 2, b = 1 is within its margin with a delay of 0.45 s and beyond it with one of 1 s; without a delay it
    has the motion exp (- t), which dies out; the unit inertia meets those of C101_design (C88_ex) *)
Example C101_ex : (exists w, gain_crossover [2; 1] [1; 0; 0] w /\ 0.45 * w < atan (2 * w / 1) /\ atan (2 * w / 1) < 1 * w) /\
  late_motion 0 2 1 (wave (-1) 0 1 0) /\ wave (-1) 0 1 0 0 <> 0.
Proof.
  split; [|split].
  - destruct (cross_ex 2 1 ltac:(lra) ltac:(lra)) as (w & HW). exists w. split; [exact HW|]. destruct (cross_quartic 2 1 w ltac:(lra) HW) as [W W4]. destruct (half_fits 2 1 w 0.9 ltac:(lra) ltac:(lra) W ltac:(lra) W4 ltac:(lra) ltac:(lra)) as [F1 F2]. assert (A2 := atan_2). assert (atan 2 < atan (2 * w / 1)) by (apply atan_increasing, F2). split; [lra|].
    assert (2 < w). { apply Rnot_le_lt. intros L. assert (w ^ 2 <= 2 ^ 2) by (apply pow_incr; lra). assert (w ^ 4 = w ^ 2 * w ^ 2) by ring. assert (0 < w ^ 2) by (apply pow_lt, W). nra. } destruct (atan_bound (2 * w / 1)). assert (P := PI_4). lra.
  - apply root_motion. unfold root. replace (- (-1 * 0)) with 0 by ring. rewrite !Rmult_0_r, exp_0, cos_0, sin_0. split; ring.
  - unfold wave. rewrite !Rmult_0_r, exp_0, cos_0, sin_0. lra.
Qed.
