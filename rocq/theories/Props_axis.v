(** * C88: the gain respects the satellite's symmetries, and the axis-by-axis stability analysis *)
From Coq Require Import Reals List Lra Psatz Lia.
From Verif Require Import Num Vec Mat6 M_quaternion M_struct M_sim M_lqr M_margins S_rot S_sim S_obs S_lqr P_quat P_wheel P_obs P_lqr P_lqr2 P_dare P_axis Props_sim Props_lqr Props_dare.
Import ListNotations.
Local Open Scope R_scope.

(** what the Riccati solver promises for the satellite's equation: a solution (there is exactly one, C79_exists) *)
Definition solver_ok (dare : M6 -> M63 -> M6 -> m3 -> res M6) (J : m3) (Ts max_error max_rate : R) : Prop :=
  exists P, dare (design_A Ts) (design_B Ts J) (weight_x max_error max_rate) weight_u = Ok P /\
            riccati (design_A Ts) (design_B Ts J) (weight_x max_error max_rate) weight_u P.
Lemma gain_facts dare J Ts e w K : solver_ok dare J Ts e w -> det3 J <> 0 -> 0 < Ts -> e <> 0 -> w <> 0 -> get_gain_matrix dare J Ts e w = Ok K ->
  exists P, riccati (design_A Ts) (design_B Ts J) (weight_x e w) weight_u P /\ lqr_K (design_A Ts) (design_B Ts J) weight_u P = Ok K /\
    dies_out (looped (design_A Ts) (design_B Ts J) K).
Proof.
  intros (P & E & HP) DJ HT NE NW HK. exists P. split; [exact HP|].
  destruct (C79_gain dare J Ts e w P DJ NE NW E HP) as (K' & HK' & _ & DO & _). rewrite HK in HK'. injection HK' as <-. split; [|exact DO].
  revert HK. unfold get_gain_matrix. destruct (Reqb_spec e 0); [contradiction|]. destruct (Reqb_spec w 0); [contradiction|]. destruct (Reqb_spec (det3 J) 0); [contradiction|].
  rewrite cont2discrete_eq, lqr_Q_eq, lqr_R_eq, E. exact (fun H => H).
Qed.

(** ** Symmetry: if turning or mirroring the satellite by D leaves its inertia as it is, it leaves the gain as it is *)
Theorem C88_symmetry : forall dare J Ts max_error max_rate K D, solver_ok dare J Ts max_error max_rate -> det3 J <> 0 -> 0 < Ts -> max_error <> 0 -> max_rate <> 0 ->
  get_gain_matrix dare J Ts max_error max_rate = Ok K ->
  mm (tr3 D) D = id3 -> mm D (tr3 D) = id3 -> mm D J = mm J D ->
  mm D (k1 K) = mm (k1 K) D /\ mm D (k2 K) = mm (k2 K) D.
Proof.
  intros dare J Ts e w K D HD DJ HT NE NW HK O1 O2 C. destruct (gain_facts dare J Ts e w K HD DJ HT NE NW HK) as (P & HR & HL & _).
  destruct (weight_low e w NE NW) as (m & Hm & QL). rewrite <- lqr_R_eq in HR, HL.
  destruct (design_conj J Ts D DJ O1 O2 C) as (CA & CAt & CQ & CB & CBt).
  assert (G := conj_gain D O1 O2 (design_A Ts) (weight_x e w) (design_B Ts J) CA CAt (CQ e w) CB CBt P K m Hm QL HR HL).
  split; apply m3_ext; intros v; rewrite !mv_mm; symmetry.
  - specialize (G (mk6 v zero3)). unfold both, mv36 in G. cbn [u1 u2] in G. rewrite !mv_zero3, !add3_0_r in G. exact G.
  - specialize (G (mk6 zero3 v)). unfold both, mv36 in G. cbn [u1 u2] in G. rewrite !mv_zero3, !add3_0_l in G. exact G.
Qed.
Print Assumptions C88_symmetry.

(** ** Principal axes: about an axis n through which the inertia is j (J n = j n, and the same for J's transpose), both gains are
    multiples of n, positive, and the rate gain exceeds a quarter sample of the attitude gain *)
Theorem C88_principal_axes : forall dare J Ts max_error max_rate K n j, solver_ok dare J Ts max_error max_rate -> det3 J <> 0 -> 0 < Ts -> max_error <> 0 -> max_rate <> 0 ->
  get_gain_matrix dare J Ts max_error max_rate = Ok K ->
  dot3 n n = 1 -> mv J n = scale3 j n -> mv (tr3 J) n = scale3 j n -> 0 < j ->
  exists kq kw, mv (k1 K) n = scale3 kq n /\ mv (k2 K) n = scale3 kw n /\ 0 < kq /\ 0 < kw /\ Ts / 4 * kq < kw.
Proof.
  intros dare J Ts e w [Kq Kw] n j HD DJ HT NE NW HK U E1 E2 Hj. destruct (gain_facts dare J Ts e w _ HD DJ HT NE NW HK) as (P & HR & HL & DO).
  assert (HN : principal J n j) by (split; [exact U|split; assumption]).
  destruct (axis_gain J Ts e w P Kq Kw n j DJ NE NW HN HR HL) as [EQ EW]. cbn [k1 k2]. exists (dot3 n (mv Kq n)), (dot3 n (mv Kw n)).
  assert (HQ : 0 < dot3 n (mv Kq n)) by (apply (axis_kq_pos J Ts Kq Kw n j _ _ DJ HT Hj HN EQ EW DO)).
  assert (HW := axis_kw_pos J Ts Kq Kw n j _ _ DJ HT Hj HN EQ EW DO HQ).
  split; [exact EQ|]. split; [exact EW|]. split; [exact HQ|]. split; [|exact HW]. assert (0 < Ts / 4 * dot3 n (mv Kq n)) by (apply Rmult_lt_0_compat; lra). lra.
Qed.
Print Assumptions C88_principal_axes.
(** with it C81 holds for the gain the design computes: a slew about a principal axis goes the long way round *)
Theorem C88_long_way : forall dare J Ts max_error max_rate K n j, solver_ok dare J Ts max_error max_rate -> det3 J <> 0 -> 0 < Ts -> max_error <> 0 -> max_rate <> 0 ->
  get_gain_matrix dare J Ts max_error max_rate = Ok K ->
  dot3 n n = 1 -> mv J n = scale3 j n -> mv (tr3 J) n = scale3 j n -> 0 < j ->
  forall (a w : R -> R) b,
  (forall t, derivable_pt_lim a t (w t)) ->
  (forall t, derivable_pt_lim w t (dot3 n (controller_step (k1 K) (k2 K) zero3
     (quat_error (axis_angle_to_quaternion n (b * (180 / PI))) (axis_angle_to_quaternion n (a t * (180 / PI)))) (scale3 (w t) n)) / j)) ->
  w 0 = 0 -> 0 < b - a 0 < 2 * PI ->
  (forall t, 0 <= t -> b - a 0 <= b - a t <= 4 * PI - (b - a 0)) /\
  (forall eps, 0 < eps -> exists T, 0 <= T /\ forall t, T <= t -> Rabs (a t - (b - 2 * PI)) < eps /\ Rabs (w t) < eps).
Proof.
  intros dare J Ts e wm K n j HD DJ HT NE NW HK U E1 E2 Hj a w b Da Dw W0 B0.
  destruct (C88_principal_axes dare J Ts e wm K n j HD DJ HT NE NW HK U E1 E2 Hj) as (kq & kw & EQ & EW & HQ & HW & _).
  exact (C81_long_way (k1 K) (k2 K) n kq kw j a w b U HQ HW Hj EQ EW Da Dw W0 B0).
Qed.
Print Assumptions C88_long_way.

(** ** The analysis axis by axis.  Complex numbers are pairs; a polynomial is the list of its coefficients, highest first. *)
Definition cadd (a b : R * R) : R * R := (fst a + fst b, snd a + snd b).
Definition cmul (a b : R * R) : R * R := (fst a * fst b - snd a * snd b, fst a * snd b + snd a * fst b).
Definition ceval (p : list R) (s : R * R) : R * R := fold_left (fun acc c => cadd (cmul acc s) (c, 0)) p (0, 0).
(** the frequency response num / den at the frequency w *)
Definition response (num den : list R) (w : R) (L : R * R) : Prop := cmul (ceval den (0, w)) L = ceval num (0, w).
Definition gain_crossover (num den : list R) (w : R) : Prop := 0 < w /\ exists L, response num den w L /\ fst L * fst L + snd L * snd L = 1.
Definition phase_crossover (num den : list R) (w : R) : Prop := 0 < w /\ exists L, response num den w L /\ snd L = 0 /\ fst L < 0.
(** phi is the phase margin at the gain crossover w: how much further the phase can lag before it reaches -180 degrees *)
Definition phase_margin (num den : list R) (w phi : R) : Prop := - PI < phi <= PI /\ response num den w (- cos phi, - sin phi).
(** one gain crossover, a phase margin between half a sample's delay (as the arc tangent) and 90 degrees, no phase crossover, so that
    the gain margin is infinite: with every loop gain k > 0 the poles of the closed loop have negative real parts *)
Definition good_margins (Ts : R) (num den : list R) : Prop :=
  (exists! w, gain_crossover num den w) /\
  (forall w, gain_crossover num den w -> exists! phi, phase_margin num den w phi) /\
  (forall w phi, gain_crossover num den w -> phase_margin num den w phi -> atan (w * Ts / 2) < phi < PI / 2) /\
  (forall w, ~ phase_crossover num den w) /\
  (forall k s, 0 < k -> cadd (ceval den s) (cmul (k, 0) (ceval num s)) = (0, 0) -> fst s < 0).

Lemma resp_iff a b w re im : 0 < w -> response [a; b] [1; 0; 0] w (re, im) <-> re = - (b / w ^ 2) /\ im = - (a / w).
Proof.
  intros Hw. assert (W2 : 0 < w * w) by nra. unfold response, ceval, cmul, cadd. cbn [fold_left fst snd]. split.
  - intros H. injection H as H1 H2. split; apply (Rmult_eq_reg_l (w * w)); try lra.
    + replace (w * w * - (b / w ^ 2)) with (- b) by (field; lra). lra.
    + replace (w * w * - (a / w)) with (- (a * w)) by (field; lra). lra.
  - intros [-> ->]. f_equal; field; lra.
Qed.
Lemma cross_iff a b w : 0 < a -> 0 < b -> gain_crossover [a; b] [1; 0; 0] w <-> 0 < w /\ w ^ 2 = (a ^ 2 + sqrt (a ^ 4 + 4 * b ^ 2)) / 2.
Proof.
  intros Ha Hb. assert (A4 : 0 < a ^ 4) by (apply pow_lt, Ha). assert (B2 : 0 < b ^ 2) by (apply pow_lt, Hb).
  set (q := sqrt (a ^ 4 + 4 * b ^ 2)). assert (Q2 : q * q = a ^ 4 + 4 * b ^ 2) by (apply sqrt_def; lra). assert (Q0 : 0 <= q) by apply sqrt_pos. assert (QA : a ^ 2 < q) by nra.
  assert (K : forall w, 0 < w -> ((b / w ^ 2) * (b / w ^ 2) + (a / w) * (a / w) = 1 <-> w ^ 2 = (a ^ 2 + q) / 2)).
  { intros x Hx. assert (X2 : 0 < x ^ 2) by (apply pow_lt, Hx). replace (b / x ^ 2 * (b / x ^ 2) + a / x * (a / x)) with ((b ^ 2 + a ^ 2 * x ^ 2) / (x ^ 2 * x ^ 2)) by (field; lra).
    set (y := x ^ 2) in *. clearbody y. assert (Y2 : 0 < y * y) by nra. split.
    - intros H. assert (G : b ^ 2 + a ^ 2 * y = y * y). { apply (Rmult_eq_reg_r (/ (y * y))); [|apply Rinv_neq_0_compat; lra]. unfold Rdiv in H. rewrite H. field. lra. }
      assert (Z : (y - (a ^ 2 + q) / 2) * (y - (a ^ 2 - q) / 2) = 0) by nra. apply Rmult_integral in Z. destruct Z; lra.
    - intros ->. replace (b ^ 2 + a ^ 2 * ((a ^ 2 + q) / 2)) with ((a ^ 2 + q) / 2 * ((a ^ 2 + q) / 2)) by nra. field. lra. }
  split.
  - intros (Hw & [re im] & HR & HL). split; [exact Hw|]. apply resp_iff in HR; [|exact Hw]. destruct HR as [-> ->]. cbn [fst snd] in HL. apply K; [exact Hw|]. rewrite <- HL. ring.
  - intros (Hw & E). split; [exact Hw|]. exists (- (b / w ^ 2), - (a / w)). split; [apply resp_iff; [exact Hw|split; reflexivity]|]. cbn [fst snd]. apply K in E; [|exact Hw]. rewrite <- E. ring.
Qed.
Lemma good_pd Ts a b : 0 < Ts -> 0 < b -> Ts / 2 * b < a -> good_margins Ts [a; b] [1; 0; 0].
Proof.
  intros HT Hb HA. assert (Ha : 0 < a) by (assert (0 < Ts / 2 * b) by (apply Rmult_lt_0_compat; lra); lra). assert (PP := PI_RGT_0).
  assert (PM : forall w phi, gain_crossover [a; b] [1; 0; 0] w -> - PI < phi <= PI -> (phase_margin [a; b] [1; 0; 0] w phi <-> phi = atan (a * w / b))).
  { intros w phi (Hw & [re im] & HR & HL) HP. apply resp_iff in HR; [|exact Hw]. destruct HR as [E1 E2]. cbn [fst snd] in HL. rewrite E1, E2 in HL.
    assert (W2 : 0 < w ^ 2) by (apply pow_lt, Hw). set (c := b / w ^ 2) in *. set (s := a / w) in *.
    assert (C0 : 0 < c) by (apply Rdiv_lt_0_compat; assumption). assert (S0 : 0 < s) by (apply Rdiv_lt_0_compat; assumption).
    assert (TS : a * w / b = s / c) by (unfold s, c; field; lra). unfold phase_margin. rewrite resp_iff by exact Hw. fold c s. rewrite TS. split.
    - intros (_ & Hc & Hs). assert (CE : cos phi = c) by lra. assert (SE : sin phi = s) by lra. 
      assert (R1 : 0 < phi) by (apply Rnot_le_lt; intros Z; destruct (Req_dec phi 0) as [->|NZ]; [rewrite sin_0 in SE; lra|]; assert (0 < sin (- phi)) by (apply sin_gt_0; lra); rewrite sin_neg in *; lra).
      assert (R2 : phi < PI / 2) by (apply Rnot_le_lt; intros Z; assert (cos phi <= 0) by (apply cos_le_0; lra); lra).
      rewrite <- CE, <- SE. change (sin phi / cos phi) with (tan phi). symmetry. apply atan_tan. lra.
    - intros ->. split; [exact HP|]. assert (T0 : 0 < s / c) by (apply Rdiv_lt_0_compat; assumption).
      rewrite cos_atan, sin_atan. assert (Q : sqrt (1 + (s / c)²) = / c).
      { replace (1 + (s / c)²) with (/ c * / c); [apply sqrt_square; left; apply Rinv_0_lt_compat, C0|]. unfold Rsqr. replace (1 + s / c * (s / c)) with ((c * c + s * s) / (c * c)) by (field; lra). replace (c * c + s * s) with 1 by lra. field. lra. }
      rewrite Q. split; field; lra. }
  assert (AT : forall x, - PI < atan x <= PI) by (intros x; destruct (atan_bound x); lra).
  split; [|split; [|split; [|split]]].
  - set (y := (a ^ 2 + sqrt (a ^ 4 + 4 * b ^ 2)) / 2). assert (Y0 : 0 < y). { unfold y. assert (0 <= sqrt (a ^ 4 + 4 * b ^ 2)) by apply sqrt_pos. assert (0 < a ^ 2) by (apply pow_lt, Ha). lra. }
    exists (sqrt y). split.
    + apply cross_iff; [assumption|assumption|]. split; [apply sqrt_lt_R0, Y0|]. fold y. cbn [pow]. rewrite Rmult_1_r. apply sqrt_def. lra.
    + intros w Hw. apply cross_iff in Hw; [|assumption|assumption]. destruct Hw as [H0 H]. fold y in H. rewrite <- H. cbn [pow]. rewrite Rmult_1_r. apply sqrt_square. lra.
  - intros w Hw. exists (atan (a * w / b)). split; [apply PM; [exact Hw|apply AT|reflexivity]|]. intros phi HP. symmetry. apply PM; [exact Hw|exact (proj1 HP)|exact HP].
  - intros w phi Hw HP. assert (E : phi = atan (a * w / b)) by (apply PM; [exact Hw|exact (proj1 HP)|exact HP]). rewrite E. split; [|apply atan_bound].
    apply atan_increasing. destruct Hw as [H0 _]. apply (Rmult_lt_reg_r b); [exact Hb|]. replace (a * w / b * b) with (w * a) by (field; lra). replace (w * Ts / 2 * b) with (w * (Ts / 2 * b)) by field. apply Rmult_lt_compat_l; assumption.
  - intros w (Hw & [re im] & HR & HI & _). apply resp_iff in HR; [|exact Hw]. destruct HR as [_ E]. cbn [snd] in HI. assert (0 < a / w) by (apply Rdiv_lt_0_compat; assumption). lra.
  - intros k [x y] Hk H. unfold ceval, cmul, cadd in H. cbn [fold_left fst snd] in H. injection H as H1 H2. cbn [fst].
    assert (KA : 0 < k * a) by nra. assert (KB : 0 < k * b) by nra.
    assert (G1 : x * x - y * y + k * a * x + k * b = 0) by lra. assert (G2 : y * (2 * x + k * a) = 0) by lra. clear H1 H2.
    apply Rmult_integral in G2. destruct G2 as [->|G2]; [|lra]. apply Rnot_le_lt. intros Z. nra.
Qed.
Lemma diag_det a b c : det3 (diag3 a b c : m3) = a * b * c. Proof. vunfoldg; rnumg. ring. Qed.
Lemma diag_inv a b c : a <> 0 -> b <> 0 -> c <> 0 -> inv3 (diag3 a b c : m3) = diag3 (/ a) (/ b) (/ c).
Proof. intros Na Nb Nc. unfold inv3. rewrite diag_det. vunfoldg; rnumg. apply mkm_c; apply mk3_c; field; auto. Qed.
Lemma diag_of (m : m3) p q r : mv m ex = scale3 p ex -> mv m ey = scale3 q ey -> mv m ez = scale3 r ez -> m = diag3 p q r.
Proof.
  destruct m as [[a b c] [d e f] [g h i]]. unfold ex, ey, ez. vunfoldg; rnumg. intros H1 H2 H3. apply mk3_inj in H1, H2, H3. destruct H1 as (A1 & A2 & A3), H2 as (B1 & B2 & B3), H3 as (C1 & C2 & C3).
  apply mkm_c; apply mk3_c; lra.
Qed.
(** ** A satellite whose axes are principal axes: the gains are diagonal, so the three axes do not interact and the loop that
    axis_margins forms for each is the axis's own: e_i' = w_i / 2, w_i' = - a w_i - 2 b e_i *)
Theorem C88_decoupled : forall dare jx jy jz Ts max_error max_rate, solver_ok dare (diag3 jx jy jz) Ts max_error max_rate -> 0 < jx -> 0 < jy -> 0 < jz -> 0 < Ts -> max_error <> 0 -> max_rate <> 0 ->
  exists K ax ay az bx by_ bz, get_gain_matrix dare (diag3 jx jy jz) Ts max_error max_rate = Ok K /\
  (forall A (margin : list R -> list R -> A), exists l, axis_margins margin None (diag3 jx jy jz) K = Ok l /\
     map (fun p => ax_num (fst p)) l = [[ax; bx]; [ay; by_]; [az; bz]] /\ map snd l = map (fun n => margin n [1; 0; 0]) [[ax; bx]; [ay; by_]; [az; bz]]) /\
  (forall e w : v3, mv (inv3 (diag3 jx jy jz)) (opp3 (mv36 K (mk6 e w))) =
     mk3 (- ax * x3 w - 2 * bx * x3 e) (- ay * y3 w - 2 * by_ * y3 e) (- az * z3 w - 2 * bz * z3 e)) /\
  good_margins Ts [ax; bx] [1; 0; 0] /\ good_margins Ts [ay; by_] [1; 0; 0] /\ good_margins Ts [az; bz] [1; 0; 0].
Proof.
  intros dare jx jy jz Ts e w HD Hx Hy Hz HT NE NW. set (J := diag3 jx jy jz : m3).
  assert (DJ : det3 J <> 0) by (unfold J; rewrite diag_det; apply Rgt_not_eq; repeat apply Rmult_lt_0_compat; assumption).
  destruct (C79_total J Ts e w DJ NE NW ltac:(lra)) as (K & _ & HK). specialize (HK dare HD).
  assert (PX := C88_principal_axes dare J Ts e w K ex jx HD DJ HT NE NW HK). assert (PY := C88_principal_axes dare J Ts e w K ey jy HD DJ HT NE NW HK). assert (PZ := C88_principal_axes dare J Ts e w K ez jz HD DJ HT NE NW HK).
  destruct PX as (qx' & wx & QX & WX & QX0 & _ & GX); [unfold ex; vring|unfold J, ex; vring|unfold J, ex; vring|exact Hx|].
  destruct PY as (qy' & wy & QY & WY & QY0 & _ & GY); [unfold ey; vring|unfold J, ey; vring|unfold J, ey; vring|exact Hy|].
  destruct PZ as (qz' & wz & QZ & WZ & QZ0 & _ & GZ); [unfold ez; vring|unfold J, ez; vring|unfold J, ez; vring|exact Hz|].
  destruct K as [Kq Kw]. cbn [k1 k2] in *. assert (EQ := diag_of Kq _ _ _ QX QY QZ). assert (EW := diag_of Kw _ _ _ WX WY WZ). subst Kq Kw.
  assert (EI : inv3 J = diag3 (/ jx) (/ jy) (/ jz)) by (unfold J; apply diag_inv; lra).
  exists (mkK (diag3 qx' qy' qz') (diag3 wx wy wz)), (/ jx * wx), (/ jy * wy), (/ jz * wz), (1 / 2 * / jx * qx'), (1 / 2 * / jy * qy'), (1 / 2 * / jz * qz').
  split; [exact HK|]. split; [|split].
  - intros A margin. unfold axis_margins, axis_tf. fold J. destruct (Reqb_spec (det3 J) 0) as [Z|_]; [contradiction|]. eexists. split; [reflexivity|]. rewrite EI. unfold axis_entry, diag3. cbn [map fst snd ax_num k1 k2 row1 row2 row3 x3 y3 z3].
    replace 0.5 with (1 / 2) by lra. split; reflexivity.
  - intros [e1 e2 e3] [w1 w2 w3]. fold J. rewrite EI. unf63. vunfoldg; rnumg. apply mk3_c; field; lra.
  - assert (G : forall j q k, 0 < j -> 0 < q -> Ts / 4 * q < k -> good_margins Ts [/ j * k; 1 / 2 * / j * q] [1; 0; 0]).
    { intros j q k Hj Hq Hk. assert (IJ : 0 < / j) by (apply Rinv_0_lt_compat, Hj). apply good_pd; [exact HT|nra|]. replace (Ts / 2 * (1 / 2 * / j * q)) with (/ j * (Ts / 4 * q)) by (field; lra). apply Rmult_lt_compat_l; assumption. }
    split; [|split]; apply G; assumption.
Qed.
Print Assumptions C88_decoupled.

(** ** The hypotheses can be met: the solution that C79_ex names, for the unit inertia, with any unit axis *)
Example C88_ex : let e := sqrt (1830 / 225) in let w := sqrt (1830 / 344650) in let dare := fun (_ : M6) (_ : M63) (_ : M6) (_ : m3) => Ok ex_P in
  solver_ok dare (diag3 1 1 1) 2 e w /\ (exists K, get_gain_matrix dare (diag3 1 1 1) 2 e w = Ok K) /\
  (dot3 ey ey = 1 /\ mv (diag3 1 1 1) ey = scale3 1 ey /\ mv (tr3 (diag3 1 1 1)) ey = scale3 1 ey) /\
  (mm (tr3 (mirror ey)) (mirror ey) = id3 /\ mm (mirror ey) (diag3 1 1 1) = mm (diag3 1 1 1) (mirror ey)).
Proof.
  intros e w dare. destruct C79_ex as (DJ & NE & NW & HR). fold e w in NE, NW, HR. change (diag3 1 1 1 : m3) with (id3 : m3).
  assert (HS : solver_ok dare id3 2 e w) by (exists ex_P; split; [reflexivity|exact HR]).
  split; [exact HS|]. split; [|split].
  - destruct (C79_total id3 2 e w DJ NE NW ltac:(lra)) as (K & _ & HK). exists K. apply HK, HS.
  - unfold ey. split; [vring|]. split; vring.
  - assert (U : unit3 ey) by (unfold unit3, ey; vring). split; [rewrite mirror_tr; apply mirror_sq, U|]. apply (mirror_commutes _ ey 1). split; [exact U|split; unfold ey; vring].
Qed.
