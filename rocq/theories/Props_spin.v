(** * Properties of classes/dynamics.py and system/simulator.py: C89 (the accuracy of the simulated attitude at constant spin) *)
From Coq Require Import Reals ZArith List Bool Arith Lra Psatz Lia.
From Flocq Require Import Core.
From Verif Require Import Num Vec M_vector M_quaternion M_jday M_frame M_struct M_env M_dyn M_sensor M_integ.
From Verif Require Import S_rot S_integ S_dyn P_quat P_struct P_integ P_integ2 P_dyn P_dyn2 P_ctrl2 P_spin.
Import ListNotations.
Local Open Scope R_scope.

(** ** C89: a body that spins at a constant rate *)
Lemma turn_axisangle n a : turn n a = axisangle_to_quat n (2 * a).
Proof. unfold turn, axisangle_to_quat. replace (2 * a / 2) with a by field. destruct n as [x y z]. reflexivity. Qed.
Lemma spin_run f stream dt n W u N : unit3 n -> 0 <= W * dt / 2 <= 1 -> (forall h, kinematic (f h)) -> (forall h, spins (f h) (scale3 W n) u) ->
  forall w w', v_rate (sv (w_state w)) = scale3 W n -> v_whl (sv (w_state w)) = u -> unitq (v_att (sv (w_state w))) -> updates f stream true dt N w = Ok w' ->
  v_rate (sv (w_state w')) = scale3 W n /\ v_whl (sv (w_state w')) = u /\
  v_att (sv (w_state w')) = product (v_att (sv (w_state w))) (turn n (INR N * (W * dt / 2 - lag (W * dt / 2)))).
Proof.
  intros U HT K Z. induction N as [|N IH]; intros w w' R0 U0 Q0 H.
  - cbn [updates] in H. injection H as <-. split; [exact R0|]. split; [exact U0|]. simpl INR. rewrite Rmult_0_l. unfold turn. rewrite cos_0, sin_0. destruct (v_att (sv (w_state w))) as [a b c d]. unfold product. vunfold; rnum. apply mkq_c; ring.
  - cbn [updates] in H. apply rbind_ok in H. destruct H as (w1 & H1 & H). destruct (update_inv _ _ _ _ _ _ H1) as (next & c & HR & _ & _ & _ & _ & _ & HS & _).
    destruct (rk4_spin _ _ _ _ _ _ _ (K _) (Z _) R0 U0 HR) as (R1 & U1 & A1). rewrite (taylor_polar n W dt U HT), product_scaled in A1. destruct (lag_polar _ HT) as (SP & _).
    assert (UQ : dotq (product (v_att (sv (w_state w))) (turn n (W * dt / 2 - lag (W * dt / 2)))) (product (v_att (sv (w_state w))) (turn n (W * dt / 2 - lag (W * dt / 2)))) = 1).
    { rewrite product_norm, turn_unit by exact U. unfold unitq in Q0. rewrite Q0. ring. }
    rewrite A1, (normalize_scaled _ _ SP UQ) in HS.
    destruct (IH w1 w') as (R2' & U2 & A2); [rewrite HS; exact R1|rewrite HS; exact U1|rewrite HS; exact UQ|exact H|].
    split; [exact R2'|]. split; [exact U2|]. rewrite A2, HS. cbn [set_att v_att]. rewrite product_assoc, turn_add by exact U. f_equal. f_equal. rewrite S_INR. ring.
Qed.
(** what the body really does: the kinematic equation at the constant rate W n turns it about the axis n by the angle W t *)
Theorem C89_truth : forall (q : R -> quat) n W, unit3 n -> (forall t, derivq q t (scaleq 0.5 (product (q t) (pure (scale3 W n))))) ->
  forall t b, sandwich_opp (q t) b = sandwich_opp (q 0) (rodrigues n (W * t) b).
Proof.
  intros q n W U D t b.
  assert (DT : forall t, derivq (fun u => turn n (- (W / 2) * u)) t (scaleq (- (W / 2)) (product (pure n) (turn n (- (W / 2) * t))))).
  { clear t. intros t. assert (U' := U). unfold unit3 in U'. destruct n as [x y z]. unfold turn, pure, derivq. cbn [qw qx qy qz x3 y3 z3].
    split; [|split; [|split]]; (eapply d_eq; [first [apply d_cos|apply (d_mult (fun u => sin (- (W / 2) * u)) (fun _ => _)); [apply d_sin|apply d_const]]|]); unfold product; revert U'; vunfoldg; rnumg; cbn [x3 y3 z3 qw qx qy qz]; intros U'.
    - set (s := sin _). transitivity (W / 2 * s * (x * x + y * y + z * z)); [rewrite U'; field|field].
    - field.
    - field.
    - field. }
  set (g := fun u => product (q u) (turn n (- (W / 2) * u))).
  assert (DG : forall u, derivq g u zeroq).
  { intros u. eapply dq_eq; [apply (dq_product q _ u _ _ (D u) (DT u))|]. cbv beta. generalize (turn n (- (W / 2) * u)) as p, (q u) as r. replace 0.5 with (1 / 2) by lra. clear. intros [a b c d] [e f g h]. destruct n as [x y z]. unfold pure, product, zeroq. vunfold; rnum. apply mkq_c; field. }
  assert (GC : g t = g 0).
  { assert (B : Rmin 0 t - 1 < t < Rmax 0 t + 1 /\ Rmin 0 t - 1 < 0 < Rmax 0 t + 1). { unfold Rmin, Rmax. destruct (Rle_dec 0 t); lra. }
    destruct B as [B1 B2]. assert (C : forall pr : quat -> R, (forall u, derivable_pt_lim (fun u => pr (g u)) u 0) -> pr (g t) = pr (g 0)).
    { intros pr HP. exact (const_of_deriv (fun u => pr (g u)) (Rmin 0 t - 1) (Rmax 0 t + 1) (fun u _ => HP u) t 0 B1 B2). }
    assert (C1 := C qw (fun u => proj1 (DG u))). assert (C2 := C qx (fun u => proj1 (proj2 (DG u)))). assert (C3 := C qy (fun u => proj1 (proj2 (proj2 (DG u))))). assert (C4 := C qz (fun u => proj2 (proj2 (proj2 (DG u))))).
    destruct (g t) as [a1 b1 c1 d1], (g 0) as [a2 b2 c2 d2]. cbn [qw qx qy qz] in *. congruence. }
  assert (QT : q t = product (q 0) (turn n (W / 2 * t))).
  { assert (E : product (g t) (turn n (W / 2 * t)) = product (g 0) (turn n (W / 2 * t))) by (rewrite GC; reflexivity). unfold g in E. rewrite !product_assoc, !turn_add in E by exact U.
    replace (- (W / 2) * t + W / 2 * t) with 0 in E by ring. replace (- (W / 2) * 0 + W / 2 * t) with (W / 2 * t) in E by ring. rewrite <- E. unfold turn. rewrite cos_0, sin_0. destruct (q t) as [a1 b1 c1 d1]. unfold product. vunfold; rnum. apply mkq_c; ring. }
  rewrite QT, turn_axisangle, sandwich_opp_product, sandwich_opp_axisangle by exact U. f_equal. f_equal. field.
Qed.
Print Assumptions C89_truth.
(** what the simulator does: the same axis, the same rate, and in every step the same lag behind the true angle *)
Theorem C89_simulated : forall n W dt, unit3 n -> 0 <= W * dt <= 2 -> exists lag, (W * dt) ^ 5 / 3856 <= lag <= (W * dt) ^ 5 / 1904 /\
  forall f stream u N w w', (forall h, kinematic (f h)) ->
  (forall h s d, v_rate (sv s) = scale3 W n -> v_whl (sv s) = u -> f h s = Ok d -> v_rate d = zero3 /\ v_whl d = map (fun _ => 0) u) ->
  v_rate (sv (w_state w)) = scale3 W n -> v_whl (sv (w_state w)) = u -> unitq (v_att (sv (w_state w))) ->
  updates f stream true dt N w = Ok w' ->
  v_rate (sv (w_state w')) = scale3 W n /\ v_whl (sv (w_state w')) = u /\
  forall b, sandwich_opp (v_att (sv (w_state w'))) b = sandwich_opp (v_att (sv (w_state w))) (rodrigues n (INR N * (W * dt - lag)) b).
Proof.
  intros n W dt U HT. assert (HT' : 0 <= W * dt / 2 <= 1) by lra. exists (2 * lag (W * dt / 2)). split.
  - assert (A := lag_bounds _ HT'). assert (B := lag_low _ HT'). replace ((W * dt / 2) ^ 5) with ((W * dt) ^ 5 / 32) in * by field. lra.
  - intros f stream u N w w' K Z R0 U0 Q0 H. destruct (spin_run f stream dt n W u N U HT' K Z w w' R0 U0 Q0 H) as (R1 & U1 & A1). split; [exact R1|]. split; [exact U1|].
    intros b. rewrite A1, turn_axisangle, sandwich_opp_product, sandwich_opp_axisangle by exact U. f_equal. f_equal. field.
Qed.
Print Assumptions C89_simulated.
(** the satellite of the code spins like this when no torque acts, its momentum is along the axis, and the wheels keep their speeds *)
Lemma satellite_spins hi_fi sat mt cur u n W j k : mv (s_total_moment sat) n = scale3 j n -> rw_momentum (s_rw sat) u = scale3 k n ->
  (forall h s m F T, sys_actuate mt cur = Ok m -> env_F_and_T hi_fi sat h s m = Ok (F, T) -> T = zero3) ->
  forall h s d, v_rate (sv s) = scale3 W n -> v_whl (sv s) = u -> vector_field hi_fi sat mt h s cur (map (fun _ => 0) u) = Ok d -> v_rate d = zero3 /\ v_whl d = map (fun _ => 0) u.
Proof.
  intros HJ HK HE h s d R0 U0 H. destruct (vf_inv _ _ _ _ _ _ _ _ H) as (m & F & T & AM & EF & ->). rewrite (HE _ _ _ _ _ AM EF). unfold derivative. cbn [v_rate v_whl]. split; [|reflexivity].
  rewrite R0, U0, HK. assert (TW : rw_torque (s_rw sat) (map (fun _ => 0) u) = zero3).
  { unfold rw_torque. assert (G : forall ws, sum3 (M_struct.zip_with w_torque ws (map (fun _ => 0) u)) = zero3); [|apply G].
    clear. induction u as [|x u IH]; intros [|w ws]; [reflexivity..|]. cbn [map M_struct.zip_with]. change (add3 (w_torque w 0) (sum3 (M_struct.zip_with w_torque ws (map (fun _ : R => 0) u))) = zero3). rewrite IH. unfold w_torque. destruct (w_axis w) as [a b c]. vunfold; rnum. apply mk3_c; ring. }
  rewrite TW. assert (MJ : mv (s_total_moment sat) (scale3 W n) = scale3 (W * j) n).
  { transitivity (scale3 W (mv (s_total_moment sat) n)). { generalize (s_total_moment sat). clear. intros [[a b c] [d e f] [g h i]]. destruct n as [x y z]. vunfold; rnum. apply mk3_c; ring. }
    rewrite HJ. destruct n as [x y z]. vunfold; rnum. apply mk3_c; ring. }
  rewrite MJ. generalize (s_inv_tot sat). clear. intros [[a b c] [d e f] [g h i]]. destruct n as [x y z]. vunfold; rnum. apply mk3_c; ring.
Qed.
Theorem C89_satellite : forall n W dt, unit3 n -> 0 <= W * dt <= 2 -> exists lag, (W * dt) ^ 5 / 3856 <= lag <= (W * dt) ^ 5 / 1904 /\
  forall hi_fi sat mt cur u j k stream N w w', mv (s_total_moment sat) n = scale3 j n -> rw_momentum (s_rw sat) u = scale3 k n ->
  (forall h s m F T, sys_actuate mt cur = Ok m -> env_F_and_T hi_fi sat h s m = Ok (F, T) -> T = zero3) ->
  v_rate (sv (w_state w)) = scale3 W n -> v_whl (sv (w_state w)) = u -> unitq (v_att (sv (w_state w))) ->
  updates (fun h s => vector_field hi_fi sat mt h s cur (map (fun _ => 0) u)) stream true dt N w = Ok w' ->
  v_rate (sv (w_state w')) = scale3 W n /\ v_whl (sv (w_state w')) = u /\
  forall b, sandwich_opp (v_att (sv (w_state w'))) b = sandwich_opp (v_att (sv (w_state w))) (rodrigues n (INR N * (W * dt - lag)) b).
Proof.
  intros n W dt U HT. destruct (C89_simulated n W dt U HT) as (lag & HL & HA). exists lag. split; [exact HL|].
  intros hi_fi sat mt cur u j k stream N w w' HJ HK HE R0 U0 Q0 H.
  apply (HA (fun h s => vector_field hi_fi sat mt h s cur (map (fun _ => 0) u)) stream u N w w'); [intros h; apply vf_kinematic|exact (satellite_spins hi_fi sat mt cur u n W j k HJ HK HE)|exact R0|exact U0|exact Q0|exact H].
Qed.
Print Assumptions C89_satellite.
(** ** example: a ball in a low orbit over the equator, one turn about its pole every two seconds *)
Definition near (v : SVec) : Prop := z3 (v_pos v) = 0 /\ Rabs (x3 (v_pos v) - orbit_r) <= 5000 /\ Rabs (y3 (v_pos v)) <= 5000 /\ length (v_whl v) = 3%nat.
Lemma near_state h a v : near v -> exists s, make_state h a v = Ok s /\ sv s = v /\ clk s = a /\ 350000 <= c_h s < 450000 /\ 6000000 <= c_length s /\ c_length s * c_length s = dot3 (v_pos v) (v_pos v).
Proof.
  intros (Z & X & Y & L). set (r := sqrt (dot3 (v_pos v) (v_pos v))).
  assert (D0 : 0 <= dot3 (v_pos v) (v_pos v)) by (vunfoldg; rnumg; nra). assert (R2' : r * r = dot3 (v_pos v) (v_pos v)) by (apply sqrt_sqrt, D0).
  assert (RP : 0 <= r) by apply sqrt_pos. apply Rabs_le_inv in X. apply Rabs_le_inv in Y. unfold orbit_r in X.
  assert (DD : dot3 (v_pos v) (v_pos v) = x3 (v_pos v) * x3 (v_pos v) + y3 (v_pos v) * y3 (v_pos v)). { unfold dot3. rnumg. rewrite Z. ring. }
  set (x := x3 (v_pos v)) in *. set (y := y3 (v_pos v)) in *. assert (B : 6773137 <= r <= 6783337) by (clearbody x y r; clear - X Y R2' DD RP; rewrite DD in R2'; nra).
  destruct (equator_state h a v r Z ltac:(lra) (eq_sym R2')) as (m & re & lat & lon & E). eexists. split; [exact E|]. cbn [sv clk c_h c_length]. unfold EARTH_RAD. repeat (split; [first [reflexivity|lra]|]). exact R2'.
Qed.
Lemma ball_field h s c al : h (clk s) = CJ c -> near (sv s) -> 350000 <= c_h s < 450000 -> 6000000 <= c_length s -> c_length s * c_length s = dot3 (v_pos (sv s)) (v_pos (sv s)) ->
  exists d, vector_field false ball [] h s [] [0; 0; al] = Ok d /\ v_pos d = v_vel (sv s) /\ v_whl d = [0; 0; al] /\ z3 (v_vel d) = 0 /\ Rabs (x3 (v_vel d)) <= 20 /\ Rabs (y3 (v_vel d)) <= 20.
Proof.
  intros C (Z & X & Y & L) H HL HD.
  assert (AT : exists rho, atmo_density (c_h s) = Ok rho).
  { unfold atmo_density. destruct (Rltb_spec (c_h s) 300000); [lra|]. destruct (Rltb_spec (c_h s) 350000); [lra|]. rewrite !andb_false_r. destruct (Rleb_spec 350000 (c_h s)); [|lra]. destruct (Rltb_spec (c_h s) 400000); cbn [andb]; [eexists; reflexivity|].
    destruct (Rleb_spec 400000 (c_h s)); [|lra]. destruct (Rltb_spec (c_h s) 450000); [|lra]. cbn [andb]. eexists; reflexivity. }
  destruct AT as [rho AT]. unfold vector_field. change (sys_actuate (T:=R) [] []) with (Ok (A:=v3) zero3). cbn [rbind]. unfold rw_torque_r, rw_momentum_r. rewrite L.
  change (Nat.ltb (length [0; 0; al]) (length (rw_wheels (s_rw ball)))) with false. change (Nat.ltb 3 (length (rw_wheels (s_rw ball)))) with false. cbn [rbind].
  unfold env_F_and_T. rewrite (ball_solar c) by exact C. cbn [rbind]. rewrite (ball_dragF _ rho) by exact AT. cbn [rbind]. unfold add_FT, gravity_F_and_T, magnetic_F_and_T. cbn [fst snd rbind].
  eexists. split; [reflexivity|]. unfold derivative. cbn [v_pos v_vel v_whl]. split; [reflexivity|]. split; [reflexivity|]. cbn [s_mass ball].
  unfold gravity_accel. set (r := c_length s) in *. set (p := v_pos (sv s)) in *. destruct p as [x y z]. cbn [x3 y3 z3] in *. subst z.
  assert (DD : x * x + y * y = r * r). { rewrite HD. vunfoldg; rnumg. ring. } clearbody r. clear - HL DD.
  assert (MUV := MU_val). assert (B : forall a, a * a <= r * r -> Rabs (MU / r ^ 2 * a / r) <= 20).
  { intros a Ha. assert (Rabs a <= r). { rewrite <- (Rabs_pos_eq r) by lra. apply Rsqr_le_abs_0. exact Ha. }
    replace (MU / r ^ 2 * a / r) with (MU / r ^ 3 * a) by (field; lra). rewrite Rabs_mult, Rabs_pos_eq by (apply Rlt_le, Rdiv_lt_0_compat; [lra|apply pow_lt; lra]).
    apply Rle_trans with (MU / r ^ 3 * r); [apply Rmult_le_compat_l; [apply Rlt_le, Rdiv_lt_0_compat; [lra|apply pow_lt; lra]|assumption]|].
    replace (MU / r ^ 3 * r) with (MU / r ^ 2) by (field; lra). apply (Rmult_le_reg_r (r ^ 2)); [apply pow_lt; lra|]. unfold Rdiv. rewrite Rmult_assoc, Rinv_l, Rmult_1_r by (apply pow_nonzero; lra). nra. }
  assert (BX := B x ltac:(nra)). assert (BY := B y ltac:(nra)). clear B. vunfoldg. rnumg. cbn [x3 y3 z3]. split; [field; lra|]. split.
  - replace (_ / 5) with (- (MU / r ^ 2 * x / r)) by (field; lra). rewrite Rabs_Ropp. exact BX.
  - replace (_ / 5) with (- (MU / r ^ 2 * y / r)) by (field; lra). rewrite Rabs_Ropp. exact BY.
Qed.
Definition good (h : store) (s : SatState) : Prop := near (sv s) /\ 350000 <= c_h s < 450000 /\ 6000000 <= c_length s /\ c_length s * c_length s = dot3 (v_pos (sv s)) (v_pos (sv s)).
Definition flow (d : SVec) (b a : R) : Prop := z3 (v_pos d) = 0 /\ Rabs (x3 (v_pos d)) <= b /\ Rabs (y3 (v_pos d)) <= b /\ z3 (v_vel d) = 0 /\ Rabs (x3 (v_vel d)) <= a /\ Rabs (y3 (v_vel d)) <= a /\ length (v_whl d) = 3%nat.
Lemma abs_plus a b p q : Rabs a <= p -> Rabs b <= q -> Rabs (a + b) <= p + q.
Proof. intros. eapply Rle_trans; [apply Rabs_triang|lra]. Qed.
Lemma abs_scale k a p : Rabs a <= p -> Rabs (k * a) <= Rabs k * p.
Proof. intros. rewrite Rabs_mult. apply Rmult_le_compat_l; [apply Rabs_pos|assumption]. Qed.
Lemma abs_div k a p : k <> 0 -> Rabs a <= p -> Rabs (a / k) <= p / Rabs k.
Proof. intros. unfold Rdiv. rewrite Rabs_mult, Rabs_inv. apply Rmult_le_compat_r; [|assumption]. left. apply Rinv_0_lt_compat, Rabs_pos_lt. assumption. Qed.
Lemma flow_mul d b a k : flow d b a -> flow (sv_mul d k) (Rabs k * b) (Rabs k * a).
Proof.
  intros (A & B & C & D & E & F & L). unfold flow, sv_mul, scale3. cbn [v_pos v_vel v_whl x3 y3 z3]. rnumg. rewrite A, D, map_length. repeat split; try (apply abs_scale; assumption); try ring. exact L.
Qed.
Lemma flow_div d b a k : k <> 0 -> flow d b a -> flow (sv_div d k) (b / Rabs k) (a / Rabs k).
Proof.
  intros K (A & B & C & D & E & F & L). unfold flow, sv_div, div3. cbn [v_pos v_vel v_whl x3 y3 z3]. rnumg. rewrite A, D, map_length. repeat split; try (apply abs_div; assumption); try (field; assumption). exact L.
Qed.
Lemma flow_add d b a e b' a' : flow d b a -> flow e b' a' -> exists g, sv_add d e = Ok g /\ flow g (b + b') (a + a').
Proof.
  intros (A & B & C & D & E & F & L) (A' & B' & C' & D' & E' & F' & L'). unfold sv_add. rewrite np_add_eq by congruence. cbn [rbind]. eexists. split; [reflexivity|].
  unfold flow, add3. cbn [v_pos v_vel v_whl x3 y3 z3]. rnumg. rewrite A, D, A', D', zip_len by congruence. repeat split; try (apply abs_plus; assumption); try ring. exact L.
Qed.
Lemma abs_num k : 0 <= k -> Rabs k = k. Proof. apply Rabs_pos_eq. Qed.
Lemma orbit_speed : 0 <= orbit_r * orbit_n <= 8400.
Proof.
  assert (P := orbit_n_sq). assert (M := MU_val). assert (Q : 0 <= orbit_n) by apply sqrt_pos. assert (E : orbit_r * orbit_n * (orbit_r * orbit_n) = MU / orbit_r). { transitivity (orbit_r * orbit_r * (orbit_n * orbit_n)); [ring|]. rewrite P. field. unfold orbit_r. lra. }
    assert (MU / orbit_r <= 399 * 10 ^ 12 / orbit_r). { apply Rmult_le_compat_r; [left; apply Rinv_0_lt_compat; unfold orbit_r; lra|lra]. } assert (Z : 0 <= orbit_r) by (unfold orbit_r; lra). split; [apply Rmult_le_pos; assumption|].
    set (t := orbit_r * orbit_n) in *. rewrite <- E in H. unfold orbit_r in H. assert (0 <= t) by (apply Rmult_le_pos; assumption). clearbody t. clear - H H0. nra. 
Qed.
Lemma good_add h s c al d b a : h (clk s) = CJ c -> sv s = circle 0 -> flow d b a -> b <= 1000 -> a <= 10 -> exists s', state_add h s d = Ok s' /\ good h s' /\ clk s' = clk s /\
  exists k, vector_field false ball [] h s' [] [0; 0; al] = Ok k /\ flow k 8500 20.
Proof.
  intros C S0 (Ax & Bx & Cx & Dx & Ex & Fx & L) Hb Ha. unfold state_add. rewrite S0. unfold sv_add. rewrite np_add_eq by (rewrite L; reflexivity). cbn [rbind].
  set (v := mkSV _ _ _ _ _). assert (ON := orbit_speed).
  assert (VV : v_vel v = mk3 (0 + x3 (v_vel d)) (orbit_r * orbit_n + y3 (v_vel d)) (0 + z3 (v_vel d))).
  { unfold v, circle. cbn [v_vel]. rewrite Rmult_0_r, cos_0, sin_0. unfold add3. cbn [x3 y3 z3]. rnumg. apply mk3_c; ring. }
  assert (NV : near v).
  { unfold near, v, circle. cbn [v_pos v_whl]. rewrite Rmult_0_r, cos_0, sin_0. unfold add3. cbn [x3 y3 z3]. rnumg. rewrite Ax. split; [ring|]. split; [replace (orbit_r * 1 + x3 (v_pos d) - orbit_r) with (x3 (v_pos d)) by ring; lra|]. split; [replace (orbit_r * 0 + y3 (v_pos d)) with (y3 (v_pos d)) by ring; lra|].
    rewrite zip_len by (rewrite L; reflexivity). reflexivity. }
  clearbody v. destruct (near_state h (clk s) v NV) as (s' & E & S' & C' & H1 & H2 & H3). exists s'. split; [exact E|]. rewrite <- S' in H3, NV. split; [split; [exact NV|auto]|]. split; [exact C'|].
  destruct (ball_field h s' c al ltac:(rewrite C'; exact C) NV H1 H2 H3) as (k & K1 & K2 & K3 & K4 & K5 & K6). exists k. split; [exact K1|].
  unfold flow. rewrite K2, K3, S', VV. cbn [x3 y3 z3 length]. split; [rewrite Dx; ring|]. split; [rewrite Rplus_0_l; lra|]. split; [|auto]. eapply Rle_trans; [apply abs_plus; [rewrite Rabs_pos_eq; [apply ON|apply ON]|exact Fx]|]. lra.
Qed.
Lemma flow_le d b a b' a' : flow d b a -> b <= b' -> a <= a' -> flow d b' a'.
Proof. intros (A & B & C & D & E & F & L) ? ?. unfold flow. repeat split; try assumption; lra. Qed.
Lemma ball_step h s c al dt : 0 < dt <= 0.05 -> h (clk s) = CJ c -> good h s -> sv s = circle 0 -> exists s', RK4_sat h (fun s => vector_field false ball [] h s [] [0; 0; al]) dt s = Ok s' /\ near (sv s') /\ clk s' = clk s.
Proof.
  intros DT C (N1 & N2 & N3 & N4) S0. assert (A5 : Rabs dt = dt) by (apply abs_num; lra). assert (A2 : Rabs 2 = 2) by (apply abs_num; lra). assert (A6 : Rabs 6 = 6) by (apply abs_num; lra).
  assert (F1 : exists k, vector_field false ball [] h s [] [0; 0; al] = Ok k /\ flow k 8500 20).
  { destruct (ball_field h s c al C N1 N2 N3 N4) as (k & K1 & K2 & K3 & K4 & K5 & K6). exists k. split; [exact K1|]. unfold flow. rewrite K2, K3, S0. assert (ON := orbit_speed). unfold circle. cbn [v_vel x3 y3 z3 length]. rewrite Rmult_0_r, cos_0, sin_0.
    rewrite Rmult_0_r, Rmult_1_r, Rabs_R0, Rabs_pos_eq by lra. repeat split; try assumption; lra. }
  destruct F1 as (k1 & K1 & L1). unfold RK4_sat, RK4_step. rewrite K1. cbn [rbind].
  assert (M1 := flow_div _ _ _ 2 ltac:(lra) (flow_mul _ _ _ dt L1)). rewrite A5, A2 in M1.
  destruct (good_add h s c al _ _ _ C S0 M1) as (s2 & E2 & _ & _ & k2 & K2 & L2); [lra|lra|]. rewrite E2. cbn [rbind]. rewrite K2. cbn [rbind].
  assert (M2 := flow_div _ _ _ 2 ltac:(lra) (flow_mul _ _ _ dt L2)). rewrite A5, A2 in M2.
  destruct (good_add h s c al _ _ _ C S0 M2) as (s3 & E3 & _ & _ & k3 & K3 & L3); [lra|lra|]. rewrite E3. cbn [rbind]. rewrite K3. cbn [rbind].
  assert (M3 := flow_mul _ _ _ dt L3). rewrite A5 in M3.
  destruct (good_add h s c al _ _ _ C S0 M3) as (s4 & E4 & _ & _ & k4 & K4 & L4); [lra|lra|]. rewrite E4. cbn [rbind]. rewrite K4. cbn [rbind].
  destruct (flow_add _ _ _ _ _ _ L1 (flow_mul _ _ _ 2 L2)) as (a & -> & LA). cbn [rbind]. destruct (flow_add _ _ _ _ _ _ LA (flow_mul _ _ _ 2 L3)) as (b & -> & LB). cbn [rbind].
  destruct (flow_add _ _ _ _ _ _ LB L4) as (g & -> & LG). cbn [rbind]. rewrite !A2 in LG. assert (MG := flow_mul _ _ _ dt (flow_div _ _ _ 6 ltac:(lra) LG)). rewrite A5, A6 in MG.
  destruct (good_add h s c al _ _ _ C S0 MG) as (s' & E' & G' & CC & _); [lra|lra|]. exists s'. split; [exact E'|]. split; [apply G'|exact CC].
Qed.

Lemma ball_no_torque h s m F T : sys_actuate (T:=R) [] [] = Ok m -> env_F_and_T false ball h s m = Ok (F, T) -> T = zero3.
Proof.
  intros A E. injection A as <-. unfold env_F_and_T, solar_F_and_T, drag_F_and_T in E. apply rbind_ok in E. destruct E as ([Fs Ts] & ES & E). apply rbind_ok in E. destruct E as ([Fd Td] & ED & E).
  assert (Ts = zero3). { apply rbind_ok in ES. destruct ES as (jd & _ & ES). destruct (SRP_info _ _) as [[p sh] S]. destruct sh; [injection ES as _ <-; reflexivity|]. rewrite ball_srp in ES. injection ES as _ <-. reflexivity. }
  assert (Td = zero3). { apply rbind_ok in ED. destruct ED as (rho & _ & ED). rewrite ball_drag in ED. injection ED as _ <-. reflexivity. }
  subst Ts Td. unfold gravity_F_and_T, magnetic_F_and_T, add_FT in E. rewrite ball_total in E. injection E as _ <-. cbn [fst snd].
  generalize (sandwich (T:=R) (state_att s) (div3 (opp3 (v_pos (sv s))) (c_length s))) as n. generalize (sandwich (T:=R) (state_att s) (magnetic_field (c_r_ecef s) (c_length s) (c_ecef s))) as B. generalize (3 * MU / c_length s ^ 3) as k. intros k B n. vring.
Qed.
Example C89_ex : exists w w', unit3 ez /\ 0 <= 3 * 0.05 <= 2 /\ mv (s_total_moment ball) ez = scale3 4 ez /\ rw_momentum (s_rw ball) [0; 0; 7] = scale3 7 ez /\
  (forall h s m F T, sys_actuate (T:=R) [] [] = Ok m -> env_F_and_T false ball h s m = Ok (F, T) -> T = zero3) /\
  v_rate (sv (w_state w)) = scale3 3 ez /\ v_whl (sv (w_state w)) = [0; 0; 7] /\ unitq (v_att (sv (w_state w))) /\
  updates (fun h s => vector_field false ball [] h s [] (map (fun _ => 0) [0; 0; 7])) (fun _ => zero3) true 0.05 1 w = Ok w'.
Proof.
  set (h := fun _ : nat => CJ (mkJ 0 0)). destruct (near_state h 0 (circle 0)) as (s & E & S0 & C0 & H1 & H2 & H3).
  { unfold near, circle. cbn [v_pos v_whl x3 y3 z3]. rewrite Rmult_0_r, cos_0, sin_0, Rmult_0_r, Rabs_R0. replace (orbit_r * 1 - orbit_r) with 0 by ring. rewrite Rabs_R0. repeat split; lra. }
  assert (NS : near (sv s)). { rewrite S0. unfold near, circle. cbn [v_pos v_whl x3 y3 z3]. rewrite Rmult_0_r, cos_0, sin_0, Rmult_0_r, Rabs_R0. replace (orbit_r * 1 - orbit_r) with 0 by ring. rewrite Rabs_R0. repeat split; lra. }
  destruct (ball_step h s (mkJ 0 0) 0 0.05) as (s' & R' & N' & C'); [lra|reflexivity|split; [exact NS|rewrite S0; auto]|exact S0|].
  exists (mkWorld s h (gyro_init 0 0 zero3) 0).
  assert (UP : exists w', update (fun h s => vector_field false ball [] h s [] (map (fun _ => 0) [0; 0; 7])) (fun _ => zero3) true 0.05 (mkWorld s h (gyro_init 0 0 zero3) 0) = Ok w').
  { unfold update. cbn [w_state w_store w_gyro w_draws map]. rewrite R'. cbn [rbind]. unfold h at 1. cbn [clk_tick]. unfold jtick. cbn [j_us].
    assert (ZN : ZnearestE (0.05 * 1000000) = 50000%Z). { replace (0.05 * 1000000) with 50000 by lra. apply (Znearest_imp _ 50000 50000). replace (50000 - 50000) with 0 by ring. rewrite Rabs_R0. lra. } rewrite ZN.
    replace (datetime_ok (0 + 50000)) with true by (vm_compute; reflexivity). cbn [rbind].
    match goal with |- context [make_state ?a ?b ?c] => destruct (near_state a b c) as (st & -> & _) end; [exact N'|]. cbn [rbind]. eexists. reflexivity. }
  destruct UP as (w' & UP). exists w'. cbn [updates]. rewrite UP. cbn [rbind w_state]. rewrite S0.
  split; [unfold unit3, ez; vunfoldg; rnumg; ring|]. split; [lra|]. split; [rewrite ball_total; unfold ez; vunfoldg; rnumg; apply mk3_c; ring|].
  split; [unfold rw_momentum, w_momentum, ball, ez; cbn; vunfoldg; rnumg; apply mk3_c; ring|]. split; [exact ball_no_torque|].
  split; [unfold circle, spin, ez; cbn [v_rate]; vunfoldg; rnumg; apply mk3_c; ring|]. split; [reflexivity|]. split; [|reflexivity].
  unfold circle, unitq. cbn [v_att]. rewrite Rmult_0_r, cos_0, sin_0. vunfoldg; rnumg; ring.
Qed.
