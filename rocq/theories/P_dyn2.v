(** * Lemmas for the environment forces, and an explicit solution of the equations of motion *)
From Coq Require Import Reals ZArith List Bool Arith Lia Lra Psatz.
From Verif Require Import Num Vec M_vector M_quaternion M_jday M_frame M_struct M_env M_dyn M_integ S_rot S_integ S_dyn P_vec2 P_quat P_wheel P_env P_frame P_integ2 P_dyn.
Import ListNotations.
Local Open Scope R_scope.

Lemma dot_cross_l (a b : v3) : dot3 (cross3 a b) a = 0. Proof. vring. Qed.
Lemma dot_cross_r (a b : v3) : dot3 (cross3 a b) b = 0. Proof. vring. Qed.
(** (q* v q) twice: rotating back costs |q|^4 *)
Lemma opp_sandwich (q : quat) (v : v3) : sandwich_opp q (sandwich q v) = scale3 (dotq q q ^ 2) v.
Proof. apply sandwich_inv_l. Qed.
Lemma sandwich_opp_scale (q : quat) k (v : v3) : sandwich_opp q (scale3 k v) = scale3 k (sandwich_opp q v).
Proof. qring. Qed.
(** half a turn about an axis perpendicular to s *)
Lemma half_turn (u s : v3) : unit3 u -> dot3 u s = 0 -> sandwich_opp (mkq 0 (x3 u) (y3 u) (z3 u)) s = opp3 s.
Proof.
  intros U D. destruct u as [a b c], s as [x y z]. unfold unit3 in U. qunfoldg. vunfoldg. unfold dot3 in U, D. revert U D. rnumg. cbn [x3 y3 z3]. intros U D.
  cbn [x3 y3 z3 qw qx qy qz] in *. rnumg.
  assert (E : a * a = 1 - b * b - c * c) by lra.
  f_equal.
  - transitivity (2 * a * (a * x + b * y + c * z) - (a * a + b * b + c * c) * x); [ring|rewrite D]. replace (a * a + b * b + c * c) with 1 by lra. ring.
  - transitivity (2 * b * (a * x + b * y + c * z) - (a * a + b * b + c * c) * y); [ring|rewrite D]. replace (a * a + b * b + c * c) with 1 by lra. ring.
  - transitivity (2 * c * (a * x + b * y + c * z) - (a * a + b * b + c * c) * z); [ring|rewrite D]. replace (a * a + b * b + c * c) with 1 by lra. ring.
Qed.
(** every vector has a perpendicular unit vector *)
Lemma perp_exists (s : v3) : exists u : v3, unit3 u /\ dot3 u s = 0.
Proof.
  destruct s as [x y z]. destruct (Req_dec (x * x + y * y) 0) as [E|E].
  - exists (mk3 1 0 0). assert (X0 : x = 0) by nra. rewrite X0. unfold unit3. vunfoldg. rnumg. split; ring.
  - assert (P : 0 < x * x + y * y) by (assert (0 <= x * x) by nra; assert (0 <= y * y) by nra; lra).
    assert (Q := sqrt_lt_R0 _ P). assert (SQ := sqrt_sqrt _ (Rlt_le _ _ P)). set (n := sqrt (x * x + y * y)) in *.
    exists (mk3 (- y / n) (x / n) 0). unfold unit3. vunfoldg. rnumg. split; [|field; lra].
    transitivity ((x * x + y * y) / (n * n)); [field; lra|]. rewrite SQ. field. lra.
Qed.
(** a black box absorbs: the pressure force is along the light *)
Lemma black_srp sat p (v : v3) : s_absorption sat = 1 -> fst (total_srp sat p v) = scale3 (- p * total_area sat v) v.
Proof.
  intros A. unfold total_srp, total_area, s_walls. rewrite A. cbn [map fst sum3 fold_right]. rewrite !srp_eq. cbv zeta. cbn [fst wl_abs].
  repeat match goal with |- context [projected_area ?w v] => let a := fresh "a" in set (a := projected_area w v); clearbody a end.
  destruct v as [x y z]. vunfoldg. cbn [x3 y3 z3]. rnumg. f_equal; ring.
Qed.

(** ** An explicit motion: circular equatorial orbit at 400 km of a dimensionless satellite spinning about its z axis *)
Definition ball : Satellite := mkSat 0 0 0 0.8 2 5 (mkRWS [mkW (mk3 1 0 0) 1 1; mkW (mk3 0 1 0) 1 1; mkW (mk3 0 0 1) 1 1] 1 true) (mk3 1 1 1) zero3 false.
Definition orbit_r : R := 6778137.
Definition orbit_n : R := sqrt (MU / orbit_r ^ 3).
Definition spin : R := 3.
Definition circle (t : R) : SVec :=
  mkSV (mk3 (orbit_r * cos (orbit_n * t)) (orbit_r * sin (orbit_n * t)) 0)
       (mk3 (- orbit_r * orbit_n * sin (orbit_n * t)) (orbit_r * orbit_n * cos (orbit_n * t)) 0)
       (mkq (cos (spin / 2 * t)) 0 0 (sin (spin / 2 * t))) (mk3 0 0 spin) [0; 0; 7].
Lemma ball_total : s_total_moment ball = scalem 4 id3.
Proof.
  unfold s_total_moment, s_wheel_moment, s_reduced_moment, rw_parallel, rw_orthogonal, w_par_moment, w_orth_moment, ball, summ.
  cbn [s_rw s_principal s_reduced rw_wheels map w_par w_orth w_axis fold_right x3 y3 z3]. vunfoldg. rnumg. vsplit; ring.
Qed.
Lemma ball_det : det3 (s_total_moment ball) <> 0.
Proof. rewrite ball_total. vunfoldg. cbn [x3 y3 z3 row1 row2 row3]. rnumg. lra. Qed.
Lemma ball_area (w : Wall) v : In w (s_walls ball) -> projected_area w v = 0.
Proof. cbn. intros H. repeat destruct H as [H|H]; try contradiction; subst w; unfold projected_area, wl_area; cbn [wl_len wl_wid]; ring. Qed.
Lemma ball_drag p v : total_drag ball p v = (zero3, zero3).
Proof.
  unfold total_drag. cut (forall w, In w (s_walls ball) -> drag_force w p v = (zero3, zero3)).
  - intros H. rewrite (map_ext_in _ (fun _ => zero3)) by (intros w Hw; rewrite (H w Hw); reflexivity).
    rewrite (map_ext_in (fun w => snd (drag_force w p v)) (fun _ => zero3)) by (intros w Hw; rewrite (H w Hw); reflexivity).
    cbn. f_equal; vunfoldg; cbn [x3 y3 z3]; rnumg; f_equal; ring.
  - intros w Hw. rewrite drag_eq, (ball_area w v Hw). f_equal; vunfoldg; cbn [x3 y3 z3]; rnumg; f_equal; ring.
Qed.
Lemma ball_srp p v : total_srp ball p v = (zero3, zero3).
Proof.
  unfold total_srp. cut (forall w, In w (s_walls ball) -> srp_force w p v = (zero3, zero3)).
  - intros H. rewrite (map_ext_in _ (fun _ => zero3)) by (intros w Hw; rewrite (H w Hw); reflexivity).
    rewrite (map_ext_in (fun w => snd (srp_force w p v)) (fun _ => zero3)) by (intros w Hw; rewrite (H w Hw); reflexivity).
    cbn. f_equal; vunfoldg; cbn [x3 y3 z3]; rnumg; f_equal; ring.
  - intros w Hw. rewrite srp_eq, (ball_area w v Hw). cbv zeta. f_equal; vunfoldg; cbn [x3 y3 z3]; rnumg; f_equal; ring.
Qed.
Lemma opp_zero (q : quat) : sandwich_opp q (zero3 (T:=R)) = zero3.
Proof. qring. Qed.
Lemma ball_solar c h s : h (clk s) = CJ c -> solar_F_and_T ball h s = Ok (zero3, zero3).
Proof.
  intros H. unfold solar_F_and_T. rewrite H. cbn [clk_julian rbind]. destruct (SRP_info _ _) as [[p sh] S]. destruct sh; [reflexivity|].
  rewrite ball_srp, opp_zero. reflexivity.
Qed.
Lemma ball_dragF s rho : atmo_density (c_h s) = Ok rho -> drag_F_and_T ball s = Ok (zero3, zero3).
Proof. intros H. unfold drag_F_and_T. rewrite H. cbn [rbind]. rewrite ball_drag, opp_zero. reflexivity. Qed.
Lemma mv_id (v : v3) : mv id3 v = v. Proof. vring. Qed.
Lemma cross_self (v : v3) : cross3 v v = zero3. Proof. vring. Qed.
Lemma equator_state h a v r : z3 (v_pos v) = 0 -> 400000 < r -> dot3 (v_pos v) (v_pos v) = r * r ->
  exists m re lat lon, make_state h a v = Ok (mkSS v a m re r lat lon (r - EARTH_RAD)).
Proof.
  intros Z R0 D. unfold make_state. destruct (v_pos v) as [x y z] eqn:EP. cbn [z3] in Z. subst z.
  set (th := clk_theta (h a)). set (p := mv (ecef_matrix th) (mk3 x y 0)).
  assert (Ez : z3 p = 0) by (unfold p, ecef_matrix; vunfoldg; cbn [x3 y3 z3 row1 row2 row3]; rnumg; ring).
  assert (D' : x * x + y * y = r * r) by (rewrite <- D; vunfoldg; rnumg; ring).
  assert (SC := sin2_cos2 th). unfold Rsqr in SC.
  assert (Ed : x3 p * x3 p + y3 p * y3 p = r * r).
  { unfold p, ecef_matrix. vunfoldg. cbn [x3 y3 z3 row1 row2 row3]. rnumg.
    transitivity ((sin th * sin th + cos th * cos th) * (x * x + y * y)); [ring|]. rewrite SC, D'. ring. }
  assert (Np : p <> zero3). { intros N. rewrite N in Ed. unfold zero3 in Ed. cbn [x3 y3 z3] in Ed. revert Ed. rnumg. nra. }
  assert (E2 := e2_range).
  assert (EN : norm3 (mk3 x y 0) = r) by (unfold norm3; rnumg; rewrite D; apply sqrt_square; lra).
  assert (EW : r - wa = r - EARTH_RAD) by (unfold wa, EARTH_RAD; lra).
  rewrite lla_equator_full; [|exact Ez|exact Np|].
  - cbn [rbind]. rewrite Ed, sqrt_square by lra. do 4 eexists. rewrite EN, EW. reflexivity.
  - rewrite Ed. change a1 with (wa * e2). assert (B : 0 <= wa * e2 < 400000) by (unfold wa; set (e := e2) in *; clearbody e; lra). set (w := wa * e2) in *. clearbody w. clear - R0 B. intros H. nra.
Qed.

(** numbers *)
Lemma MU_val : 398 * 10 ^ 12 < MU < 399 * 10 ^ 12. Proof. unfold MU, G_NEWTON, EARTH_MASS. lra. Qed.
Lemma orbit_n_sq : orbit_n * orbit_n = MU / orbit_r ^ 3.
Proof. unfold orbit_n. apply sqrt_sqrt. assert (H := MU_val). unfold orbit_r. apply Rlt_le, Rdiv_lt_0_compat; [lra|]. apply pow_lt. lra. Qed.
Lemma d_cos k t : derivable_pt_lim (fun u => cos (k * u)) t (- k * sin (k * t)).
Proof.
  eapply d_eq; [apply (derivable_pt_lim_comp (fun u => k * u) cos t k (- sin (k * t)))|].
  - eapply d_eq; [apply (derivable_pt_lim_scal id k t 1), derivable_pt_lim_id|ring].
  - apply derivable_pt_lim_cos.
  - ring.
Qed.
Lemma d_sin k t : derivable_pt_lim (fun u => sin (k * u)) t (k * cos (k * t)).
Proof.
  eapply d_eq; [apply (derivable_pt_lim_comp (fun u => k * u) sin t k (cos (k * t)))|].
  - eapply d_eq; [apply (derivable_pt_lim_scal id k t 1), derivable_pt_lim_id|ring].
  - apply derivable_pt_lim_sin.
  - ring.
Qed.
Lemma d_scal c f t a : derivable_pt_lim f t a -> derivable_pt_lim (fun u => c * f u) t (c * a).
Proof. intros H. exact (derivable_pt_lim_scal f c t a H). Qed.
Lemma circle_solution c a b : solution false ball [] a b (fun _ => CJ c) (fun _ => []) (fun _ => [0; 0; 0]) circle /\ (forall t, exists st m, make_state (fun _ => CJ c) 0 (circle t) = Ok st /\ sys_actuate (T:=R) [] [] = Ok m /\ exists F, env_F_and_T false ball (fun _ => CJ c) st m = Ok (F, zero3)).
Proof.
  assert (K : forall t, exists st, make_state (fun _ => CJ c) 0 (circle t) = Ok st /\ sv st = circle t /\ env_F_and_T false ball (fun _ => CJ c) st zero3 = Ok (scale3 5 (gravity_accel false (v_pos (circle t)) orbit_r), zero3)).
  { intros t. assert (SC := sin2_cos2 (orbit_n * t)). unfold Rsqr in SC.
    destruct (equator_state (fun _ => CJ c) 0 (circle t) orbit_r) as (m & re & lat & lon & E).
    - reflexivity.
    - unfold orbit_r; lra.
    - unfold circle. vunfoldg. rnumg. cbn [v_pos x3 y3 z3].
      transitivity (orbit_r * orbit_r * (sin (orbit_n * t) * sin (orbit_n * t) + cos (orbit_n * t) * cos (orbit_n * t))); [ring|]. rewrite SC. ring.
    - eexists; split; [exact E|]. split; [reflexivity|]. unfold env_F_and_T. rewrite (ball_solar c) by reflexivity. cbn [rbind].
      assert (AT : exists rho, atmo_density (orbit_r - EARTH_RAD) = Ok rho).
      { unfold atmo_density, orbit_r, EARTH_RAD. destruct (Rleb_spec 400000 (6778137 - 6378137)); [|lra].
        destruct (Rltb_spec (6778137 - 6378137) 300000); [lra|]. destruct (Rltb_spec (6778137 - 6378137) 350000); [lra|].
        destruct (Rltb_spec (6778137 - 6378137) 400000); [lra|]. destruct (Rltb_spec (6778137 - 6378137) 450000); [|lra].
        rewrite !andb_false_r. cbn [andb]. eexists; reflexivity. }
      destruct AT as [rho AT]. rewrite (ball_dragF _ rho) by exact AT. cbn [rbind].
      unfold gravity_F_and_T. cbn [sv c_length c_ecef c_r_ecef]. rewrite ball_total. unfold add_FT, magnetic_F_and_T. cbn [fst snd sv c_length c_ecef c_r_ecef].
      cbn [s_mass ball].
      generalize (gravity_accel false (v_pos (circle t)) orbit_r) as g.
      generalize (sandwich (T:=R) (state_att (mkSS (circle t) 0 m re orbit_r lat lon (orbit_r - EARTH_RAD))) (div3 (opp3 (v_pos (circle t))) orbit_r)) as n.
      generalize (sandwich (T:=R) (state_att (mkSS (circle t) 0 m re orbit_r lat lon (orbit_r - EARTH_RAD))) (magnetic_field re orbit_r m)) as B.
      generalize (3 * MU / orbit_r ^ 3) as k. intros k B n g. f_equal. f_equal; vring. }
  split.
  - intros t _. destruct (K t) as (st & E & ES & EE). exists st, (derivative ball (circle t) (scale3 5 (gravity_accel false (v_pos (circle t)) orbit_r)) zero3
      (rw_torque (s_rw ball) [0; 0; 0]) (rw_momentum (s_rw ball) (v_whl (circle t))) [0; 0; 0]). split; [exact E|]. split.
    { unfold vector_field. cbn [sys_actuate]. unfold rw_torque_r, rw_momentum_r. rewrite ES.
      replace (Nat.ltb (length [0; 0; 0]) (length (rw_wheels (s_rw ball)))) with false by reflexivity.
      replace (Nat.ltb (length (v_whl (circle t))) (length (rw_wheels (s_rw ball)))) with false by reflexivity.
      change (sys_actuate (T:=R) [] []) with (Ok (A:=v3) zero3). cbn [rbind]. rewrite EE. reflexivity. }
    assert (MUP := MU_val).
    split; [|split; [|split; [|split]]].
    + cbn [derivative v_pos v_vel circle]. split; [|split]; cbn [x3 y3 z3].
      * eapply d_eq; [apply d_scal, d_cos|ring].
      * eapply d_eq; [apply d_scal, d_sin|ring].
      * apply d_const.
    + unfold derivative, gravity_accel, circle. cbn [v_pos v_vel s_mass ball]. split; [|split].
      * cbn [x3 y3 z3 div3 scale3 v_vel]. eapply d_eq; [apply d_scal, d_sin|]. rnumg.
        transitivity (- orbit_r * (orbit_n * orbit_n) * cos (orbit_n * t)); [ring|]. rewrite orbit_n_sq. field. unfold orbit_r; lra.
      * cbn [x3 y3 z3 div3 scale3 v_vel]. eapply d_eq; [apply d_scal, d_cos|]. rnumg.
        transitivity (- orbit_r * (orbit_n * orbit_n) * sin (orbit_n * t)); [ring|]. rewrite orbit_n_sq. field. unfold orbit_r; lra.
      * cbn [x3 y3 z3 div3 scale3 v_vel]. eapply d_eq; [apply d_const|]. rnumg. field. unfold orbit_r; lra.
    + unfold derivative, circle. cbn [v_att v_rate]. unfold product. vunfoldg. rnumg. replace 0.5 with (1 / 2) by lra.
      split; [|split; [|split]]; cbn [qw qx qy qz].
      * eapply d_eq; [apply d_cos|]. field.
      * eapply d_eq; [apply d_const|]. ring.
      * eapply d_eq; [apply d_const|]. ring.
      * eapply d_eq; [apply d_sin|]. field.
    + replace (v_rate (derivative ball (circle t) _ zero3 _ _ _)) with (zero3 (T:=R)); [exact (d3_const (mk3 0 0 spin) t)|].
      unfold derivative. cbn [v_rate]. rewrite ball_total.
      replace (sub3 _ _) with (zero3 (T:=R)).
      * generalize (s_inv_tot ball) as m. vring.
      * unfold rw_torque, rw_momentum, w_momentum, w_torque, ball, circle. cbn [s_rw rw_wheels v_whl v_rate]. unfold M_struct.zip_with. cbn. vunfoldg. rnumg. vsplit; ring.
    + intros i. cbn [derivative v_whl circle]. destruct i as [|[|[|[|i]]]]; cbn [nth]; apply d_const.
  - intros t. destruct (K t) as (st & E & _ & EE). exists st, zero3. split; [exact E|]. split; [reflexivity|]. eexists. exact EE.
Qed.

Lemma zeroq_dec (q : quat) : {q = zeroq} + {q <> zeroq}.
Proof.
  destruct q as [a b c d]. unfold zeroq. rnumg.
  destruct (Req_EM_T a 0) as [->|N]; [|right; intros E; injection E; intros; contradiction].
  destruct (Req_EM_T b 0) as [->|N]; [|right; intros E; injection E; intros; contradiction].
  destruct (Req_EM_T c 0) as [->|N]; [|right; intros E; injection E; intros; contradiction].
  destruct (Req_EM_T d 0) as [->|N]; [left; reflexivity|right; intros E; injection E; intros; contradiction].
Qed.
(** ** A body spinning at constant rate, held at one point over the equator: every step succeeds *)
Definition spin_field (h : store) (s : SatState) : res SVec :=
  Ok (mkSV zero3 zero3 (scaleq 0.5 (product (v_att (sv s)) (mkq 0 (x3 (v_rate (sv s))) (y3 (v_rate (sv s))) (z3 (v_rate (sv s)))))) zero3 [4; 5; 6]).
Definition spin_start : SVec := mkSV (mk3 orbit_r 0 0) zero3 (mkq 0.6 0 0.8 0) (mk3 0 0 1) [1; 2; 3].
Definition held (v : SVec) : Prop := v_pos v = mk3 orbit_r 0 0 /\ length (v_whl v) = 3%nat.
Lemma held_state h a v : held v -> exists s, make_state h a v = Ok s /\ sv s = v /\ clk s = a.
Proof.
  intros [P L]. destruct (equator_state h a v orbit_r) as (m & re & lat & lon & E).
  - rewrite P. reflexivity.
  - unfold orbit_r. lra.
  - rewrite P. vunfoldg. rnumg. ring.
  - eexists; split; [exact E|]. split; reflexivity.
Qed.
Lemma held_sv_add v d : held v -> v_pos d = zero3 -> length (v_whl d) = 3%nat -> exists v', sv_add v d = Ok v' /\ held v'.
Proof.
  intros [P L] D L2. unfold sv_add. rewrite np_add_eq by congruence. cbn [rbind]. eexists; split; [reflexivity|]. split; cbn [v_pos v_whl].
  - rewrite P, D. vring.
  - rewrite zip_len; congruence.
Qed.
Lemma held_add h s d : held (sv s) -> v_pos d = zero3 -> length (v_whl d) = 3%nat -> exists s', state_add h s d = Ok s' /\ held (sv s') /\ clk s' = clk s.
Proof.
  intros H D L. destruct (held_sv_add _ d H D L) as (v' & E & H'). unfold state_add. rewrite E. cbn [rbind].
  destruct (held_state h (clk s) v' H') as (s' & E' & S' & C'). exists s'. rewrite S'. auto.
Qed.
Lemma drift_sv_add a b : v_pos a = zero3 -> v_pos b = zero3 -> length (v_whl a) = 3%nat -> length (v_whl b) = 3%nat ->
  exists c, sv_add a b = Ok c /\ v_pos c = zero3 /\ length (v_whl c) = 3%nat.
Proof.
  intros P1 P2 L1 L2. unfold sv_add. rewrite np_add_eq by congruence. cbn [rbind]. eexists; split; [reflexivity|]. cbn [v_pos v_whl]. split.
  - rewrite P1, P2. vring.
  - rewrite zip_len; congruence.
Qed.
Lemma scale_zero k : scale3 k (zero3 (T:=R)) = zero3. Proof. vring. Qed.
Lemma div_zero k : k <> 0 -> div3 (zero3 (T:=R)) k = zero3. Proof. intros. vunfoldg. rnumg. vsplit; field; assumption. Qed.
Ltac drift := cbn [v_pos v_whl sv_mul sv_div]; rewrite ?scale_zero, ?div_zero by lra; rewrite ?map_length; first [reflexivity | assumption].
Lemma spin_step h dt s : held (sv s) -> exists s', RK4_sat h (spin_field h) dt s = Ok s' /\ held (sv s') /\ clk s' = clk s.
Proof.
  intros H. unfold RK4_sat, RK4_step. unfold spin_field at 1. cbn [rbind].
  set (k1 := mkSV zero3 zero3 _ zero3 [4; 5; 6]).
  destruct (held_add h s (sv_div (sv_mul k1 dt) 2) H) as (s2 & -> & H2 & _); [subst k1; drift|reflexivity|]. cbn [rbind]. unfold spin_field at 1. cbn [rbind].
  set (k2 := mkSV zero3 zero3 _ zero3 [4; 5; 6]).
  destruct (held_add h s (sv_div (sv_mul k2 dt) 2) H) as (s3 & -> & H3 & _); [subst k2; drift|reflexivity|]. cbn [rbind]. unfold spin_field at 1. cbn [rbind].
  set (k3 := mkSV zero3 zero3 _ zero3 [4; 5; 6]).
  destruct (held_add h s (sv_mul k3 dt) H) as (s4 & -> & H4 & _); [subst k3; drift|reflexivity|]. cbn [rbind]. unfold spin_field at 1. cbn [rbind].
  set (k4 := mkSV zero3 zero3 _ zero3 [4; 5; 6]).
  destruct (drift_sv_add k1 (sv_mul k2 2)) as (a & -> & A1 & A2); [reflexivity|subst k2; drift|reflexivity|reflexivity|]. cbn [rbind].
  destruct (drift_sv_add a (sv_mul k3 2)) as (b & -> & B1 & B2); [assumption|subst k3; drift|assumption|reflexivity|]. cbn [rbind].
  destruct (drift_sv_add b k4) as (c & -> & C1 & C2); [assumption|reflexivity|assumption|reflexivity|]. cbn [rbind].
  apply held_add; [exact H| |].
  - cbn [v_pos sv_mul sv_div]. rewrite C1, div_zero, scale_zero by lra. reflexivity.
  - cbn [v_whl sv_mul sv_div]. rewrite !map_length. exact C2.
Qed.
Definition clock0 : Clock R := mkClock 0 2024 2 29 23 59 59 true false.
Definition store0 : store := fun _ => CClock clock0.
Lemma spin_updates stream n : forall w, held (sv (w_state w)) -> (forall a, exists c, w_store w a = CClock c) ->
  exists w', riter n (update spin_field stream true 0.05) w = Ok w' /\ held (sv (w_state w')).
Proof.
  induction n as [|n IH]; intros w H C; cbn [riter]; [exists w; auto|].
  unfold update at 1. destruct (spin_step (w_store w) 0.05 (w_state w) H) as (s' & -> & H' & EC). cbn [rbind].
  destruct (C (clk s')) as [c Ec]. rewrite Ec. cbn [clk_tick rbind].
  destruct (held_state (set_clk (w_store w) (clk s') (CClock (tick 0.05 c))) (clk s') (set_att (sv s') (normalizeq (v_att (sv s'))))) as (st & -> & S2 & C2).
  { destruct H' as [P L]. split; [exact P|exact L]. }
  cbn [rbind]. apply IH; cbn [w_state w_store].
  - rewrite S2. destruct H' as [P L]. split; [exact P|exact L].
  - intros a. unfold set_clk. destruct (Nat.eqb a (clk s')); [eexists; reflexivity|apply C].
Qed.
