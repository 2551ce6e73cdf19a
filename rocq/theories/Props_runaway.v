(** * Property C126: the modes that command nothing, with the satellite that keeps obeying *)
From Coq Require Import Reals ZArith List Bool Lra Lia Psatz.
From Verif Require Import Num Vec Mat6 M_vector M_quaternion M_jday M_struct M_dyn M_integ M_obs M_ctrl M_fsm M_mgr S_rot S_dyn S_fsm.
From Verif Require Import P_quat P_struct P_wheel P_dyn P_dyn2 P_ctrl P_ctrl2 P_tot3 P_detum P_samp P_mgr Props_struct Props_samp Props_mgr Props_stare Props_asleep.
Import ListNotations.
Local Open Scope R_scope.

(** one control cycle in a mode that sets no wheel command: the number of the mission is none the manager handles (SAFE, UNSAFE and MANUAL among them), or it is
    POINT's and the environment has no sun.  Until t1 the satellite moves by the code's equations with the wheels accelerating and the torquers [mt] driven as last
    commanded; the torque from outside, that of the torquers included, is at most M *)
Definition idle_cycle (sat : Satellite) (mt : list (Torquer R)) (F T B : R -> v3) (M : R) (y : R -> SVec) (t0 t1 : R) (m m' : Mgr) : Prop :=
  exists clock meas id bore target mom z a b, (unhandled id \/ (id = 7%Z /\ wc_sun (g_whl m) = None)) /\ m' = fst (mission_input clock meas id bore target m) /\
    sys_actuate mt (g_mag_cmd m') = Ok mom /\ a < t0 /\ t1 < b /\ (forall t, t0 <= t <= t1 -> y t = z t) /\
    forall t, a < t < b -> norm3 (add3 (T t) (cross3 mom (B t))) <= M /\ length (v_whl (z t)) = 4%nat /\
      deriv_sv z t (derivative sat (z t) (F t) (add3 (T t) (cross3 mom (B t))) (rw_torque (s_rw sat) (g_rw_cmd m')) (rw_momentum (s_rw sat) (v_whl (z t))) (g_rw_cmd m')).

Lemma idle_keeps clock meas id bore target m : unhandled id \/ (id = 7%Z /\ wc_sun (g_whl m) = None) -> let m' := fst (mission_input clock meas id bore target m) in g_rw_cmd m' = g_rw_cmd m /\ g_whl m' = g_whl m.
Proof.
  intros [U|[-> S]] m'.
  - assert (FA : Forall (fun c => unhandled (mc_id c)) [mkMC2 clock meas id bore target]) by (apply Forall_cons; [exact U|apply Forall_nil]). destruct (C64_hold [mkMC2 clock meas id bore target] m FA) as (_ & A & _ & C). exact (conj A C).
  - unfold m', mission_input. cbn [kf_output]. unfold mission_commands. cbn [Z.eqb st_value Pos.eqb orb g_whl]. unfold point_and_stare, tracking. rewrite S. split; reflexivity.
Qed.
Lemma unit_conj (q : quat) : unitq q -> dotq (conjugate q) (conjugate q) = 1.
Proof. intros U. unfold unitq in U. rewrite <- U. generalize q. clear. intros [p q r s]. unfold conjugate, dotq. cbn [qw qx qy qz]. rnumg. ring. Qed.
(** bounded torque from outside: the momentum changes no faster, the quaternion keeps its length *)
Lemma motion_drifts sat (F T : R -> v3) M acc z a b : det3 (s_total_moment sat) <> 0 -> (forall t, a < t < b -> norm3 (T t) <= M) ->
  (forall t, a < t < b -> deriv_sv z t (derivative sat (z t) (F t) (T t) (rw_torque (s_rw sat) acc) (rw_momentum (s_rw sat) (v_whl (z t))) acc)) ->
  forall s t, a < s < b -> a < t < b -> s <= t -> unitq (v_att (z s)) -> norm3 (sub3 (inertial_momentum sat (z t)) (inertial_momentum sat (z s))) <= M * (t - s) /\ unitq (v_att (z t)).
Proof.
  intros DJ TM D s t Hs Ht ST US. set (J := s_total_moment sat) in *.
  assert (DQ : forall u, a < u < b -> derivq (fun u => v_att (z u)) u (scaleq 0.5 (product (v_att (z u)) (pure (v_rate (z u)))))) by (intros u Hu; destruct (D u Hu) as (_ & _ & X & _); exact X).
  assert (UU : forall u, a < u < b -> unitq (v_att (z u))).
  { intros u Hu. unfold unitq. rewrite <- US. apply (const_of_deriv (fun u => dotq (v_att (z u)) (v_att (z u))) a b); [|exact Hu|exact Hs].
    intros v Hv. eapply d_eq; [apply d_dotq; exact (DQ v Hv)|]. cbv beta. generalize (v_att (z v)) (v_rate (z v)). clear. intros [p q r s] [x y z]. unfold pure, product. replace 0.5 with (1/2) by lra. vunfoldg; cbn [x3 y3 z3 qw qx qy qz]; rnumg. field. }
  assert (DH : forall u, a < u < b -> deriv3 (fun u => body_momentum sat (z u)) u (sub3 (T u) (cross3 (v_rate (z u)) (body_momentum sat (z u))))).
  { intros u Hu. destruct (D u Hu) as (_ & _ & _ & X & Y). unfold body_momentum at 1. eapply d3_eq; [apply d3_add; [apply d3_mv; exact X|apply d3_momentum; exact Y]|]. cbn [derivative v_rate v_whl]. change (s_inv_tot sat) with (inv3 J). fold J. rewrite mv_inv3 by exact DJ.
    unfold body_momentum. fold J. generalize (mv J (v_rate (z u))) (rw_momentum (s_rw sat) (v_whl (z u))) (v_rate (z u)) (rw_torque (s_rw sat) acc) (T u). clear. intros [p q r] [l m n] [d e f] [g h i] [t1 t2 t3]. vunfoldg; cbn [x3 y3 z3]; rnumg. apply mk3_c; ring. }
  assert (DL : forall u, a < u < b -> deriv3 (fun u => inertial_momentum sat (z u)) u (sandwich_opp (v_att (z u)) (T u))).
  { intros u Hu. unfold inertial_momentum. eapply d3_eq; [apply d3_sandwich_opp; [exact (DQ u Hu)|exact (DH u Hu)]|]. cbv beta. f_equal. generalize (cross3 (v_rate (z u)) (body_momentum sat (z u))) (T u). clear. intros [p q r] [l m n]. vunfoldg; cbn [x3 y3 z3]; rnumg; apply mk3_c; ring. }
  split; [|apply UU, Ht]. apply (vmvt (fun u => inertial_momentum sat (z u)) (fun u => sandwich_opp (v_att (z u)) (T u)) s t M ST); [intros u Hu; apply DL; lra|].
  intros u Hu. unfold sandwich_opp. rewrite norm_sand, unit_conj, Rmult_1_l by (apply UU; lra). apply TM. lra.
Qed.
Lemma norm3_less (p q : v3) : norm3 p - norm3 q <= norm3 (sub3 p q).
Proof. assert (T := norm3_triangle (sub3 p q) q). replace (add3 (sub3 p q) q) with p in T by (destruct p as [p1 p2 p3], q as [q1 q2 q3]; vunfoldg; cbn [x3 y3 z3]; rnumg; apply mk3_c; ring). lra. Qed.
Lemma rw_momentum_linear s w acc t : length w = 4%nat -> length acc = 4%nat -> rw_momentum s (zip_with (fun x a => x + t * a) w acc) = add3 (rw_momentum s w) (scale3 t (rw_torque s acc)).
Proof.
  intros LW LA. unfold rw_momentum, rw_torque. assert (L : length w = length acc) by congruence. clear LW LA. revert w acc L. induction (rw_wheels s) as [|wh ws IH]; intros w acc L; [destruct w, acc; cbn [zip_with sum3 fold_right]; vring|].
  destruct w as [|x w], acc as [|e acc]; try discriminate; [cbn [zip_with sum3 fold_right]; vring|]. cbn [zip_with sum3 fold_right] in *. fold (sum3 (zip_with w_momentum ws (zip_with (fun x a => x + t * a) w acc))). rewrite IH by (cbn in L; congruence).
  fold (sum3 (zip_with w_momentum ws w)) (sum3 (zip_with w_torque ws acc)). unfold w_momentum at 1 3, w_torque at 2. generalize (sum3 (zip_with w_momentum ws w)) (sum3 (zip_with w_torque ws acc)) (w_par wh) (w_axis wh). clear. intros [p q r] [l m n] d [f g h]. vunfoldg; cbn [x3 y3 z3]; rnumg; apply mk3_c; ring.
Qed.

(** the last wheel command of the mode before stays in force: at every later time the wheels have been accelerated by it all the while, and the body's rotation carries whatever
    momentum the wheels took *)
Theorem C126_held : forall sat mt F T B M y m h, det3 (s_total_moment sat) <> 0 -> 0 < h -> unitq (v_att (y 0)) -> length (g_rw_cmd (m 0%nat)) = 4%nat ->
  (forall k, idle_cycle sat mt F T B M y (INR k * h) (INR (S k) * h) (m k) (m (S k))) -> let acc := g_rw_cmd (m 0%nat) in
  (forall k, g_rw_cmd (m k) = acc) /\ forall t, 0 <= t -> v_whl (y t) = zip_with (fun x a => x + t * a) (v_whl (y 0)) acc /\ unitq (v_att (y t)) /\
    norm3 (sub3 (inertial_momentum sat (y t)) (inertial_momentum sat (y 0))) <= M * t /\
    norm3 (add3 (rw_momentum (s_rw sat) (v_whl (y 0))) (scale3 t (rw_torque (s_rw sat) acc))) - norm3 (inertial_momentum sat (y 0)) - M * t <= norm3 (mv (s_total_moment sat) (v_rate (y t))).
Proof.
  intros sat mt F T B M y m h DJ H0 U0 LA CY acc. set (tk := fun k => INR k * h).
  assert (TS : forall k, tk (S k) = tk k + h) by (intros k; unfold tk; rewrite S_INR; ring). assert (T0 : tk 0%nat = 0) by (unfold tk; cbn; ring).
  assert (KP : forall k, g_rw_cmd (m k) = acc). { intros k. induction k as [|k IH]; [reflexivity|]. destruct (CY k) as (clock & meas & id & bore & target & mom & z & a & b & U & -> & _). rewrite (proj1 (idle_keeps clock meas id bore target (m k) U)). exact IH. }
  split; [exact KP|].
  assert (ONE : forall k t, tk k <= t <= tk (S k) -> unitq (v_att (y (tk k))) -> length (v_whl (y (tk k))) = 4%nat /\ v_whl (y t) = zip_with (fun x a => x + (t - tk k) * a) (v_whl (y (tk k))) acc /\ unitq (v_att (y t)) /\ norm3 (sub3 (inertial_momentum sat (y t)) (inertial_momentum sat (y (tk k)))) <= M * (t - tk k)).
  { intros k t Ht UK. destruct (CY k) as (clock & meas & id & bore & target & mom & z & a & b & U & _ & _ & A0 & B0 & EQ & D). rewrite (KP (S k)) in D. fold (tk k) (tk (S k)) in A0, B0, EQ. assert (SK := TS k).
    rewrite (EQ t Ht), (EQ (tk k)) in * by lra. split; [apply D; lra|]. split.
    - apply (speeds_linear (fun u => v_whl (z u)) acc a b LA); [|lra|lra]. intros u Hu. destruct (D u Hu) as (_ & L & X). split; [exact L|]. destruct X as (_ & _ & _ & _ & X). exact X.
    - destruct (motion_drifts sat F (fun t => add3 (T t) (cross3 mom (B t))) M acc z a b DJ (fun u Hu => proj1 (D u Hu)) (fun u Hu => proj2 (proj2 (D u Hu))) (tk k) t ltac:(lra) ltac:(lra) ltac:(lra) UK) as [X Y]. split; [exact Y|exact X]. }
  assert (L0 : length (v_whl (y 0)) = 4%nat) by (rewrite <- T0; apply (ONE 0%nat (tk 0%nat)); [rewrite TS, T0; lra|rewrite T0; exact U0]).
  assert (ZZ : forall s r (u v : list R), length u = 4%nat -> length v = 4%nat -> zip_with (fun x a => x + s * a) (zip_with (fun x a => x + r * a) u v) v = zip_with (fun x a => x + (r + s) * a) u v).
  { intros s r u v LU LV. destruct u as [|u0 [|u1 [|u2 [|u3 [|? ?]]]]]; try discriminate. destruct v as [|v0 [|v1 [|v2 [|v3 [|? ?]]]]]; try discriminate. cbn [zip_with]. apply list4_eq; ring. }
  assert (TRI : forall p q r : v3, norm3 (sub3 p r) <= norm3 (sub3 p q) + norm3 (sub3 q r)).
  { intros p q r. assert (X := norm3_triangle (sub3 p q) (sub3 q r)). replace (add3 (sub3 p q) (sub3 q r)) with (sub3 p r) in X by (destruct p as [p1 p2 p3], q as [q1 q2 q3], r as [r1 r2 r3]; vunfoldg; cbn [x3 y3 z3]; rnumg; apply mk3_c; ring). exact X. }
  assert (ALL : forall k, v_whl (y (tk k)) = zip_with (fun x a => x + tk k * a) (v_whl (y 0)) acc /\ unitq (v_att (y (tk k))) /\ norm3 (sub3 (inertial_momentum sat (y (tk k))) (inertial_momentum sat (y 0))) <= M * tk k).
  { intros k. induction k as [|k (I1 & I2 & I3)].
    - rewrite T0. split; [|split; [exact U0|]].
      + revert L0 LA. fold acc. generalize (v_whl (y 0)) acc. clear. intros u v LU LV. destruct u as [|u0 [|u1 [|u2 [|u3 [|? ?]]]]]; try discriminate. destruct v as [|v0 [|v1 [|v2 [|v3 [|? ?]]]]]; try discriminate. cbn [zip_with]. apply list4_eq; ring.
      + rewrite Rmult_0_r. right. generalize (inertial_momentum sat (y 0)). clear. intros [p q r]. unfold norm3. vunfoldg. cbn [x3 y3 z3]. rnumg. replace ((p - p) * (p - p) + (q - q) * (q - q) + (r - r) * (r - r)) with 0 by ring. exact sqrt_0.
    - destruct (ONE k (tk (S k)) ltac:(rewrite TS; lra) I2) as (_ & O1 & O2 & O3). split; [|split; [exact O2|]].
      + rewrite O1, I1, ZZ by assumption. replace (tk k + (tk (S k) - tk k)) with (tk (S k)) by ring. reflexivity.
      + apply (Rle_trans _ _ _ (TRI _ (inertial_momentum sat (y (tk k))) _)). lra. }
  intros t Ht. destruct (step_of t h H0 Ht) as [k Hk]. fold (tk k) in Hk. rewrite <- TS in Hk. destruct (ALL k) as (I1 & I2 & I3). destruct (ONE k t Hk I2) as (_ & O1 & O2 & O3).
  assert (W : v_whl (y t) = zip_with (fun x a => x + t * a) (v_whl (y 0)) acc) by (rewrite O1, I1, ZZ by assumption; replace (tk k + (t - tk k)) with t by ring; reflexivity).
  split; [exact W|]. split; [exact O2|]. assert (DR : norm3 (sub3 (inertial_momentum sat (y t)) (inertial_momentum sat (y 0))) <= M * t) by (apply (Rle_trans _ _ _ (TRI _ (inertial_momentum sat (y (tk k))) _)); lra). split; [exact DR|].
  rewrite <- rw_momentum_linear by assumption. rewrite <- W. assert (X1 := norm3_less (inertial_momentum sat (y t)) (inertial_momentum sat (y 0))).
  assert (X2 : norm3 (inertial_momentum sat (y t)) = norm3 (body_momentum sat (y t))) by (unfold inertial_momentum, sandwich_opp; rewrite norm_sand, unit_conj by exact O2; ring).
  assert (X3 : norm3 (rw_momentum (s_rw sat) (v_whl (y t))) - norm3 (mv (s_total_moment sat) (v_rate (y t))) <= norm3 (body_momentum sat (y t))).
  { unfold body_momentum. generalize (mv (s_total_moment sat) (v_rate (y t))) (rw_momentum (s_rw sat) (v_whl (y t))). clear. intros p q. assert (X := norm3_triangle (add3 p q) (scale3 (-1) p)). rewrite norm3_stretch in X.
    replace (add3 (add3 p q) (scale3 (-1) p)) with q in X by (destruct p as [p1 p2 p3], q as [q1 q2 q3]; vunfoldg; cbn [x3 y3 z3]; rnumg; apply mk3_c; ring). replace (Rabs (-1)) with 1 in X by (unfold Rabs; destruct (Rcase_abs (-1)); lra). lra. }
  lra.
Qed.
Print Assumptions C126_held.
(** so it is false that SAFE, UNSAFE, MANUAL, or POINT without a sun, leave the satellite quiet: if the torque of the last wheel command exceeds the torque from outside, the rate of
    the body and the speed of some wheel pass every bound and never come back below it *)
Theorem C126_quiet_refuted : forall sat mt F T B M y m h jm, det3 (s_total_moment sat) <> 0 -> 0 < h -> unitq (v_att (y 0)) -> length (g_rw_cmd (m 0%nat)) = 4%nat ->
  (forall k, idle_cycle sat mt F T B M y (INR k * h) (INR (S k) * h) (m k) (m (S k))) -> M < norm3 (rw_torque (s_rw sat) (g_rw_cmd (m 0%nat))) ->
  0 < jm -> (forall v, norm3 (mv (s_total_moment sat) v) <= jm * norm3 v) ->
  forall X, exists t0, forall t, t0 <= t -> X <= norm3 (v_rate (y t)) /\ X <= norml (v_whl (y t)).
Proof.
  intros sat mt F T B M y m h jm DJ H0 U0 LA CY ML J0 JM X. destruct (C126_held sat mt F T B M y m h DJ H0 U0 LA CY) as (_ & P). cbv zeta in P. set (acc := g_rw_cmd (m 0%nat)) in *.
  set (tau := rw_torque (s_rw sat) acc) in *. set (h0 := rw_momentum (s_rw sat) (v_whl (y 0))) in *. set (l0 := norm3 (inertial_momentum sat (y 0))) in *.
  assert (L0 : length (v_whl (y 0)) = 4%nat). { destruct (CY 0%nat) as (clock & meas & id & bore & target & mom & z & a & b & _ & _ & _ & A0 & B0 & EQ & D). cbn [INR] in *. rewrite Rmult_0_l in *. rewrite (EQ 0) by lra. apply D. lra. }
  assert (LB : forall t, 0 <= t -> t * norm3 tau - norm3 h0 <= norm3 (add3 h0 (scale3 t tau))).
  { intros t Ht. assert (Q := norm3_triangle (add3 h0 (scale3 t tau)) (scale3 (-1) h0)). rewrite norm3_stretch in Q. replace (Rabs (-1)) with 1 in Q by (unfold Rabs; destruct (Rcase_abs (-1)); lra).
    replace (add3 (add3 h0 (scale3 t tau)) (scale3 (-1) h0)) with (scale3 t tau) in Q by (generalize h0 tau; clear; intros [p1 p2 p3] [q1 q2 q3]; vunfoldg; cbn [x3 y3 z3]; rnumg; apply mk3_c; ring). rewrite norm3_stretch, (Rabs_pos_eq t) in Q by exact Ht. lra. }
  assert (NN : exists a0 an, 0 < an /\ forall t, 0 <= t -> t * an - a0 <= norml (v_whl (y t))).
  { exists (norml (v_whl (y 0))), (norml acc).
    assert (AP : 0 < norml acc). { assert (TP : 0 < norm3 tau) by (assert (Q := proj1 (proj2 (proj2 (P 1 ltac:(lra))))); assert (Q1 : 0 <= norm3 (sub3 (inertial_momentum sat (y 1)) (inertial_momentum sat (y 0)))) by (apply sqrt_pos); lra).
      revert LA TP. fold acc. unfold tau. generalize acc. clear. intros acc LA TP. destruct acc as [|a [|b [|c [|d [|? ?]]]]]; try discriminate. rewrite norml4. apply sqrt_lt_R0. destruct (Rtotal_order 0 (a * a + b * b + c * c + d * d)) as [Q|[Q|Q]]; [exact Q| |nra].
      exfalso. assert (a = 0) by nra. assert (b = 0) by nra. assert (c = 0) by nra. assert (d = 0) by nra. subst a b c d. assert (Z : rw_torque (s_rw sat) [0; 0; 0; 0] = zero3).
      { unfold rw_torque. change [0; 0; 0; 0] with (repeat 0 4). generalize 4%nat (rw_wheels (s_rw sat)). clear. intros n ws. revert n. induction ws as [|w ws IH]; intros n; [destruct n; reflexivity|]. destruct n as [|n]; [reflexivity|]. cbn [repeat zip_with sum3 fold_right]. fold (sum3 (zip_with w_torque ws (repeat 0 n))). rewrite IH. unfold w_torque. generalize (w_par w) (w_axis w). clear. intros d [p q r]. vunfoldg; cbn [x3 y3 z3]; rnumg; apply mk3_c; ring. }
      rewrite Z in TP. unfold norm3 in TP. revert TP. vunfoldg. cbn [x3 y3 z3]. rnumg. replace (0 * 0 + 0 * 0 + 0 * 0) with 0 by ring. rewrite sqrt_0. lra. }
    split; [exact AP|]. intros t Ht. rewrite (proj1 (P t Ht)). revert L0 LA Ht. fold acc. generalize (v_whl (y 0)) acc. clear. intros u v LU LV Ht.
    destruct u as [|u0 [|u1 [|u2 [|u3 [|? ?]]]]]; try discriminate. destruct v as [|v0 [|v1 [|v2 [|v3 [|? ?]]]]]; try discriminate. cbn [zip_with]. rewrite !norml4.
    set (A := v0 * v0 + v1 * v1 + v2 * v2 + v3 * v3). set (C := u0 * u0 + u1 * u1 + u2 * u2 + u3 * u3). set (D := (u0 + t * v0) * (u0 + t * v0) + (u1 + t * v1) * (u1 + t * v1) + (u2 + t * v2) * (u2 + t * v2) + (u3 + t * v3) * (u3 + t * v3)).
    assert (A0 : 0 <= A) by (unfold A; nra). assert (C0 : 0 <= C) by (unfold C; nra). assert (D0 : 0 <= D) by (unfold D; generalize (u0 + t * v0) (u1 + t * v1) (u2 + t * v2) (u3 + t * v3); clear; intros; nra).
    (* Cauchy: (t v) . (t v) is at most (sqrt D + sqrt C)^2 *)
    assert (CS : Rabs (u0 * (u0 + t * v0) + u1 * (u1 + t * v1) + u2 * (u2 + t * v2) + u3 * (u3 + t * v3)) <= sqrt C * sqrt D).
    { rewrite <- sqrt_mult by assumption. rewrite <- sqrt_Rsqr_abs. apply sqrt_le_1_alt. unfold Rsqr, C, D. generalize (u0 + t * v0) (u1 + t * v1) (u2 + t * v2) (u3 + t * v3). clear. intros a b c d.
      assert (X1 := Rle_0_sqr (u0 * b - u1 * a)). assert (X2 := Rle_0_sqr (u0 * c - u2 * a)). assert (X3 := Rle_0_sqr (u0 * d - u3 * a)). assert (X4 := Rle_0_sqr (u1 * c - u2 * b)). assert (X5 := Rle_0_sqr (u1 * d - u3 * b)). assert (X6 := Rle_0_sqr (u2 * d - u3 * c)). unfold Rsqr in *. nra. }
    assert (SA := sqrt_sqrt A A0). assert (SC := sqrt_sqrt C C0). assert (SD := sqrt_sqrt D D0). assert (PA := sqrt_pos A). assert (PC := sqrt_pos C). assert (PD := sqrt_pos D).
    assert (E : t * t * A = D + C - 2 * (u0 * (u0 + t * v0) + u1 * (u1 + t * v1) + u2 * (u2 + t * v2) + u3 * (u3 + t * v3))) by (unfold A, C, D; ring).
    assert (CS' := Rle_abs (- (u0 * (u0 + t * v0) + u1 * (u1 + t * v1) + u2 * (u2 + t * v2) + u3 * (u3 + t * v3)))). rewrite Rabs_Ropp in CS'.
    assert (F1 : (t * sqrt A) * (t * sqrt A) <= (sqrt D + sqrt C) * (sqrt D + sqrt C)) by (replace ((t * sqrt A) * (t * sqrt A)) with (t * t * (sqrt A * sqrt A)) by ring; rewrite SA, E; replace ((sqrt D + sqrt C) * (sqrt D + sqrt C)) with (sqrt D * sqrt D + sqrt C * sqrt C + 2 * (sqrt C * sqrt D)) by ring; rewrite SC, SD; lra).
    assert (F2 : t * sqrt A <= sqrt D + sqrt C) by (apply Rsqr_incr_0_var; [exact F1|lra]). lra. }
  destruct NN as (a0 & an & AN & NN). set (g := norm3 tau - M). assert (G : 0 < g) by (unfold g; lra).
  exists (Rmax 0 (Rmax ((jm * X + norm3 h0 + l0) / g) ((X + a0) / an))). intros t Ht. assert (B1 := Rmax_l 0 (Rmax ((jm * X + norm3 h0 + l0) / g) ((X + a0) / an))). assert (B2 := Rmax_r 0 (Rmax ((jm * X + norm3 h0 + l0) / g) ((X + a0) / an))).
  assert (B3 := Rmax_l ((jm * X + norm3 h0 + l0) / g) ((X + a0) / an)). assert (B4 := Rmax_r ((jm * X + norm3 h0 + l0) / g) ((X + a0) / an)). assert (T0 : 0 <= t) by lra.
  assert (E1 : jm * X + norm3 h0 + l0 <= g * t) by (apply (Rmult_le_reg_r (/ g)); [apply Rinv_0_lt_compat, G|]; replace (g * t * / g) with t by (field; lra); change ((jm * X + norm3 h0 + l0) / g <= t); lra).
  assert (E2 : X + a0 <= an * t) by (apply (Rmult_le_reg_r (/ an)); [apply Rinv_0_lt_compat, AN|]; replace (an * t * / an) with t by (field; lra); change ((X + a0) / an <= t); lra).
  split.
  - destruct (P t T0) as (_ & _ & _ & Q). assert (Q1 := LB t T0). assert (Q2 := JM (v_rate (y t))). apply (Rmult_le_reg_l jm); [exact J0|]. unfold g in E1. lra.
  - assert (Q := NN t T0). lra.
Qed.
Print Assumptions C126_quiet_refuted.

(** the satellite of C125 with its wheels told to accelerate by 1 rad/s^2, in SAFE and in POINT without a sun by turns *)
Definition spun_up (t : R) : SVec := coast_state (- (4 * cos (PI / 4) / 5) * t * t / 2) (- (4 * cos (PI / 4) / 5) * t) t.
Definition told (clock : AClock) (k : nat) : Mgr := nat_rect (fun _ => Mgr) (set_cmds ex_mgr [1; 2; 3] [1; 1; 1; 1]) (fun k m => fst (mission_input clock (meas_of (coast_state 0 0 0)) (if Nat.even k then 3 else 7)%Z zero3 zero3 m)) k.
Example C126_ex : forall clock, det3 (s_total_moment coast_sat) <> 0 /\ unitq (v_att (spun_up 0)) /\ g_rw_cmd (told clock 0) = [1; 1; 1; 1] /\
  (forall k, idle_cycle coast_sat [] (fun _ => zero3) (fun _ => zero3) (fun _ => zero3) 0 spun_up (INR k * 1) (INR (S k) * 1) (told clock k) (told clock (S k))) /\
  0 < norm3 (rw_torque (s_rw coast_sat) (g_rw_cmd (told clock 0))) /\ (forall v, norm3 (mv (s_total_moment coast_sat) v) <= 5 * norm3 v).
Proof.
  intros clock. rewrite coast_total. split; [vunfoldg; cbn [x3 y3 z3 row1 row2 row3]; rnumg; lra|].
  split; [unfold unitq, spun_up, coast_state; cbn [v_att]; match goal with |- context [cos ?u] => match u with _ / 2 => replace u with 0 by field end end; rewrite cos_0, sin_0; unfold dotq; cbn [qw qx qy qz]; rnumg; ring|]. split; [reflexivity|]. split; [|split].
  - assert (ID : forall k m, wc_sun (g_whl m) = None -> unhandled (if Nat.even k then 3 else 7)%Z \/ ((if Nat.even k then 3 else 7)%Z = 7%Z /\ wc_sun (g_whl m) = None)) by (intros k m S; destruct (Nat.even k); [left; unfold unhandled; cbn; lia|right; auto]).
    assert (KP : forall k, g_rw_cmd (told clock k) = [1; 1; 1; 1] /\ wc_sun (g_whl (told clock k)) = None).
    { intros k. induction k as [|k [I1 I2]]; [split; reflexivity|]. destruct (idle_keeps clock (meas_of (coast_state 0 0 0)) (if Nat.even k then 3 else 7)%Z zero3 zero3 (told clock k) (ID k _ I2)) as [Q1 Q2]. change (told clock (S k)) with (fst (mission_input clock (meas_of (coast_state 0 0 0)) (if Nat.even k then 3 else 7)%Z zero3 zero3 (told clock k))). rewrite Q1, Q2. auto. }
    intros k. exists clock, (meas_of (coast_state 0 0 0)), (if Nat.even k then 3 else 7)%Z, zero3, zero3, zero3, spun_up, (INR k * 1 - 1), (INR (S k) * 1 + 1). split; [apply ID, KP|]. split; [reflexivity|]. split; [reflexivity|]. split; [lra|]. split; [lra|]. split; [reflexivity|]. intros t Ht.
    assert (Z1 : add3 (zero3 (T:=R)) (cross3 zero3 zero3) = cross3 zero3 zero3) by (vunfoldg; cbn [x3 y3 z3]; rnumg; apply mk3_c; ring). rewrite Z1.
    split; [right; unfold norm3; vunfoldg; cbn [x3 y3 z3]; rnumg; match goal with |- sqrt ?u = 0 => replace u with 0 by ring end; exact sqrt_0|]. split; [reflexivity|]. rewrite (proj1 (KP (S k))). apply coast_moves.
    + eapply d_eq; [apply d_mult; [apply d_mult; [apply d_mult; [exact (d_const (- (4 * cos (PI / 4) / 5)) t)|exact (derivable_pt_lim_id t)]|exact (derivable_pt_lim_id t)]|exact (d_const (/ 2) t)]|]. cbv beta. unfold id. field.
    + exact (derivable_pt_lim_id t).
    + eapply d_eq; [apply d_mult; [exact (d_const (- (4 * cos (PI / 4) / 5)) t)|exact (derivable_pt_lim_id t)]|]. cbv beta. unfold id. field.
  - change (g_rw_cmd (told clock 0)) with [1; 1; 1; 1]. change (rw_torque (s_rw coast_sat) [1; 1; 1; 1]) with (rw_momentum (s_rw coast_sat) [1; 1; 1; 1]). rewrite coast_wheels.
    assert (C : 1 / 2 < cos (PI / 4)). { rewrite <- cos_PI3. assert (P := PI_RGT_0). apply cos_decreasing_1; lra. } unfold norm3. apply sqrt_lt_R0. unfold dot3. cbn [x3 y3 z3]. rnumg. nra.
  - intros v. replace (mv (diag3 5 5 5) v) with (scale3 5 v) by (destruct v as [v1 v2 v3]; vunfoldg; cbn [x3 y3 z3 row1 row2 row3]; rnumg; apply mk3_c; ring). rewrite norm3_stretch, Rabs_pos_eq by lra. right. reflexivity.
Qed.
