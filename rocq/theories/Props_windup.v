(** * C136: outside DETUMBLE and BBQ the daemon never unloads the wheels *)
From Coq Require Import Reals ZArith List Bool Lra Lia Psatz.
From Verif Require Import Num Vec Mat6 M_vector M_quaternion M_jday M_struct M_dyn M_integ M_obs M_ctrl M_fsm M_mgr S_rot S_dyn S_fsm.
From Verif Require Import P_quat P_struct P_wheel P_dyn P_dyn2 P_ctrl P_ctrl2 P_tot3 P_detum P_samp P_posf P_mgr Props_struct Props_samp Props_mgr Props_stare Props_asleep Props_runaway Props_limits Props_agile.
Import ListNotations.
Local Open Scope R_scope.

(** any operation on the object except mission_input in DETUMBLE or BBQ *)
Definition no_torquers (o : Op) : Prop := match o with OMission c => mc_id c <> st_value Detumble /\ mc_id c <> st_value Bbq | _ => True end.
(** any such operations, then the satellite moves by the code's equations with the commands held, under a torque T from outside *)
Definition undriven_cycle (sat : Satellite) (mt : list (Torquer R)) (F T B : R -> v3) (y : R -> SVec) (t0 t1 : R) (m m' : Mgr) : Prop :=
  exists l mom z a b, Forall no_torquers l /\ m' = ops l m /\
    sys_actuate mt (g_mag_cmd m') = Ok mom /\ a < t0 /\ t1 < b /\ (forall t, t0 <= t <= t1 -> y t = z t) /\
    forall t, a < t < b -> deriv_sv z t (derivative sat (z t) (F t) (add3 (T t) (cross3 mom (B t))) (rw_torque (s_rw sat) (g_rw_cmd m')) (rw_momentum (s_rw sat) (v_whl (z t))) (g_rw_cmd m')).
(** the momentum all wheels have at one radian per second, added up without regard to direction *)
Definition flywheel (s : RWS) : R := fold_right (fun w x => Rabs (w_par w) * norm3 (w_axis w) + x) 0 (rw_wheels s).

Lemma flywheel_bound s S vel : 0 <= S -> Forall (fun x => Rabs x <= S) vel -> norm3 (rw_momentum s vel) <= S * flywheel s.
Proof.
  intros S0. unfold rw_momentum, flywheel. revert vel. induction (rw_wheels s) as [|w ws IH]; intros vel OK; [destruct vel; cbn [zip_with sum3 fold_right]; rewrite norm_zero3; lra|].
  assert (PW : 0 <= Rabs (w_par w) * norm3 (w_axis w)) by (apply Rmult_le_pos; [apply Rabs_pos|apply P_quat.norm3_pos]). assert (PS := Rmult_le_pos _ _ S0 PW).
  destruct vel as [|x vel]; [cbn [zip_with sum3 fold_right]; rewrite norm_zero3|].
  - assert (X := IH [] (Forall_nil _)). assert (Y := P_quat.norm3_pos (sum3 (zip_with w_momentum ws []))). rewrite Rmult_plus_distr_l. lra.
  - inversion OK as [|? ? O1 O2]; subst. cbn [zip_with sum3 fold_right]. fold (sum3 (zip_with w_momentum ws vel)). eapply Rle_trans; [apply norm3_triangle|]. rewrite Rmult_plus_distr_l. apply Rplus_le_compat; [|apply IH, O2].
    unfold w_momentum. rewrite !norm3_scal. assert (A := Rabs_pos (w_par w)). assert (N := P_quat.norm3_pos (w_axis w)). replace (S * (Rabs (w_par w) * norm3 (w_axis w))) with (Rabs (w_par w) * (S * norm3 (w_axis w))) by ring. apply Rmult_le_compat_l; [exact A|]. apply Rmult_le_compat_r; [exact N|exact O1].
Qed.
Lemma op_undriven m o : no_torquers o -> g_mag_cmd m = [0; 0; 0] -> g_mag_cmd (op_run m o) = [0; 0; 0].
Proof.
  intros NT G. destruct o as [c|h d|f]; cbn [op_run]; [|unfold sensor_input; destruct d as [[[x v] q]|]; [destruct (kf_update h x v q (g_filter m)) as [f e]; exact G|exact G]|exact G].
  destruct NT as [N1 N2]. unfold mission_input. destruct (kf_output (mc_meas c) (g_filter m)) as [f x]. unfold mission_commands. apply Z.eqb_neq in N1, N2. rewrite N1, N2.
  destruct ((mc_id c =? st_value Sleep)%Z || (mc_id c =? st_value Failed)%Z)%bool; [reflexivity|].
  destruct (mc_id c =? st_value Point)%Z; [destruct (point_and_stare _ _ _ _) as [[w a]|e]; reflexivity|]. destruct (mc_id c =? st_value Spindown)%Z; [destruct (spindown_cmd _); reflexivity|exact G].
Qed.
Lemma ops_undriven l m : Forall no_torquers l -> g_mag_cmd m = [0; 0; 0] -> g_mag_cmd (ops l m) = [0; 0; 0].
Proof. intros F. unfold ops. revert m. induction F as [|o l N F IH]; intros m G; [exact G|]. cbn [fold_left]. apply IH, op_undriven; assumption. Qed.
Lemma momentum_moves sat (F T : R -> v3) acc z a b : det3 (s_total_moment sat) <> 0 ->
  (forall t, a < t < b -> deriv_sv z t (derivative sat (z t) (F t) (T t) (rw_torque (s_rw sat) acc) (rw_momentum (s_rw sat) (v_whl (z t))) acc)) ->
  (forall u, a < u < b -> deriv3 (fun u => inertial_momentum sat (z u)) u (sandwich_opp (v_att (z u)) (T u))) /\ forall s t, a < s < b -> a < t < b -> unitq (v_att (z s)) -> unitq (v_att (z t)).
Proof.
  intros DJ D. set (J := s_total_moment sat) in *.
  assert (DQ : forall u, a < u < b -> derivq (fun u => v_att (z u)) u (scaleq 0.5 (product (v_att (z u)) (pure (v_rate (z u)))))) by (intros u Hu; destruct (D u Hu) as (_ & _ & X & _); exact X).
  split.
  - intros u Hu. assert (DH : deriv3 (fun u => body_momentum sat (z u)) u (sub3 (T u) (cross3 (v_rate (z u)) (body_momentum sat (z u))))).
    { destruct (D u Hu) as (_ & _ & _ & X & Y). unfold body_momentum at 1. eapply d3_eq; [apply d3_add; [apply d3_mv; exact X|apply d3_momentum; exact Y]|]. cbn [derivative v_rate v_whl]. change (s_inv_tot sat) with (inv3 J). fold J. rewrite mv_inv3 by exact DJ.
      unfold body_momentum. fold J. generalize (mv J (v_rate (z u))) (rw_momentum (s_rw sat) (v_whl (z u))) (v_rate (z u)) (rw_torque (s_rw sat) acc) (T u). clear. intros [p q r] [l m n] [d e f] [g h i] [t1 t2 t3]. vunfoldg; cbn [x3 y3 z3]; rnumg. apply mk3_c; ring. }
    unfold inertial_momentum. eapply d3_eq; [apply d3_sandwich_opp; [exact (DQ u Hu)|exact DH]|]. cbv beta. f_equal. generalize (cross3 (v_rate (z u)) (body_momentum sat (z u))) (T u). clear. intros [p q r] [l m n]. vunfoldg; cbn [x3 y3 z3]; rnumg; apply mk3_c; ring.
  - intros s t Hs Ht US. unfold unitq. rewrite <- US. apply (const_of_deriv (fun u => dotq (v_att (z u)) (v_att (z u))) a b); [|exact Ht|exact Hs].
    intros v Hv. eapply d_eq; [apply d_dotq; exact (DQ v Hv)|]. cbv beta. generalize (v_att (z v)) (v_rate (z v)). clear. intros [p q r s] [x y z]. unfold pure, product. replace 0.5 with (1/2) by lra. vunfoldg; cbn [x3 y3 z3 qw qx qy qz]; rnumg. field.
Qed.

(** whatever is asked for in the other modes, the momentum in the inertial frame changes only by the torque from outside *)
Theorem C136_kept : forall sat mt F T B y m h M, det3 (s_total_moment sat) <> 0 -> 0 < h -> unitq (v_att (y 0)) -> g_mag_cmd (m 0%nat) = [0; 0; 0] ->
  (forall k, undriven_cycle sat mt F T B y (INR k * h) (INR (S k) * h) (m k) (m (S k))) -> (forall t, 0 <= t -> norm3 (T t) <= M) ->
  (forall k, g_mag_cmd (m k) = [0; 0; 0]) /\ forall t, 0 <= t -> unitq (v_att (y t)) /\ norm3 (sub3 (inertial_momentum sat (y t)) (inertial_momentum sat (y 0))) <= M * t.
Proof.
  intros sat mt F T B y m h M DJ H0 U0 G0 CY TM. assert (KP : forall k, g_mag_cmd (m k) = [0; 0; 0]) by (intros k; induction k as [|k IH]; [exact G0|destruct (CY k) as (l & mom & z & a & b & NT & -> & _); apply ops_undriven; assumption]).
  split; [exact KP|]. set (tk := fun k => INR k * h). assert (TS : forall k, tk (S k) = tk k + h) by (intros k; unfold tk; rewrite S_INR; ring). assert (T0 : tk 0%nat = 0) by (unfold tk; cbn; ring). assert (TP : forall k, 0 <= tk k) by (intros k; apply Rmult_le_pos; [apply pos_INR|lra]).
  assert (ONE : forall k t, tk k <= t <= tk (S k) -> unitq (v_att (y (tk k))) -> unitq (v_att (y t)) /\ norm3 (sub3 (inertial_momentum sat (y t)) (inertial_momentum sat (y (tk k)))) <= M * t - M * tk k).
  { intros k t Ht UK. destruct (CY k) as (l & mom & z & a & b & NT & _ & AM & A0 & B0 & EQ & D). rewrite (KP (S k)) in AM. change [0; 0; 0] with (repeat 0 3) in AM. apply torquers_off in AM. subst mom. fold (tk k) (tk (S k)) in A0, B0, EQ. assert (SK := TS k). assert (PK := TP k).
    destruct (momentum_moves sat F (fun t => add3 (T t) (cross3 zero3 (B t))) (g_rw_cmd (m (S k))) z a b DJ D) as [DL UU]. rewrite (EQ t Ht), (EQ (tk k)) in * by lra. split; [apply (UU (tk k)); [lra|lra|exact UK]|].
    apply (vmvg (fun u => inertial_momentum sat (z u)) (fun u => sandwich_opp (v_att (z u)) (add3 (T u) (cross3 zero3 (B u)))) (fun u => M * u) (fun _ => M)); [lra|intros u Hu; apply DL; lra|intros u _; eapply d_eq; [apply d_lin, d_id|cbv beta; ring]|].
    intros u Hu. unfold sandwich_opp. rewrite norm_sand, unit_conj, Rmult_1_l by (apply (UU (tk k)); [lra|lra|exact UK]). replace (add3 (T u) (cross3 zero3 (B u))) with (T u) by (generalize (T u) (B u); clear; intros [p q r] [d e f]; vunfoldg; cbn [x3 y3 z3]; rnumg; apply mk3_c; ring). apply TM. lra. }
  assert (UK : forall k, unitq (v_att (y (tk k)))) by (intros k; induction k as [|k IH]; [rewrite T0; exact U0|apply (ONE k); [rewrite TS; lra|exact IH]]).
  intros t Ht. split; [destruct (step_of t h H0 Ht) as [k Hk]; fold (tk k) in Hk; apply (ONE k); [rewrite TS; lra|apply UK]|].
  assert (X := chained (fun u => inertial_momentum sat (y u)) (fun u => M * u) h H0 (fun k u Hu => proj2 (ONE k u Hu (UK k))) t Ht). cbv beta in X. lra.
Qed.
Print Assumptions C136_kept.
(** a torque that keeps pushing along one direction of the inertial frame goes into the wheels or into the body's rotation: how long it can be held with bounded speeds *)
Theorem C136_windup : forall sat mt F T B y m h n tau, det3 (s_total_moment sat) <> 0 -> 0 < h -> unitq (v_att (y 0)) -> unit3 n -> g_mag_cmd (m 0%nat) = [0; 0; 0] ->
  (forall k, undriven_cycle sat mt F T B y (INR k * h) (INR (S k) * h) (m k) (m (S k))) -> (forall t, 0 <= t -> tau <= dot3 (sandwich_opp (v_att (y t)) (T t)) n) ->
  let H := fun t => inertial_momentum sat (y t) in
  forall t, 0 <= t -> dot3 (H 0) n + tau * t <= dot3 (H t) n /\
    forall X S, 0 <= S -> norm3 (mv (s_total_moment sat) (v_rate (y t))) <= X -> Forall (fun x => Rabs x <= S) (v_whl (y t)) -> tau * t <= norm3 (H 0) + X + S * flywheel (s_rw sat).
Proof.
  intros sat mt F T B y m h n tau DJ H0 U0 UN G0 CY TM H. assert (KP : forall k, g_mag_cmd (m k) = [0; 0; 0]) by (intros k; induction k as [|k IH]; [exact G0|destruct (CY k) as (l & mom & z & a & b & NT & -> & _); apply ops_undriven; assumption]).
  set (tk := fun k => INR k * h). assert (TS : forall k, tk (S k) = tk k + h) by (intros k; unfold tk; rewrite S_INR; ring). assert (T0 : tk 0%nat = 0) by (unfold tk; cbn; ring). assert (TP : forall k, 0 <= tk k) by (intros k; apply Rmult_le_pos; [apply pos_INR|lra]).
  assert (ONE : forall k t, tk k <= t <= tk (S k) -> (unitq (v_att (y (tk k))) -> unitq (v_att (y t))) /\ tau * t - tau * tk k <= dot3 n (H t) - dot3 n (H (tk k))).
  { intros k t Ht. assert (SK := TS k). assert (PK := TP k). assert (TZ : forall u, tk k <= u <= t -> tau <= dot3 (sandwich_opp (v_att (y u)) (T u)) n) by (intros u Hu; apply TM; lra).
    destruct (CY k) as (l & mom & z & a & b & NT & _ & AM & A0 & B0 & EQ & D). rewrite (KP (S k)) in AM. change [0; 0; 0] with (repeat 0 3) in AM. apply torquers_off in AM. subst mom. fold (tk k) (tk (S k)) in A0, B0, EQ.
    destruct (momentum_moves sat F (fun t => add3 (T t) (cross3 zero3 (B t))) (g_rw_cmd (m (S k))) z a b DJ D) as [DL UU]. unfold H. rewrite (EQ t Ht), (EQ (tk k)) in * by lra. split; [intros UK; apply (UU (tk k)); [lra|lra|exact UK]|].
    assert (LE := le_of_deriv (fun u => tau * u - dot3 n (inertial_momentum sat (z u))) (fun u => tau - dot3 n (sandwich_opp (v_att (z u)) (add3 (T u) (cross3 zero3 (B u))))) (tk k) t ltac:(lra)). cbv beta in LE.
    enough (Q : tau * t - dot3 n (inertial_momentum sat (z t)) <= tau * tk k - dot3 n (inertial_momentum sat (z (tk k)))) by lra. apply LE.
    - intros u Hu. apply d_minus; [eapply d_eq; [apply d_lin, d_id|cbv beta; ring]|apply dot_const, DL; lra].
    - intros u Hu. assert (X := TZ u Hu). rewrite (EQ u) in X by lra. replace (add3 (T u) (cross3 zero3 (B u))) with (T u) by (generalize (T u) (B u); clear; intros [p q r] [d e f]; vunfoldg; cbn [x3 y3 z3]; rnumg; apply mk3_c; ring).
      replace (dot3 n (sandwich_opp (v_att (z u)) (T u))) with (dot3 (sandwich_opp (v_att (z u)) (T u)) n) by (generalize (sandwich_opp (v_att (z u)) (T u)) n; clear; intros [p q r] [d e f]; vunfoldg; cbn [x3 y3 z3]; rnumg; ring). lra. }
  assert (UK : forall k, unitq (v_att (y (tk k)))) by (intros k; induction k as [|k IH]; [rewrite T0; exact U0|apply (ONE k); [rewrite TS; lra|exact IH]]).
  intros t Ht. assert (UT : unitq (v_att (y t))) by (destruct (step_of t h H0 Ht) as [k Hk]; fold (tk k) in Hk; apply (ONE k); [rewrite TS; lra|apply UK]).
  assert (X := chained1 (fun u => tau * u) (fun u => dot3 n (H u)) h H0 (fun k u Hu => proj2 (ONE k u Hu)) t Ht). cbv beta in X.
  assert (SY : forall p q : v3, dot3 p q = dot3 q p) by (clear; intros [p q r] [d e f]; vunfoldg; cbn [x3 y3 z3]; rnumg; ring). rewrite !(SY n) in X. split; [lra|].
  intros XX S S0 HX HS. assert (N1 : norm3 n = 1) by (unfold norm3; rnumg; rewrite UN; exact sqrt_1). assert (D1 := P_orb3.dot_norm (H t) n). assert (D2 := P_orb3.dot_norm (H 0) n). rewrite N1, Rmult_1_r in D1, D2. assert (E1 := Rle_abs (dot3 (H t) n)). assert (E2 := Rle_abs (- dot3 (H 0) n)). rewrite Rabs_Ropp in E2.
  assert (X2 : norm3 (H t) = norm3 (body_momentum sat (y t))) by (unfold H, inertial_momentum, sandwich_opp; rewrite norm_sand, unit_conj by exact UT; ring). assert (X3 := norm3_triangle (mv (s_total_moment sat) (v_rate (y t))) (rw_momentum (s_rw sat) (v_whl (y t)))). fold (body_momentum sat (y t)) in X3.
  assert (X4 := flywheel_bound (s_rw sat) S (v_whl (y t)) S0 HS). lra.
Qed.
Print Assumptions C136_windup.
(** so it is false that a satellite pushed by such a torque can be held: from some time on, in every history of modes without DETUMBLE and BBQ, a wheel turns faster than any given speed or the body rotates *)
Theorem C136_hold_refuted : forall sat mt F T B y m h n tau, det3 (s_total_moment sat) <> 0 -> 0 < h -> unitq (v_att (y 0)) -> unit3 n -> 0 < tau -> g_mag_cmd (m 0%nat) = [0; 0; 0] ->
  (forall k, undriven_cycle sat mt F T B y (INR k * h) (INR (S k) * h) (m k) (m (S k))) -> (forall t, 0 <= t -> tau <= dot3 (sandwich_opp (v_att (y t)) (T t)) n) ->
  forall X S, 0 <= S -> exists t0, forall t, t0 <= t -> ~ (norm3 (mv (s_total_moment sat) (v_rate (y t))) <= X /\ Forall (fun x => Rabs x <= S) (v_whl (y t))).
Proof.
  intros sat mt F T B y m h n tau DJ H0 U0 UN TP G0 CY TM X S S0. set (Z := norm3 (inertial_momentum sat (y 0)) + X + S * flywheel (s_rw sat)). exists (Rmax 0 ((Z + 1) / tau)). intros t Ht [HX HS]. assert (A := Rmax_l 0 ((Z + 1) / tau)). assert (A' := Rmax_r 0 ((Z + 1) / tau)).
  destruct (C136_windup sat mt F T B y m h n tau DJ H0 U0 UN G0 CY TM t ltac:(lra)) as (_ & Q). assert (Q' := Q X S S0 HX HS). fold Z in Q'. assert (K : Z + 1 <= tau * t); [|lra]. replace (Z + 1) with (tau * ((Z + 1) / tau)) by (field; lra). apply Rmult_le_compat_l; lra.
Qed.
Print Assumptions C136_hold_refuted.

(** the bound of C136_windup is attained: the satellite of C135_sharp stands still in POINT (without a sun: the call raises and the last command stays) under a steady torque, its wheels taking it all *)
Definition steady (t : R) : SVec := coast_state 0 0 t.
Lemma steady_moves t : deriv_sv steady t (derivative drill (steady t) zero3 (add3 (mk3 0 0 4) (cross3 zero3 zero3)) (rw_torque (s_rw drill) [1; 1; 1; 1]) (rw_momentum (s_rw drill) (v_whl (steady t))) [1; 1; 1; 1]).
Proof.
  change (rw_torque (s_rw drill)) with (rw_momentum (s_rw drill)). unfold derivative. cbn [steady coast_state v_pos v_vel v_att v_rate v_whl]. rewrite !drill_wheels, drill_inv.
  split; [exact (d3_const zero3 t)|]. split; [eapply d3_eq; [exact (d3_const zero3 t)|]; vunfoldg; cbn [x3 y3 z3]; rnumg; apply mk3_c; unfold Rdiv; ring|]. split; [|split].
  - unfold derivq. cbn [v_att qw qx qy qz]. unfold product, scaleq. cbn [qw qx qy qz]. rnumg. repeat split; (eapply d_eq; [first [exact (d_const (cos (0 / 2)) t)|exact (d_const (sin (0 / 2)) t)|exact (d_const 0 t)]|]; generalize (cos (0 / 2)) (sin (0 / 2)); intros; unfold pure, vec; vunfoldg; cbn [x3 y3 z3 qw qx qy qz]; rnumg; ring).
  - cbn [v_rate]. rewrite drill_total. split; [|split]; cbn [x3 y3 z3]; (eapply d_eq; [exact (d_const 0 t)|]; vunfoldg; cbn [x3 y3 z3 row1 row2 row3]; rnumg; field).
  - cbn [v_whl]. intros i. destruct i as [|[|[|[|i]]]]; cbn [nth]; try exact (d_id t). destruct i; exact (d_const 0 t).
Qed.
Definition steady_mgr : Mgr := mkMgr ex_kf (mag_new drill [] false) (mkWC drill 1 1 (trig_new 1 0.3) true [] None) [0; 0; 0] [1; 1; 1; 1].
Definition steady_run (c : AClock) (k : nat) : Mgr := nat_rect (fun _ => Mgr) steady_mgr (fun _ m => ops [OMission (mkMC2 c (meas_of (steady 0)) 7 zero3 zero3)] m) k.
Example C136_ex : forall c, let sat := drill in let y := steady in let m := steady_run c in let n := mk3 0 0 1 in let tau := 4 in
  det3 (s_total_moment sat) <> 0 /\ unitq (v_att (y 0)) /\ unit3 n /\ g_mag_cmd (m 0%nat) = [0; 0; 0] /\
  (forall k, undriven_cycle sat [] (fun _ => zero3) (fun _ => mk3 0 0 4) (fun _ => zero3) y (INR k * 1) (INR (S k) * 1) (m k) (m (S k))) /\
  (forall t, 0 <= t -> tau <= dot3 (sandwich_opp (v_att (y t)) (mk3 0 0 4)) n) /\ norm3 (inertial_momentum sat (y 0)) = 0 /\ flywheel (s_rw sat) = 4 /\
  forall t, 0 <= t -> norm3 (mv (s_total_moment sat) (v_rate (y t))) <= 0 /\ Forall (fun x => Rabs x <= t) (v_whl (y t)) /\ tau * t = 0 + 0 + t * flywheel (s_rw sat).
Proof.
  intros c sat y m n tau. assert (FW : flywheel (s_rw sat) = 4). { unfold flywheel, sat, drill. cbn [s_rw rw_wheels repeat fold_right w_axis w_par]. assert (E : norm3 (mk3 0 0 1) = 1) by (unfold norm3; vunfoldg; cbn [x3 y3 z3]; rnumg; replace (0 * 0 + 0 * 0 + 1 * 1) with 1 by ring; exact sqrt_1). rewrite E, Rabs_R1. ring. }
  split; [unfold sat; rewrite drill_total; vunfoldg; cbn [x3 y3 z3 row1 row2 row3]; rnumg; lra|]. assert (QI : forall t, v_att (y t) = mkq 1 0 0 0) by (intros t; unfold y, steady, coast_state; cbn [v_att]; replace (0 / 2) with 0 by field; rewrite cos_0, sin_0; reflexivity).
  split; [rewrite QI; unfold unitq, dotq; cbn [qw qx qy qz]; rnumg; ring|]. split; [unfold unit3, n; vunfoldg; cbn [x3 y3 z3]; rnumg; ring|]. split; [reflexivity|].
  assert (KP : forall k, g_rw_cmd (m k) = [1; 1; 1; 1] /\ wc_sun (g_whl (m k)) = None).
  { intros k. induction k as [|k [I1 I2]]; [split; reflexivity|]. destruct (idle_keeps c (meas_of (steady 0)) 7 zero3 zero3 (m k) (or_intror (conj eq_refl I2))) as [Q1 Q2]. change (m (S k)) with (fst (mission_input c (meas_of (steady 0)) 7 zero3 zero3 (m k))). rewrite Q1, Q2. auto. }
  assert (G0 : forall k, g_mag_cmd (m k) = [0; 0; 0]). { intros k. induction k as [|k IH]; [reflexivity|]. change (m (S k)) with (ops [OMission (mkMC2 c (meas_of (steady 0)) 7 zero3 zero3)] (m k)). apply ops_undriven; [|exact IH]. apply Forall_cons; [split; cbn; discriminate|apply Forall_nil]. }
  split. { intros k. exists [OMission (mkMC2 c (meas_of (steady 0)) 7 zero3 zero3)], zero3, steady, (INR k * 1 - 1), (INR (S k) * 1 + 1). split; [apply Forall_cons; [split; cbn; discriminate|apply Forall_nil]|]. split; [reflexivity|]. split; [reflexivity|]. split; [lra|]. split; [lra|]. split; [reflexivity|]. intros t _. rewrite (proj1 (KP (S k))). apply steady_moves. }
  split; [intros t _; rewrite QI; unfold n, tau, sandwich_opp, sandwich, conjugate, product, pure, vec; vunfoldg; cbn [x3 y3 z3 qw qx qy qz]; rnumg; lra|].
  split. { unfold inertial_momentum, sandwich_opp. rewrite norm_sand, unit_conj by (rewrite QI; unfold unitq, dotq; cbn [qw qx qy qz]; rnumg; ring). unfold body_momentum, sat, y, steady, coast_state. cbn [v_rate v_whl]. rewrite drill_wheels, drill_total. rewrite Rmult_1_l. match goal with |- norm3 ?u = 0 => replace u with (zero3 (T:=R)) by (vunfoldg; cbn [x3 y3 z3 row1 row2 row3]; rnumg; apply mk3_c; ring) end. apply norm_zero3. }
  split; [exact FW|]. intros t Ht. split; [|split; [|rewrite FW; unfold tau; ring]].
  - unfold y, steady, coast_state. cbn [v_rate]. unfold sat. rewrite drill_total. right. match goal with |- norm3 ?u = 0 => replace u with (zero3 (T:=R)) by (vunfoldg; cbn [x3 y3 z3 row1 row2 row3]; rnumg; apply mk3_c; ring) end. apply norm_zero3.
  - unfold y, steady, coast_state. cbn [v_whl]. repeat (apply Forall_cons; [rewrite Rabs_pos_eq by exact Ht; lra|]). apply Forall_nil.
Qed.
