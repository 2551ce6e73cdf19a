(** * Properties of classes/dynamics.py and system/simulator.py: C93 (the simulated rotation converges to the true one, with order four) *)
From Coq Require Import Reals ZArith List Bool Arith Lra Psatz Lia.
From Flocq Require Import Core.
From Verif Require Import Num Vec M_vector M_quaternion M_jday M_frame M_struct M_env M_dyn M_sensor M_integ.
From Verif Require Import S_rot S_integ S_dyn S_rk P_quat P_struct P_wheel P_integ P_integ2 P_dyn P_dyn2 P_rk P_rk2 P_rk3 P_rk4 Props_spin.
Import ListNotations.
Local Open Scope R_scope.

(** ** C93 *)
Theorem C93_converges : forall sat (T0 : v3) a len M, det3 (s_total_moment sat) <> 0 -> 0 <= len -> 0 <= M -> exists C r, 0 < C /\ 0 < r /\
  forall u tau q w eta delta hi_fi mt cur f stream dt N wd wd',
  0 < dt <= r -> 0 <= eta <= r -> 0 <= delta <= r -> INR N * dt <= len -> length u = length a ->
  rigid_motion sat u a tau len q w -> norm3 (w 0) <= M -> norm3 (rw_momentum (s_rw sat) u) <= M ->
  (forall t, 0 <= t <= len -> norm3 (sub3 (tau t) T0) <= delta) ->
  (forall h s d, f h s = Ok d -> vector_field hi_fi sat mt h s cur a = Ok d /\
    forall m F T, sys_actuate mt cur = Ok m -> env_F_and_T hi_fi sat h s m = Ok (F, T) -> norm3 (sub3 T T0) <= delta) ->
  v_whl (sv (w_state wd)) = u -> unitq (v_att (sv (w_state wd))) ->
  normq (subq (v_att (sv (w_state wd))) (q 0)) <= eta -> norm3 (sub3 (v_rate (sv (w_state wd))) (w 0)) <= eta ->
  updates f stream true dt N wd = Ok wd' ->
  unitq (v_att (sv (w_state wd'))) /\
  normq (subq (v_att (sv (w_state wd'))) (q (INR N * dt))) <= C * (eta + dt ^ 4 + delta) /\
  norm3 (sub3 (v_rate (sv (w_state wd'))) (w (INR N * dt))) <= C * (eta + dt ^ 4 + delta) /\
  v_whl (sv (w_state wd')) = zip_with (fun x y => x + INR N * dt * y) u a.
Proof.
  intros sat T0 a len M DJ HLen HM. destruct (simulated sat T0 a len M DJ HLen HM) as (C & r & PC & Pr & H). exists C, r. split; [exact PC|]. split; [exact Pr|].
  intros u tau q w eta delta hi_fi mt cur f stream dt N wd wd' Hdt He Hd HN HL RM W0 U0 HT HF EU UQ EQ EW UP.
  apply (H u tau q w eta delta f stream dt N wd wd'); try assumption.
  intros h s d Hf. destruct (HF h s d Hf) as (HV & HE). destruct (vf_inv _ _ _ _ _ _ _ _ HV) as (m & F & T & A & E & ->). exists T, F. split; [exact (HE m F T A E)|reflexivity].
Qed.
Print Assumptions C93_converges.

Lemma norm3_zero : norm3 (mk3 0 0 0) = 0.
Proof. unfold norm3, dot3. cbn [x3 y3 z3]. rnumg. replace (0 * 0 + 0 * 0 + 0 * 0) with 0 by ring. apply sqrt_0. Qed.
Lemma norm3_self v : norm3 (sub3 v v) = 0.
Proof. replace (sub3 v v) with (mk3 0 0 0) by (destruct v as [x y z]; vunfoldg; rnumg; apply mk3_c; ring). apply norm3_zero. Qed.
Lemma normq_self (v : quat) : normq (subq v v) = 0.
Proof. replace (subq v v) with (mkq 0 0 0 0) by (destruct v as [a x y z]; vunfoldg; rnumg; apply mkq_c; ring). unfold normq, dotq. cbn [qw qx qy qz]. rnumg. replace (0 * 0 + 0 * 0 + 0 * 0 + 0 * 0) with 0 by ring. apply sqrt_0. Qed.
Theorem C93_order_four : forall sat (T0 : v3) a len M, det3 (s_total_moment sat) <> 0 -> 0 <= len -> 0 <= M -> exists C r, 0 < C /\ 0 < r /\
  forall u q w hi_fi mt cur stream dt N wd wd', 0 < dt <= r -> INR N * dt <= len -> length u = length a ->
  rigid_motion sat u a (fun _ => T0) len q w -> norm3 (w 0) <= M -> norm3 (rw_momentum (s_rw sat) u) <= M ->
  (forall h s m F T, sys_actuate mt cur = Ok m -> env_F_and_T hi_fi sat h s m = Ok (F, T) -> T = T0) ->
  v_whl (sv (w_state wd)) = u -> v_att (sv (w_state wd)) = q 0 -> v_rate (sv (w_state wd)) = w 0 ->
  updates (fun h s => vector_field hi_fi sat mt h s cur a) stream true dt N wd = Ok wd' ->
  normq (subq (v_att (sv (w_state wd'))) (q (INR N * dt))) <= C * dt ^ 4 /\
  norm3 (sub3 (v_rate (sv (w_state wd'))) (w (INR N * dt))) <= C * dt ^ 4.
Proof.
  intros sat T0 a len M DJ HLen HM. destruct (C93_converges sat T0 a len M DJ HLen HM) as (C & r & PC & Pr & H). exists C, r. split; [exact PC|]. split; [exact Pr|].
  intros u q w hi_fi mt cur stream dt N wd wd' Hdt HN HL RM W0 U0 HE EU EQ EW UP.
  destruct (H u (fun _ => T0) q w 0 0 hi_fi mt cur (fun h s => vector_field hi_fi sat mt h s cur a) stream dt N wd wd') as (_ & A & B & _); try assumption; try lra.
  - intros t _. rewrite norm3_self. lra.
  - intros h s d Hd. split; [exact Hd|]. intros m F T A E. rewrite (HE h s m F T A E), norm3_self. lra.
  - rewrite EQ. apply RM.
  - rewrite EQ, normq_self. lra.
  - rewrite EW, norm3_self. lra.
Qed.
Print Assumptions C93_order_four.

(** ** example: a ball that is spun down by the wheel on its pole *)
Definition slow_q (t : R) : quat := mkq (cos (3 / 2 * t - t * t / 16)) 0 0 (sin (3 / 2 * t - t * t / 16)).
Definition slow_w (t : R) : v3 := mk3 0 0 (3 - t / 4).
Lemma slow_motion : rigid_motion ball [0; 0; 7] [0; 0; 1] (fun _ => zero3) 1 slow_q slow_w.
Proof.
  assert (UQ : forall t, unitq (slow_q t)). { intros t. unfold unitq, slow_q. vunfoldg; rnumg. assert (K := sin2_cos2 (3 / 2 * t - t * t / 16)). unfold Rsqr in K. lra. }
  split; [exact UQ|]. intros t _. split.
  - assert (DA : derivable_pt_lim (fun t => 3 / 2 * t - t * t / 16) t (3 / 2 - t / 8)).
    { eapply d_eq. { apply d_minus. { apply d_mult; [apply d_const|apply derivable_pt_lim_id]. } { unfold Rdiv. apply d_mult; [apply d_mult; apply derivable_pt_lim_id|apply d_const]. } } cbv beta. field. }
    unfold derivq, slow_q, slow_w, product. vunfoldg. rnumg. cbn [qw qx qy qz x3 y3 z3].
    split; [|split; [|split]].
    + eapply d_eq; [apply (derivable_pt_lim_comp (fun t => 3 / 2 * t - t * t / 16) cos t _ _ DA (derivable_pt_lim_cos _))|]. cbv beta. field.
    + eapply d_eq; [apply d_const|]. field.
    + eapply d_eq; [apply d_const|]. field.
    + eapply d_eq; [apply (derivable_pt_lim_comp (fun t => 3 / 2 * t - t * t / 16) sin t _ _ DA (derivable_pt_lim_sin _))|]. cbv beta. field.
  - apply (deriv3_ext (fun _ => mk3 0 0 19)).
    + intros s. rewrite ball_total. unfold ball, spun, slow_w. cbn [s_rw rw_wheels w_par w_axis]. 
      match goal with |- _ = sandwich_opp _ ?v => replace v with (mk3 0 0 19) by (vunfoldg; rnumg; apply mk3_c; field) end.
      unfold slow_q. assert (K := sin2_cos2 (3 / 2 * s - s * s / 16)). unfold Rsqr in K. generalize dependent (sin (3 / 2 * s - s * s / 16)). generalize (cos (3 / 2 * s - s * s / 16)). clear. intros y x K.
      unfold sandwich_opp, sandwich, product, conjugate. vunfoldg; rnumg. apply mk3_c; [ring|ring|]. transitivity (19 * (x * x + y * y)); [rewrite K; ring|ring].
    + eapply d3_eq; [apply d3_const|]. unfold sandwich_opp, sandwich, product, conjugate. destruct (slow_q t) as [a b c d]. vunfoldg; rnumg. apply mk3_c; ring.
Qed.
Example C93_ex : forall r, 0 < r -> exists dt wd wd', 0 < dt <= r /\ INR 1 * dt <= 1 /\ det3 (s_total_moment ball) <> 0 /\
  rigid_motion ball [0; 0; 7] [0; 0; 1] (fun _ => zero3) 1 slow_q slow_w /\ norm3 (slow_w 0) <= 10 /\ norm3 (rw_momentum (s_rw ball) [0; 0; 7]) <= 10 /\
  (forall h s m F T, sys_actuate (T:=R) [] [] = Ok m -> env_F_and_T false ball h s m = Ok (F, T) -> T = zero3) /\
  v_whl (sv (w_state wd)) = [0; 0; 7] /\ v_att (sv (w_state wd)) = slow_q 0 /\ v_rate (sv (w_state wd)) = slow_w 0 /\
  updates (fun h s => vector_field false ball [] h s [] [0; 0; 1]) (fun _ => zero3) true dt 1 wd = Ok wd'.
Proof.
  intros r Pr. set (dt := Rmin r 0.05). assert (D1 : 0 < dt) by (apply Rmin_pos; lra). assert (D2 := Rmin_l r 0.05). assert (D3 := Rmin_r r 0.05). fold dt in D2, D3. clearbody dt.
  set (h := fun _ : nat => CJ (mkJ 0 0)). destruct (near_state h 0 (circle 0)) as (s & E & S0 & C0 & H1 & H2 & H3).
  { unfold near, circle. cbn [v_pos v_whl x3 y3 z3]. rewrite Rmult_0_r, cos_0, sin_0, Rmult_0_r, Rabs_R0. replace (orbit_r * 1 - orbit_r) with 0 by ring. rewrite Rabs_R0. repeat split; lra. }
  assert (NS : near (sv s)). { rewrite S0. unfold near, circle. cbn [v_pos v_whl x3 y3 z3]. rewrite Rmult_0_r, cos_0, sin_0, Rmult_0_r, Rabs_R0. replace (orbit_r * 1 - orbit_r) with 0 by ring. rewrite Rabs_R0. repeat split; lra. }
  destruct (ball_step h s (mkJ 0 0) 1 dt) as (s' & R' & N' & C'); [lra|reflexivity|split; [exact NS|rewrite S0; auto]|exact S0|].
  exists dt, (mkWorld s h (gyro_init 0 0 zero3) 0).
  assert (UP : exists w', update (fun h s => vector_field false ball [] h s [] [0; 0; 1]) (fun _ => zero3) true dt (mkWorld s h (gyro_init 0 0 zero3) 0) = Ok w').
  { unfold update. cbn [w_state w_store w_gyro w_draws map]. rewrite R'. cbn [rbind]. unfold h at 1. cbn [clk_tick]. unfold jtick. cbn [j_us].
    assert (ZN : (0 <= ZnearestE (dt * 1000000) <= 50000)%Z).
    { split; [rewrite <- (Zrnd_IZR ZnearestE 0)|rewrite <- (Zrnd_IZR ZnearestE 50000)]; apply Zrnd_le; try apply valid_rnd_N; lra. }
    set (z := ZnearestE (dt * 1000000)) in *. clearbody z.
    replace (datetime_ok (0 + z)) with true by (symmetry; unfold datetime_ok; replace datetime_end with 315537897600000000%Z by (vm_compute; reflexivity); rewrite andb_true_iff, Z.leb_le, Z.ltb_lt; lia). cbn [rbind].
    match goal with |- context [make_state ?a ?b ?c] => destruct (near_state a b c) as (st & -> & _) end; [exact N'|]. cbn [rbind]. eexists. reflexivity. }
  destruct UP as (w' & UP). exists w'. cbn [updates]. rewrite UP. cbn [rbind w_state]. rewrite S0.
  split; [lra|]. split; [simpl; lra|]. split; [exact ball_det|]. split; [exact slow_motion|].
  assert (NZ : forall c, 0 <= c -> norm3 (mk3 0 0 c) = c). { intros c Hc. unfold norm3, dot3. cbn [x3 y3 z3]. rnumg. replace (0 * 0 + 0 * 0 + c * c) with (Rsqr c) by (unfold Rsqr; ring). apply sqrt_Rsqr, Hc. }
  split; [unfold slow_w; rewrite NZ; lra|].
  split; [replace (rw_momentum (s_rw ball) [0; 0; 7]) with (mk3 0 0 7) by (unfold rw_momentum, w_momentum, ball; cbn; vunfoldg; rnumg; apply mk3_c; ring); rewrite NZ; lra|].
  split; [exact ball_no_torque|]. split; [reflexivity|].
  split; [unfold circle, slow_q; cbn [v_att]; replace (3 / 2 * 0 - 0 * 0 / 16) with 0 by field; rewrite Rmult_0_r; reflexivity|].
  split; [unfold circle, slow_w, spin; cbn [v_rate]; apply mk3_c; field|reflexivity].
Qed.
