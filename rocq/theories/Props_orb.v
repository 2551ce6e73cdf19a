(** * Properties of classes/dynamics.py and system/simulator.py: C96 (the simulated orbit converges to the true one, with order four) *)
From Coq Require Import Reals ZArith List Bool Arith Lra Psatz Lia.
From Flocq Require Import Core.
From Verif Require Import Num Vec M_vector M_quaternion M_jday M_frame M_struct M_env M_dyn M_sensor M_integ.
From Verif Require Import S_rot S_integ S_dyn S_orb P_quat P_struct P_wheel P_integ P_integ2 P_dyn P_dyn2 P_rk P_rk3 P_tot2 P_orb1 P_orb3 P_orb5 Props_spin.
Import ListNotations.
Local Open Scope R_scope.

(** ** C96 *)
Theorem C96_converges : forall rho M len, 0 < rho -> 0 <= M -> 0 <= len -> exists C r, 0 < C /\ 0 < r /\
  forall sat hi_fi mt acc p v eta delta f stream sim dt N wd wd',
  0 < dt <= r -> 0 <= eta <= r -> 0 <= delta <= r -> INR N * dt <= len ->
  orbit_motion acc len p v ->
  (forall t, 0 <= t <= len -> rho <= norm3 (p t) <= M /\ norm3 (v t) <= M /\ norm3 (sub3 (acc t) (attraction (p t))) <= delta) ->
  (forall h s d, fresh h s -> f h s = Ok d -> exists cur accl, vector_field hi_fi sat mt h s cur accl = Ok d /\
    forall m F T, sys_actuate mt cur = Ok m -> env_F_and_T hi_fi sat h s m = Ok (F, T) -> norm3 (sub3 (div3 F (s_mass sat)) (attraction (v_pos (sv s)))) <= delta) ->
  fresh (w_store wd) (w_state wd) ->
  norm3 (sub3 (v_pos (sv (w_state wd))) (p 0)) <= eta -> norm3 (sub3 (v_vel (sv (w_state wd))) (v 0)) <= eta ->
  updates f stream sim dt N wd = Ok wd' ->
  norm3 (sub3 (v_pos (sv (w_state wd'))) (p (INR N * dt))) <= C * (eta + dt ^ 4 + delta) /\
  norm3 (sub3 (v_vel (sv (w_state wd'))) (v (INR N * dt))) <= C * (eta + dt ^ 4 + delta).
Proof.
  intros rho M len Hr HM HL. destruct (orun_true rho M len Hr HM HL) as (C & r & PC & Pr & H). exists (6 * C), (r / 6). split; [lra|]. split; [lra|].
  intros sat hi_fi mt acc p v eta delta f stream sim dt N wd wd' Hdt He Hd HN OM HT HF FR EP EV UP.
  assert (RUN : orun (3 * delta) dt N (v_pos (sv (w_state wd))) (v_vel (sv (w_state wd))) (v_pos (sv (w_state wd'))) (v_vel (sv (w_state wd')))).
  { apply (updates_orun f stream sim dt (3 * delta) N); [|exact FR|exact UP]. intros h s d FS FD. destruct (HF h s d FS FD) as (cur & accl & VF & HE). apply vf_inv in VF. destruct VF as (m & F & T & A & E & ->).
    split; [reflexivity|]. cbn [derivative v_vel]. eapply Rle_trans; [apply n1_norm3|]. assert (X := HE m F T A E). rewrite kep_attraction. lra. }
  assert (N1 := n1_norm3 (sub3 (v_pos (sv (w_state wd))) (p 0))). assert (N2 := n1_norm3 (sub3 (v_vel (sv (w_state wd))) (v 0))).
  assert (Q := H p v acc dt (3 * delta) N (v_pos (sv (w_state wd))) (v_vel (sv (w_state wd))) (v_pos (sv (w_state wd'))) (v_vel (sv (w_state wd'))) ltac:(lra) ltac:(lra) HN). specialize (Q ltac:(intros t Ht; destruct (OM t Ht) as [D1 D2]; destruct (HT t Ht) as (G1 & G2 & G3); split; [exact D1|]; split; [exact D2|]; split; [split; [apply G1|split; [apply G1|exact G2]]|]; eapply Rle_trans; [apply n1_norm3|]; rewrite kep_attraction; lra)).
  specialize (Q ltac:(lra) RUN).
  assert (h4 : 0 <= dt ^ 4) by (apply pow_le; lra).
  set (ep := n1 (sub3 (v_pos (sv (w_state wd))) (p 0))) in *. set (ev := n1 (sub3 (v_vel (sv (w_state wd))) (v 0))) in *.
  assert (B : C * (ep + ev + dt ^ 4 + 3 * delta) <= 6 * C * (eta + dt ^ 4 + delta)). { replace (6 * C * (eta + dt ^ 4 + delta)) with (C * (6 * (eta + dt ^ 4 + delta))) by ring. apply Rmult_le_compat_l; lra. }
  assert (X1 := norm3_n1 (sub3 (v_pos (sv (w_state wd'))) (p (INR N * dt)))). assert (X2 := norm3_n1 (sub3 (v_vel (sv (w_state wd'))) (v (INR N * dt)))).
  assert (Y1 := n1_pos (sub3 (v_pos (sv (w_state wd'))) (p (INR N * dt)))). assert (Y2 := n1_pos (sub3 (v_vel (sv (w_state wd'))) (v (INR N * dt)))). split; lra.
Qed.
Print Assumptions C96_converges.

Lemma norm3_self' v : norm3 (sub3 v v) = 0.
Proof. assert (A := norm3_n1 (sub3 v v)). assert (B := proj1 (P_tot2.norm3_sq (sub3 v v))). rewrite P_orb4.n1_self in A. lra. Qed.
(** with the low-fidelity gravity only the air and the sunlight disturb the two-body motion *)
Theorem C96_two_body : forall rho M len, 0 < rho -> 0 <= M -> 0 <= len -> exists C r, 0 < C /\ 0 < r /\
  forall sat mt p v delta f stream sim dt N wd wd',
  s_mass sat <> 0 -> 0 < dt <= r -> 0 <= delta <= r -> INR N * dt <= len ->
  orbit_motion (fun t => attraction (p t)) len p v ->
  (forall t, 0 <= t <= len -> rho <= norm3 (p t) <= M /\ norm3 (v t) <= M) ->
  (forall h s d, fresh h s -> f h s = Ok d -> exists cur accl, vector_field false sat mt h s cur accl = Ok d /\
    forall Fd Td Fs Ts, drag_F_and_T sat s = Ok (Fd, Td) -> solar_F_and_T sat h s = Ok (Fs, Ts) -> norm3 (add3 Fd Fs) <= delta * Rabs (s_mass sat)) ->
  fresh (w_store wd) (w_state wd) -> v_pos (sv (w_state wd)) = p 0 -> v_vel (sv (w_state wd)) = v 0 ->
  updates f stream sim dt N wd = Ok wd' ->
  norm3 (sub3 (v_pos (sv (w_state wd'))) (p (INR N * dt))) <= C * (dt ^ 4 + delta) /\
  norm3 (sub3 (v_vel (sv (w_state wd'))) (v (INR N * dt))) <= C * (dt ^ 4 + delta).
Proof.
  intros rho M len Hr HM HL. destruct (C96_converges rho M len Hr HM HL) as (C & r & PC & Pr & H). exists C, r. split; [exact PC|]. split; [exact Pr|].
  intros sat mt p v delta f stream sim dt N wd wd' MS Hdt Hd HN OM HT HF FR EP EV UP.
  replace (dt ^ 4 + delta) with (0 + dt ^ 4 + delta) by ring.
  apply (H sat false mt (fun t => attraction (p t)) p v 0 delta f stream sim dt N wd wd'); try assumption; try lra.
  - intros t Ht. destruct (HT t Ht) as [G1 G2]. split; [exact G1|]. split; [exact G2|]. rewrite norm3_self'. lra.
  - intros h s d FS FD. destruct (HF h s d FS FD) as (cur & accl & VF & HE). exists cur, accl. split; [exact VF|]. intros m F T A E.
    destruct (low_orbits sat mt h s cur accl d delta MS FS VF) as (Fd & Td & Fs & Ts & E1 & E2 & _ & E3). specialize (E3 (HE _ _ _ _ E1 E2)).
    apply vf_inv in VF. destruct VF as (m' & F' & T' & A' & E' & ->). cbn [derivative v_vel] in E3. rewrite A in A'. injection A' as <-. rewrite E in E'. injection E' as <- _. exact E3.
  - rewrite EP, norm3_self'. lra.
  - rewrite EV, norm3_self'. lra.
Qed.
Print Assumptions C96_two_body.

(** ** example: a ball without walls on a circular orbit *)
Lemma circle_norm t : norm3 (v_pos (circle t)) = orbit_r.
Proof.
  assert (K := sin2_cos2 (orbit_n * t)). unfold Rsqr in K. unfold circle, norm3, dot3. cbn [v_pos x3 y3 z3]. rnumg. rewrite <- (sqrt_square orbit_r) at 5 by (unfold orbit_r; lra). f_equal.
  transitivity (orbit_r * orbit_r * (sin (orbit_n * t) * sin (orbit_n * t) + cos (orbit_n * t) * cos (orbit_n * t))); [ring|]. rewrite K. ring.
Qed.
Lemma circle_orbit len : orbit_motion (fun t => attraction (v_pos (circle t))) len (fun t => v_pos (circle t)) (fun t => v_vel (circle t)).
Proof.
  intros t _. split.
  - cbn [v_pos v_vel circle]. split; [|split]; cbn [x3 y3 z3].
    + eapply d_eq; [apply d_scal, d_cos|ring].
    + eapply d_eq; [apply d_scal, d_sin|ring].
    + apply d_const.
  - unfold attraction. rewrite circle_norm. change earth_mu with MU. rewrite <- orbit_n_sq. cbn [v_pos v_vel circle]. split; [|split]; cbn [x3 y3 z3 scale3]; rnumg.
    + eapply d_eq; [apply d_scal, d_sin|ring].
    + eapply d_eq; [apply d_scal, d_cos|ring].
    + eapply d_eq; [apply d_const|ring].
Qed.
Lemma circle_speed t : norm3 (v_vel (circle t)) <= 10000.
Proof.
  assert (K := sin2_cos2 (orbit_n * t)). unfold Rsqr in K. unfold circle, norm3, dot3. cbn [v_vel x3 y3 z3]. rnumg. rewrite <- (sqrt_square 10000) by lra. apply sqrt_le_1_alt.
  apply Rle_trans with (orbit_r * orbit_r * (orbit_n * orbit_n)). { right. transitivity (orbit_r * orbit_r * (orbit_n * orbit_n) * (sin (orbit_n * t) * sin (orbit_n * t) + cos (orbit_n * t) * cos (orbit_n * t))); [ring|]. rewrite K. ring. }
  rewrite orbit_n_sq. assert (MV := MU_val). replace (orbit_r * orbit_r * (MU / orbit_r ^ 3)) with (MU / orbit_r) by (field; unfold orbit_r; lra). apply Rmult_le_reg_r with orbit_r; [unfold orbit_r; lra|]. unfold Rdiv. rewrite Rmult_assoc, Rinv_l by (unfold orbit_r; lra). unfold orbit_r. lra.
Qed.
Lemma ball_no_surface h s Fd Td Fs Ts : drag_F_and_T ball s = Ok (Fd, Td) -> solar_F_and_T ball h s = Ok (Fs, Ts) -> Fd = zero3 /\ Fs = zero3.
Proof.
  assert (Z : forall q : quat, sandwich_opp q zero3 = zero3). { intros [a b c d]. unfold sandwich_opp, sandwich, product, conjugate. vunfoldg; rnumg; apply mk3_c; ring. }
  intros ED ES. unfold drag_F_and_T in ED. unfold solar_F_and_T in ES. split.
  - apply rbind_ok in ED. destruct ED as (rho & _ & ED). rewrite ball_drag in ED. injection ED as <- _. apply Z.
  - apply rbind_ok in ES. destruct ES as (jd & _ & ES). destruct (SRP_info _ _) as [[p sh] S]. destruct sh; [injection ES as <- _; reflexivity|]. rewrite ball_srp in ES. injection ES as <- _. apply Z.
Qed.
Example C96_ex : forall r, 0 < r -> exists dt wd wd', 0 < dt <= r /\ INR 1 * dt <= 1 /\ s_mass ball <> 0 /\
  orbit_motion (fun t => attraction (v_pos (circle t))) 1 (fun t => v_pos (circle t)) (fun t => v_vel (circle t)) /\
  (forall t, 0 <= t <= 1 -> 6000000 <= norm3 (v_pos (circle t)) <= 7000000 /\ norm3 (v_vel (circle t)) <= 7000000) /\
  (forall h s d, fresh h s -> vector_field false ball [] h s [] [0; 0; 1] = Ok d -> exists cur accl, vector_field false ball [] h s cur accl = Ok d /\
    forall Fd Td Fs Ts, drag_F_and_T ball s = Ok (Fd, Td) -> solar_F_and_T ball h s = Ok (Fs, Ts) -> norm3 (add3 Fd Fs) <= 0 * Rabs (s_mass ball)) /\
  fresh (w_store wd) (w_state wd) /\ v_pos (sv (w_state wd)) = v_pos (circle 0) /\ v_vel (sv (w_state wd)) = v_vel (circle 0) /\
  updates (fun h s => vector_field false ball [] h s [] [0; 0; 1]) (fun _ => zero3) true dt 1 wd = Ok wd'.
Proof.
  intros r Pr. set (dt := Rmin r 0.05). assert (D1 : 0 < dt) by (apply Rmin_pos; lra). assert (D2 := Rmin_l r 0.05). assert (D3 := Rmin_r r 0.05). fold dt in D2, D3. clearbody dt.
  set (h := fun _ : nat => CJ (mkJ 0 0)). destruct (near_state h 0 (circle 0)) as (s & E & S0 & C0 & H1 & H2 & H3).
  { unfold near, circle. cbn [v_pos v_whl x3 y3 z3]. rewrite Rmult_0_r, cos_0, sin_0, Rmult_0_r, Rabs_R0. replace (orbit_r * 1 - orbit_r) with 0 by ring. rewrite Rabs_R0. repeat split; lra. }
  assert (NS : near (sv s)). { rewrite S0. unfold near, circle. cbn [v_pos v_whl x3 y3 z3]. rewrite Rmult_0_r, cos_0, sin_0, Rmult_0_r, Rabs_R0. replace (orbit_r * 1 - orbit_r) with 0 by ring. rewrite Rabs_R0. repeat split; lra. }
  destruct (ball_step h s (mkJ 0 0) 1 dt) as (s' & R' & N' & C'); [lra|reflexivity|split; [exact NS|rewrite S0; auto]|exact S0|].
  exists dt, (mkWorld s h (gyro_init 0 0 zero3) 0).
  assert (UP : exists w', update (fun h s => vector_field false ball [] h s [] [0; 0; 1]) (fun _ => zero3) true dt (mkWorld s h (gyro_init 0 0 zero3) 0) = Ok w').
  { unfold update. cbn [w_state w_store w_gyro w_draws map]. rewrite R'. cbn [rbind]. unfold h at 1. cbn [clk_tick]. unfold jtick. cbn [j_us].
    assert (ZN : (0 <= ZnearestE (dt * 1000000) <= 50000)%Z).
    { split; [rewrite <- (Zrnd_IZR ZnearestE 0)|rewrite <- (Zrnd_IZR ZnearestE 50000)]; apply Zrnd_le; try apply valid_rnd_N; lra. }
    set (z := ZnearestE (dt * 1000000)) in *. clearbody z.
    replace (datetime_ok (0 + z)) with true by (symmetry; unfold datetime_ok; replace datetime_end with 315537897600000000%Z by (vm_compute; reflexivity); rewrite andb_true_iff, Z.leb_le, Z.ltb_lt; lia). cbn [rbind].
    match goal with |- context [make_state ?a ?b ?c] => destruct (near_state a b c) as (st & -> & _) end; [exact N'|]. cbn [rbind]. eexists. reflexivity. }
  destruct UP as (w' & UP). exists w'. cbn [updates]. rewrite UP. cbn [rbind w_state w_store]. rewrite S0.
  split; [lra|]. split; [simpl; lra|]. split; [unfold ball; cbn [s_mass]; lra|]. split; [apply circle_orbit|].
  split. { intros t _. rewrite circle_norm. assert (X := circle_speed t). unfold orbit_r. lra. }
  split. { intros h' s1 d _ VF. exists [], [0; 0; 1]. split; [exact VF|]. intros Fd Td Fs Ts A B. destruct (ball_no_surface _ _ _ _ _ _ A B) as [-> ->]. rewrite Rmult_0_l. replace (add3 zero3 zero3) with (sub3 (mk3 0 0 0) (mk3 0 0 0)) by (vunfoldg; rnumg; apply mk3_c; ring). rewrite norm3_self'. lra. }
  split; [unfold fresh; rewrite C0, S0; exact E|]. split; [reflexivity|]. split; reflexivity.
Qed.
