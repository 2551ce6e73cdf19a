(** * Lemmas: the rotational energy over simulated steps *)
From Coq Require Import Reals ZArith List Bool Arith Lra Psatz Lia.
From Flocq Require Import Core.
From Verif Require Import Num Vec M_vector M_quaternion M_jday M_frame M_struct M_env M_dyn M_sensor M_integ.
From Verif Require Import S_rot S_integ S_dyn S_frame S_orb P_quat P_wheel P_integ2 P_dyn P_frame P_struct P_rk P_rk2 P_rk3 P_rk4 P_lla6 P_tot1 P_tot2 P_tot3 P_orb3 P_orb5 P_run1.
Import ListNotations.
Local Open Scope R_scope.

Lemma power_alg (w k wi T Tw Y : v3) c : wi = add3 w (scale3 c k) -> dot3 w (sub3 (sub3 T Tw) (cross3 wi Y)) = dot3 w (sub3 T Tw) + c * dot3 k (cross3 wi Y).
Proof. intros ->. destruct w as [w1 w2 w3], k as [k1 k2 k3], T as [t1 t2 t3], Tw as [u1 u2 u3], Y as [y1 y2 y3]. vunfoldg. rnumg. ring. Qed.
Lemma energy_alg (J : m3) (w k1 k2 k3 k4 : v3) dt : tr3 J = J -> let g := div3 (add3 (add3 (add3 k1 (scale3 2 k2)) (scale3 2 k3)) k4) 6 in
  let w' := add3 w (scale3 dt g) in
  dot3 w' (mv J w') = dot3 w (mv J w) + 2 * dt * ((dot3 w (mv J k1) + 2 * dot3 w (mv J k2) + 2 * dot3 w (mv J k3) + dot3 w (mv J k4)) / 6) + dt * dt * dot3 g (mv J g).
Proof.
  intros SY g w'. unfold w'. assert (E1 : dot3 w (mv J g) = (dot3 w (mv J k1) + 2 * dot3 w (mv J k2) + 2 * dot3 w (mv J k3) + dot3 w (mv J k4)) / 6).
  { unfold g. clear. destruct J as [[a b c] [d e f] [p q r]], w as [w1 w2 w3], k1 as [x1 y1 z1], k2 as [x2 y2 z2], k3 as [x3' y3' z3'], k4 as [x4 y4 z4]. vunfoldg. rnumg. field. }
  rewrite <- E1. clear E1. clearbody g. clear k1 k2 k3 k4 w'. destruct J as [[a b c] [b' d e] [c' e' f]]. unfold tr3 in SY. cbn [row1 row2 row3 x3 y3 z3] in SY. assert (Eb : b' = b) by congruence. assert (Ec : c' = c) by congruence. assert (Ee : e' = e) by congruence. clear SY. subst b' c' e'.
  destruct w as [w1 w2 w3], g as [g1 g2 g3]. vunfoldg. rnumg. ring.
Qed.
Lemma dot_n1 (a b : v3) A B : n1 a <= A -> n1 b <= B -> dot3 a b <= A * B.
Proof. intros HA HB. assert (X := dot_le a b). assert (Y := Rle_abs (dot3 a b)). assert (n1 a * n1 b <= A * B) by (apply mul_le; (split; [apply n1_pos|assumption])). lra. Qed.

Section Energy.
Context (hi_fi : bool) (sat : Satellite) (mt : list (Torquer R)) (cur accl : list R) (m : v3) (V W H D Tb : R).
Context (W0 : 0 <= W) (EM : sys_actuate mt cur = Ok m) (D1 : 1 <= D) (DJ : det3 (s_total_moment sat) <> 0).
Context (DB : forall h s d, cached h s -> near_box sat V W H (sv s) -> vector_field hi_fi sat mt h s cur accl = Ok d -> small accl 1 D d).
Context (TB : forall h s F T, cached h s -> near_box sat V W H (sv s) -> env_F_and_T hi_fi sat h s m = Ok (F, T) -> n1 T <= Tb).
Local Notation field := (confined sat V W H (fun h s => vector_field hi_fi sat mt h s cur accl)).
Local Notation J := (s_total_moment sat).
Local Notation Tw := (rw_torque (s_rw sat) accl).
Definition gyr : R := D * (3 * (W + 1) * (H + nm J * (3 * (W + 1)))).
Lemma stage_power h s d w k c dt : cached h s -> field h s = Ok d -> v_rate (sv s) = add3 w (scale3 c k) -> norm3 w <= W -> n1 k <= D -> 0 <= c <= dt ->
  n1 (v_rate d) <= D /\ dot3 w (mv J (v_rate d)) <= W * (Tb + n1 Tw) + dt * gyr.
Proof.
  intros CA FD ER NW NK CD. apply confined_ok in FD. destruct FD as [NB FD]. assert (SM := DB h s d CA NB FD). split; [apply SM|]. clear SM.
  apply vf_inv in FD. destruct FD as (m' & F & T & A & E & ->). rewrite EM in A. injection A as <-. assert (TT := TB h s F T CA NB E). destruct NB as (_ & _ & _ & BW & BH).
  cbn [derivative v_rate]. unfold s_inv_tot. rewrite mv_inv3 by exact DJ. set (Y := add3 (rw_momentum (s_rw sat) (v_whl (sv s))) (mv J (v_rate (sv s)))).
  rewrite (power_alg w k (v_rate (sv s)) T Tw Y c ER). apply Rplus_le_compat.
  - eapply Rle_trans; [apply cauchy3|]. apply Rmult_le_compat; [apply norm3_sq|apply norm3_sq|exact NW|]. eapply Rle_trans; [apply norm3_n1|]. eapply Rle_trans; [apply n1_sub|]. lra.
  - assert (NR : n1 (v_rate (sv s)) <= 3 * (W + 1)) by (eapply Rle_trans; [apply n1_norm3|]; lra).
    assert (NY : n1 Y <= H + nm J * (3 * (W + 1))). { unfold Y. eapply Rle_trans; [apply n1_add|]. apply Rplus_le_compat; [exact BH|]. eapply Rle_trans; [apply n1_mv|]. apply Rmult_le_compat_l; [apply nm_pos|exact NR]. }
    assert (NC : n1 (cross3 (v_rate (sv s)) Y) <= 3 * (W + 1) * (H + nm J * (3 * (W + 1)))). { eapply Rle_trans; [apply n1_cross|]. apply mul_le; (split; [apply n1_pos|assumption]). }
    assert (Q := dot_n1 k (cross3 (v_rate (sv s)) Y) D _ NK NC). fold gyr in Q. assert (G0 : 0 <= gyr). { unfold gyr. apply Rmult_le_pos; [lra|]. eapply Rle_trans; [|exact NC]. apply n1_pos. }
    apply Rle_trans with (c * gyr); [apply Rmult_le_compat_l; [apply CD|exact Q]|apply Rmult_le_compat_r; [exact G0|apply CD]].
Qed.
Lemma rk4_energy h s s' dt : cached h s -> norm3 (v_rate (sv s)) <= W -> 0 < dt -> RK4_sat h (field h) dt s = Ok s' ->
  dot3 (v_rate (sv s')) (mv J (v_rate (sv s'))) <= dot3 (v_rate (sv s)) (mv J (v_rate (sv s))) + dt * (2 * W * (Tb + n1 Tw)) + dt * dt * (2 * gyr + nm J * (D * D)).
Proof.
  intros CA NW DT R. apply rk4_inv in R. destruct R as (s2 & s3 & s4 & k1 & k2 & k3 & k4 & a & b & c & (F1 & T2 & F2 & T3 & F3 & T4 & F4) & A & B & C & E).
  rewrite div_mul in T2, T3. apply state_add_inv in T2, T3, T4, E. destruct T2 as (T2 & _ & R2). destruct T3 as (T3 & _ & R3). destruct T4 as (T4 & _ & R4). destruct E as (E & _).
  apply sv_add_inv in T2, T3, T4, A, B, C, E. destruct T2 as (_ & _ & _ & _ & T2), T3 as (_ & _ & _ & _ & T3), T4 as (_ & _ & _ & _ & T4), A as (_ & _ & _ & _ & A), B as (_ & _ & _ & _ & B), C as (_ & _ & _ & _ & C), E as (_ & _ & _ & _ & E).
  cbn [sv_mul sv_div v_rate] in *. set (w := v_rate (sv s)) in *.
  assert (Z : v_rate (sv s) = add3 w (scale3 0 zero3)) by (fold w; destruct w as [w1 w2 w3]; unfold zero3; vunfoldg; rnumg; apply mk3_c; ring).
  assert (Z0 : n1 zero3 = 0) by (unfold n1, zero3; cbn [x3 y3 z3]; rnumg; rewrite Rabs_R0; ring).
  destruct (stage_power h s k1 w zero3 0 dt CA F1 Z NW ltac:(rewrite Z0; lra) ltac:(lra)) as [N1 P1].
  destruct (stage_power h s2 k2 w (v_rate k1) (dt / 2) dt R2 F2 T2 NW N1 ltac:(lra)) as [N2 P2].
  destruct (stage_power h s3 k3 w (v_rate k2) (dt / 2) dt R3 F3 T3 NW N2 ltac:(lra)) as [N3 P3].
  destruct (stage_power h s4 k4 w (v_rate k3) dt dt R4 F4 T4 NW N3 ltac:(lra)) as [N4 P4].
  rewrite E, C, B, A. rewrite energy_alg by apply total_symm. set (g := div3 _ 6).
  assert (NG : n1 g <= D). { unfold g. rewrite n1_div_abs. rewrite Rabs_pos_eq by lra. assert (X1 := n1_add (add3 (add3 (v_rate k1) (scale3 2 (v_rate k2))) (scale3 2 (v_rate k3))) (v_rate k4)). assert (X2 := n1_add (add3 (v_rate k1) (scale3 2 (v_rate k2))) (scale3 2 (v_rate k3))). assert (X3 := n1_add (v_rate k1) (scale3 2 (v_rate k2))). rewrite !n1_scale in X2, X3. rewrite (Rabs_pos_eq 2) in X2, X3 by lra. lra. }
  assert (GG : dot3 g (mv J g) <= D * (nm J * D)). { apply dot_n1; [exact NG|]. eapply Rle_trans; [apply n1_mv|]. apply Rmult_le_compat_l; [apply nm_pos|exact NG]. }
  assert (G2 : dt * dt * dot3 g (mv J g) <= dt * dt * (D * (nm J * D))) by (apply Rmult_le_compat_l; [apply Rmult_le_pos; lra|exact GG]).
  set (x := W * (Tb + n1 Tw)) in *. assert (G1 : 2 * dt * ((dot3 w (mv J (v_rate k1)) + 2 * dot3 w (mv J (v_rate k2)) + 2 * dot3 w (mv J (v_rate k3)) + dot3 w (mv J (v_rate k4))) / 6) <= 2 * dt * (x + dt * gyr)) by (apply Rmult_le_compat_l; lra).
  unfold x in G1. lra.
Qed.
End Energy.
