(** * Lemmas for property C109: the allowable zone along a motion *)
From Coq Require Import Reals ZArith List Bool Lra Lia Psatz.
From Verif Require Import Num Vec M_vector M_quaternion M_jday M_struct M_dyn M_ctrl S_rot S_dyn S_ctrl.
From Verif Require Import P_detum P_quat P_struct P_wheel P_dyn P_dyn2 P_obs P_ctrl P_ctrl2 P_ctrl3 P_ctrl4 P_ctrl5 P_conv P_tot2 P_tot3 P_orb3 P_posf Props_ctrl2 Props_conv.
Import ListNotations.
Local Open Scope R_scope.

(** a derivative bounded by a multiple of the function *)
Lemma gronwall (W W' : R -> R) K q a t : a <= t -> (forall u, a <= u <= t -> derivable_pt_lim W u (W' u)) -> (forall u, a <= u <= t -> W' u <= K * (W u + q)) ->
  W t + q <= (W a + q) * exp (K * (t - a)).
Proof.
  intros L D B.
  assert (DE : forall u, derivable_pt_lim (fun u => exp (- K * u)) u (- K * exp (- K * u))).
  { intros u. eapply d_eq; [apply (derivable_pt_lim_comp (fun u => - K * u) exp); [eapply d_eq; [apply d_scal, d_id|reflexivity]|apply derivable_pt_lim_exp]|]. cbv beta. ring. }
  assert (X := le_of_deriv (fun u => (W u + q) * exp (- K * u)) (fun u => W' u * exp (- K * u) + (W u + q) * (- K * exp (- K * u))) a t L). cbv beta in X.
  assert (Y : (W t + q) * exp (- K * t) <= (W a + q) * exp (- K * a)).
  { apply X.
    - intros u Hu. apply (d_mult (fun u => W u + q) (fun u => exp (- K * u))); [|apply DE]. eapply d_eq; [apply d_plus; [apply D, Hu|apply d_const]|]. ring.
    - intros u Hu. assert (P := exp_pos (- K * u)). assert (Q := B u Hu). replace (W' u * exp (- K * u) + (W u + q) * (- K * exp (- K * u))) with ((W' u - K * (W u + q)) * exp (- K * u)) by ring. assert (W' u - K * (W u + q) <= 0) by lra. nra. }
  apply (Rmult_le_reg_r (exp (- K * t))); [apply exp_pos|]. rewrite Rmult_assoc, <- exp_plus. replace (K * (t - a) + - K * t) with (- K * a) by ring. exact Y.
Qed.
(** a bound that holds up to a time holds at it *)
Lemma left_limit f a t1 m : a < t1 -> continuity_pt f t1 -> (forall t, a <= t < t1 -> m <= f t) -> m <= f t1.
Proof.
  intros L C H. apply Rnot_lt_le. intros B. destruct (C (m - f t1) ltac:(lra)) as (d & D & X).
  set (t := Rmax a (t1 - d / 2)). assert (T1 : a <= t) by apply Rmax_l. assert (T2 : t1 - d / 2 <= t) by apply Rmax_r. assert (T3 : t < t1) by (apply Rmax_lub_lt; lra).
  assert (Y := X t). assert (Z : Rabs (f t - f t1) < m - f t1). { apply Y. split; [split; [exact I|lra]|]. cbn. unfold R_dist. rewrite Rabs_left by lra. lra. }
  apply Rabs_def2 in Z. assert (Q := H t ltac:(lra)). lra.
Qed.
(** terms of one sign *)
Lemma rsum_le_one l x : Forall (fun y => y <= 0) l -> In x l -> rsum l <= x.
Proof.
  induction l as [|y l IH]; intros F I; [destruct I|]. inversion F as [|? ? F1 F2]; subst. cbn.
  assert (N : rsum l <= 0). { clear - F2. induction l as [|z l IH]; cbn; [lra|]. inversion F2 as [|? ? G1 G2]; subst. assert (X := IH G2). unfold rsum in X. lra. }
  destruct I as [->|I]; [unfold rsum in *; lra|]. assert (X := IH F2 I). unfold rsum in *; lra.
Qed.
Lemma rsum_nonpos l : Forall (fun y => y <= 0) l -> rsum l <= 0.
Proof. induction l as [|z l IH]; intros F; cbn; [lra|]. inversion F as [|? ? G1 G2]; subst. assert (X := IH G2). unfold rsum in X. lra. Qed.
Lemma norm_normalize (v : v3) : norm3 (normalize3 v) <= 1.
Proof.
  destruct (zero3_dec v) as [->|N].
  - rewrite normalize3_zero. unfold norm3, dot3. cbn [x3 y3 z3 zero3]. rnumg. replace (0 * 0 + 0 * 0 + 0 * 0) with 0 by ring. rewrite sqrt_0. lra.
  - assert (U := normalize3_unit v N). unfold unit3 in U. destruct (P_tot2.norm3_sq (normalize3 v)) as [A B]. nra.
Qed.
Lemma push_norm s dq dw a : 0 <= al_gain a -> Rabs (al_sign a) <= 1 -> norm3 (push s dq dw a) <= / 2 * al_gain a.
Proof.
  intros G SG. unfold push. destruct (Rlt_dec (al_psi a) (al_sigma a / 4)).
  - cbv zeta. rewrite norm3_scal. set (z := normalize3 _). assert (N := norm_normalize (scale3 s (cross3 (vec dq) (cross3 (al_bore a) (al_obj a))))). fold z in N.
    assert (P := proj1 (P_tot2.norm3_sq z)). set (sg := if Rlt_dec (dot3 dw z) 0 then -1 else if Rlt_dec 0 (dot3 dw z) then 1 else al_sign a).
    assert (Q : Rabs sg <= 1). { unfold sg. destruct (Rlt_dec _ 0); [rewrite Rabs_left by lra; lra|]. destruct (Rlt_dec 0 _); [rewrite Rabs_right by lra; lra|exact SG]. }
    rewrite Rabs_Ropp, !Rabs_mult, (Rabs_right (/ 2)), (Rabs_right (al_gain a)) by lra. assert (R0 := Rabs_pos sg). assert (Rabs sg * norm3 z <= 1) by nra. nra.
  - unfold norm3, dot3. cbn [x3 y3 z3]. rnumg. replace (0 * 0 + 0 * 0 + 0 * 0) with 0 by ring. rewrite sqrt_0. lra.
Qed.
Lemma pushes_norm s dq dw l : Forall (fun a => 0 <= al_gain a /\ Rabs (al_sign a) <= 1) l -> norm3 (vsum (map (push s dq dw) l)) <= / 2 * rsum (map al_gain l).
Proof.
  induction l as [|a l IH]; intros F.
  - cbn. unfold norm3, dot3. cbn [x3 y3 z3]. rnumg. replace (0 * 0 + 0 * 0 + 0 * 0) with 0 by ring. rewrite sqrt_0. lra.
  - inversion F as [|? ? [F1 F1'] F2]; subst. cbn [map]. rewrite vsum_cons. eapply Rle_trans; [apply norm3_triangle|]. assert (A := push_norm s dq dw a F1 F1'). assert (B := IH F2). cbn [rsum fold_right]. unfold rsum in *. lra.
Qed.
Lemma map_gain q sunv l : map al_gain (map (P_ctrl3.moved q sunv) l) = map al_gain l.
Proof. rewrite map_map. apply map_ext. intros a. reflexivity. Qed.

(** the equations of motion under the law with the zone, a resting target and an external torque *)
Lemma zone_rot w tr sunv (y : R -> SVec) qc t F T w' u a : wc_sun w = Some (fun _ => sunv) -> wc_avoid w = true -> Forall (wf_instr 2) (wc_instr w) ->
  spanning (s_rw (wc_sat w)) -> det3 (s_total_moment (wc_sat w)) <> 0 ->
  tracking (set_trig w tr) (y t) zero3 zero3 qc = Ok (w', u) -> unsaturated (s_rw (wc_sat w)) (opp3 u) -> whl_actuator_commands w' u = Ok a ->
  deriv_sv y t (derivative (wc_sat w) (y t) F T (rw_torque (s_rw (wc_sat w)) a) (rw_momentum (s_rw (wc_sat w)) (v_whl (y t))) a) ->
  let A := alerts (wc_instr w) [sandwich (v_att (y t)) sunv; opp3 (normalize3 (v_pos (y t)))] in
  let s := tr_mem (wc_trig w') in let e := error_quat (v_att (y t)) qc in
  derivq (fun x => v_att (y x)) t (scaleq 0.5 (product (v_att (y t)) (pure (v_rate (y t))))) /\
  deriv3 (fun x => v_rate (y x)) t (add3 (mv (s_inv_tot (wc_sat w)) T)
    (sub3 (add3 (add3 (scale3 (- s * (wc_alpha w - barrier A)) (vec e)) (scale3 (/ 2 * (1 - s * qw e)) (barrier_axis A))) (vsum (map (push s e (v_rate (y t))) A)))
          (scale3 (wc_gamma w) (v_rate (y t))))).
Proof.
  intros HS HA HW SP DJ TR US WA D A s e. assert (HL := tracking_len _ _ _ _ _ _ TR). change (wc_sat (set_trig w tr)) with (wc_sat w) in HL.
  assert (TZ := tracking_zone (set_trig w tr) (y t) zero3 zero3 qc (fun _ => sunv) HS HA HW HL). cbv beta zeta in TZ.
  change (wc_sat (set_trig w tr)) with (wc_sat w) in TZ. change (wc_instr (set_trig w tr)) with (wc_instr w) in TZ. change (wc_alpha (set_trig w tr)) with (wc_alpha w) in TZ.
  change (wc_gamma (set_trig w tr)) with (wc_gamma w) in TZ. change (wc_trig (set_trig w tr)) with tr in TZ. fold A in TZ. fold e in TZ.
  rewrite sandwich_0, sub3_0_r, cross_0_r, add3_0_l, sub3_0_r in TZ.
  assert (EW : set_trig (set_trig w tr) (trig_step (qw e) tr) = w') by congruence. assert (ES : s = tr_mem (trig_step (qw e) tr)) by (unfold s; rewrite <- EW; reflexivity).
  rewrite <- ES in TZ.
  set (z := sub3 (add3 (add3 (scale3 (- s * (wc_alpha w - barrier A)) (vec e)) (scale3 (/ 2 * (1 - s * qw e)) (barrier_axis A))) (vsum (map (push s e (v_rate (y t))) A))) (scale3 (wc_gamma w) (v_rate (y t)))) in *.
  rewrite TZ in TR. assert (EU : u = add3 (cross3 (v_rate (y t)) (add3 (mv (s_total_moment (wc_sat w)) (v_rate (y t))) (rw_momentum (s_rw (wc_sat w)) (v_whl (y t))))) (mv (s_total_moment (wc_sat w)) z)) by congruence.
  rewrite EU in US. destruct (cancels (wc_sat w) (y t) z SP DJ US) as (a' & EA & _ & K).
  unfold whl_actuator_commands in WA. rewrite <- EW in WA. change (wc_sat (set_trig (set_trig w tr) (trig_step (qw e) tr))) with (wc_sat w) in WA. rewrite EU, EA in WA. assert (a' = a) by congruence. subst a'.
  destruct D as (_ & _ & D1 & D2 & _). rewrite K in D2. split; [exact D1|exact D2].
Qed.
(** the energy with the code's own barrier: its derivative has no term in 1/psi *)
Lemma zone_energy (q : R -> quat) (wr : R -> v3) qc sunv A0 s al ga t (p nu : v3) : unitq (q t) -> unitq qc ->
  derivq q t (scaleq 0.5 (product (q t) (pure (wr t)))) -> let A := map (P_ctrl3.moved (q t) sunv) A0 in let e := error_quat (q t) qc in
  deriv3 wr t (add3 p (sub3 (add3 (add3 (scale3 (- s * (al - barrier A)) (vec e)) (scale3 (/ 2 * (1 - s * qw e)) (barrier_axis A))) nu) (scale3 ga (wr t)))) ->
  Forall (fun a => 0 < margin (al_sign a) (al_bore a) (al_cos a) (sandwich (q t) sunv)) A0 ->
  derivable_pt_lim (fun x => dot3 (wr x) (wr x) / 2 - (1 - s * qw (error_quat (q x) qc)) * barrier (map (P_ctrl3.moved (q x) sunv) A0)) t
    (dot3 (wr t) p + dot3 (wr t) nu - ga * dot3 (wr t) (wr t) - s * (al - / 2 * barrier A) * dot3 (vec e) (wr t)).
Proof.
  intros UQ UC D1 A e D2 M.
  assert (DE := dq_error q (fun _ => qc) t (wr t) zero3 D1 (dq_const qc t) UQ UC). cbv beta zeta in DE.
  rewrite sandwich_0, sub3_0_r in DE. fold e in DE.
  assert (DB := d_barrier q sunv t (wr t) A0 D1 M). fold A in DB.
  assert (DD := dot_half wr t _ D2). cbv beta in DD.
  eapply d_eq. { apply d_minus; [exact DD|]. apply (d_mult (fun x => 1 - s * qw (error_quat (q x) qc)) (fun x => barrier (map (P_ctrl3.moved (q x) sunv) A0))); [apply d_minus; [apply d_const|apply d_mult; [apply d_const|exact (proj1 DE)]]|exact DB]. }
  cbv beta. fold e A. generalize (barrier A) (barrier_axis A) (wr t) e. intros b ax r [q0 q1 q2 q3].
  destruct ax as [a1 a2 a3], r as [w1 w2 w3], p as [p1 p2 p3], nu as [n1 n2 n3]. unfold pure, product. replace 0.5 with (1/2) by lra. vunfold; rnum. field.
Qed.
