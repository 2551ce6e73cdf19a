(** * Properties C52-C56 and C73-C76: the controllers *)
From Coq Require Import Reals ZArith List Bool Lra Lia Psatz.
From Flocq Require Import BinarySingleNaN.
From Verif Require Import Num Flt Vec M_vector M_quaternion M_jday M_struct M_dyn M_ctrl S_rot S_dyn S_ctrl.
From Verif Require Import P_quat P_sat P_struct P_wheel P_dyn P_dyn2 P_obs P_ctrl P_ctrl2 P_ctrl3 P_ctrl4.
Import ListNotations.
Local Open Scope R_scope.

(** ** C52: the hysteretic trigger *)
(** the output is +1 or -1 after any history, whatever the width *)
Theorem C52_output : forall (x0 hw : R) (xs : list R) (x : R),
  let t := trig_run xs (trig_new x0 hw) in pm1 (snd (trig_sign x t)) /\ tr_hw (fst (trig_sign x t)) = hw /\
  (snd (trig_sign x0 (trig_new x0 0)) = if Rlt_dec x0 0 then -1 else 1).
Proof.
  intros x0 hw xs x t. destruct (run_pm xs (trig_new x0 hw) (new_pm x0 hw)) as [A B]. fold t in A, B. cbn [trig_sign fst snd]. split; [apply trig_pm, A|].
  split; [rewrite trig_step_hw, B; reflexivity|]. rewrite trig_step_eq, trig_new_eq. cbn [tr_mem tr_hw].
  destruct (Rlt_dec x0 0); destruct (Rle_dec _ _); destruct (Rlt_dec 0 x0); lra.
Qed.
Print Assumptions C52_output.
(** one call, after any history: the output flips exactly on an input of the other sign that reaches the width *)
Theorem C52_step : forall (x0 hw : R) (xs : list R) (x : R), 0 <= hw ->
  let t := trig_run xs (trig_new x0 hw) in hysteresis hw (tr_mem t) x (snd (trig_sign x t)).
Proof.
  intros x0 hw xs x H t. destruct (run_pm xs (trig_new x0 hw) (new_pm x0 hw)) as [A B]. fold t in A, B. cbn [trig_new tr_hw] in B. cbn [trig_sign snd].
  rewrite <- B. apply trig_hyst; [exact A|rewrite B; exact H].
Qed.
Print Assumptions C52_step.
(** inputs inside the band never change it, however many *)
Theorem C52_band : forall (x0 hw : R) (xs ys : list R), Forall (fun y => Rabs y < hw) ys ->
  tr_mem (trig_run (xs ++ ys) (trig_new x0 hw)) = tr_mem (trig_run xs (trig_new x0 hw)).
Proof.
  intros x0 hw xs ys F. destruct (run_pm xs (trig_new x0 hw) (new_pm x0 hw)) as [A B]. rewrite run_app. apply run_band; [exact A|].
  rewrite B. exact F.
Qed.
Print Assumptions C52_band.
(** with half_width 0 it is the sign of the last non-zero input *)
Theorem C52_zero_width : forall (x0 : R) (xs : list R), tr_mem (trig_run xs (trig_new x0 0)) = last_sign 1 (x0 :: xs).
Proof.
  intros x0 xs. rewrite run_last; [|apply new_pm|reflexivity]. rewrite trig_new_eq. cbn [tr_mem last_sign]. f_equal.
  destruct (Rlt_dec x0 0), (Rlt_dec 0 x0); lra.
Qed.
Print Assumptions C52_zero_width.
(** between two changes the input moves by at least twice the width *)
Theorem C52_spacing : forall (x0 hw : R) (pre mid : list R) (x y : R), 0 <= hw ->
  let t1 := trig_run pre (trig_new x0 hw) in let t2 := trig_step x t1 in let t3 := trig_run mid t2 in let t4 := trig_step y t3 in
  tr_mem t2 <> tr_mem t1 -> tr_mem t3 = tr_mem t2 -> tr_mem t4 <> tr_mem t3 -> 2 * hw <= Rabs (y - x).
Proof.
  intros x0 hw pre mid x y H t1 t2 t3 t4 N1 E N2.
  assert (H1 := C52_step x0 hw pre x H). assert (H2 := C52_step x0 hw (pre ++ x :: mid) y H). cbv zeta in H1, H2. cbn [trig_sign snd] in H1, H2.
  rewrite run_app, run_cons in H2. fold t1 in H1, H2. fold t2 in H1, H2. fold t3 in H2. fold t4 in H2.
  destruct (run_pm pre (trig_new x0 hw) (new_pm x0 hw)) as [P _]. fold t1 in P.
  destruct H1 as [(A1 & A2 & A3)|[_ A]]; [|contradiction]. destruct H2 as [(B1 & B2 & B3)|[_ B]]; [|contradiction].
  rewrite E, A3 in B1. destruct P as [P|P]; rewrite P in *.
  - rewrite Rabs_left in A2 by lra. rewrite (Rabs_right y) in B2 by lra. rewrite Rabs_right; lra.
  - rewrite Rabs_right in A2 by lra. rewrite (Rabs_left y) in B2 by lra. rewrite Rabs_left1; lra.
Qed.
Print Assumptions C52_spacing.
(** for inputs in [-1,1] it is constant when half_width > 1 ... *)
Theorem C52_constant : forall (x0 hw : R) (xs : list R), 1 < hw -> Forall (fun x => -1 <= x <= 1) xs ->
  tr_mem (trig_run xs (trig_new x0 hw)) = tr_mem (trig_new x0 hw).
Proof. intros x0 hw xs H F. apply (C52_band x0 hw [] xs). eapply Forall_impl; [|exact F]. cbv beta. intros a Ha. apply Rabs_def1; lra. Qed.
Print Assumptions C52_constant.
(** ... but not when it is 1, although the docstring says >= 1 *)
Theorem C52_one_refuted : exists x0 x : R, -1 <= x <= 1 /\ tr_mem (trig_run [x] (trig_new x0 1)) <> tr_mem (trig_new x0 1).
Proof.
  exists 1, (-1). split; [lra|]. rewrite run_cons. cbn [trig_run fold_left]. rewrite trig_step_eq, trig_new_eq. cbn [tr_mem tr_hw].
  destruct (Rlt_dec 1 0); [exfalso; lra|]. destruct (Rle_dec (-1 * 1) (- (1))); [|exfalso; lra]. destruct (Rlt_dec 0 (-1)); [exfalso; lra|]. destruct (Rlt_dec (-1) 0); intros E; lra.
Qed.
Print Assumptions C52_one_refuted.
(** binary64, every input (NaN, infinities, signed zeros): the output stays exactly +1.0 or -1.0, and one call flips it exactly on
    the comparisons below, which a NaN never satisfies *)
Theorem C52_binary64 : forall (x0 hw : b64) (xs : list b64) (x : b64), is_nan x0 = false ->
  let t := trig_run xs (trig_new x0 hw) in
  (tr_mem t = fofZ 1 \/ tr_mem t = fopp (fofZ 1)) /\
  (fleb (fofZ 0) hw = true ->
   (tr_mem t = fofZ 1 -> snd (trig_sign x t) = if fltb x (fofZ 0) && fleb x (fopp hw) then fopp (fofZ 1) else fofZ 1) /\
   (tr_mem t = fopp (fofZ 1) -> snd (trig_sign x t) = if fltb (fofZ 0) x && fleb hw x then fofZ 1 else fopp (fofZ 1))) /\
  snd (trig_sign B754_nan t) = tr_mem t.
Proof.
  intros x0 hw xs x N t. destruct (frun_pm xs (trig_new x0 hw) (fnew_pm x0 hw N)) as [A B]. fold t in A, B.
  split; [exact A|]. split.
  - intros H. change (tr_hw (trig_new x0 hw)) with hw in B. cbn [trig_sign snd]. split; intros M.
    + rewrite (fstep_pos x t M) by (rewrite B; exact H). rewrite B. reflexivity.
    + rewrite (fstep_neg x t M) by (rewrite B; exact H). rewrite B. reflexivity.
  - cbn [trig_sign snd]. unfold trig_step. cbn [nmul nleb nopp FNum]. rewrite fmul_nan_l. reflexivity.
Qed.
Print Assumptions C52_binary64.
(** the exception: built from a NaN, the memory is NaN and stays NaN whatever is fed in *)
Theorem C52_nan_start : forall (hw : b64) (xs : list b64), tr_mem (trig_run xs (trig_new B754_nan hw)) = B754_nan.
Proof. intros hw xs. rewrite frun_nan; reflexivity. Qed.
Print Assumptions C52_nan_start.
Example C52_ex : Forall (fun y => Rabs y < 0.3) [0.2; -0.29; 0; 0.1] /\ Forall (fun x => -1 <= x <= 1) [-1; 1; 0.5].
Proof. split; repeat (apply Forall_cons; [try (apply Rabs_def1); lra|]); apply Forall_nil. Qed.
Example C52_ex_spacing : let t1 := trig_run [] (trig_new 1 0.3) in let t2 := trig_step (-0.5) t1 in let t3 := trig_run [0.1] t2 in let t4 := trig_step 0.4 t3 in
  tr_mem t2 = -1 /\ tr_mem t1 = 1 /\ tr_mem t3 = -1 /\ tr_mem t4 = 1.
Proof.
  cbv zeta. unfold trig_run. cbn [fold_left]. rewrite !trig_step_eq, !trig_step_hw, trig_new_eq. cbn [tr_mem tr_hw].
  repeat (match goal with |- context [Rlt_dec ?a ?b] => destruct (Rlt_dec a b) | |- context [Rle_dec ?a ?b] => destruct (Rle_dec a b) end; try (exfalso; lra)); repeat split; lra.
Qed.

(** ** C53: magnetic torque *)
(** the torque of the commanded moment is the command minus its component along the field *)
Theorem C53_torque : forall B T : v3, B <> zero3 ->
  cross3 (mag_moment_cmd B T) B = sub3 T (scale3 (dot3 T B / dot3 B B) B) /\ dot3 (mag_moment_cmd B T) B = 0.
Proof.
  intros B T N. split; [apply mag_torque, N|]. unfold mag_moment_cmd. assert (P : dot3 B B <> 0) by (intros E; apply N, dot3_zero, E).
  destruct B as [a b c], T as [x y z]. revert P. vunfoldg; cbn [x3 y3 z3]; rnumg. intros P. field. exact P.
Qed.
Print Assumptions C53_torque.
(** without bang-bang the currents are distribute's for that moment *)
Theorem C53_commands : forall c x T, mc_bang c = false ->
  mag_actuator_commands c x T =
  match distribute (mc_torquers c) [x3 (mag_moment_cmd (cs_mag x) T); y3 (mag_moment_cmd (cs_mag x) T); z3 (mag_moment_cmd (cs_mag x) T)] with
  | Ok cur => Ok (c, cur) | Raise e => Raise e end.
Proof. intros [sat ts bang tr] x T H. cbn in H. subst bang. unfold mag_actuator_commands. cbn [mc_bang mc_torquers mc_trig mc_sat rbind]. destruct (distribute _ _); reflexivity. Qed.
Print Assumptions C53_commands.
(** detumbling: under the moment commanded, wheels at rest, the squared body momentum falls at the rate 2 k |h across B|^2 *)
Theorem C53_detumble : forall sat (B : v3) (y : R -> SVec) t F accl, B <> zero3 -> det3 (s_total_moment sat) <> 0 ->
  let h := fun u => mv (s_total_moment sat) (v_rate (y u)) in
  deriv_sv y t (derivative sat (y t) F (cross3 (mag_moment_cmd B (detumble_torque sat (v_rate (y t)))) B) zero3 zero3 accl) ->
  exists d, derivable_pt_lim (fun u => dot3 (h u) (h u)) t d /\ d = - 2 * K_BBQ * (dot3 (cross3 (h t) B) (cross3 (h t) B) / dot3 B B) /\
    d <= 0 /\ (d = 0 <-> cross3 (h t) B = zero3).
Proof.
  intros sat B y t F accl NB DJ h D. destruct D as (_ & _ & _ & D & _). cbn [derivative v_rate] in D.
  assert (H := d3_mv (s_total_moment sat) _ t _ D). cbv beta in H. unfold s_inv_tot in H. rewrite mv_inv3 in H by exact DJ.
  assert (DD := d_dot3 h h t _ _ H H). cbv beta in DD.
  eexists. split; [exact DD|]. clear DD H D.
  assert (E : dot3 (sub3 (sub3 (cross3 (mag_moment_cmd B (detumble_torque sat (v_rate (y t)))) B) zero3) (cross3 (v_rate (y t)) (add3 zero3 (h t)))) (h t) = - K_BBQ * across (h t) B).
  { rewrite <- mag_power by exact NB. unfold detumble_torque. fold (h t). generalize (cross3 (mag_moment_cmd B (scale3 (- K_BBQ) (h t))) B) (v_rate (y t)) (h t). vring. }
  rewrite (dot_comm3 (h t)). change (mv (s_total_moment sat) (v_rate (y t))) with (h t). rewrite E. unfold across. destruct (across_nonneg (h t) B NB) as [A1 A2]. unfold across in A1, A2. assert (K := K_pos).
  split; [ring|]. split; [nra|]. rewrite <- A2. split; intros Z; nra.
Qed.
Print Assumptions C53_detumble.
(** desaturation: with the wheels cancelling the magnetic torque (track_and_desaturate, unsaturated), the body feels only the
    tracking torque u, and along wheel speeds accelerating as commanded the squared wheel-momentum error changes by the tracking
    torque's work minus 2 k |e across B|^2; without a tracking torque it never grows *)
Theorem C53_desaturate : forall c w x q_cmd rc rcd ref hr w' u a T (l : R -> list R) t, s_rw (mc_sat c) = s_rw (wc_sat w) -> cs_mag x <> zero3 -> spanning (s_rw (wc_sat w)) ->
  rw_momentum_r (s_rw (wc_sat w)) ref = Ok hr ->
  desaturate_torque c x ref = Ok T -> let m := mag_moment_cmd (cs_mag x) T in let B := cs_mag x in
  tracking w (cs_v x) rc rcd q_cmd = Ok (w', u) -> unsaturated (s_rw (wc_sat w)) (opp3 (add3 u (cross3 B m))) ->
  track_and_desaturate w x m rc rcd q_cmd = Ok (w', a) ->
  l t = v_whl (cs_v x) -> derivl l t a ->
  let e := fun s => sub3 (rw_momentum (s_rw (wc_sat w)) (l s)) hr in
  sub3 (cross3 m B) (rw_torque (s_rw (wc_sat w)) a) = u /\
  exists d, derivable_pt_lim (fun s => dot3 (e s) (e s)) t d /\
    d = - 2 * dot3 (e t) u - 2 * K_BBQ * (dot3 (cross3 (e t) B) (cross3 (e t) B) / dot3 B B) /\ (u = zero3 -> d <= 0).
Proof.
  intros c w x q_cmd rc rcd ref hr w' u a T l t ES NB SP HR HT m B TR US TD EL DL e.
  assert (EW : wc_sat w' = wc_sat w).
  { unfold tracking in TR. destruct (objects _ _); [|discriminate]. cbn [rbind] in TR. destruct (rw_momentum_r _ (v_whl _)); [|discriminate]. cbn [rbind] in TR.
    match type of TR with rbind ?A _ = _ => destruct A as [[tr z]|] end; [|discriminate]. cbn [rbind] in TR. injection TR as <- _. reflexivity. }
  unfold desaturate_torque in HT. rewrite ES in HT. unfold rw_momentum_r at 1 in HT. destruct (Nat.ltb (length (v_whl (cs_v x))) _); [discriminate|].
  cbn [rbind] in HT. rewrite HR in HT. cbn [rbind] in HT. rewrite <- EL in HT.
  change (sub3 (rw_momentum (s_rw (wc_sat w)) (l t)) hr) with (e t) in HT. assert (ET : T = scale3 (- K_BBQ) (e t)) by congruence. clear HT.
  unfold track_and_desaturate in TD. rewrite TR in TD. cbn [rbind] in TD. unfold whl_actuator_commands in TD. rewrite EW in TD. fold B in TD.
  destruct (unsat_torque _ _ SP US) as (a' & EA & _ & TA). rewrite EA in TD. cbn [rbind] in TD. injection TD as ->.
  assert (MP := mag_power K_BBQ (e t) B NB). rewrite <- ET in MP. change (mag_moment_cmd B T) with m in MP. unfold across in MP.
  assert (DE : deriv3 e t (opp3 (add3 u (cross3 B m)))).
  { eapply d3_eq; [apply d3_sub; [apply (d3_momentum (s_rw (wc_sat w)) l t a DL)|apply d3_const]|]. rewrite TA. apply sub3_0_r. }
  split; [rewrite TA; generalize B m u; vring|]. eexists. split; [apply d_dot3; exact DE|].
  rewrite (dot_comm3 (opp3 (add3 u (cross3 B m))) (e t)).
  assert (Q : dot3 (e t) (opp3 (add3 u (cross3 B m))) = - dot3 (e t) u + dot3 (e t) (cross3 m B)).
  { generalize (e t) B m u. vring. }
  rewrite Q, MP. split; [ring|]. intros ->.
  destruct (across_nonneg (e t) B NB) as [A1 _]. unfold across in A1. assert (K := K_pos).
  replace (dot3 (e t) zero3) with 0 by (generalize (e t); intros [p q r]; vunfoldg; cbn [x3 y3 z3]; rnumg; ring). nra.
Qed.
Print Assumptions C53_desaturate.
(** after distribute, every detumble command with a negative component speeds the satellite up: the torque actually produced
    does positive work on the momentum *)
Theorem C53_sign_refuted : forall sat a b c x cmds, 0 < a -> 0 < b -> 0 < c -> cs_mag x <> zero3 ->
  let ctl := mag_new sat (lin3 a b c) false in let B := cs_mag x in let h := mv (s_total_moment sat) (v_rate (cs_v x)) in
  let m := mag_moment_cmd B (detumble_torque sat (v_rate (cs_v x))) in
  x3 m < 0 \/ y3 m < 0 \/ z3 m < 0 -> detumble ctl x = Ok (ctl, cmds) ->
  exists M, sys_actuate (lin3 a b c) cmds = Ok M /\ 0 < dot3 h (cross3 M B).
Proof.
  intros sat a b c x cmds A1 A2 A3 NB ctl B h m N D. unfold detumble in D. rewrite C53_commands in D by reflexivity. cbn [mc_torquers mc_sat ctl mag_new] in D.
  fold B in D. fold m in D. destruct (lin3_reversed a b c m A1 A2 A3 N) as (cur & s & E & Hs & EM). rewrite E in D. injection D as <-.
  exists (scale3 s m). split; [exact EM|]. assert (P := mag_power K_BBQ h B NB).
  replace (mag_moment_cmd B (scale3 (- K_BBQ) h)) with m in P by reflexivity.
  replace (dot3 h (cross3 (scale3 s m) B)) with (s * dot3 h (cross3 m B)) by (generalize h m B; vring). rewrite P. assert (K := K_pos).
  destruct (across_nonneg h B NB) as [Q1 Q2].
  assert (Q : across h B <> 0).
  { intros Z. apply Q2 in Z. assert (M0 : m = scale3 0 (mk3 0 0 0)).
    { unfold m, detumble_torque. fold h. unfold mag_moment_cmd. replace (cross3 B (scale3 (- K_BBQ) h)) with (scale3 K_BBQ (cross3 h B)) by (generalize h B; vring).
      rewrite Z. unfold div3. vunfoldg; cbn [x3 y3 z3]; rnumg. apply mk3_c; unfold Rdiv; ring. }
    rewrite M0 in N. revert N. vunfoldg; cbn [x3 y3 z3]; rnumg. lra. }
  assert (0 < across h B) by lra. assert (0 < K_BBQ * across h B) by (apply Rmult_lt_0_compat; assumption). nra.
Qed.
Print Assumptions C53_sign_refuted.
(** the hypotheses are met: spinning about x in a field along y the commanded moment is along -z, and detumble returns currents *)
Example C53_ex : let x := mkCS (mkSV zero3 zero3 (mkq 1 0 0 0) (mk3 (-1) 0 0) [0;0;0]) (mk3 0 1 0) in
  let m := mag_moment_cmd (cs_mag x) (detumble_torque ball (v_rate (cs_v x))) in
  cs_mag x <> zero3 /\ z3 m < 0 /\ exists cmds, detumble (mag_new ball (lin3 1 1 1) false) x = Ok (mag_new ball (lin3 1 1 1) false, cmds).
Proof.
  intros x m. assert (K := K_pos).
  assert (M : z3 m = - K_BBQ * 4). { unfold m, x, mag_moment_cmd, detumble_torque. cbn [cs_mag cs_v v_rate]. rewrite ball_total. vunfoldg; cbn [x3 y3 z3 row1 row2 row3]; rnumg. field. }
  split; [unfold x; cbn [cs_mag]; intros E; apply mk3_inj in E; cbn in E; lra|]. split; [rewrite M; lra|].
  unfold detumble. rewrite C53_commands by reflexivity. cbn [mc_torquers mc_sat mag_new]. fold m.
  destruct (lin3_reversed 1 1 1 m ltac:(lra) ltac:(lra) ltac:(lra)) as (cur & s & E & _ & _); [right; right; rewrite M; lra|]. rewrite E. eauto.
Qed.
