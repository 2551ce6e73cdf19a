(** * Properties C73-C76: bang-bang torquers, moving references, missing environment method, target pointing *)
From Coq Require Import Reals ZArith List Bool Lra Lia Psatz.
From Verif Require Import Num Vec M_vector M_quaternion M_jday M_frame M_struct M_dyn M_ctrl S_rot S_dyn S_ctrl.
From Verif Require Import P_quat P_struct P_wheel P_dyn P_dyn2 P_obs P_ctrl P_ctrl2 P_ctrl3 P_ctrl4 P_ctrl5 Props_ctrl2.
Import ListNotations.
Local Open Scope R_scope.

(** ** C73: the bang-bang dead band *)
(** as long as every component of the requested moment stays below 0.3, the bang-bang controller commands the same full positive
    moment on all three axes, whatever is requested and however long *)
Theorem C73_deadband : forall sat ts t2 l c x T, nth_error ts 2 = Some t2 -> Forall (fun p => small (cs_mag (fst p)) (snd p)) l -> small (cs_mag x) T ->
  mag_run (mag_new sat ts true) l = Ok c ->
  mag_actuator_commands c x T = match distribute ts [max_m t2; max_m t2; max_m t2] with Ok cur => Ok (c, cur) | Raise e => Raise e end.
Proof.
  intros sat ts t2 l c x T N F S H. rewrite new_ones in H. assert (E : c = mkMC sat ts true ones).
  { induction l as [|[y Ty] l IH]; [cbn in H; congruence|]. inversion F as [|? ? F1 F2]; subst. cbn [fst snd] in F1. cbn [mag_run] in H.
    rewrite (bang_small sat ts y Ty t2 N F1) in H. destruct (distribute ts _); cbn [rbind] in H; [|discriminate]. apply (IH F2 H). }
  subst c. rewrite (bang_small sat ts x T t2 N S). destruct (distribute ts _); reflexivity.
Qed.
Print Assumptions C73_deadband.
(** in particular the opposite request gets the same answer: the torque produced is independent of the torque asked for *)
Theorem C73_insensitive : forall sat ts t2 l c x T, nth_error ts 2 = Some t2 -> Forall (fun p => small (cs_mag (fst p)) (snd p)) l -> small (cs_mag x) T ->
  mag_run (mag_new sat ts true) l = Ok c -> mag_actuator_commands c x (opp3 T) = mag_actuator_commands c x T.
Proof.
  intros sat ts t2 l c x T N F S H. rewrite (C73_deadband sat ts t2 l c x T N F S H). apply (C73_deadband sat ts t2 l c x (opp3 T) N F); [|exact H].
  unfold small in *. cbv zeta in *. assert (E : mag_moment_cmd (cs_mag x) (opp3 T) = opp3 (mag_moment_cmd (cs_mag x) T)).
  { unfold mag_moment_cmd, div3. destruct (cs_mag x) as [a b d], T as [p q r]. vunfoldg; cbn [x3 y3 z3]; rnumg. apply mk3_c; unfold Rdiv; ring. }
  rewrite E. unfold opp3. cbn [x3 y3 z3 nopp RNum]. rewrite !Rabs_Ropp. exact S.
Qed.
Print Assumptions C73_insensitive.
(** a field of 30 microtesla and a torque of 1e-6 Nm ask for less than 0.3 A m^2 *)
Example C73_ex : small (mk3 0.00003 0 0) (mk3 0 0.000001 0) /\ exists c, mag_run (mag_new ball (lin3 1 1 1) true) [] = Ok c.
Proof.
  split; [|eexists; reflexivity]. unfold small, mag_moment_cmd, div3. vunfoldg; cbn [x3 y3 z3]; rnumg.
  replace (0.00003 * 0.00003 + 0 * 0 + 0 * 0) with (9 / 10000000000) by lra.
  repeat split; apply Rabs_def1; unfold Rdiv; rewrite ?Rinv_mult, ?Rinv_inv; lra.
Qed.

(** ** C74: moving references *)
(** along a closed loop tracking a moving reference (attitude qc turning at wc, wc changing at wcd) the energy of the errors obeys *)
Theorem C74_energy : forall w f (y : R -> SVec) qc wc wcd t F w' u a, wc_sun w = Some f -> zone_free w -> (length (rw_wheels (s_rw (wc_sat w))) <= length (v_whl (y t)))%nat ->
  spanning (s_rw (wc_sat w)) -> det3 (s_total_moment (wc_sat w)) <> 0 -> unitq (v_att (y t)) -> unitq (qc t) ->
  derivq qc t (scaleq 0.5 (product (qc t) (pure (wc t)))) -> deriv3 wc t wcd ->
  tracking w (y t) (wc t) wcd (qc t) = Ok (w', u) -> unsaturated (s_rw (wc_sat w)) (opp3 u) -> whl_actuator_commands w' u = Ok a ->
  deriv_sv y t (derivative (wc_sat w) (y t) F zero3 (rw_torque (s_rw (wc_sat w)) a) (rw_momentum (s_rw (wc_sat w)) (v_whl (y t))) a) ->
  let e := fun x => error_quat (v_att (y x)) (qc x) in
  let dl := fun x => sub3 (v_rate (y x)) (sandwich (e x) (wc x)) in
  let s := tr_mem (wc_trig w') in
  let V' := - wc_gamma w * dot3 (dl t) (dl t) - 2 * dot3 (dl t) (sandwich (e t) wcd) in
  derivable_pt_lim (fun x => 2 * wc_alpha w * (1 - s * qw (e x)) + dot3 (dl x) (dl x) / 2) t V' /\ (wcd = zero3 -> V' = - wc_gamma w * dot3 (dl t) (dl t)).
Proof.
  intros w f y qc wc wcd t F w' u a HS HZ HL SP DJ UQ UC QC WC TR US WA D e dl s V'. split.
  - apply (closed_energy w f y qc wc wcd t F w' u a HS HZ HL SP DJ UQ UC QC WC TR US WA D).
  - intros ->. unfold V'. rewrite sandwich_0. generalize (dl t). intros [p q r]. vunfoldg; cbn [x3 y3 z3]; rnumg. ring.
Qed.
Print Assumptions C74_energy.
(** the feed-forward has the wrong sign: on the reference exactly, with no disturbance, the body accelerates at -wcd, the opposite of
    the reference *)
Theorem C74_sign_refuted : forall w f v rc rcd w' u a F, wc_sun w = Some f -> zone_free w -> (length (rw_wheels (s_rw (wc_sat w))) <= length (v_whl v))%nat ->
  spanning (s_rw (wc_sat w)) -> det3 (s_total_moment (wc_sat w)) <> 0 -> unitq (v_att v) -> v_rate v = rc ->
  tracking w v rc rcd (v_att v) = Ok (w', u) -> unsaturated (s_rw (wc_sat w)) (opp3 u) -> whl_actuator_commands w' u = Ok a ->
  v_rate (derivative (wc_sat w) v F zero3 (rw_torque (s_rw (wc_sat w)) a) (rw_momentum (s_rw (wc_sat w)) (v_whl v)) a) = opp3 rcd.
Proof.
  intros w f v rc rcd w' u a F HS HZ HL SP DJ U E TR US WA.
  destruct (C54_cancels w v rc rcd (v_att v) f HS HZ HL SP DJ) as (w1 & u1 & TR1 & H). assert (u1 = u) by congruence. assert (w1 = w') by congruence. subst u1 w1.
  destruct (H US) as (a1 & WA1 & K). assert (a1 = a) by congruence. subst a1. rewrite K.
  assert (EE : error_quat (v_att v) (v_att v) = mkq 1 0 0 0). { unfold error_quat. rewrite product_conj_l, U. unfold q1. vunfold; rnum. apply mkq_c; ring. }
  rewrite EE, E, mv_zero3, add3_0_l.
  assert (SI : forall x : v3, sandwich (mkq 1 0 0 0) x = x) by (intros [p q r]; unfold sandwich, conjugate, product; vunfold; rnum; apply mk3_c; ring).
  rewrite !SI. unfold vec. cbn [qx qy qz]. generalize (- tr_mem (wc_trig w') * wc_alpha w) (wc_gamma w). intros p q. destruct rc as [r1 r2 r3], rcd as [s1 s2 s3]. vunfold; rnum. apply mk3_c; ring.
Qed.
Print Assumptions C74_sign_refuted.

(** ** C75: the wheel controller cannot run *)
(** neither environment class has [sun_vector]: every path to a wheel command raises AttributeError *)
Theorem C75_attribute_error : forall sat instr damping freq w, whl_new sat instr None damping freq = Ok w ->
  (forall v rc rcd qc, tracking w v rc rcd qc = Raise AttributeError) /\
  (forall x m rc rcd qc, track_and_desaturate w x m rc rcd qc = Raise AttributeError) /\
  (forall clock x m, induce_bbq_roll_attitude w clock x m = Raise AttributeError) /\
  (forall x b tgt, point_and_stare w x b tgt = Raise AttributeError).
Proof.
  intros sat instr damping freq w H. unfold whl_new in H. destruct (forallb _ _); [|discriminate]. injection H as <-.
  assert (T : forall v rc rcd qc, tracking (mkWC sat (2 * freq ^ 2) (2 * damping * freq) (trig_new 1 0.3) true (map (fun i => mkCI i PI [2 * freq ^ 2 * 1; 2 * freq ^ 2 * 1]) instr) None) v rc rcd qc = Raise AttributeError) by reflexivity.
  split; [exact T|]. split; [|split].
  - intros x m rc rcd qc. unfold track_and_desaturate. rewrite T. reflexivity.
  - intros clock x m. unfold induce_bbq_roll_attitude, track_and_desaturate. rewrite T. reflexivity.
  - intros x b tgt. unfold point_and_stare. rewrite T. reflexivity.
Qed.
Print Assumptions C75_attribute_error.
(** and with that method added, an instrument with fewer than two bounds or flags makes tracking raise IndexError in every state *)
Theorem C75_index_error : forall w f v rc rcd qc k, wc_sun w = Some f -> wc_avoid w = true -> (length (rw_wheels (s_rw (wc_sat w))) <= length (v_whl v))%nat ->
  In k (wc_instr w) -> (length (i_forbidden (ci k)) < 2 \/ length (i_bounds (ci k)) < 2)%nat -> tracking w v rc rcd qc = Raise IndexError.
Proof.
  intros w f v rc rcd qc k HS HA HL I L. unfold tracking, objects. rewrite HS, HA. cbn [rbind]. unfold rw_momentum_r.
  replace (Nat.ltb (length (v_whl v)) (length (rw_wheels (s_rw (wc_sat w))))) with false by (symmetry; apply PeanoNat.Nat.ltb_ge; exact HL). cbn [rbind].
  unfold allowable_zone. cbn [trig_sign]. rewrite (zone_loop_short _ _ _ (wc_instr w) _ k I) by (cbn [length]; exact L). reflexivity.
Qed.
Print Assumptions C75_index_error.
(** with the method and well-formed instruments it always returns *)
Theorem C75_total : forall w f v rc rcd qc, wc_sun w = Some f -> Forall (wf_instr 2) (wc_instr w) -> (length (rw_wheels (s_rw (wc_sat w))) <= length (v_whl v))%nat ->
  exists w' u, tracking w v rc rcd qc = Ok (w', u).
Proof.
  intros w f v rc rcd qc HS HW HL. destruct (wc_avoid w) eqn:HA; [assert (H := tracking_zone w v rc rcd qc f HS HA HW HL)|assert (H := tracking_free w v rc rcd qc f HS (or_introl HA) HL)];
    cbv zeta in H; eexists; eexists; exact H.
Qed.
Print Assumptions C75_total.
Example C75_ex : exists w, whl_new ball [mkI ez [30; 60] [true; false] [0%Z; 1%Z]] None 0.707 0.1 = Ok w /\ wc_sun w = None.
Proof. eexists. split; reflexivity. Qed.
Example C75_ex2 : let k := mkCI (mkI ez [30] [true] [0%Z]) PI [0.02; 0.02] in (length (i_bounds (ci k)) < 2)%nat /\ whl_new ball [ci k] None 0.707 0.1 <> Raise IndexError.
Proof. split; [cbn; lia|discriminate]. Qed.

(** ** C76: point and stare *)
(** the commanded attitude is a unit quaternion that puts the boresight on the target *)
Theorem C76_points : forall (p : v3) q (b tgt : v3), unitq q -> unit3 b -> tgt <> p -> sandwich q (pointing_vector p tgt) <> opp3 b ->
  unitq (stare_attitude p q b tgt) /\ sandwich_opp (stare_attitude p q b tgt) b = pointing_vector p tgt.
Proof. exact stare_points. Qed.
Print Assumptions C76_points.
(** except with the target exactly behind: then the zero quaternion is commanded *)
Theorem C76_behind_refuted : forall (p : v3) q (b tgt : v3), unit3 b -> sandwich q (pointing_vector p tgt) = opp3 b -> stare_attitude p q b tgt = mkq 0 0 0 0.
Proof. exact stare_antipode. Qed.
Print Assumptions C76_behind_refuted.
(** the rate reference is the angular velocity of the line of sight to a target fixed in inertial space, and orthogonal to it *)
Theorem C76_rate : forall pos vel t (tgt : v3), pos t <> tgt -> deriv3 pos t vel ->
  let los := fun u => scale3 (/ norm3 (sub3 tgt (pos u))) (sub3 tgt (pos u)) in let om := stare_rate_intl (pos t) vel tgt in
  deriv3 los t (cross3 om (los t)) /\ dot3 om (los t) = 0.
Proof.
  intros pos vel t tgt N D los om. split; [apply (stare_rate pos vel t tgt N D)|]. unfold om, los, stare_rate_intl, div3.
  generalize (/ norm3 (sub3 tgt (pos t))). destruct (pos t) as [a b c], tgt as [p q r], vel as [x y z]. intros k. vunfold; rnum. unfold Rdiv. ring.
Qed.
Print Assumptions C76_rate.
(** but that body-frame rate is rotated once more by the attitude error inside tracking: the commanded rate is right exactly when the
    remaining rotation leaves it fixed *)
Theorem C76_rotated_twice : forall (p vel : v3) q (b tgt : v3), unitq q ->
  let true_rate := sandwich q (stare_rate_intl p vel tgt) in let e := error_quat q (stare_attitude p q b tgt) in
  sandwich e true_rate = sandwich_opp (acquire_target p q b tgt) true_rate /\
  (unitq (acquire_target p q b tgt) -> (sandwich e true_rate = true_rate <-> sandwich (acquire_target p q b tgt) true_rate = true_rate)).
Proof.
  intros p vel q b tgt U tr e. assert (E : sandwich e tr = sandwich_opp (acquire_target p q b tgt) tr) by (unfold e; rewrite stare_error by exact U; reflexivity).
  split; [exact E|]. intros UA. rewrite E. split; intros H.
  - rewrite <- H at 1. apply sandwich_sandwich_opp, UA.
  - rewrite <- H at 1. apply sandwich_opp_sandwich, UA.
Qed.
Print Assumptions C76_rotated_twice.
(** a satellite passing a target 90 degrees off its boresight: the true rate is about -z, the tracked one about -x *)
Theorem C76_rate_refuted : exists p vel q b tgt, unitq q /\ unit3 b /\ tgt <> p /\
  sandwich q (stare_rate_intl p vel tgt) = opp3 ez /\ sandwich (error_quat q (stare_attitude p q b tgt)) (opp3 ez) = opp3 ex.
Proof.
  exists zero3, ey, (mkq 1 0 0 0), ez, ex.
  assert (U : unitq (mkq 1 0 0 0)) by (unfold unitq, dotq; cbn [qw qx qy qz]; rnumg; ring).
  assert (UB : unit3 ez) by (unfold unit3, ez; vunfoldg; cbn [x3 y3 z3]; rnumg; ring).
  assert (N : ex <> zero3) by (unfold ex; intros E; apply mk3_inj in E; lra).
  assert (SI : forall x : v3, sandwich (mkq 1 0 0 0) x = x) by (intros [a b c]; unfold sandwich, conjugate, product; vunfold; rnum; apply mk3_c; ring).
  assert (SO : forall x : v3, sandwich_opp (mkq 1 0 0 0) x = x) by (intros [a b c]; unfold sandwich_opp, sandwich, conjugate, product; vunfold; rnum; apply mk3_c; ring).
  assert (PV : pointing_vector zero3 ex = ex).
  { unfold pointing_vector, normalize3, div3, norm3, ex. vunfoldg; cbn [x3 y3 z3]; rnumg. replace ((1 - 0) * (1 - 0) + (0 - 0) * (0 - 0) + (0 - 0) * (0 - 0)) with (1 * 1) by ring. rewrite sqrt_square by lra.
    try (destruct (Reqb 1 0)); apply mk3_c; field. }
  split; [exact U|]. split; [exact UB|]. split; [exact N|]. split.
  - rewrite SI. unfold stare_rate_intl, div3, ex, ey, ez. vunfoldg; cbn [x3 y3 z3]; rnumg. apply mk3_c; field.
  - destruct (stare_points zero3 (mkq 1 0 0 0) ez ex U UB N) as [_ H].
    { rewrite SI, PV. unfold ex, ez. vunfoldg; cbn [x3 y3 z3]; rnumg. intros E. apply mk3_inj in E. lra. }
    unfold stare_attitude in H. rewrite sandwich_opp_product, SO, PV in H. rewrite stare_error by exact U.
    change (sandwich (conjugate (acquire_target zero3 (mkq 1 0 0 0) ez ex)) (opp3 ez)) with (sandwich_opp (acquire_target zero3 (mkq 1 0 0 0) ez ex) (opp3 ez)).
    replace (opp3 ez) with (scale3 (-1) ez) by (unfold ez; vunfoldg; cbn [x3 y3 z3]; rnumg; apply mk3_c; ring).
    unfold sandwich_opp in *. rewrite sandwich_scale, H. unfold ex. vunfoldg; cbn [x3 y3 z3]; rnumg. apply mk3_c; ring.
Qed.
Print Assumptions C76_rate_refuted.
Example C76_ex : unitq (mkq 1 0 0 0) /\ unit3 ez /\ sandwich (mkq 1 0 0 0) (scale3 (-1) ez) = opp3 ez.
Proof.
  split; [unfold unitq, dotq; cbn [qw qx qy qz]; rnumg; ring|]. split; [unfold unit3, ez; vunfoldg; cbn [x3 y3 z3]; rnumg; ring|].
  unfold ez, sandwich, conjugate, product. vunfold; rnum. apply mk3_c; ring.
Qed.
