(** * Properties of the simulation directory: C67-C71 *)
From Coq Require Import Reals ZArith List Bool Lra Lia Psatz.
From Verif Require Import Num Vec Flt M_vector M_quaternion M_struct M_sim S_rot S_sim P_quat P_sim P_simf.
Import ListNotations.
Local Open Scope R_scope.

(** ** C67: the quaternion product *)
Theorem C67_product : forall a b : S4 R, slen2 a <> 0 -> slen2 b <> 0 ->
  quat_mult a b = to_scalar_last (product (scaleq (/ sqrt (slen2 a)) (scalar_first a)) (scaleq (/ sqrt (slen2 b)) (scalar_first b))) /\
  slen2 (quat_mult a b) = 1 /\
  (forall k l, 0 < k -> 0 < l -> quat_mult (sscale k a) (sscale l b) = quat_mult a b) /\
  (quat_mult (sscale (-1) a) b = sscale (-1) (quat_mult a b) /\ quat_mult a (sscale (-1) b) = sscale (-1) (quat_mult a b)).
Proof.
  intros a b Ha Hb.
  assert (E : forall a b, slen2 a <> 0 -> slen2 b <> 0 -> quat_mult a b = to_scalar_last (product (scaleq (/ sqrt (slen2 a)) (scalar_first a)) (scaleq (/ sqrt (slen2 b)) (scalar_first b)))).
  { intros a' b' Ha' Hb'. rewrite quat_mult_raw by assumption. apply S4_eq. rewrite scalar_first_last, quat_raw_product, !snormalize_scale, !snorm_sqrt by assumption. reflexivity. }
  split; [apply E; assumption|]. split; [apply quat_mult_unit; assumption|]. split; [|split].
  - intros k l Hk Hl. unfold quat_mult. rewrite !snormalize_pos by assumption. reflexivity.
  - assert (Hn : slen2 (sscale (-1) a) <> 0) by (rewrite sscale_len2; lra). rewrite !quat_mult_raw by assumption. rewrite snormalize_neg by assumption.
    unfold quat_raw, sscale; cbn. rnumg. f_equal; ring.
  - assert (Hn : slen2 (sscale (-1) b) <> 0) by (rewrite sscale_len2; lra). rewrite !quat_mult_raw by assumption. rewrite snormalize_neg by assumption.
    unfold quat_raw, sscale; cbn. rnumg. f_equal; ring.
Qed.
Print Assumptions C67_product.
(** the product composes rotations, the second argument acting first; the error quaternion takes the current attitude to the target *)
Theorem C67_error : (forall a b v, slen2 a = 1 -> slen2 b = 1 -> turns (quat_mult a b) v = turns a (turns b v)) /\
  (forall t c, slen2 t = 1 -> slen2 c = 1 -> quat_mult (quat_error t c) c = t /\ (forall v, turns (quat_error t c) (turns c v) = turns t v)) /\
  (forall q, slen2 q = 1 -> quat_error q q = mks 0 0 0 1).
Proof.
  split; [intros; apply turns_mult; assumption|]. split.
  - intros t c Ht Hc. assert (B : quat_mult (quat_error t c) c = t) by (rewrite error_back by lra; apply snormalize_id, Ht). split; [exact B|].
    intros v. rewrite <- turns_mult; [rewrite B; reflexivity| |exact Hc]. unfold quat_error. apply quat_mult_unit; rewrite ?conj_len2; lra.
  - intros q H. unfold quat_error. rewrite quat_mult_raw by (rewrite ?conj_len2; lra). rewrite !snormalize_id by (rewrite ?conj_len2; lra).
    unfold slen2 in H. unfold quat_raw, quat_conjugate; cbn. rnumg. f_equal; try ring. rewrite <- H. ring.
Qed.
Print Assumptions C67_error.
(** binary64: a zero quaternion, or one with a NaN, makes every entry of the product NaN; nothing is raised *)
Theorem C67_zero : forall a b : S4 b64,
  (exists p q r s, a = mks (fzero p) (fzero q) (fzero r) (fzero s)) \/ (sx a = fnan \/ sy a = fnan \/ sz a = fnan \/ ss a = fnan) ->
  quat_mult a b = mks fnan fnan fnan fnan /\ quat_mult b a = mks fnan fnan fnan fnan.
Proof. intros a b H. split; apply quat_mult_bad; [left|right]; exact H. Qed.
Print Assumptions C67_zero.
Example C67_ex : slen2 (mks 1 2 3 4) <> 0 /\ quat_mult (mks 2 0 0 0) (mks 0 3 0 0) = mks 0 0 1 0 /\ turns (mks 0 0 1 0) (mk3 1 2 3) = mk3 (-1) (-2) 3.
Proof.
  split; [unfold slen2; cbn; lra|]. split; [|unfold turns, svec; cbn; vunfoldg; rnumg; apply mk3_c; ring].
  assert (A : slen2 (mks 1 0 0 0) = 1) by (unfold slen2; cbn; ring). assert (B : slen2 (mks 0 1 0 0) = 1) by (unfold slen2; cbn; ring).
  assert (E : quat_mult (sscale 2 (mks 1 0 0 0)) (sscale 3 (mks 0 1 0 0)) = quat_mult (mks 1 0 0 0) (mks 0 1 0 0)) by (destruct (C67_product (mks 1 0 0 0) (mks 0 1 0 0)) as (_ & _ & PS & _); [lra|lra|apply PS; lra]).
  unfold sscale in E; cbn in E. rewrite !Rmult_0_r, !Rmult_1_r in E. rewrite E, quat_mult_raw, !snormalize_id by lra.
  unfold quat_raw; cbn. rnumg. f_equal; ring.
Qed.

(** ** C68: axis and angle *)
Theorem C68_axis_angle : forall axis deg, axis <> zero3 ->
  slen2 (axis_angle_to_quaternion axis deg) = 1 /\
  (forall v, turns (axis_angle_to_quaternion axis deg) v = rodrigues (div3 axis (norm3 axis)) (deg * (PI / 180)) v) /\
  (0 <= deg <= 360 -> get_rotation_angle (axis_angle_to_quaternion axis deg) = deg * (PI / 180)) /\
  (0 <= deg <= 180 -> error_angle (axis_angle_to_quaternion axis deg) = deg) /\
  (180 <= deg <= 360 -> error_angle (axis_angle_to_quaternion axis deg) = 360 - deg).
Proof.
  intros axis deg N. split; [apply axis_angle_len, N|]. split; [intros v; apply axis_angle_turns, N|]. split; [apply rotation_angle_axis, N|]. apply error_angle_axis, N.
Qed.
Print Assumptions C68_axis_angle.
Theorem C68_angles : forall q : S4 R,
  (slen2 q <> 0 -> 0 <= get_rotation_angle q <= 2 * PI /\ cos (get_rotation_angle q / 2) = ss q / sqrt (slen2 q)) /\
  (slen2 q = 1 -> 0 <= error_angle q <= 180) /\ error_angle (sscale (-1) q) = error_angle q.
Proof.
  intros q. split; [intros H; rewrite <- snorm_sqrt; apply rotation_angle_gen, H|]. split; [apply error_angle_bound|apply error_angle_opp].
Qed.
Print Assumptions C68_angles.
(** the axis: always a unit vector, the right one unless the sine of the half angle is below 1e-6 *)
Theorem C68_to_axis : forall q : S4 R, slen2 q <> 0 ->
  (1 / 10 ^ 6 <= norm3 (svec q) / sqrt (slen2 q) -> quat_to_axis q = div3 (svec q) (norm3 (svec q))) /\
  (norm3 (svec q) / sqrt (slen2 q) < 1 / 10 ^ 6 -> quat_to_axis q = ex) /\
  unit3 (quat_to_axis q) /\
  (forall axis deg, axis <> zero3 -> 0 <= deg <= 360 -> 1 / 10 ^ 6 <= sin (deg * (PI / 180) / 2) ->
     quat_to_axis (axis_angle_to_quaternion axis deg) = div3 axis (norm3 axis)).
Proof.
  intros q H. assert (S1 := quat_to_axis_spec q H). rewrite <- snorm_sqrt. destruct S1 as [S1 S2]. split; [exact S1|]. split; [exact S2|]. split.
  - destruct (Rlt_dec (norm3 (svec q) / snorm q) (1 / 10 ^ 6)) as [L|L].
    + rewrite (S2 L). unfold unit3. vunfoldg; rnumg. ring.
    + rewrite S1 by lra. apply unit_div3. intros Z. apply norm3_zero in Z. rewrite Z in L. unfold Rdiv in L. rewrite Rmult_0_l in L. apply L. lra.
  - intros axis deg N D SN. assert (U := axis_angle_len axis deg N).
    assert (SV : svec (axis_angle_to_quaternion axis deg) = scale3 (sin (deg * (PI / 180) / 2)) (div3 axis (norm3 axis))).
    { rewrite axis_angle_raw by exact N. unfold svec, to_scalar_last, axisangle_to_quat. cbn. reflexivity. }
    assert (UA := unit_div3 axis N). set (u := div3 axis (norm3 axis)) in *. clearbody u. set (sn := sin _) in *. clearbody sn.
    assert (NV : norm3 (svec (axis_angle_to_quaternion axis deg)) = sn).
    { rewrite SV. unfold norm3. rnumg. apply sqrt_lem_1; [apply dot3_nonneg|lra|]. unfold unit3 in UA. destruct u as [a b c]. vunfold; rnum. nra. }
    destruct (quat_to_axis_spec (axis_angle_to_quaternion axis deg)) as [Q _]; [lra|]. rewrite NV, (snorm_unit _ U) in Q.
    rewrite Q by lra. rewrite SV. destruct u as [a b c]. vunfoldg; rnumg. apply mk3_c; field; lra.
Qed.
Print Assumptions C68_to_axis.
(** the sequence turns about the first axis first, each axis being fixed in space *)
Theorem C68_sequence : forall a0 a1 a2 o0 o1 o2, In o0 [ex; ey; ez] -> In o1 [ex; ey; ez] -> In o2 [ex; ey; ez] ->
  slen2 (rotation_sequence (a0, a1, a2) (o0, o1, o2)) = 1 /\ final_norm (rotation_sequence (a0, a1, a2) (o0, o1, o2)) = 1 /\
  forall v, turns (rotation_sequence (a0, a1, a2) (o0, o1, o2)) v =
    rodrigues o2 (a2 * (PI / 180)) (rodrigues o1 (a1 * (PI / 180)) (rodrigues o0 (a0 * (PI / 180)) v)).
Proof.
  assert (NZ : forall o, In o [ex; ey; ez] -> o <> zero3 /\ div3 o (norm3 o) = o).
  { assert (Q : forall o : v3, dot3 o o = 1 -> o <> zero3 /\ div3 o (norm3 o) = o).
    { intros o E. split.
      - intros ->. revert E. vunfoldg; rnumg. intros; lra.
      - unfold norm3. rnumg. rewrite E, sqrt_1. destruct o as [a b c]. vunfoldg; rnumg. apply mk3_c; field. }
    intros o [<-|[<-|[<-|[]]]]; apply Q; unfold ex, ey, ez; vunfoldg; rnumg; ring. }
  intros a0 a1 a2 o0 o1 o2 I0 I1 I2. destruct (NZ o0 I0) as [N0 D0], (NZ o1 I1) as [N1 D1], (NZ o2 I2) as [N2 D2].
  destruct (rotation_sequence_turns a0 a1 a2 o0 o1 o2 N0 N1 N2) as [U TT]. split; [exact U|]. split.
  - unfold final_norm. rewrite snormalize_id by exact U. apply snorm_unit, U.
  - intros v. rewrite TT, !axis_angle_turns by assumption. rewrite D0, D1, D2. reflexivity.
Qed.
Print Assumptions C68_sequence.
(** the docstring's "body-axis rotations" would compose the other way round *)
Theorem C68_body_axes_refuted : ~ forall a0 a1 a2 v,
  turns (rotation_sequence (a0, a1, a2) (ex, ey, ez)) v = rodrigues ex (a0 * (PI / 180)) (rodrigues ey (a1 * (PI / 180)) (rodrigues ez (a2 * (PI / 180)) v)).
Proof.
  intros H. specialize (H 90 90 0 ex). destruct (C68_sequence 90 90 0 ex ey ez) as (_ & _ & TT); cbn; auto. rewrite TT in H. clear TT.
  replace (90 * (PI / 180)) with (PI / 2) in H by field. replace (0 * (PI / 180)) with 0 in H by field. unfold rodrigues in H. rewrite cos_PI2, sin_PI2, cos_0, sin_0 in H.
  revert H. unfold ex, ey, ez. vunfoldg; rnumg. intros H. apply mk3_inj in H. destruct H as (_ & H & _). lra.
Qed.
Print Assumptions C68_body_axes_refuted.
(** binary64: dividing by the norm does not make the norm exactly 1, so the assertion at Quaternions.py:100 rejects sound quaternions.
    In every order of summation the norm of the twice normalised (0, 7, 7, 8) is 1 + 2^-52. *)
Theorem C68_assert_refuted : let q := mks (fofZ 0) (fofZ 7) (fofZ 7) (fofZ 8) in
  feqb (final_norm q) (fofZ 1) = false /\ feqb (final_norm (snormalize q)) (fofZ 1) = false /\ feqb (final_norm (snormalize q)) (fadd (fofZ 1) (fdec 1 (2 ^ 52))) = true.
Proof. cbv zeta. split; [|split]; vm_compute; reflexivity. Qed.
Print Assumptions C68_assert_refuted.
Example C68_ex : mk3 0 0 2 <> zero3 /\ 0 <= 90 <= 180 /\ 1 / 10 ^ 6 <= sin (90 * (PI / 180) / 2).
Proof.
  split; [intros H; apply mk3_inj in H; destruct H as (_ & _ & H); rnum; lra|]. split; [lra|]. replace (90 * (PI / 180) / 2) with (PI / 4) by field.
  rewrite sin_PI4. apply (Rmult_le_reg_r (sqrt 2)); [apply sqrt_lt_R0; lra|]. unfold Rdiv. rewrite (Rmult_assoc 1 (/ sqrt 2)), Rinv_l by (apply Rgt_not_eq, sqrt_lt_R0; lra).
  assert (S1 : sqrt 2 < 2) by (rewrite <- (sqrt_Rsqr 2) at 2 by lra; apply sqrt_lt_1; unfold Rsqr; lra). lra.
Qed.

(** ** C69: the wheel torque clamp *)
(** binary64, every command and speed, NaN and infinities included *)
Theorem C69_bounded : forall (p : Wheels b64) torque speed vals, fin (wh_maxT p) = true -> 0 < fR (wh_maxT p) ->
  (4 <= length torque)%nat -> (4 <= length speed)%nat -> (4 <= length vals)%nat ->
  exists r, check_torque_vals p torque speed vals = Ok r /\ length r = length vals /\ skipn 4 r = skipn 4 vals /\
    forall i, (i < 4)%nat -> fin (nth i r fnan) = true /\ - fR (wh_maxT p) <= fR (nth i r fnan) <= fR (wh_maxT p) /\
      (nth i torque fnan = fnan -> nth i r fnan = fopp (wh_maxT p)).
Proof.
  intros p torque speed vals F P L1 L2 L3. destruct (clamp_all_spec p 4 torque speed vals L1 L2 L3) as (r & E & L & S1 & N).
  exists r. split; [exact E|]. split; [exact L|]. split; [exact S1|]. intros i Hi. rewrite (N i fnan Hi).
  destruct (wheel_clamp_f p (nth i torque fnan) (nth i speed fnan) F P) as [A B]. split; [exact A|]. split; [exact B|]. intros ->. apply wheel_clamp_nan; [exact F|exact P|reflexivity].
Qed.
Print Assumptions C69_bounded.
Theorem C69_short : forall (p : Wheels b64) torque speed vals, (4 <= length vals)%nat -> (length torque < 4)%nat \/ (length speed < 4)%nat ->
  check_torque_vals p torque speed vals = Raise IndexError.
Proof. intros. apply clamp_all_short; assumption. Qed.
Print Assumptions C69_short.
(** a command that is feasible is sent as it is *)
Theorem C69_untouched : forall (p : Wheels R) t s, good_wheels p -> Rabs t <= wh_maxT p -> Rabs (wheel_next (wh_J p) (wh_dt p) s t) <= wh_maxS p ->
  wheel_clamp p t s = t.
Proof.
  intros p t s G B L. assert (G' := G). destruct G' as (HM & HS & HJ & HD). unfold wheel_next in L.
  destruct (wheel_clamp_cases p t s G) as [[_ ->]|[L2 _]].
  - apply Rabs_le_iff in B. destruct (clamp_cases (wh_maxT p) t HM) as [[E _]|[[_ E]|[_ E]]]; [exact E|lra|lra].
  - exfalso. replace (t * wh_dt p / wh_J p) with (t * (wh_dt p / wh_J p)) in L by (field; lra). lra.
Qed.
Print Assumptions C69_untouched.
(** the speed limit is never passed whatever is commanded; a wheel above it is brought back at full torque *)
Theorem C69_speed : forall (p : Wheels R) s cmds, good_wheels p ->
  (Rabs s <= wh_maxS p -> Rabs (wheel_run p s cmds) <= wh_maxS p) /\
  Rabs (wheel_run p s cmds) <= Rmax (wh_maxS p) (Rabs s) /\
  (Rabs s - wh_maxS p <= INR (length cmds) * (wh_maxT p * wh_dt p / wh_J p) -> Rabs (wheel_run p s cmds) <= wh_maxS p).
Proof.
  intros p s cmds G. assert (B := wheel_run_bound p cmds G s). set (d := wh_maxT p * wh_dt p / wh_J p) in *.
  assert (DP : 0 <= INR (length cmds) * d). { destruct G as (HM & HS & HJ & HD). apply Rmult_le_pos; [apply pos_INR|]. unfold d, Rdiv. apply Rmult_le_pos; [nra|left; apply Rinv_0_lt_compat, HJ]. }
  split; [|split].
  - intros H. eapply Rle_trans; [exact B|]. apply Rmax_lub; lra.
  - eapply Rle_trans; [exact B|]. apply Rmax_lub; [apply Rmax_l|]. eapply Rle_trans; [|apply Rmax_r]. lra.
  - intros H. eapply Rle_trans; [exact B|]. apply Rmax_lub; lra.
Qed.
Print Assumptions C69_speed.
(** ... but a command to reverse a spinning wheel that overshoots the opposite limit is turned into a torque the other way *)
Theorem C69_sign_refuted : forall (p : Wheels R) t s, good_wheels p -> 0 < wh_maxT p -> 0 < s < wh_maxS p -> wheel_next (wh_J p) (wh_dt p) s t < - wh_maxS p ->
  t < 0 /\ 0 < wheel_clamp p t s.
Proof.
  intros p t s G MP Hs L. assert (G' := G). destruct G' as (HM & HS & HJ & HD). unfold wheel_next in L.
  assert (KP : 0 < wh_dt p / wh_J p) by (apply Rmult_lt_0_compat; [exact HD|apply Rinv_0_lt_compat, HJ]).
  replace (t * wh_dt p / wh_J p) with (t * (wh_dt p / wh_J p)) in L by (field; lra). set (K := wh_dt p / wh_J p) in *.
  assert (TN : t * K < 0) by lra. split; [nra|].
  destruct (wheel_clamp_cases p t s G) as [[L2 _]|(L2 & sg & SG & ->)]; fold K in L2 |- *; [apply Rabs_le_iff in L2; lra|].
  destruct SG as [[-> _]|[-> [?|[? _]]]]; [|lra|lra].
  assert (D : 0 < (1 * wh_maxS p - s) / K) by (apply Rmult_lt_0_compat; [lra|apply Rinv_0_lt_compat, KP]).
  destruct (clamp_cases (wh_maxT p) ((1 * wh_maxS p - s) / K) HM) as [[-> _]|[[-> _]|[_ B]]]; lra.
Qed.
Print Assumptions C69_sign_refuted.
(** zero_wheel_speeds stops the wheel in finitely many steps and leaves it stopped *)
Theorem C69_zero : forall (p : Wheels R) s, good_wheels p ->
  Rabs (wheel_next (wh_J p) (wh_dt p) s (zero_torque p s)) = Rmax 0 (Rabs s - wh_maxT p * wh_dt p / wh_J p) /\
  Rabs (zero_torque p s) <= wh_maxT p /\
  (forall n, Rabs s <= INR n * (wh_maxT p * wh_dt p / wh_J p) -> zero_run n p s = 0).
Proof.
  intros p s G. split; [apply zero_next, G|]. split.
  - unfold zero_torque. destruct G as (HM & _). match goal with |- Rabs (clamp _ ?x) <= _ => destruct (clamp_cases (wh_maxT p) x HM) as [[-> B]|[[-> B]|[-> B]]] end; apply Rabs_le; lra.
  - intros n H. destruct (zero_run_abs p n G s) as [E|[-> E]].
    + rewrite Rmax_left in E by lra. destruct (Req_dec (zero_run n p s) 0) as [Z|Z]; [exact Z|]. apply Rabs_no_R0 in Z. contradiction.
    + rewrite E. cbn in H. rewrite Rmult_0_l in H. destruct (Req_dec s 0) as [Z|Z]; [exact Z|]. apply Rabs_pos_lt in Z. lra.
Qed.
Print Assumptions C69_zero.
(** 0.01 Nm, 1047 rad/s, 1e-4 kg m^2, 0.1 s; a wheel at 5 rad/s commanded -2 Nm gets +0.01 Nm *)
Example C69_ex : let p := mkWh 0.01 1047 (1 / 10000) 0.1 in good_wheels p /\ wheel_next (wh_J p) (wh_dt p) 5 (-2) < - wh_maxS p /\ 0 < 5 < wh_maxS p /\
  wheel_clamp p (-2) 5 = 0.01.
Proof.
  cbv zeta. assert (G : good_wheels (mkWh 0.01 1047 (1 / 10000) 0.1)) by (unfold good_wheels; cbn; lra).
  split; [exact G|]. split; [unfold wheel_next; cbn; lra|]. split; [cbn; lra|].
  destruct (wheel_clamp_cases _ (-2) 5 G) as [[L _]|(_ & sg & SG & ->)]; cbn in *.
  - apply Rabs_le_iff in L. lra.
  - destruct SG as [[-> _]|[-> [?|[? _]]]]; [|lra|lra].
    match goal with |- clamp ?m ?x = _ => destruct (clamp_cases m x) as [[_ B]|[[-> _]|[_ B]]]; [lra|lra| |lra] end. reflexivity.
Qed.

(** ** C70: hysteresis *)
Fixpoint mode_after (m : Mode) (h : list R) : Mode := match h with [] => m | a :: h => mode_check a (mode_after m h) end.
(** histories are most recent first; the mode is decided by the most recent angle outside [30, 40] *)
Theorem C70_hysteresis : forall m h,
  (forall a, last_outside h a -> a < 30 -> mode_after m h = Precise) /\
  (forall a, last_outside h a -> 40 < a -> mode_after m h = Slew) /\
  (Forall (fun a => 30 <= a <= 40) h -> mode_after m h = m).
Proof.
  intros m h. induction h as [|x h (IH1 & IH2 & IH3)].
  - split; [|split]; [intros a H; inversion H|intros a H; inversion H|reflexivity].
  - assert (MC : forall m', mode_check x m' = match m' with Slew => if Rltb x 30 then Precise else Slew | Precise => if Rltb 40 x then Slew else Precise end) by (intros []; reflexivity).
    cbn [mode_after]. split; [|split].
    + intros a H L. inversion H as [a' h' O E|a' b h' O H' E]; subst.
      * rewrite MC. destruct (mode_after m h).
        -- destruct (Rltb_spec a 30); [reflexivity|lra].
        -- destruct (Rltb_spec 40 a); [lra|reflexivity].
      * rewrite (IH1 a H' L), MC. destruct (Rltb_spec 40 x); [lra|reflexivity].
    + intros a H L. inversion H as [a' h' O E|a' b h' O H' E]; subst.
      * rewrite MC. destruct (mode_after m h).
        -- destruct (Rltb_spec a 30); [lra|reflexivity].
        -- destruct (Rltb_spec 40 a); [reflexivity|lra].
      * rewrite (IH2 a H' L), MC. destruct (Rltb_spec x 30); [lra|reflexivity].
    + intros H. assert (X := Forall_inv H). rewrite (IH3 (Forall_inv_tail H)), MC.
      destruct m; [destruct (Rltb_spec x 30); [lra|reflexivity]|destruct (Rltb_spec 40 x); [lra|reflexivity]].
Qed.
Print Assumptions C70_hysteresis.
(** one step: leaving slew needs an angle below 30, leaving precise one above 40; in binary64 NaN never switches *)
Theorem C70_step : (forall a, mode_check (a : R) Slew = Precise <-> a < 30) /\ (forall a, mode_check (a : R) Precise = Slew <-> 40 < a) /\
  (forall m, mode_check (fnan : b64) m = m).
Proof.
  split; [|split]; [intros a..|].
  - change (mode_check a Slew) with (if Rltb a 30 then Precise else Slew). destruct (Rltb_spec a 30); split; intros; try reflexivity; try assumption; try discriminate; contradiction.
  - change (mode_check a Precise) with (if Rltb 40 a then Slew else Precise). destruct (Rltb_spec 40 a); split; intros; try reflexivity; try assumption; try discriminate; contradiction.
  - intros []; reflexivity.
Qed.
Print Assumptions C70_step.
Example C70_ex : mode_after Slew [35; 32; 29; 50] = Precise /\ mode_after Slew [35; 41; 29; 50] = Slew /\ last_outside [35; 32; 29; 50] 29.
Proof.
  split; [|split].
  - apply (C70_hysteresis Slew _) with (a := 29); [|lra]. apply lo_there; [lra|]. apply lo_there; [lra|]. apply lo_here. lra.
  - apply (C70_hysteresis Slew _) with (a := 41); [|lra]. apply lo_there; [lra|]. apply lo_here. lra.
  - apply lo_there; [lra|]. apply lo_there; [lra|]. apply lo_here. lra.
Qed.

(** ** C71: the hemisphere check is undone *)
Theorem C71_undone : forall Kq Kw wt q w,
  controller_step Kq Kw wt q w = opp3 (add3 (mv Kq (svec q)) (mv Kw (sub3 w wt))) /\
  controller_step Kq Kw wt q w = quaternion_controller Kq Kw wt 0 q w.
Proof.
  intros Kq Kw wt q w. assert (E0 : forall q, quaternion_controller Kq Kw wt 0 q w = opp3 (add3 (mv Kq (svec q)) (mv Kw (sub3 w wt)))).
  { intros q'. unfold quaternion_controller, svec. cbn [pow]. rewrite !Rmult_1_r. reflexivity. }
  rewrite E0. assert (E : controller_step Kq Kw wt q w = opp3 (add3 (mv Kq (svec q)) (mv Kw (sub3 w wt)))); [|split; exact E].
  unfold controller_step, check_hemi. destruct (Rleb 0 (ss q)); [apply E0|]. unfold quaternion_controller, svec; cbn. do 4 f_equal; ring.
Qed.
Print Assumptions C71_undone.
(** q and -q are the same attitude but, at the target rate, get opposite torques; the torque always pushes the vector part down, never the short way for a
    negative scalar part *)
Theorem C71_refuted : forall Kq Kw wt q,
  (forall v, slen2 q = 1 -> turns (sscale (-1) q) v = turns q v) /\
  controller_step Kq Kw wt (sscale (-1) q) wt = opp3 (controller_step Kq Kw wt q wt) /\
  (mv Kq (svec q) <> zero3 -> controller_step Kq Kw wt (sscale (-1) q) wt <> controller_step Kq Kw wt q wt) /\
  ((forall v, v <> zero3 -> 0 < dot3 v (mv Kq v)) -> svec q <> zero3 -> dot3 (svec q) (controller_step Kq Kw wt q wt) < 0).
Proof.
  intros Kq Kw wt q. destruct (C71_undone Kq Kw wt q wt) as [E _]. destruct (C71_undone Kq Kw wt (sscale (-1) q) wt) as [E' _].
  assert (ZW : forall a, opp3 (add3 a (mv Kw (sub3 wt wt))) = opp3 a).
  { intros a. assert (Z : mv Kw (sub3 wt wt) = zero3) by (destruct Kw as [[? ? ?] [? ? ?] [? ? ?]], wt as [? ? ?]; vunfoldg; rnumg; apply mk3_c; ring). rewrite Z. destruct a as [? ? ?]. vunfoldg; rnumg; apply mk3_c; ring. }
  rewrite ZW in E, E'. assert (EO : controller_step Kq Kw wt (sscale (-1) q) wt = opp3 (controller_step Kq Kw wt q wt)).
  { rewrite E', E. destruct Kq as [[? ? ?] [? ? ?] [? ? ?]], q as [? ? ? ?]. unfold svec, sscale; cbn. vunfoldg; rnumg. apply mk3_c; ring. }
  split; [|split; [exact EO|split]].
  - intros v U. destruct q as [x y z s], v as [a b c]. unfold turns, svec, sscale; cbn. vunfoldg; rnumg. apply mk3_c; ring.
  - intros N. rewrite EO, E. intros C. apply N. destruct (mv Kq (svec q)) as [a b c]. revert C. vunfoldg; rnumg. intros C. apply mk3_inj in C. destruct C as (C1 & C2 & C3). apply mk3_c; lra.
  - intros PD N. rewrite E. specialize (PD _ N). destruct (mv Kq (svec q)) as [a b c], (svec q) as [x y z]. revert PD. vunfoldg; rnumg. intros; lra.
Qed.
Print Assumptions C71_refuted.
(** the unused function hemi would have chosen the short way *)
Theorem C71_hemi : forall Kq Kw wt q w, ss q <> 0 ->
  quaternion_controller Kq Kw wt 0 (hemi (sscale (-1) q)) w = quaternion_controller Kq Kw wt 0 (hemi q) w.
Proof.
  intros Kq Kw wt q w N. f_equal. unfold hemi, sscale; cbn. rnumg. destruct q as [x y z s]; cbn in *.
  destruct (Rleb_spec 0 (-1 * s)), (Rleb_spec 0 s); try lra; f_equal; ring.
Qed.
Print Assumptions C71_hemi.
Example C71_ex : controller_step id3 id3 zero3 (mks 1 0 0 0) zero3 = mk3 (-1) 0 0 /\ controller_step id3 id3 zero3 (mks (-1) 0 0 0) zero3 = mk3 1 0 0 /\ svec (mks 1 0 0 0) <> zero3.
Proof.
  split; [|split].
  - rewrite (proj1 (C71_undone id3 id3 zero3 _ zero3)). unfold svec; cbn. vunfoldg; rnumg. apply mk3_c; ring.
  - rewrite (proj1 (C71_undone id3 id3 zero3 _ zero3)). unfold svec; cbn. vunfoldg; rnumg. apply mk3_c; ring.
  - unfold svec; cbn. intros H. apply mk3_inj in H. rnum. lra.
Qed.
