From Coq Require Import Reals ZArith List Bool Lra Lia Psatz.
From Verif Require Import Num Vec M_vector M_quaternion M_struct S_rot P_quat M_sim S_sim.
Import ListNotations.
Local Open Scope R_scope.

Lemma S4_eq (a b : S4 R) : scalar_first a = scalar_first b -> a = b.
Proof. destruct a as [a1 a2 a3 a4], b as [b1 b2 b3 b4]. unfold scalar_first; cbn. intros H. apply mkq_inj in H. destruct H as (-> & -> & -> & ->). reflexivity. Qed.
Lemma slen2_dot q : slen2 q = dotq (scalar_first q) (scalar_first q).
Proof. destruct q as [x y z s]. unfold slen2, scalar_first; cbn. vunfoldg; rnumg. ring. Qed.
Lemma snorm_normq (q : S4 R) : snorm q = normq (scalar_first q).
Proof. destruct q as [x y z s]. unfold snorm, scalar_first; cbn. vunfoldg; rnumg. f_equal. ring. Qed.
Lemma slen2_nonneg q : 0 <= slen2 q. Proof. unfold slen2. nra. Qed.
Lemma snorm_sqrt q : snorm q = sqrt (slen2 q).
Proof. unfold snorm, slen2. rnumg. f_equal. ring. Qed.
Lemma snorm_pos q : slen2 q <> 0 -> 0 < snorm q.
Proof. intros H. rewrite snorm_sqrt. apply sqrt_lt_R0. assert (K := slen2_nonneg q). lra. Qed.
Lemma snorm_sq q : snorm q * snorm q = slen2 q.
Proof. rewrite snorm_sqrt. apply sqrt_sqrt, slen2_nonneg. Qed.
Lemma snormalize_scale (q : S4 R) : slen2 q <> 0 -> snormalize q = sscale (/ snorm q) q.
Proof. intros H. assert (P := snorm_pos q H). unfold snormalize, sscale. cbv zeta. rnumg. unfold Rdiv. f_equal; ring. Qed.
Lemma sscale_len2 k q : slen2 (sscale k q) = k ^ 2 * slen2 q.
Proof. unfold slen2, sscale; cbn. ring. Qed.
Lemma sscale_sscale k l q : sscale k (sscale l q) = sscale (k * l) q.
Proof. unfold sscale; cbn. f_equal; ring. Qed.
Lemma snormalize_unit q : slen2 q <> 0 -> slen2 (snormalize q) = 1.
Proof.
  intros H. rewrite snormalize_scale, sscale_len2 by exact H. rewrite <- snorm_sq. assert (P := snorm_pos q H). field. lra.
Qed.
Lemma sscale_1 q : sscale 1 q = q.
Proof. destruct q as [x y z s]. unfold sscale; cbn. f_equal; ring. Qed.
Lemma snorm_unit q : slen2 q = 1 -> snorm q = 1.
Proof. intros H. rewrite snorm_sqrt, H. apply sqrt_1. Qed.
Lemma snormalize_id q : slen2 q = 1 -> snormalize q = q.
Proof. intros H. rewrite snormalize_scale by lra. rewrite (snorm_unit q H), Rinv_1. apply sscale_1. Qed.
Lemma sscale_snorm k q : snorm (sscale k q) = Rabs k * snorm q.
Proof.
  rewrite !snorm_sqrt, sscale_len2, sqrt_mult; [|nra|apply slen2_nonneg]. f_equal. replace (k ^ 2) with (Rsqr k) by (unfold Rsqr; ring). apply sqrt_Rsqr_abs.
Qed.
Lemma snormalize_pos k q : 0 < k -> slen2 q <> 0 -> snormalize (sscale k q) = snormalize q.
Proof.
  intros K H. rewrite snormalize_scale. 2:{ rewrite sscale_len2. apply Rmult_integral_contrapositive_currified; [apply pow_nonzero; lra|exact H]. }
  rewrite (snormalize_scale q H), sscale_snorm, sscale_sscale, (Rabs_pos_eq k) by lra. f_equal. assert (P := snorm_pos q H). field. lra.
Qed.
Lemma snormalize_neg q : slen2 q <> 0 -> snormalize (sscale (-1) q) = sscale (-1) (snormalize q).
Proof.
  intros H. rewrite snormalize_scale. 2:{ rewrite sscale_len2. apply Rmult_integral_contrapositive_currified; [apply pow_nonzero; lra|exact H]. }
  rewrite (snormalize_scale q H), sscale_snorm, !sscale_sscale. f_equal. rewrite Rabs_left by lra. assert (P := snorm_pos q H). field. lra.
Qed.
Lemma quat_raw_product a b : scalar_first (quat_raw a b) = product (scalar_first a) (scalar_first b).
Proof.
  destruct a as [a1 a2 a3 a4], b as [b1 b2 b3 b4]. unfold quat_raw, scalar_first, product; cbn. vunfoldg; rnumg. apply mkq_c; ring.
Qed.
Lemma quat_raw_len2 a b : slen2 (quat_raw a b) = slen2 a * slen2 b.
Proof. rewrite !slen2_dot, quat_raw_product. apply product_norm. Qed.
Lemma quat_mult_raw a b : slen2 a <> 0 -> slen2 b <> 0 -> quat_mult a b = quat_raw (snormalize a) (snormalize b).
Proof.
  intros Ha Hb. unfold quat_mult. apply snormalize_id. rewrite quat_raw_len2, !snormalize_unit by assumption. ring.
Qed.
Lemma quat_mult_unit a b : slen2 a <> 0 -> slen2 b <> 0 -> slen2 (quat_mult a b) = 1.
Proof. intros Ha Hb. rewrite quat_mult_raw, quat_raw_len2, !snormalize_unit by assumption. ring. Qed.
Lemma scalar_first_last q : scalar_first (to_scalar_last q) = q.
Proof. destruct q as [w x y z]. reflexivity. Qed.
Lemma turns_sandwich q v : slen2 q = 1 -> turns q v = sandwich_opp (scalar_first q) v.
Proof.
  intros H. assert (E : sx q ^ 2 + sy q ^ 2 + sz q ^ 2 + ss q ^ 2 = 1) by exact H. destruct q as [x y z s], v as [a b c]. cbn in E.
  unfold turns, svec, sandwich_opp, sandwich, conjugate, product, scalar_first; cbn. vunfoldg; rnumg.
  assert (E2 : s * s = 1 - x * x - y * y - z * z) by nra. apply mk3_c; ring [E2].
Qed.
Lemma turns_mult a b v : slen2 a = 1 -> slen2 b = 1 -> turns (quat_mult a b) v = turns a (turns b v).
Proof.
  intros Ha Hb. rewrite quat_mult_raw by lra. rewrite !snormalize_id by assumption.
  rewrite (turns_sandwich (quat_raw a b)) by (rewrite quat_raw_len2; nra). rewrite quat_raw_product, !turns_sandwich by assumption. apply sandwich_opp_product.
Qed.
Lemma conj_len2 q : slen2 (quat_conjugate q) = slen2 q.
Proof. unfold slen2, quat_conjugate; cbn. ring. Qed.
Lemma error_back t c : slen2 t <> 0 -> slen2 c <> 0 -> quat_mult (quat_error t c) c = snormalize t.
Proof.
  intros Ht Hc. unfold quat_error. assert (Hc' : slen2 (quat_conjugate c) <> 0) by (rewrite conj_len2; exact Hc).
  rewrite quat_mult_raw; [|rewrite quat_mult_unit by assumption; lra|exact Hc].
  rewrite (snormalize_id (quat_mult _ _)) by (apply quat_mult_unit; assumption). rewrite quat_mult_raw by assumption.
  apply S4_eq. rewrite !quat_raw_product, product_assoc.
  assert (EC : scalar_first (snormalize (quat_conjugate c)) = conjugate (scalar_first (snormalize c))).
  { rewrite !snormalize_scale by assumption. assert (EN : snorm (quat_conjugate c) = snorm c) by (rewrite !snorm_sqrt, conj_len2; reflexivity). rewrite EN.
    destruct c as [x y z s]. unfold scalar_first, sscale, quat_conjugate, conjugate; cbn. apply mkq_c; ring. }
  rewrite EC, product_conj_l, <- slen2_dot, snormalize_unit by exact Hc. rewrite scaleq_1. apply product_1_r.
Qed.

(** ** axis and angle *)
Lemma unit_div3 (a : v3) : a <> zero3 -> unit3 (div3 a (norm3 a)).
Proof.
  intros N. assert (P := norm3_gt0 a N). assert (Q := norm3_sq a). unfold unit3. destruct a as [x y z].
  set (n := norm3 (mk3 x y z)) in *. clearbody n. vunfold; rnum. replace (x / n * (x / n) + y / n * (y / n) + z / n * (z / n)) with ((x * x + y * y + z * z) / (n * n)) by (field; lra).
  rewrite <- Q. field. lra.
Qed.
Lemma axis_angle_raw axis deg : axis <> zero3 ->
  axis_angle_to_quaternion axis deg = to_scalar_last (axisangle_to_quat (div3 axis (norm3 axis)) (deg * (PI / 180))).
Proof.
  intros N. unfold axis_angle_to_quaternion. cbv zeta. assert (U := unit_div3 axis N). set (u := div3 axis (norm3 axis)) in *. clearbody u.
  rewrite snormalize_id.
  - unfold to_scalar_last, axisangle_to_quat, sradians. destruct u as [a b c]. cbn. vunfoldg; rnumg. f_equal; ring.
  - unfold slen2; cbn. destruct u as [a b c]; cbn. unfold unit3 in U. vunfold; rnum. unfold sradians.
    assert (S1 := sc1 (deg * (PI / 180) / 2)). set (sn := sin _) in *. set (cs := cos _) in *.
    replace ((a * sn) * ((a * sn) * 1) + (b * sn) * ((b * sn) * 1) + (c * sn) * ((c * sn) * 1) + cs * (cs * 1)) with ((a * a + b * b + c * c) * sn ^ 2 + cs ^ 2) by ring. rewrite U. lra.
Qed.
Lemma axis_angle_len axis deg : axis <> zero3 -> slen2 (axis_angle_to_quaternion axis deg) = 1.
Proof. intros N. rewrite axis_angle_raw by exact N. rewrite slen2_dot, scalar_first_last. apply axisangle_unit, unit_div3, N. Qed.
Lemma axis_angle_turns axis deg v : axis <> zero3 ->
  turns (axis_angle_to_quaternion axis deg) v = rodrigues (div3 axis (norm3 axis)) (deg * (PI / 180)) v.
Proof.
  intros N. rewrite turns_sandwich by (apply axis_angle_len; exact N). rewrite axis_angle_raw by exact N. rewrite scalar_first_last.
  apply sandwich_opp_axisangle, unit_div3, N.
Qed.
Lemma clip_id x : -1 <= x <= 1 -> clip x (-1) 1 = x.
Proof. intros H. unfold clip. rewrite Rmax_left, Rmin_left by lra. reflexivity. Qed.
Lemma len2_ss q : slen2 q = 1 -> -1 <= ss q <= 1.
Proof. unfold slen2. intros H. split; nra. Qed.
Lemma rotation_angle_unit q : slen2 q = 1 -> get_rotation_angle q = 2 * acos (ss q).
Proof. intros H. unfold get_rotation_angle. cbv zeta. rewrite snormalize_id by exact H. rewrite clip_id by (apply len2_ss, H). reflexivity. Qed.
Lemma rotation_angle_gen q : slen2 q <> 0 -> 0 <= get_rotation_angle q <= 2 * PI /\ cos (get_rotation_angle q / 2) = ss q / snorm q.
Proof.
  intros H. unfold get_rotation_angle. cbv zeta. assert (U := snormalize_unit q H). assert (B := len2_ss _ U). rewrite clip_id by exact B.
  assert (AB := acos_bound (ss (snormalize q))). split; [lra|]. replace (2 * acos (ss (snormalize q)) / 2) with (acos (ss (snormalize q))) by field.
  rewrite cos_acos by exact B. reflexivity.
Qed.
Lemma rotation_angle_axis axis deg : axis <> zero3 -> 0 <= deg <= 360 -> get_rotation_angle (axis_angle_to_quaternion axis deg) = deg * (PI / 180).
Proof.
  intros N D. rewrite rotation_angle_unit by (apply axis_angle_len; exact N). rewrite axis_angle_raw by exact N. unfold to_scalar_last, axisangle_to_quat. cbn.
  rewrite acos_cos. { lra. } assert (P := PI_RGT_0). split; nra.
Qed.
Lemma acos_abs_bound x : -1 <= x <= 1 -> 0 <= acos (Rabs x) <= PI / 2.
Proof.
  intros H. assert (B := acos_bound (Rabs x)). split; [lra|]. destruct (Rle_dec (acos (Rabs x)) (PI / 2)) as [L|L]; [exact L|exfalso].
  assert (C : cos (acos (Rabs x)) < 0) by (assert (PP := PI_RGT_0); apply cos_lt_0; lra).
  rewrite cos_acos in C by (split; [assert (K := Rabs_pos x); lra|apply Rabs_le; lra]). assert (K := Rabs_pos x). lra.
Qed.
Lemma error_angle_bound q : slen2 q = 1 -> 0 <= error_angle q <= 180.
Proof.
  intros H. assert (B := acos_abs_bound _ (len2_ss q H)). assert (PP := PI_RGT_0). unfold error_angle. set (a := acos _) in *. clearbody a.
  assert (E : 2 * a * 180 / PI = 360 * (a / PI)) by (field; lra). rewrite E.
  assert (0 <= a / PI) by (apply Rmult_le_pos; [lra|left; apply Rinv_0_lt_compat; lra]).
  assert (a / PI <= / 2). { apply (Rmult_le_reg_r PI); [lra|]. unfold Rdiv. rewrite Rmult_assoc, Rinv_l by lra. lra. } lra.
Qed.
Lemma error_angle_opp q : error_angle (sscale (-1) q) = error_angle q.
Proof. unfold error_angle, sscale; cbn. replace (-1 * ss q) with (- ss q) by ring. rewrite Rabs_Ropp. reflexivity. Qed.
Lemma error_angle_axis axis deg : axis <> zero3 ->
  (0 <= deg <= 180 -> error_angle (axis_angle_to_quaternion axis deg) = deg) /\
  (180 <= deg <= 360 -> error_angle (axis_angle_to_quaternion axis deg) = 360 - deg).
Proof.
  intros N. rewrite axis_angle_raw by exact N. unfold error_angle, to_scalar_last, axisangle_to_quat. cbn. assert (PP := PI_RGT_0).
  split; intros D.
  - rewrite Rabs_pos_eq. 2:{ apply cos_ge_0; nra. } rewrite acos_cos by (split; nra). field. lra.
  - rewrite Rabs_left1. 2:{ apply cos_le_0; nra. } rewrite <- Rtrigo_facts.cos_pi_minus. rewrite acos_cos by (split; nra). field. lra.
Qed.
Lemma quat_to_axis_spec q : slen2 q <> 0 ->
  (1 / 10 ^ 6 <= norm3 (svec q) / snorm q -> quat_to_axis q = div3 (svec q) (norm3 (svec q))) /\
  (norm3 (svec q) / snorm q < 1 / 10 ^ 6 -> quat_to_axis q = mk3 1 0 0).
Proof.
  intros H. assert (P := snorm_pos q H). assert (Q := snorm_sq q).
  assert (ES : sqrt (1 - ss (snormalize q) ^ 2) = norm3 (svec q) / snorm q).
  { assert (N3 := norm3_pos (svec q)). apply sqrt_lem_1.
    - assert (U := snormalize_unit q H). apply len2_ss in U. nra.
    - apply Rmult_le_pos; [exact N3|left; apply Rinv_0_lt_compat, P].
    - replace (norm3 (svec q) / snorm q * (norm3 (svec q) / snorm q)) with ((norm3 (svec q) * norm3 (svec q)) / (snorm q * snorm q)) by (field; lra).
      rewrite norm3_sq. unfold snormalize; cbn [ss]. rnumg. cbv zeta. replace (dot3 (svec q) (svec q)) with (snorm q * snorm q - ss q ^ 2).
      + field. lra.
      + rewrite Q. unfold slen2, svec. vunfoldg; rnumg. ring. }
  unfold quat_to_axis. cbv zeta. rewrite ES. split; intros D.
  - replace (Rltb _ _) with false by (symmetry; apply Rltb_false; lra).
    assert (NZ : 0 < norm3 (svec q)). { assert (E : 0 < norm3 (svec q) / snorm q) by lra. assert (L := Rmult_lt_0_compat _ _ E P). unfold Rdiv in L. rewrite Rmult_assoc, Rinv_l in L by lra. lra. }
    unfold snormalize; cbn [sx sy sz]. cbv zeta. rnumg. set (n := norm3 (svec q)) in *. clearbody n. unfold svec. vunfoldg; rnumg. apply mk3_c; field; lra.
  - replace (Rltb _ _) with true by (symmetry; apply Rltb_true; lra). reflexivity.
Qed.
Lemma rotation_sequence_turns a0 a1 a2 o0 o1 o2 : o0 <> zero3 -> o1 <> zero3 -> o2 <> zero3 ->
  slen2 (rotation_sequence (a0, a1, a2) (o0, o1, o2)) = 1 /\
  forall v, turns (rotation_sequence (a0, a1, a2) (o0, o1, o2)) v =
    turns (axis_angle_to_quaternion o2 a2) (turns (axis_angle_to_quaternion o1 a1) (turns (axis_angle_to_quaternion o0 a0) v)).
Proof.
  intros N0 N1 N2. unfold rotation_sequence.
  assert (L0 := axis_angle_len o0 a0 N0). assert (L1 := axis_angle_len o1 a1 N1). assert (L2 := axis_angle_len o2 a2 N2).
  assert (L21 : slen2 (quat_mult (axis_angle_to_quaternion o2 a2) (axis_angle_to_quaternion o1 a1)) = 1) by (apply quat_mult_unit; lra).
  rewrite snormalize_id by (apply quat_mult_unit; lra). split; [apply quat_mult_unit; lra|].
  intros v. rewrite turns_mult by assumption. apply turns_mult; assumption.
Qed.

(** ** the wheel clamp *)
Lemma clamp_R m x : 0 <= m -> clamp m x = Rmax (- m) (Rmin x m).
Proof.
  intros M. unfold clamp, pymax2, pymin2. rnumg. destruct (Rltb m x) eqn:E1; [apply Rltb_true in E1|apply Rltb_false in E1].
  - rewrite Rmin_right by lra. destruct (Rltb (- m) m) eqn:E2; [apply Rltb_true in E2; rewrite Rmax_right by lra; reflexivity|apply Rltb_false in E2; rewrite Rmax_left by lra; reflexivity].
  - rewrite Rmin_left by lra. destruct (Rltb (- m) x) eqn:E2; [apply Rltb_true in E2; rewrite Rmax_right by lra; reflexivity|apply Rltb_false in E2; rewrite Rmax_left by lra; reflexivity].
Qed.
Lemma clamp_cases m x : 0 <= m -> (clamp m x = x /\ - m <= x <= m) \/ (clamp m x = m /\ m < x) \/ (clamp m x = - m /\ x < - m).
Proof.
  intros M. rewrite clamp_R by exact M. destruct (Rle_dec x m) as [A|A].
  - rewrite Rmin_left by exact A. destruct (Rle_dec (- m) x) as [B|B]; [rewrite Rmax_right by exact B; left; lra|rewrite Rmax_left by lra; right; right; lra].
  - rewrite Rmin_right, Rmax_right by lra. right; left; lra.
Qed.
Lemma nsign_pos x : 0 < x -> nsign x = 1.
Proof. intros H. unfold nsign. rnumg. repeat match goal with |- context [Rltb ?a ?b] => destruct (Rltb_spec a b) | |- context [Reqb ?a ?b] => destruct (Reqb_spec a b) end; lra. Qed.
Lemma nsign_neg x : x < 0 -> nsign x = -1.
Proof. intros H. unfold nsign. rnumg. repeat match goal with |- context [Rltb ?a ?b] => destruct (Rltb_spec a b) | |- context [Reqb ?a ?b] => destruct (Reqb_spec a b) end; lra. Qed.
Definition good_wheels (p : Wheels R) : Prop := 0 <= wh_maxT p /\ 0 <= wh_maxS p /\ 0 < wh_J p /\ 0 < wh_dt p.
Lemma wheel_clamp_cases p t s : good_wheels p ->
  (Rabs (s + t * (wh_dt p / wh_J p)) <= wh_maxS p /\ wheel_clamp p t s = clamp (wh_maxT p) t) \/
  (wh_maxS p < Rabs (s + t * (wh_dt p / wh_J p)) /\
   exists sg, (sg = 1 /\ (0 < s \/ s = 0 /\ 0 < t) \/ sg = -1 /\ (s < 0 \/ s = 0 /\ t < 0)) /\
     wheel_clamp p t s = clamp (wh_maxT p) ((sg * wh_maxS p - s) / (wh_dt p / wh_J p))).
Proof.
  intros (HM & HS & HJ & HD). unfold wheel_clamp. cbv zeta. rnumg. replace (s + t / wh_J p * wh_dt p) with (s + t * (wh_dt p / wh_J p)) by (field; lra).
  destruct (Rltb_spec (wh_maxS p) (Rabs (s + t * (wh_dt p / wh_J p)))) as [L|L]; [right|left; split; [lra|reflexivity]]. split; [exact L|].
  assert (EQ : forall sg, (sg * wh_maxS p - s) * wh_J p / wh_dt p = (sg * wh_maxS p - s) / (wh_dt p / wh_J p)) by (intros; field; lra).
  rewrite EQ. destruct (Reqb_spec s 0) as [Z|Z]; cbn [negb].
  - destruct (Rtotal_order t 0) as [T0|[T0|T0]].
    + rewrite (nsign_neg t T0). exists (-1). split; [right; lra|reflexivity].
    + exfalso. subst. rewrite Rmult_0_l, Rplus_0_l, Rabs_R0 in L. lra.
    + rewrite (nsign_pos t T0). exists 1. split; [left; lra|reflexivity].
  - destruct (Rtotal_order s 0) as [T0|[T0|T0]]; [|contradiction|].
    + rewrite (nsign_neg s T0). exists (-1). split; [right; lra|reflexivity].
    + rewrite (nsign_pos s T0). exists 1. split; [left; lra|reflexivity].
Qed.
Lemma Rabs_le_iff a b : Rabs a <= b -> - b <= a <= b.
Proof. intros H. split; [destruct (Rcase_abs a); [rewrite Rabs_left in H by lra; lra|assert (K := Rabs_pos a); lra]|assert (K := Rle_abs a); lra]. Qed.
(** the displacement a clamped torque gives *)
Lemma clamp_disp m K d : 0 <= m -> 0 < K ->
  (clamp m (d / K) * K = d) \/ (clamp m (d / K) * K = m * K /\ m * K < d) \/ (clamp m (d / K) * K = - (m * K) /\ d < - (m * K)).
Proof.
  intros M P. assert (E : d / K * K = d) by (field; lra). destruct (clamp_cases m (d / K) M) as [[-> _]|[[-> L]|[-> L]]].
  - left. exact E.
  - right; left. split; [reflexivity|]. rewrite <- E. apply Rmult_lt_compat_r; assumption.
  - right; right. split; [ring|]. rewrite <- E. replace (- (m * K)) with (- m * K) by ring. apply Rmult_lt_compat_r; assumption.
Qed.
Lemma wheel_next_bound p t s : good_wheels p ->
  Rabs (wheel_next (wh_J p) (wh_dt p) s (wheel_clamp p t s)) <= Rmax (wh_maxS p) (Rabs s - wh_maxT p * wh_dt p / wh_J p).
Proof.
  intros G. assert (G' := G). destruct G' as (HM & HS & HJ & HD). set (K := wh_dt p / wh_J p). assert (KP : 0 < K) by (apply Rmult_lt_0_compat; [exact HD|apply Rinv_0_lt_compat, HJ]).
  replace (wh_maxT p * wh_dt p / wh_J p) with (wh_maxT p * K) by (unfold K; field; lra).
  unfold wheel_next. replace (wheel_clamp p t s * wh_dt p / wh_J p) with (wheel_clamp p t s * K) by (unfold K; field; lra).
  assert (B : forall x, (- wh_maxS p <= x <= wh_maxS p) \/ (0 <= x <= s - wh_maxT p * K) \/ (s + wh_maxT p * K <= x <= 0) -> Rabs x <= Rmax (wh_maxS p) (Rabs s - wh_maxT p * K)).
  { intros x [X|[X|X]].
    - eapply Rle_trans; [apply Rabs_le; exact X|apply Rmax_l].
    - eapply Rle_trans; [|apply Rmax_r]. rewrite (Rabs_pos_eq x) by lra. assert (Q := Rle_abs s). lra.
    - eapply Rle_trans; [|apply Rmax_r]. rewrite (Rabs_left1 x) by lra. assert (Q := Rle_abs (- s)). rewrite Rabs_Ropp in Q. lra. }
  apply B. assert (MK : 0 <= wh_maxT p * K) by (apply Rmult_le_pos; lra).
  destruct (wheel_clamp_cases p t s G) as [[L ->]|(L & sg & SG & ->)]; fold K in L |- *.
  - apply Rabs_le_iff in L. replace (clamp (wh_maxT p) t) with (clamp (wh_maxT p) (t * K / K)) by (f_equal; field; lra). set (d := t * K) in *. clearbody d.
    destruct (clamp_disp (wh_maxT p) K d HM KP) as [->|[[-> D]|[-> D]]]; [lra| |].
    + destruct (Rle_dec (s + wh_maxT p * K) 0); [right; right|left]; lra.
    + destruct (Rle_dec 0 (s - wh_maxT p * K)); [right; left|left]; lra.
  - destruct (clamp_disp (wh_maxT p) K (sg * wh_maxS p - s) HM KP) as [->|[[-> D]|[-> D]]]; destruct SG as [[-> SG]|[-> SG]].
    + left; lra.
    + left; lra.
    + left; lra.
    + right; right; lra.
    + right; left; lra.
    + left; lra.
Qed.
(** a wheel driven through check_torque_vals by a list of commands *)
Fixpoint wheel_run (p : Wheels R) (s : R) (cmds : list R) : R :=
  match cmds with [] => s | t :: cmds => wheel_run p (wheel_next (wh_J p) (wh_dt p) s (wheel_clamp p t s)) cmds end.
Lemma wheel_run_bound p cmds : good_wheels p -> forall s,
  Rabs (wheel_run p s cmds) <= Rmax (wh_maxS p) (Rabs s - INR (length cmds) * (wh_maxT p * wh_dt p / wh_J p)).
Proof.
  intros G. induction cmds as [|t cmds IH]; intros s.
  - cbn. rewrite Rmult_0_l, Rminus_0_r. apply Rmax_r.
  - cbn [wheel_run]. eapply Rle_trans; [apply IH|]. assert (B := wheel_next_bound p t s G). set (d := wh_maxT p * wh_dt p / wh_J p) in *.
    assert (DP : 0 <= d). { destruct G as (HM & HS & HJ & HD). unfold d, Rdiv. apply Rmult_le_pos; [nra|left; apply Rinv_0_lt_compat, HJ]. }
    change (length (t :: cmds)) with (S (length cmds)). rewrite S_INR. assert (N := pos_INR (length cmds)).
    apply Rmax_lub; [apply Rmax_l|]. revert B. unfold Rmax at 1. destruct (Rle_dec (wh_maxS p) (Rabs s - d)) as [L|L]; intros B.
    + eapply Rle_trans; [|apply Rmax_r]. lra.
    + eapply Rle_trans; [|apply Rmax_l]. assert (0 <= INR (length cmds) * d) by (apply Rmult_le_pos; assumption). lra.
Qed.
Lemma zero_next p s : good_wheels p ->
  Rabs (wheel_next (wh_J p) (wh_dt p) s (zero_torque p s)) = Rmax 0 (Rabs s - wh_maxT p * wh_dt p / wh_J p).
Proof.
  intros (HM & HS & HJ & HD). set (K := wh_dt p / wh_J p). assert (KP : 0 < K) by (apply Rmult_lt_0_compat; [exact HD|apply Rinv_0_lt_compat, HJ]).
  replace (wh_maxT p * wh_dt p / wh_J p) with (wh_maxT p * K) by (unfold K; field; lra).
  unfold wheel_next, zero_torque. rnumg. replace (- wh_J p * s / wh_dt p) with (- s / K) by (unfold K; field; lra).
  match goal with |- Rabs (s + ?c * wh_dt p / wh_J p) = _ => replace (c * wh_dt p / wh_J p) with (c * K) by (unfold K; field; lra) end.
  assert (MK : 0 <= wh_maxT p * K) by (apply Rmult_le_pos; lra).
  destruct (clamp_cases (wh_maxT p) (- s / K) HM) as [[E L]|[[E L]|[E L]]]; rewrite E.
  - replace (s + - s / K * K) with 0 by (field; lra). rewrite Rabs_R0. symmetry. apply Rmax_left.
    assert (A : - s = - s / K * K) by (field; lra). rewrite <- Rabs_Ropp. apply Rle_minus. apply Rabs_le. rewrite A. nra.
  - assert (A : wh_maxT p * K < - s). { assert (Q : - s / K * K = - s) by (field; lra). rewrite <- Q. apply Rmult_lt_compat_r; assumption. }
    rewrite (Rabs_left s), Rabs_left, Rmax_right by lra. ring.
  - assert (A : - s < - wh_maxT p * K). { assert (Q : - s / K * K = - s) by (field; lra). rewrite <- Q. apply Rmult_lt_compat_r; assumption. }
    assert (0 < s) by lra. rewrite (Rabs_pos_eq s), Rabs_pos_eq, Rmax_right by lra. ring.
Qed.
Fixpoint zero_run (n : nat) (p : Wheels R) (s : R) : R :=
  match n with O => s | S n => zero_run n p (wheel_next (wh_J p) (wh_dt p) s (zero_torque p s)) end.
Lemma zero_run_abs p n : good_wheels p -> forall s, Rabs (zero_run n p s) = Rmax 0 (Rabs s - INR n * (wh_maxT p * wh_dt p / wh_J p)) \/ (n = 0%nat /\ zero_run n p s = s).
Proof.
  intros G. induction n as [|n IH]; intros s; [right; split; reflexivity|left]. cbn [zero_run]. set (d := wh_maxT p * wh_dt p / wh_J p) in *.
  assert (DP : 0 <= d). { destruct G as (HM & HS & HJ & HD). unfold d, Rdiv. apply Rmult_le_pos; [nra|left; apply Rinv_0_lt_compat, HJ]. }
  assert (Z := zero_next p s G). fold d in Z. rewrite S_INR. assert (N := pos_INR n). assert (NP : 0 <= INR n * d) by (apply Rmult_le_pos; assumption).
  destruct (IH (wheel_next (wh_J p) (wh_dt p) s (zero_torque p s))) as [E|[-> E]].
  - rewrite E, Z. unfold Rmax. destruct (Rle_dec 0 (Rabs s - d)); repeat match goal with |- context [Rle_dec ?a ?b] => destruct (Rle_dec a b) end; lra.
  - rewrite E, Z. cbn [INR]. f_equal. ring.
Qed.
(** ** the array *)
Lemma clamp_all_spec {T} `{Num T} (p : Wheels T) n : forall torque speed vals, (n <= length torque)%nat -> (n <= length speed)%nat -> (n <= length vals)%nat ->
  exists r, clamp_all n p torque speed vals = Ok r /\ length r = length vals /\ skipn n r = skipn n vals /\
    forall i d, (i < n)%nat -> nth i r d = wheel_clamp p (nth i torque d) (nth i speed d).
Proof.
  induction n as [|n IH]; intros torque speed vals H1 H2 H3; [exists vals; cbn; repeat split; try reflexivity; intros; lia|].
  destruct vals as [|v vals]; [cbn in H3; lia|]. destruct torque as [|t torque]; [cbn in H1; lia|]. destruct speed as [|s speed]; [cbn in H2; lia|].
  cbn in H1, H2, H3. destruct (IH torque speed vals) as (r & E & L & S1 & N); try lia.
  cbn [clamp_all]. rewrite E. cbn [rbind]. eexists. split; [reflexivity|]. cbn [length skipn]. split; [rewrite L; reflexivity|]. split; [exact S1|].
  intros i d Hi. destruct i as [|i]; [reflexivity|]. cbn [nth]. apply N. lia.
Qed.
Lemma clamp_all_short {T} `{Num T} (p : Wheels T) n : forall torque speed vals, (n <= length vals)%nat -> (length torque < n)%nat \/ (length speed < n)%nat ->
  clamp_all n p torque speed vals = Raise IndexError.
Proof.
  induction n as [|n IH]; intros torque speed vals H1 H2; [lia|].
  destruct vals as [|v vals]; [cbn in H1; lia|]. cbn [clamp_all]. destruct torque as [|t torque]; [reflexivity|]. destruct speed as [|s speed]; [reflexivity|].
  rewrite IH; [reflexivity|cbn in H1; lia|cbn in H2; lia].
Qed.
