(** * Lemmas: how the error quaternion of the simulation moves, and a slew about one axis *)
From Coq Require Import Reals List Bool Lra Psatz Lia.
From Verif Require Import Num Vec Mat6 M_vector M_quaternion M_struct M_sim M_lqr S_rot S_sim S_obs S_lqr P_quat P_sim P_wheel P_obs P_lqr.
Local Open Scope R_scope.

Lemma dlim_ext f g t d : (forall t, f t = g t) -> derivable_pt_lim f t d -> derivable_pt_lim g t d.
Proof. intros E D e He. destruct (D e He) as (dl & H). exists dl. intros h Hh Hl. rewrite <- !E. apply H; assumption. Qed.
Lemma dlim_lin4 f1 f2 f3 f4 t d1 d2 d3 d4 a b c e : derivable_pt_lim f1 t d1 -> derivable_pt_lim f2 t d2 -> derivable_pt_lim f3 t d3 -> derivable_pt_lim f4 t d4 ->
  derivable_pt_lim (fun t => a * f1 t + b * f2 t + c * f3 t + e * f4 t) t (a * d1 + b * d2 + c * d3 + e * d4).
Proof.
  intros D1 D2 D3 D4.
  assert (S : forall f k d, derivable_pt_lim f t d -> derivable_pt_lim (fun t => k * f t) t (k * d)) by (intros f k d D; apply (derivable_pt_lim_scal f); exact D).
  assert (P : forall f g d d', derivable_pt_lim f t d -> derivable_pt_lim g t d' -> derivable_pt_lim (fun t => f t + g t) t (d + d')) by (intros f g d d' D D'; apply (derivable_pt_lim_plus f g); assumption).
  apply P; [apply P; [apply P|]|]; apply S; assumption.
Qed.
Lemma quat_error_raw tg q : slen2 tg = 1 -> slen2 q = 1 -> quat_error tg q = quat_raw tg (quat_conjugate q).
Proof. intros T Q. unfold quat_error. rewrite quat_mult_raw by (rewrite ?conj_len2; lra). rewrite !snormalize_id by (rewrite ?conj_len2; assumption). reflexivity. Qed.
Lemma error_rate tg (q : R -> S4 R) t w : slen2 tg = 1 -> (forall t, slen2 (q t) = 1) -> turning q t w ->
  let err := quat_error tg (q t) in let W := turns (q t) w in
  deriv3 (fun t => svec (quat_error tg (q t))) t (scale3 (- (1 / 2)) (add3 (scale3 (ss err) W) (cross3 (svec err) W))) /\
  derivable_pt_lim (fun t => ss (quat_error tg (q t))) t (dot3 (svec err) W / 2).
Proof.
  intros UT UQ [(D1 & D2 & D3) D4]. cbv zeta. assert (U := UQ t).
  assert (E : forall t, quat_error tg (q t) = quat_raw tg (quat_conjugate (q t))) by (intros s; apply quat_error_raw; [exact UT|apply UQ]).
  rewrite E. unfold svec in D1, D2, D3. cbn [x3 y3 z3] in D1, D2, D3.
  destruct tg as [a b c d]. destruct w as [w1 w2 w3].
  assert (X : forall p1 p2 p3 p4 (g : R -> R), (forall t, p1 * sx (q t) + p2 * sy (q t) + p3 * sz (q t) + p4 * ss (q t) = g t) -> forall e,
     p1 * (1 / 2 * (ss (q t) * w1 + (sy (q t) * w3 - sz (q t) * w2))) + p2 * (1 / 2 * (ss (q t) * w2 + (sz (q t) * w1 - sx (q t) * w3)))
     + p3 * (1 / 2 * (ss (q t) * w3 + (sx (q t) * w2 - sy (q t) * w1))) + p4 * (- ((sx (q t) * w1 + sy (q t) * w2 + sz (q t) * w3) / 2)) = e -> derivable_pt_lim g t e).
  { intros p1 p2 p3 p4 g Hg e He. rewrite <- He. apply (dlim_ext _ g t _ Hg). apply dlim_lin4; [exact D1|exact D2|exact D3|exact D4]. }
  assert (M : forall r l, r = (sx (q t) ^ 2 + sy (q t) ^ 2 + sz (q t) ^ 2 + ss (q t) ^ 2) * l -> l = r) by (intros r l ->; unfold slen2 in U; rewrite U; ring).
  assert (TU : turns (q t) (mk3 w1 w2 w3) = add3 (scale3 (slen2 (q t)) (mk3 w1 w2 w3)) (scale3 2 (add3 (scale3 (ss (q t)) (cross3 (svec (q t)) (mk3 w1 w2 w3))) (cross3 (svec (q t)) (cross3 (svec (q t)) (mk3 w1 w2 w3)))))).
  { unfold turns. rewrite U. f_equal. vring. }
  rewrite TU. unfold slen2.
  split; [split; [|split]|].
  - apply (X (- d) (c) (- b) a).
    + intros s. rewrite E. unfold quat_raw, quat_conjugate, svec; cbn. rnumg. ring.
    + apply M. unfold quat_raw, quat_conjugate, svec; cbn. vunfoldg; cbn; rnumg. field.
  - apply (X (- c) (- d) a b).
    + intros s. rewrite E. unfold quat_raw, quat_conjugate, svec; cbn. rnumg. ring.
    + apply M. unfold quat_raw, quat_conjugate, svec; cbn. vunfoldg; cbn; rnumg. field.
  - apply (X b (- a) (- d) c).
    + intros s. rewrite E. unfold quat_raw, quat_conjugate, svec; cbn. rnumg. ring.
    + apply M. unfold quat_raw, quat_conjugate, svec; cbn. vunfoldg; cbn; rnumg. field.
  - apply (X a b c d).
    + intros s. rewrite E. unfold quat_raw, quat_conjugate, svec; cbn. rnumg. ring.
    + apply M. unfold quat_raw, quat_conjugate, svec; cbn. vunfoldg; cbn; rnumg. field.
Qed.

Lemma unit_nz (n : v3) : unit3 n -> n <> zero3.
Proof. intros U ->. revert U. unfold unit3. vunfoldg; rnumg. intros; lra. Qed.
Lemma unit_div (n : v3) : unit3 n -> div3 n (norm3 n) = n.
Proof. intros U. unfold norm3. rnumg. rewrite U, sqrt_1. destruct n as [a b c]. vunfoldg; rnumg. apply mk3_c; field. Qed.
Lemma same_axis n a b : unit3 n ->
  svec (quat_error (axis_angle_to_quaternion n a) (axis_angle_to_quaternion n b)) = scale3 (sin ((a - b) * (PI / 180) / 2)) n /\
  ss (quat_error (axis_angle_to_quaternion n a) (axis_angle_to_quaternion n b)) = cos ((a - b) * (PI / 180) / 2).
Proof.
  intros U. assert (N := unit_nz n U). rewrite quat_error_raw by (apply axis_angle_len, N). rewrite !axis_angle_raw, unit_div by assumption.
  replace ((a - b) * (PI / 180) / 2) with (a * (PI / 180) / 2 - b * (PI / 180) / 2) by field. rewrite sin_minus, cos_minus.
  unfold quat_raw, quat_conjugate, to_scalar_last, axisangle_to_quat, svec. cbn.
  set (sa := sin (a * (PI / 180) / 2)). set (ca := cos (a * (PI / 180) / 2)). set (sb := sin (b * (PI / 180) / 2)). set (cb := cos (b * (PI / 180) / 2)).
  unfold unit3 in U. destruct n as [x y z]. vunfold; cbn in *; rnum. split; [apply mk3_c; ring|].
  replace (ca * cb + sa * sb) with (ca * cb + sa * sb * (x * x + y * y + z * z)) by (rewrite U; ring). ring.
Qed.

(** ** nadir pointing *)
Lemma from_rotvec_eq th n : unit3 n -> 0 < th -> from_rotvec (scale3 th n) = mks (sin (th / 2) * x3 n) (sin (th / 2) * y3 n) (sin (th / 2) * z3 n) (cos (th / 2)).
Proof.
  intros U H. assert (E : norm3 (scale3 th n) = th).
  { unfold norm3. rnumg. apply sqrt_lem_1; [apply dot3_nonneg|lra|]. unfold unit3 in U. assert (X : dot3 (scale3 th n) (scale3 th n) = th * th * dot3 n n) by vring. rewrite X, U. ring. }
  unfold from_rotvec. rewrite E. cbv zeta. destruct (Reqb_spec th 0) as [Z|Z]; [lra|]. destruct n as [a b c]. cbn. rnumg. f_equal; field; exact Z.
Qed.
Lemma rot_turns (th : R) (n v : v3) : unit3 n -> let q := mks (sin (th / 2) * x3 n) (sin (th / 2) * y3 n) (sin (th / 2) * z3 n) (cos (th / 2)) in
  slen2 q = 1 /\ turns q v = rodrigues n th v.
Proof.
  intros U q. assert (S1 := sc1 (th / 2)). assert (L : slen2 q = 1).
  { unfold q, slen2; cbn. unfold unit3 in U. destruct n as [a b c]. vunfold; cbn in *; rnum. set (s := sin (th / 2)) in *. set (g := cos (th / 2)) in *.
    replace (s * a * (s * a * 1) + s * b * (s * b * 1) + s * c * (s * c * 1) + g * (g * 1)) with (s ^ 2 * (a * a + b * b + c * c) + g ^ 2) by ring. rewrite U. lra. }
  split; [exact L|]. rewrite turns_sandwich by exact L. rewrite <- sandwich_opp_axisangle by exact U. destruct n as [a b c]. reflexivity.
Qed.
Lemma cross_len (b r : v3) : unit3 b -> unit3 r -> norm3 (cross3 b r) ^ 2 = 1 - dot3 b r ^ 2.
Proof. intros B Rr. assert (C := cauchy3 b r). rewrite B, Rr in C. assert (Q := norm3_sq (cross3 b r)). lra. Qed.
Definition near (a b : v3) (d : R) : Prop := norm3 (sub3 a b) <= d.
Lemma close_unit (b r : v3) h : unit3 b -> unit3 r -> 0 <= h -> norm3 (cross3 b r) <= h -> 0 <= dot3 b r -> norm3 (sub3 b r) <= 2 * h.
Proof.
  intros B Rr Hh Hc Hd. assert (C := cross_len b r B Rr). assert (D := unit_dot_range b r B Rr). assert (N := norm3_pos (cross3 b r)).
  assert (E : dot3 (sub3 b r) (sub3 b r) = 2 - 2 * dot3 b r). { assert (X : dot3 (sub3 b r) (sub3 b r) = dot3 b b + dot3 r r - 2 * dot3 b r) by vring. rewrite X, B, Rr. ring. }
  assert (F : dot3 (sub3 b r) (sub3 b r) <= (2 * h) ^ 2) by nra. unfold norm3. rnumg. rewrite <- (sqrt_pow2 (2 * h)) by lra. apply sqrt_le_1_alt. exact F.
Qed.
Lemma unit_opp (a : v3) : unit3 a -> unit3 (opp3 a).
Proof. unfold unit3. intros H. rewrite <- H. vring. Qed.
Lemma perp_nz (b : v3) : unit3 b -> cross3 b (if Rltb (Rabs (x3 b)) 0.9 then mk3 1 0 0 else mk3 0 1 0) <> zero3.
Proof.
  intros U H. unfold unit3 in U. destruct b as [x y z]. cbn [x3] in H. destruct (Rltb_spec (Rabs x) 0.9) as [L|L]; revert H U; vunfoldg; rnumg; intros H U; apply mk3_inj in H; destruct H as (H1 & H2 & H3).
  - assert (y = 0) by lra. assert (z = 0) by lra. subst. assert (Rabs x = 1). { assert (x * x = 1) by lra. unfold Rabs in *; destruct (Rcase_abs x); nra. } lra.
  - assert (x = 0) by lra. subst. rewrite Rabs_R0 in L. lra.
Qed.
Lemma nadir_spec r body : r <> zero3 -> body <> zero3 ->
  let q := nadir_quaternion r body in let rh := scale3 (- / norm3 r) r in let bh := scale3 (/ norm3 body) body in
  slen2 q = 1 /\ norm3 (sub3 (turns q bh) rh) <= 2 / 10 ^ 8 /\ (1 / 10 ^ 8 <= norm3 (cross3 bh rh) -> turns q bh = rh /\ get_rotation_angle q = acos (dot3 bh rh)).
Proof.
  intros NR NB q rh bh. unfold q, nadir_quaternion. cbv zeta.
  assert (RP := norm3_gt0 r NR). assert (BP := norm3_gt0 body NB).
  assert (Erh : div3 (opp3 r) (norm3 r) = rh). { unfold rh. set (k := norm3 r) in *. clearbody k. destruct r as [x y z]. vunfoldg; rnumg. apply mk3_c; field; lra. }
  assert (Ebh : div3 body (norm3 body) = bh). { unfold bh. set (k := norm3 body) in *. clearbody k. destruct body as [x y z]. vunfoldg; rnumg. apply mk3_c; field; lra. }
  assert (UB : unit3 bh) by (rewrite <- Ebh; apply unit_div3, NB).
  assert (UR : unit3 rh).
  { assert (UA := unit_div3 r NR). unfold unit3 in *. rewrite <- UA. unfold rh. set (k := norm3 r) in *. clearbody k. destruct r as [x y z]. vunfoldg; rnumg. field. lra. }
  rewrite Erh, Ebh. clear Erh Ebh. clearbody rh bh. clear q r body NR NB RP BP.
  assert (C := cross_len bh rh UB UR). assert (D := unit_dot_range bh rh UB UR). assert (NN := norm3_pos (cross3 bh rh)).
  destruct (Rltb_spec (norm3 (cross3 bh rh)) (1 / 10 ^ 8)) as [L|L].
  - assert (HN : ~ 1 / 10 ^ 8 <= norm3 (cross3 bh rh)) by lra.
    destruct (Rltb_spec 0 (dot3 bh rh)) as [LD|LD].
    + split; [unfold slen2; cbn; ring|]. split; [|intros X; contradiction].
      assert (TI : turns (mks 0 0 0 1) bh = bh) by (unfold turns, svec; cbn; destruct bh as [x y z]; vunfoldg; rnumg; apply mk3_c; ring). rewrite TI.
      replace (2 / 10 ^ 8) with (2 * (1 / 10 ^ 8)) by field. apply close_unit; try assumption; lra.
    + assert (PN := perp_nz bh UB). set (ax := if Rltb (Rabs (x3 bh)) 0.9 then mk3 1 0 0 else mk3 0 1 0) in *. assert (UN := unit_div3 _ PN). set (n := div3 (cross3 bh ax) (norm3 (cross3 bh ax))) in *.
      assert (PB : dot3 n bh = 0).
      { unfold n. set (k := norm3 (cross3 bh ax)). clearbody k ax. destruct bh as [x y z], ax as [a b c]. vunfoldg; rnumg. unfold Rdiv. ring. }
      clearbody n. assert (RT := rot_turns PI n bh UN). cbv zeta in RT.
      replace (mks (x3 n * sin (PI / 2)) (y3 n * sin (PI / 2)) (z3 n * sin (PI / 2)) (cos (PI / 2))) with (mks (sin (PI / 2) * x3 n) (sin (PI / 2) * y3 n) (sin (PI / 2) * z3 n) (cos (PI / 2))) by (f_equal; ring).
      destruct RT as [RT1 RT2]. split; [exact RT1|]. split; [|intros X; contradiction]. rewrite RT2.
      assert (ER : rodrigues n PI bh = opp3 bh).
      { unfold rodrigues. rewrite cos_PI, sin_PI, PB. destruct n as [a b c], bh as [x y z]. vunfoldg; rnumg. apply mk3_c; ring. }
      rewrite ER. replace (2 / 10 ^ 8) with (2 * (1 / 10 ^ 8)) by field. apply close_unit; [apply unit_opp, UB|exact UR|lra| |].
      * assert (X : norm3 (cross3 (opp3 bh) rh) = norm3 (cross3 bh rh)) by (unfold norm3; f_equal; vring). rewrite X. lra.
      * assert (X : dot3 (opp3 bh) rh = - dot3 bh rh) by vring. rewrite X. lra.
  - assert (CN : cross3 bh rh <> zero3) by (intros Z; apply norm3_zero in Z; lra). assert (UN := unit_div3 _ CN). rewrite clip_id by exact D.
    assert (DS : dot3 bh rh < 1) by nra. assert (AB := acos_bound (dot3 bh rh)). assert (CA := cos_acos (dot3 bh rh) D).
    assert (AP : 0 < acos (dot3 bh rh)). { destruct (Rle_lt_or_eq_dec 0 (acos (dot3 bh rh)) (proj1 AB)) as [P|E]; [exact P|]. rewrite <- E, cos_0 in CA. lra. }
    assert (SA : sin (acos (dot3 bh rh)) = norm3 (cross3 bh rh)).
    { rewrite sin_acos by exact D. apply sqrt_lem_1; [unfold Rsqr; nra|exact NN|]. unfold Rsqr. nra. }
    rewrite from_rotvec_eq by assumption. assert (RT := rot_turns (acos (dot3 bh rh)) _ bh UN). cbv zeta in RT.
    set (q := mks _ _ _ _) in *. destruct RT as [RT1 RT2].
    assert (ER : turns q bh = rh).
    { rewrite RT2. unfold rodrigues. rewrite CA, SA. set (k := norm3 (cross3 bh rh)) in *. assert (KP : 0 < k) by lra. clearbody k. clear - UB KP. unfold unit3 in UB. destruct bh as [x y z], rh as [a b c]. vunfold; rnum.
      assert (F : forall g l, l = g * (x * x + y * y + z * z) -> l = g) by (intros g l ->; rewrite UB; ring).
      apply mk3_c; apply F; field; lra. }
    split; [exact RT1|]. rewrite ER. assert (Z : sub3 rh rh = zero3) by apply sub3_self. rewrite Z.
    split; [unfold norm3, zero3, dot3; cbn; rnumg; rewrite Rmult_0_r, !Rplus_0_r, sqrt_0; lra|]. intros _. split; [reflexivity|].
    rewrite rotation_angle_unit by exact RT1. unfold q. cbn [ss]. rewrite acos_cos by lra. field.
Qed.

(** ** wheel torques *)
Lemma reaction_map axes y : reaction axes (map (fun a => - dot3 a y) axes) = mv (g_gram axes) y.
Proof.
  induction axes as [|a axes IH]; [cbn [reaction map g_gram fold_right]; rewrite mv_zerom; reflexivity|].
  cbn [reaction map g_gram fold_right]. fold (g_gram axes). rewrite IH, mv_addm. set (g := mv (g_gram axes) y). clearbody g. vring.
Qed.
Lemma reaction_convert axes tau : det3 (g_gram axes) <> 0 -> reaction axes (convert_torque_to_wheels axes tau) = tau.
Proof. intros D. unfold convert_torque_to_wheels. rewrite reaction_map. apply mv_inv3, D. Qed.
Fixpoint inner (a b : list R) : R := match a, b with x :: a, y :: b => x * y + inner a b | _, _ => 0 end.
Lemma inner_reaction axes y : forall u, length u = length axes -> inner (map (fun a => - dot3 a y) axes) u = dot3 y (reaction axes u).
Proof.
  induction axes as [|a axes IH]; intros [|x u] L; try discriminate; [cbn [map inner reaction]; assert (Z : dot3 y zero3 = 0) by vring; lra|].
  cbn [map inner reaction]. rewrite IH by (cbn in L; lia). set (g := reaction axes u). clearbody g. vring.
Qed.
Lemma inner_sq a : forall b, length a = length b -> 2 * inner a b <= fold_right (fun x s => x ^ 2 + s) 0 a + fold_right (fun x s => x ^ 2 + s) 0 b.
Proof.
  induction a as [|x a IH]; intros [|y b] L; try discriminate; cbn [inner fold_right]; [lra|]. assert (H := IH b ltac:(cbn in L; lia)). assert (Q := pow2_ge_0 (x - y)). nra.
Qed.
Lemma inner_self a : inner a a = fold_right (fun x s => x ^ 2 + s) 0 a.
Proof. induction a as [|x a IH]; cbn [inner fold_right]; [reflexivity|]. rewrite IH. ring. Qed.
Lemma convert_least axes tau u : det3 (g_gram axes) <> 0 -> length u = length axes -> reaction axes u = tau ->
  fold_right (fun x s => x ^ 2 + s) 0 (convert_torque_to_wheels axes tau) <= fold_right (fun x s => x ^ 2 + s) 0 u.
Proof.
  intros D L E. set (y := mv (inv3 (g_gram axes)) tau). assert (LC : length (convert_torque_to_wheels axes tau) = length axes) by apply map_length.
  assert (I1 : inner (convert_torque_to_wheels axes tau) u = dot3 y tau) by (unfold convert_torque_to_wheels; rewrite inner_reaction, E by exact L; reflexivity).
  assert (I2 : inner (convert_torque_to_wheels axes tau) (convert_torque_to_wheels axes tau) = dot3 y tau).
  { unfold convert_torque_to_wheels at 1. rewrite inner_reaction by exact LC. rewrite reaction_convert by exact D. reflexivity. }
  assert (H := inner_sq (convert_torque_to_wheels axes tau) u ltac:(congruence)). rewrite inner_self in I2. lra.
Qed.
Lemma sim_gram : g_gram sim_wheels = diag3 (4 * g_xy ^ 2) (4 * g_xy ^ 2) (4 * g_z ^ 2).
Proof. unfold g_gram, sim_wheels. cbn [fold_right]. vunfoldg; rnumg. apply mkm_c; apply mk3_c; ring. Qed.
Lemma g_z_half : g_z = 1 / 2.
Proof. unfold g_z. replace (60 * PI / 180) with (PI / 3) by field. rewrite cos_PI3. reflexivity. Qed.
Lemma g_xy_pos : 0 < g_xy.
Proof. unfold g_xy. assert (P := PI_RGT_0). apply cos_gt_0; lra. Qed.
Lemma sim_det : det3 (g_gram sim_wheels) <> 0.
Proof.
  rewrite sim_gram. assert (P := g_xy_pos). assert (Z := g_z_half). vunfoldg; rnumg. rewrite Z. apply Rgt_not_eq.
  assert (0 < g_xy ^ 2) by nra. set (g := g_xy ^ 2) in *. clearbody g. nra.
Qed.
Lemma sim_convert a b c : convert_torque_to_wheels sim_wheels (mk3 a b c) =
  cons (- (a + b) / (4 * g_xy) + c / 2) (cons (- (a - b) / (4 * g_xy) + c / 2) (cons ((a + b) / (4 * g_xy) + c / 2) (cons ((a - b) / (4 * g_xy) + c / 2) nil))).
Proof.
  assert (P := g_xy_pos). assert (Z := g_z_half). unfold convert_torque_to_wheels. rewrite sim_gram.
  assert (E : mv (inv3 (diag3 (4 * g_xy ^ 2) (4 * g_xy ^ 2) (4 * g_z ^ 2))) (mk3 a b c) = mk3 (a / (4 * g_xy ^ 2)) (b / (4 * g_xy ^ 2)) (c / (4 * g_z ^ 2))).
  { vunfoldg; rnumg. rewrite Z. apply mk3_c; field; lra. }
  rewrite E. unfold sim_wheels. cbn [map]. rewrite Z. unfold dot3. cbn [x3 y3 z3]. rnumg. repeat (apply f_equal2; [field; lra|]). reflexivity.
Qed.
