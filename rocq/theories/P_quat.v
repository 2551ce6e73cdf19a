(** * Lemmas about quaternion.py and vector.py over R *)
From Coq Require Import Reals ZArith List Bool Lra Psatz.
From Verif Require Import Num Vec M_vector M_quaternion S_rot.
Local Open Scope R_scope.

Ltac qunfold := unfold metric, xi, xi_mul, error_quat, sandwich_opp, sandwich, product, conjugate,
   q1, qi, qj, qk, rodrigues, ex, ey, ez, unitq, unit3, crossm in *.
Ltac qunfoldg := unfold metric, xi, xi_mul, error_quat, sandwich_opp, sandwich, product, conjugate,
   q1, qi, qj, qk, rodrigues, ex, ey, ez, crossm.
Ltac qring := intros; qunfoldg; cbv [fst snd]; vring.

(** ** Product algebra *)
Lemma product_bilinear : bilinear (product (T:=R)).
Proof. repeat split; qring. Qed.
Lemma product_table : hamilton_table (product (T:=R)).
Proof. repeat split; qring. Qed.
Lemma product_assoc (a b c : quat) : product (product a b) c = product a (product b c).
Proof. qring. Qed.
Lemma product_1_l (a : quat) : product q1 a = a.
Proof. qring. Qed.
Lemma product_1_r (a : quat) : product a q1 = a.
Proof. qring. Qed.
Lemma product_norm (a b : quat) : dotq (product a b) (product a b) = dotq a a * dotq b b.
Proof. qring. Qed.
Lemma conj_invol (a : quat) : conjugate (conjugate a) = a.
Proof. qring. Qed.
Lemma conj_product (a b : quat) : conjugate (product a b) = product (conjugate b) (conjugate a).
Proof. qring. Qed.
Lemma product_conj_r (a : quat) : product a (conjugate a) = scaleq (dotq a a) q1.
Proof. qring. Qed.
Lemma product_conj_l (a : quat) : product (conjugate a) a = scaleq (dotq a a) q1.
Proof. qring. Qed.
Lemma conj_norm (a : quat) : dotq (conjugate a) (conjugate a) = dotq a a.
Proof. qring. Qed.
Lemma scaleq_1 (a : quat) : scaleq 1 a = a.
Proof. vring. Qed.
Lemma scale3_1 (a : v3) : scale3 1 a = a.
Proof. vring. Qed.
Lemma product_noncomm : product qi qj <> product qj qi.
Proof. qunfold; vunfold; rnum. intros E. injection E. lra. Qed.

(** ** sandwich *)
Lemma sandwich_dot (q : quat) (v w : v3) :
  dot3 (sandwich q v) (sandwich q w) = (dotq q q) ^ 2 * dot3 v w.
Proof. qring. Qed.
Lemma sandwich_cross (q : quat) (v w : v3) :
  cross3 (sandwich q v) (sandwich q w) = scale3 (dotq q q) (sandwich q (cross3 v w)).
Proof. qring. Qed.
Lemma sandwich_add (q : quat) (v w : v3) : sandwich q (add3 v w) = add3 (sandwich q v) (sandwich q w).
Proof. qring. Qed.
Lemma sandwich_scale (q : quat) s (v : v3) : sandwich q (scale3 s v) = scale3 s (sandwich q v).
Proof. qring. Qed.

Lemma sandwich_pure (q : quat) (v : v3) :
  product (conjugate q) (product (mkqv 0 v) q) = mkqv 0 (sandwich q v).
Proof. qring. Qed.
Lemma vec_mkqv (s : R) (v : v3) : vec (mkqv s v) = v.
Proof. destruct v; reflexivity. Qed.
Lemma sandwich_product (a b : quat) (v : v3) : sandwich (product a b) v = sandwich b (sandwich a v).
Proof.
  rewrite <- (vec_mkqv 0 (sandwich (product a b) v)), <- (vec_mkqv 0 (sandwich b (sandwich a v))).
  f_equal. rewrite <- !sandwich_pure, conj_product. now rewrite !product_assoc.
Qed.
Lemma sandwich_opp_product (a b : quat) (v : v3) : sandwich_opp (product a b) v = sandwich_opp a (sandwich_opp b v).
Proof. unfold sandwich_opp. rewrite conj_product. apply sandwich_product. Qed.
Lemma sandwich_real (s : R) (v : v3) : sandwich (scaleq s q1) v = scale3 (s ^ 2) v.
Proof. qring. Qed.
Lemma sandwich_inv_l (q : quat) (v : v3) : sandwich_opp q (sandwich q v) = scale3 ((dotq q q) ^ 2) v.
Proof. unfold sandwich_opp. now rewrite <- sandwich_product, product_conj_r, sandwich_real. Qed.
Lemma sandwich_inv_r (q : quat) (v : v3) : sandwich q (sandwich_opp q v) = scale3 ((dotq q q) ^ 2) v.
Proof. unfold sandwich_opp. now rewrite <- sandwich_product, product_conj_l, sandwich_real. Qed.
Lemma sandwich_neg (a : quat) (v : v3) : sandwich (oppq a) v = sandwich a v.
Proof. qring. Qed.
Lemma unit_conj q : unitq q -> unitq (conjugate q).
Proof. unfold unitq; now rewrite conj_norm. Qed.
Lemma sandwich_rigid q : unitq q -> rigid (sandwich q).
Proof.
  unfold unitq; intros H; split; [|split; [|split]]; intros.
  - rewrite sandwich_dot, H; ring.
  - rewrite sandwich_cross, H; apply scale3_1.
  - apply sandwich_add.
  - apply sandwich_scale.
Qed.
Lemma sandwich_opp_rigid q : unitq q -> rigid (sandwich_opp q).
Proof. intros H; apply sandwich_rigid, unit_conj, H. Qed.
Lemma sandwich_opp_sandwich q v : unitq q -> sandwich_opp q (sandwich q v) = v.
Proof. unfold unitq; intros H; rewrite sandwich_inv_l, H, pow1; apply scale3_1. Qed.
Lemma sandwich_sandwich_opp q v : unitq q -> sandwich q (sandwich_opp q v) = v.
Proof. unfold unitq; intros H; rewrite sandwich_inv_r, H, pow1; apply scale3_1. Qed.

(** ** error_quat *)
Lemma error_quat_back q r : unitq r -> product r (error_quat q r) = q.
Proof.
  unfold unitq, error_quat; intros H.
  rewrite <- product_assoc, product_conj_r, H, scaleq_1, product_1_l; reflexivity.
Qed.
Lemma error_quat_id q r : unitq r -> (error_quat q r = q1 <-> q = r).
Proof.
  intros H; split; intros E.
  - rewrite <- (error_quat_back q r H), E, product_1_r; reflexivity.
  - subst; unfold error_quat; rewrite product_conj_l. unfold unitq in H; rewrite H; apply scaleq_1.
Qed.
Lemma error_quat_unit q r : unitq q -> unitq r -> unitq (error_quat q r).
Proof. unfold unitq, error_quat; intros; rewrite product_norm, conj_norm, H, H0; ring. Qed.
Lemma error_quat_metric q r : qw (error_quat q r) = 1 - metric q r.
Proof. qring. Qed.

(** ** axis-angle *)
Lemma cos_half th : cos th = (cos (th/2))^2 - (sin (th/2))^2.
Proof. replace th with (2 * (th/2)) at 1 by lra. rewrite cos_2a; ring. Qed.
Lemma sin_half th : sin th = 2 * sin (th/2) * cos (th/2).
Proof. replace th with (2 * (th/2)) at 1 by lra. apply sin_2a. Qed.
Lemma sc1 x : (sin x)^2 + (cos x)^2 = 1.
Proof. generalize (sin2_cos2 x); unfold Rsqr; simpl; lra. Qed.

Lemma axisangle_unit r th : unit3 r -> unitq (axisangle_to_quat r th).
Proof.
  intros H; unfold unitq, axisangle_to_quat.
  transitivity ((sin (th/2))^2 * dot3 r r + (cos (th/2))^2).
  - vdestruct; vunfold; rnum; ring.
  - rewrite H, Rmult_1_r; apply sc1.
Qed.


Lemma sandwich_opp_expand (c s : R) (r v : v3) :
  sandwich_opp (mkqv c (scale3 s r)) v =
  add3 (add3 (scale3 (c^2 - s^2 * dot3 r r) v) (scale3 (2*s*c) (cross3 r v))) (scale3 (2*s^2 * dot3 r v) r).
Proof. qring. Qed.
Lemma sandwich_opp_axisangle r th v : unit3 r -> sandwich_opp (axisangle_to_quat r th) v = rodrigues r th v.
Proof.
  intros H. unfold rodrigues. rewrite (cos_half th), (sin_half th).
  change (axisangle_to_quat r th) with (mkqv (cos (th/2)) (scale3 (sin (th/2)) r)).
  rewrite sandwich_opp_expand. red in H; rewrite H.
  replace (1 - (cos (th/2) ^ 2 - sin (th/2) ^ 2)) with (2 * (sin (th/2))^2) by (generalize (sc1 (th/2)); lra).
  rewrite Rmult_1_r. reflexivity.
Qed.
Lemma conj_axisangle r th : conjugate (axisangle_to_quat r th) = axisangle_to_quat r (- th).
Proof.
  unfold axisangle_to_quat, conjugate. replace (-th/2) with (-(th/2)) by lra.
  rewrite cos_neg, sin_neg. vring.
Qed.
Lemma sandwich_axisangle r th v : unit3 r -> sandwich (axisangle_to_quat r th) v = rodrigues r (- th) v.
Proof.
  intros H. rewrite <- sandwich_opp_axisangle by assumption.
  rewrite <- conj_axisangle. unfold sandwich_opp. now rewrite conj_invol.
Qed.

(** ** norms and normalize3 *)
Lemma dot3_nonneg (v : v3) : 0 <= dot3 v v.
Proof. vdestruct; vunfold; rnum; nra. Qed.
Lemma dot3_zero (v : v3) : dot3 v v = 0 -> v = zero3.
Proof. vdestruct; vunfold; rnum. intros H. apply mk3_c; nra. Qed.
Lemma norm3_sq (v : v3) : norm3 v * norm3 v = dot3 v v.
Proof. apply sqrt_sqrt, dot3_nonneg. Qed.
Lemma norm3_pos (v : v3) : 0 <= norm3 v.
Proof. apply sqrt_pos. Qed.
Lemma norm3_zero (v : v3) : norm3 v = 0 <-> v = zero3.
Proof.
  split; intros H.
  - apply dot3_zero. rewrite <- norm3_sq, H; ring.
  - subst. vunfold; rnum. match goal with |- sqrt ?x = 0 => replace x with 0 by ring end. apply sqrt_0.
Qed.
Lemma norm3_gt0 (v : v3) : v <> zero3 -> 0 < norm3 v.
Proof. intros H. destruct (norm3_pos v) as [K|K]; [exact K|]. exfalso; apply H, norm3_zero; auto. Qed.
Lemma dotq_nonneg (q : quat) : 0 <= dotq q q.
Proof. vdestruct; vunfold; rnum; nra. Qed.
Definition zeroq : quat := mkq 0 0 0 0.
Lemma dotq_zero (q : quat) : dotq q q = 0 -> q = zeroq.
Proof. unfold zeroq; vdestruct; vunfold; rnum. intros H. apply mkq_c; nra. Qed.
Lemma normq_sq (q : quat) : normq q * normq q = dotq q q.
Proof. apply sqrt_sqrt, dotq_nonneg. Qed.
Lemma normq_zero (v : quat) : normq v = 0 <-> v = zeroq.
Proof.
  split; intros H.
  - apply dotq_zero. rewrite <- normq_sq, H; ring.
  - subst. unfold zeroq; vunfold; rnum. match goal with |- sqrt ?x = 0 => replace x with 0 by ring end. apply sqrt_0.
Qed.
Lemma normq_gt0 (v : quat) : v <> zeroq -> 0 < normq v.
Proof.
  intros H. assert (0 <= normq v) as [K|K] by apply sqrt_pos; [exact K|]. exfalso; apply H, normq_zero; auto. Qed.

Lemma normalize3_nz (v : v3) : v <> zero3 -> normalize3 v = scale3 (/ norm3 v) v.
Proof.
  intros H. unfold normalize3. rnumg. change (sqrt (dot3 v v)) with (norm3 v).
  destruct (Reqb_spec (norm3 v) 0) as [E|E].
  - exfalso; apply H, norm3_zero, E.
  - vdestruct; vunfoldg; rnumg; apply mk3_c; unfold Rdiv; ring.
Qed.
Lemma normalize3_zero : normalize3 (zero3 : v3) = zero3.
Proof.
  unfold normalize3. rnumg.
  destruct (Reqb_spec (norm3 (zero3:v3)) 0) as [E|E]; [reflexivity|].
  exfalso; apply E, norm3_zero; reflexivity.
Qed.
Lemma normalize3_unit (v : v3) : v <> zero3 -> unit3 (normalize3 v).
Proof.
  intros H. rewrite normalize3_nz by assumption. assert (K := norm3_gt0 v H).
  unfold unit3. transitivity (/ norm3 v * / norm3 v * dot3 v v).
  - vdestruct; vunfoldg; rnumg; ring.
  - rewrite <- norm3_sq. field. lra.
Qed.
Lemma normalizeq_nz (v : quat) : v <> zeroq -> normalizeq v = scaleq (/ normq v) v.
Proof.
  intros H. unfold normalizeq. rnumg.
  destruct (Reqb_spec (normq v) 0) as [E|E].
  - exfalso; apply H, normq_zero, E.
  - vdestruct; vunfoldg; rnumg; apply mkq_c; unfold Rdiv; ring.
Qed.
Lemma normalizeq_zero : normalizeq zeroq = zeroq.
Proof.
  unfold normalizeq. rnumg.
  destruct (Reqb_spec (normq zeroq) 0) as [E|E]; [reflexivity|].
  exfalso; apply E, normq_zero; reflexivity.
Qed.
Lemma normalizeq_unit (v : quat) : v <> zeroq -> unitq (normalizeq v).
Proof.
  intros H. rewrite normalizeq_nz by assumption. assert (K := normq_gt0 v H).
  unfold unitq. transitivity (/ normq v * / normq v * dotq v v).
  - vdestruct; vunfoldg; rnumg; ring.
  - rewrite <- normq_sq. field. lra.
Qed.

(** ** Pointing: R_axis_angle *)
Lemma cauchy3 (a b : v3) : (dot3 a b)^2 + dot3 (cross3 a b) (cross3 a b) = dot3 a a * dot3 b b.
Proof. vring. Qed.
Lemma unit_dot_range (a b : v3) : unit3 a -> unit3 b -> -1 <= dot3 a b <= 1.
Proof.
  unfold unit3; intros Ha Hb. assert (K := cauchy3 a b). assert (P := dot3_nonneg (cross3 a b)).
  rewrite Ha, Hb in K. split; nra.
Qed.
Lemma npclip_in x : -1 <= x <= 1 -> npclip x (-1) 1 = x.
Proof. intros [H H']. unfold npclip. rewrite Rmax_left, Rmin_left; lra. Qed.

(** If the dot product of two unit vectors is 1 they are equal, if -1 opposite. *)
Lemma unit_dot_1 (a b : v3) : unit3 a -> unit3 b -> dot3 a b = 1 -> a = b.
Proof.
  unfold unit3; intros Ha Hb H.
  assert (Z : sub3 a b = zero3).
  { apply dot3_zero. transitivity (dot3 a a - 2 * dot3 a b + dot3 b b); [vring|]. lra. }
  vdestruct; vunfold; rnum. injection Z; intros. apply mk3_c; lra.
Qed.
Lemma unit_dot_m1 (a b : v3) : unit3 a -> unit3 b -> dot3 a b = -1 -> b = opp3 a.
Proof.
  unfold unit3; intros Ha Hb H.
  assert (Z : add3 a b = zero3).
  { apply dot3_zero. transitivity (dot3 a a + 2 * dot3 a b + dot3 b b); [vring|]. lra. }
  vdestruct; vunfold; rnum. injection Z; intros. apply mk3_c; lra.
Qed.

Lemma pointing_ok (b p : v3) : unit3 b -> unit3 p -> p <> opp3 b ->
  let q := axisangle_to_quat (fst (R_axis_angle b p)) (snd (R_axis_angle b p)) in
  unitq q /\ sandwich_opp q b = p.
Proof.
  intros Hb Hp Hn. unfold R_axis_angle; cbn [fst snd].
  assert (Hr := unit_dot_range b p Hb Hp). rewrite npclip_in by exact Hr.
  assert (K := cauchy3 b p). rewrite Hb, Hp in K.
  destruct (Req_EM_T (dot3 b p) 1) as [E1|E1].
  - (* same direction: angle 0 *)
    assert (b = p) by (apply unit_dot_1; assumption). subst p.
    assert (Z : cross3 b b = zero3) by vring.
    rewrite Z, normalize3_zero, E1, acos_1.
    unfold axisangle_to_quat. replace (0/2) with 0 by lra. rewrite cos_0, sin_0.
    split; [unfold unitq; vunfold; rnum; ring | qring].
  - assert (dot3 b p <> -1) by (intros E; apply Hn, unit_dot_m1; assumption).
    assert (NZ : cross3 b p <> zero3).
    { intros Z. rewrite Z in K. assert (Z0 : dot3 (zero3:v3) zero3 = 0) by vring. rewrite Z0 in K.
      assert (F : (dot3 b p - 1) * (dot3 b p - (-1)) = 0) by (transitivity (dot3 b p ^ 2 + 0 - 1); [ring|rewrite K; ring]).
      apply Rmult_integral in F; destruct F; lra. }
    split; [apply axisangle_unit, normalize3_unit, NZ|].
    rewrite sandwich_opp_axisangle by (apply normalize3_unit, NZ).
    unfold rodrigues. rewrite cos_acos, sin_acos by lra.
    assert (N : norm3 (cross3 b p) = sqrt (1 - (dot3 b p)²)).
    { change (norm3 (cross3 b p)) with (sqrt (dot3 (cross3 b p) (cross3 b p))). f_equal. unfold Rsqr; lra. }
    rewrite <- N. rewrite normalize3_nz by exact NZ.
    assert (P := norm3_gt0 _ NZ). set (n := norm3 (cross3 b p)) in *. clearbody n.
    red in Hb. 
    assert (T1 : scale3 n (cross3 (scale3 (/ n) (cross3 b p)) b) = sub3 (scale3 (dot3 b b) p) (scale3 (dot3 b p) b)).
    { transitivity (scale3 (n * / n) (cross3 (cross3 b p) b)); [vring|].
      rewrite Rinv_r by lra. vring. }
    assert (T2 : dot3 (scale3 (/ n) (cross3 b p)) b = 0) by vring.
    rewrite T1, T2, Hb. vring.
Qed.

Lemma pointing_antipode (b : v3) : unit3 b ->
  axisangle_to_quat (fst (R_axis_angle b (opp3 b))) (snd (R_axis_angle b (opp3 b))) = mkq 0 0 0 0.
Proof.
  intros Hb. unfold R_axis_angle; cbn [fst snd].
  assert (E : dot3 b (opp3 b) = -1) by (transitivity (- dot3 b b); [vring|rewrite Hb; ring]).
  rewrite E. rewrite npclip_in by lra.
  assert (Z : cross3 b (opp3 b) = zero3) by vring.
  rewrite Z, normalize3_zero. replace (-1) with (-(1)) by ring. rewrite acos_opp, acos_1.
  unfold axisangle_to_quat. replace ((PI - 0)/2) with (PI/2) by lra.
  rewrite cos_PI2. vring.
Qed.

(** ** Euler angles *)
Lemma euler_product RA dec roll :
  eulerangle_to_quat RA dec roll =
  product (product (axisangle_to_quat ez (radians RA)) (axisangle_to_quat ey (radians dec)))
          (axisangle_to_quat ex (radians roll)).
Proof. unfold eulerangle_to_quat, axisangle_to_quat, ex, ey, ez. qring. Qed.
Lemma unit_ex : unit3 ex. Proof. unfold unit3, ex; vunfold; rnum; ring. Qed.
Lemma unit_ey : unit3 ey. Proof. unfold unit3, ey; vunfold; rnum; ring. Qed.
Lemma unit_ez : unit3 ez. Proof. unfold unit3, ez; vunfold; rnum; ring. Qed.
Lemma product_unit a b : unitq a -> unitq b -> unitq (product a b).
Proof. unfold unitq; intros; rewrite product_norm, H, H0; ring. Qed.
Lemma euler_unit RA dec roll : unitq (eulerangle_to_quat RA dec roll).
Proof.
  rewrite euler_product. repeat apply product_unit; apply axisangle_unit;
  [apply unit_ez|apply unit_ey|apply unit_ex].
Qed.
Lemma euler_sandwich RA dec roll v :
  sandwich (eulerangle_to_quat RA dec roll) v =
  rodrigues ex (- radians roll) (rodrigues ey (- radians dec) (rodrigues ez (- radians RA) v)).
Proof.
  rewrite euler_product, !sandwich_product, !sandwich_axisangle;
  auto using unit_ex, unit_ey, unit_ez.
Qed.
Lemma radians_360 x : radians (x + 360) / 2 = radians x / 2 + PI.
Proof. unfold radians; field. Qed.
Lemma euler_360 RA dec roll :
  eulerangle_to_quat (RA + 360) dec roll = oppq (eulerangle_to_quat RA dec roll) /\ eulerangle_to_quat RA (dec + 360) roll = oppq (eulerangle_to_quat RA dec roll) /\ eulerangle_to_quat RA dec (roll + 360) = oppq (eulerangle_to_quat RA dec roll).
Proof.
  unfold eulerangle_to_quat. rewrite !radians_360, !neg_cos, !neg_sin. repeat split; vring.
Qed.

(** ** path_lift *)
Lemma metric_opp q r : metric (oppq q) r = 1 + dotq q r.
Proof. qring. Qed.
Lemma path_lift_cases RA dec roll q_ref :
  path_lift RA dec roll q_ref =
  (if Rltb 0 (dotq (eulerangle_to_quat RA dec roll) q_ref) then eulerangle_to_quat RA dec roll
   else oppq (eulerangle_to_quat RA dec roll)).
Proof.
  unfold path_lift. set (q := eulerangle_to_quat RA dec roll). clearbody q.
  rewrite metric_opp. unfold metric; rnumg.
  destruct (Rltb_spec (1 - dotq q q_ref) (1 + dotq q q_ref)), (Rltb_spec 0 (dotq q q_ref)); try reflexivity; exfalso; lra.
Qed.
