(** * Remaining lemmas for vector.py / quaternion.py statements *)
From Coq Require Import Reals ZArith List Bool Lra Psatz.
From Verif Require Import Num Vec M_vector M_quaternion S_rot P_quat P_sat P_equat.
Import ListNotations.
Local Open Scope R_scope.

Lemma C01_lemma :
  bilinear (product (T:=R)) /\ hamilton_table (product (T:=R)) /\
  (forall a b c : quat, product (product a b) c = product a (product b c)) /\
  (forall a : quat, product q1 a = a /\ product a q1 = a) /\
  (forall a b : quat, dotq (product a b) (product a b) = dotq a a * dotq b b) /\
  (forall a : quat, conjugate (conjugate a) = a) /\
  (forall a b : quat, conjugate (product a b) = product (conjugate b) (conjugate a)) /\
  (forall a : quat, product a (conjugate a) = mkq (dotq a a) 0 0 0 /\ product (conjugate a) a = mkq (dotq a a) 0 0 0) /\
  (exists a b : quat, product a b <> product b a).
Proof.
  split; [apply product_bilinear|]. split; [apply product_table|].
  split; [apply product_assoc|]. split; [intros; split; [apply product_1_l|apply product_1_r]|].
  split; [apply product_norm|]. split; [apply conj_invol|]. split; [apply conj_product|].
  split; [intros a; split; qring|]. exists qi, qj. apply product_noncomm.
Qed.

(** Uniqueness: the table and bilinearity leave no freedom. *)
Lemma hamilton_unique f : bilinear f -> hamilton_table f -> (forall a, f q1 a = a /\ f a q1 = a) ->
  forall a b, f a b = product a b.
Proof.
  intros [B1 [B2 [B3 B4]]] (T1 & T2 & T3 & T4 & T5 & T6 & T7 & T8 & T9) I a b.
  assert (D : forall q : quat, q = addq (addq (scaleq (qw q) q1) (scaleq (qx q) qi)) (addq (scaleq (qy q) qj) (scaleq (qz q) qk))) by qring.
  rewrite (D a), (D b). rewrite !B1, !B2, !B3, !B4.
  rewrite !(proj1 (I _)), !(proj2 (I _)), T1, T2, T3, T4, T5, T6, T7, T8, T9.
  destruct a, b. qring.
Qed.

Lemma C02_lemma : forall q : quat, unitq q ->
  rigid (sandwich q) /\ rigid (sandwich_opp q) /\
  (forall v, sandwich_opp q (sandwich q v) = v /\ sandwich q (sandwich_opp q v) = v) /\
  (forall p v, sandwich (product q p) v = sandwich p (sandwich q v)) /\
  (forall v, sandwich (oppq q) v = sandwich q v).
Proof.
  intros q H. split; [apply sandwich_rigid, H|]. split; [apply sandwich_opp_rigid, H|].
  split; [intros; split; [apply sandwich_opp_sandwich, H|apply sandwich_sandwich_opp, H]|].
  split; [intros; apply sandwich_product|intros; apply sandwich_neg].
Qed.
Lemma sandwich_scaled : forall (q : quat) v w, dot3 (sandwich q v) (sandwich q w) = (dotq q q)^2 * dot3 v w.
Proof. apply sandwich_dot. Qed.

Lemma C06_lemma RA dec roll (q_ref : quat) :
  let q := eulerangle_to_quat RA dec roll in
  let r := path_lift RA dec roll q_ref in
  (r = q \/ r = oppq q) /\ (forall v, sandwich r v = sandwich q v) /\
  0 <= dotq r q_ref /\ metric r q_ref <= metric q q_ref /\ metric r q_ref <= metric (oppq q) q_ref /\
  (dotq q q_ref = 0 -> r = oppq q).
Proof.
  cbv zeta. rewrite path_lift_cases. set (q := eulerangle_to_quat RA dec roll). clearbody q.
  assert (Ho : dotq (oppq q) q_ref = - dotq q q_ref) by vring.
  assert (Hm : forall p : quat, metric p q_ref = 1 - dotq p q_ref) by (intros; qring).
  rewrite !Hm, Ho.
  destruct (Rltb_spec 0 (dotq q q_ref)) as [H|H].
  - repeat split; auto; try lra.
  - repeat split; auto; try (rewrite ?Ho; lra). intros; apply sandwich_neg.
Qed.

Lemma C07_lemma :
  (forall (q : quat) v, xi_mul (xi q) v = product q (mkq 0 (x3 v) (y3 v) (z3 v))) /\
  (forall v w : v3, mv (crossm v) w = cross3 v w) /\
  (forall v : v3, tr3 (crossm v) = scalem (-1) (crossm v)) /\
  (forall v : v3, mm (crossm v) (crossm v) = subm (outer3 v v) (scalem (dot3 v v) id3)).
Proof. repeat split; qring. Qed.

Lemma normalize3_list (v : v3) : l3 (normalize3 v) = normalize (l3 v).
Proof.
  unfold normalize3, normalize. rnumg. rewrite norml_eq.
  replace (sumsq (l3 v)) with (dot3 v v) by (unfold sumsq, l3; simpl; unfold dot3; rnumg; ring).
  change (sqrt (dot3 v v)) with (norm3 v).
  destruct (Reqb_spec (norm3 v) 0); reflexivity.
Qed.
Lemma normalizeq_list (v : quat) : lq (normalizeq v) = normalize (lq v).
Proof.
  unfold normalizeq, normalize. rnumg. rewrite norml_eq.
  replace (sumsq (lq v)) with (dotq v v) by (unfold sumsq, lq; simpl; unfold dotq; rnumg; ring).
  change (sqrt (dotq v v)) with (normq v).
  destruct (Reqb_spec (normq v) 0); reflexivity.
Qed.
Lemma norm3_opp (v : v3) : norm3 (opp3 v) = norm3 v.
Proof. unfold norm3. f_equal. vring. Qed.
Lemma normalize3_opp (v : v3) : normalize3 (opp3 v) = opp3 (normalize3 v).
Proof.
  unfold normalize3. rnumg. rewrite norm3_opp. destruct (Reqb_spec (norm3 v) 0); [reflexivity|].
  destruct v as [a b c]; unfold div3, opp3; rnumg; cbn [x3 y3 z3]; apply mk3_c; field; assumption.
Qed.
Lemma C10_pointing (p t : v3) :
  pointing_vector t p = opp3 (pointing_vector p t) /\
  (p <> t -> unit3 (pointing_vector p t) /\ exists k, 0 < k /\ t = add3 p (scale3 k (pointing_vector p t))) /\
  pointing_vector p p = zero3.
Proof.
  unfold pointing_vector. split; [|split].
  - rewrite <- normalize3_opp. f_equal. vring.
  - intros N. assert (NZ : sub3 t p <> zero3).
    { intros E. apply N. vdestruct; vunfold; rnum. injection E; intros; apply mk3_c; lra. }
    split; [apply normalize3_unit, NZ|].
    exists (norm3 (sub3 t p)). assert (P := norm3_gt0 _ NZ). split; [exact P|].
    rewrite normalize3_nz by exact NZ.
    transitivity (add3 p (scale3 (norm3 (sub3 t p) * / norm3 (sub3 t p)) (sub3 t p))).
    + rewrite Rinv_r by lra. vring.
    + set (n := norm3 (sub3 t p)). vring.
  - replace (sub3 p p) with (zero3 : v3) by vring. apply normalize3_zero.
Qed.
Lemma pointing_antipode_bad : forall boresight, unit3 boresight ->
  let (axis, angle) := R_axis_angle boresight (opp3 boresight) in
  axisangle_to_quat axis angle = mkq 0 0 0 0 /\ ~ unitq (axisangle_to_quat axis angle).
Proof.
  intros b H. generalize (pointing_antipode b H).
  destruct (R_axis_angle b (opp3 b)) as [axis angle]; cbn [fst snd]. intros E; rewrite E.
  split; [reflexivity|]. unfold unitq; vunfold; rnum; lra.
Qed.
Lemma quat2equatorial_not_inverse : exists RA dec roll, 0 <= RA < 360 /\ -90 < dec < 90 /\ 0 <= roll < 360 /\
  quat2equatorial (eulerangle_to_quat RA dec roll) <> Ok (RA, dec, roll) /\
  quat2equatorial (eulerangle_to_quat RA dec roll) <> Ok (RA, - dec, roll).
Proof.
  exists 0, 0, 0. rewrite quat2equatorial_identity.
  repeat split; try lra; intros E; injection E; lra.
Qed.
