(** * Properties of functions/vector.py and functions/quaternion.py *)
From Coq Require Import Reals ZArith List Bool Lra Psatz.
From Flocq Require Import Core BinarySingleNaN.
From Verif Require Import Num Flt Vec M_vector M_quaternion S_rot P_quat P_sat P_equat P_vec2.
Import ListNotations.
Local Open Scope R_scope.

(** C01.  [product] is Hamilton's product. *)
Theorem C01_product_algebra :
  bilinear (product (T:=R)) /\ hamilton_table (product (T:=R)) /\
  (forall a b c : quat, product (product a b) c = product a (product b c)) /\
  (forall a : quat, product q1 a = a /\ product a q1 = a) /\
  (forall a b : quat, dotq (product a b) (product a b) = dotq a a * dotq b b) /\
  (forall a : quat, conjugate (conjugate a) = a) /\
  (forall a b : quat, conjugate (product a b) = product (conjugate b) (conjugate a)) /\
  (forall a : quat, product a (conjugate a) = mkq (dotq a a) 0 0 0 /\ product (conjugate a) a = mkq (dotq a a) 0 0 0) /\
  (exists a b : quat, product a b <> product b a).
Proof. exact C01_lemma. Qed.
Print Assumptions C01_product_algebra.

Theorem C01_product_unique : forall f, bilinear f -> hamilton_table f -> (forall a, f q1 a = a /\ f a q1 = a) ->
  forall a b, f a b = product a b.
Proof. exact hamilton_unique. Qed.
Print Assumptions C01_product_unique.
Example C01_ex : product (mkq 1 2 3 4) (mkq 5 6 7 8) = mkq (-60) 12 30 24.
Proof. unfold product; vunfold; rnum; apply mkq_c; ring. Qed.
Example C01_unique_ex : bilinear (product (T:=R)) /\ hamilton_table (product (T:=R)).
Proof. split; [apply product_bilinear|apply product_table]. Qed.

(** C02.  Coordinate changes are rigid, mutually inverse and compose. *)
Theorem C02_sandwich_rigid : forall q : quat, unitq q ->
  rigid (sandwich q) /\ rigid (sandwich_opp q) /\
  (forall v, sandwich_opp q (sandwich q v) = v /\ sandwich q (sandwich_opp q v) = v) /\
  (forall p v, sandwich (product q p) v = sandwich p (sandwich q v)) /\
  (forall v, sandwich (oppq q) v = sandwich q v).
Proof. exact C02_lemma. Qed.
Print Assumptions C02_sandwich_rigid.
(** ... and a non-unit quaternion scales lengths by |q|^2. *)
Theorem C02_sandwich_scale : forall (q : quat) v w, dot3 (sandwich q v) (sandwich q w) = (dotq q q)^2 * dot3 v w.
Proof. exact sandwich_scaled. Qed.
Print Assumptions C02_sandwich_scale.
Example C02_ex : unitq (mkq (3/5) 0 0 (4/5)) /\ sandwich (mkq (3/5) 0 0 (4/5)) (mk3 1 0 0) = mk3 (-7/25) (-24/25) 0.
Proof. unfold unitq, sandwich, product, conjugate; vunfold; rnum; split; [field|apply mk3_c; field]. Qed.

(** C03.  Attitude error. *)
Theorem C03_error_quat : forall q r : quat, unitq r ->
  product r (error_quat q r) = q /\ (error_quat q r = mkq 1 0 0 0 <-> q = r) /\
  (unitq q -> unitq (error_quat q r)) /\ qw (error_quat q r) = 1 - metric q r.
Proof.
  exact (fun q r H => conj (error_quat_back q r H) (conj (error_quat_id q r H)
    (conj (fun Hq => error_quat_unit q r Hq H) (error_quat_metric q r)))).
Qed.
Print Assumptions C03_error_quat.
Example C03_ex : unitq (mkq (3/5) 0 0 (4/5)) /\ error_quat (mkq 0 1 0 0) (mkq (3/5) 0 0 (4/5)) = mkq 0 (3/5) (-4/5) 0.
Proof. unfold unitq, error_quat, product, conjugate; vunfold; rnum; split; [field|apply mkq_c; field]. Qed.

(** C04.  Axis-angle quaternions, and pointing one direction at another. *)
Theorem C04_axisangle : forall r theta v, unit3 r ->
  unitq (axisangle_to_quat r theta) /\
  sandwich_opp (axisangle_to_quat r theta) v = rodrigues r theta v /\
  sandwich (axisangle_to_quat r theta) v = rodrigues r (- theta) v.
Proof.
  exact (fun r th v H => conj (axisangle_unit r th H) (conj (sandwich_opp_axisangle r th v H) (sandwich_axisangle r th v H))).
Qed.
Print Assumptions C04_axisangle.
Theorem C04_pointing : forall boresight direction, unit3 boresight -> unit3 direction -> direction <> opp3 boresight ->
  let (axis, angle) := R_axis_angle boresight direction in
  let q := axisangle_to_quat axis angle in
  unitq q /\ sandwich_opp q boresight = direction.
Proof. exact pointing_ok. Qed.
Print Assumptions C04_pointing.
(** ... and exactly opposite directions give the zero quaternion, which is not a rotation. *)
Theorem C04_antipode_refuted : forall boresight, unit3 boresight ->
  let (axis, angle) := R_axis_angle boresight (opp3 boresight) in
  axisangle_to_quat axis angle = mkq 0 0 0 0 /\ ~ unitq (axisangle_to_quat axis angle).
Proof. exact pointing_antipode_bad. Qed.
Print Assumptions C04_antipode_refuted.
Example C04_ex : unit3 (mk3 0 0 1) /\ unit3 (mk3 (3/5) 0 (4/5)) /\ mk3 (3/5) 0 (4/5) <> opp3 (mk3 0 0 1).
Proof. unfold unit3; vunfold; rnum; repeat split; try field. intros E; injection E; lra. Qed.

(** C05.  3-2-1 Euler angles in degrees. *)
Theorem C05_euler : forall RA dec roll v,
  unitq (eulerangle_to_quat RA dec roll) /\
  sandwich (eulerangle_to_quat RA dec roll) v =
    rodrigues ex (- (roll * (PI / 180))) (rodrigues ey (- (dec * (PI / 180))) (rodrigues ez (- (RA * (PI / 180))) v)) /\
  eulerangle_to_quat RA dec roll =
    product (product (axisangle_to_quat ez (RA * (PI / 180))) (axisangle_to_quat ey (dec * (PI / 180))))
            (axisangle_to_quat ex (roll * (PI / 180))) /\
  eulerangle_to_quat (RA + 360) dec roll = oppq (eulerangle_to_quat RA dec roll) /\
  eulerangle_to_quat RA (dec + 360) roll = oppq (eulerangle_to_quat RA dec roll) /\
  eulerangle_to_quat RA dec (roll + 360) = oppq (eulerangle_to_quat RA dec roll).
Proof.
  exact (fun RA dec roll v => conj (euler_unit RA dec roll) (conj (euler_sandwich RA dec roll v)
    (conj (euler_product RA dec roll) (euler_360 RA dec roll)))).
Qed.
Print Assumptions C05_euler.
Example C05_ex : eulerangle_to_quat 180 0 0 = mkq 0 0 0 1.
Proof.
  unfold eulerangle_to_quat. replace (radians 180 / 2) with (PI / 2) by (unfold radians; field).
  replace (radians 0 / 2) with 0 by (unfold radians; field).
  rewrite cos_PI2, sin_PI2, cos_0, sin_0. apply mkq_c; ring.
Qed.

(** C06.  path_lift. *)
Theorem C06_path_lift : forall RA dec roll (q_ref : quat),
  let q := eulerangle_to_quat RA dec roll in
  let r := path_lift RA dec roll q_ref in
  (r = q \/ r = oppq q) /\ (forall v, sandwich r v = sandwich q v) /\
  0 <= dotq r q_ref /\ metric r q_ref <= metric q q_ref /\ metric r q_ref <= metric (oppq q) q_ref /\
  (dotq q q_ref = 0 -> r = oppq q).
Proof. exact C06_lemma. Qed.
Print Assumptions C06_path_lift.
Example C06_ex : path_lift 180 0 0 (mkq 0 0 0 (-1)) = mkq (-0) (-0) (-0) (-1).
Proof.
  rewrite path_lift_cases, C05_ex. destruct (Rltb_spec 0 (dotq (mkq 0 0 0 1) (mkq 0 0 0 (-1)))) as [H|H].
  - exfalso; vunfold; rnum; lra.
  - unfold oppq; rnum; simpl. reflexivity.
Qed.

(** C07.  Matrix forms. *)
Theorem C07_xi_cross :
  (forall (q : quat) v, xi_mul (xi q) v = product q (mkq 0 (x3 v) (y3 v) (z3 v))) /\
  (forall v w : v3, mv (crossm v) w = cross3 v w) /\
  (forall v : v3, tr3 (crossm v) = scalem (-1) (crossm v)) /\
  (forall v : v3, mm (crossm v) (crossm v) = subm (outer3 v v) (scalem (dot3 v v) id3)).
Proof. exact C07_lemma. Qed.
Print Assumptions C07_xi_cross.
Example C07_ex : mv (crossm (mk3 1 2 3)) (mk3 4 5 6) = mk3 (-3) 6 (-3).
Proof. unfold crossm; vunfold; rnum; apply mk3_c; ring. Qed.

(** C08.  _quat2equatorial. *)
Theorem C08_never_raises : forall q, unitq q ->
  exists ra dec roll, quat2equatorial q = Ok (ra, dec, roll) /\
    0 <= ra < 360 /\ -90 <= dec <= 90 /\ 0 <= roll < 360.
Proof. exact quat2equatorial_range. Qed.
Print Assumptions C08_never_raises.
(** On the quaternion moved to scalar-last order it recovers right ascension and roll, and minus the declination. *)
Theorem C08_scalar_last : forall RA dec roll, 0 <= RA < 360 -> -90 < dec < 90 -> 0 <= roll < 360 ->
  let q := eulerangle_to_quat RA dec roll in
  quat2equatorial (mkq (qx q) (qy q) (qz q) (qw q)) = Ok (RA, - dec, roll).
Proof. exact quat2equatorial_scalar_last. Qed.
Print Assumptions C08_scalar_last.
(** On the quaternion as the rest of the library stores it the attitude of the identity is read as roll = 180. *)
Theorem C08_inverse_refuted : exists RA dec roll, 0 <= RA < 360 /\ -90 < dec < 90 /\ 0 <= roll < 360 /\
  quat2equatorial (eulerangle_to_quat RA dec roll) <> Ok (RA, dec, roll) /\
  quat2equatorial (eulerangle_to_quat RA dec roll) <> Ok (RA, - dec, roll).
Proof. exact quat2equatorial_not_inverse. Qed.
Print Assumptions C08_inverse_refuted.
Example C08_ex : unitq (mkq (1/2) (1/2) (1/2) (1/2)).
Proof. unfold unitq; vunfold; rnum; field. Qed.

(** C09.  saturation. *)
Theorem C09_saturation : forall (x : list R) (x_max : R), x <> [] -> 0 <= x_max ->
  exists y, saturation x x_max = Ok y /\
    (forall yi, In yi y -> Rabs yi <= x_max) /\
    exists k, 0 <= k <= 1 /\ y = map (fun xi => k * xi) x /\
      ((forall xi, In xi x -> Rabs xi <= x_max) -> y = x) /\
      ((exists xi, In xi x /\ x_max < Rabs xi) -> exists yi, In yi y /\ Rabs yi = x_max).
Proof. exact saturation_ok. Qed.
Print Assumptions C09_saturation.
Theorem C09_saturation_idem : forall (x y : list R) (x_max : R), 0 <= x_max ->
  saturation x x_max = Ok y -> saturation y x_max = Ok y.
Proof. exact saturation_idem. Qed.
Print Assumptions C09_saturation_idem.
Theorem C09_saturation_empty : forall x_max : R, saturation [] x_max = Raise ValueError.
Proof. exact saturation_empty. Qed.
Print Assumptions C09_saturation_empty.
(** Binary64: at most one unit in the last place above the limit, same sign, unless x_max*largest over/underflows. *)
Theorem C09_saturation_b64 : forall (x : list b64) (x_max L : b64),
  (forall xi, In xi x -> fin xi = true) -> fin x_max = true ->
  In L (map fabs x) -> (forall xi, In xi x -> Rabs (fR xi) <= fR L) ->
  0 < fR x_max ->
  fin (fmul x_max L) = true -> bpow radix2 (-1022) <= fR x_max * fR L ->
  exists y, saturation x x_max = Ok y /\
    Forall2 (fun yi xi => fin yi = true /\
       Rabs (fR yi) <= succ radix2 (SpecFloat.fexp 53 1024) (fR x_max) /\ 0 <= fR yi * fR xi) y x.
Proof. exact saturation_b64. Qed.
Print Assumptions C09_saturation_b64.
(** The limit is really exceeded: saturating [12.1, 0] at 3.3. *)
Theorem C09_bound_b64_refuted :
  exists y, saturation [fdec 121 10; fofZ 0] (fdec 33 10) = Ok y /\ existsb (fltb (fdec 33 10)) y = true.
Proof. exact saturation_b64_exceeds. Qed.
Print Assumptions C09_bound_b64_refuted.
Theorem C09_nan_unsaturated : forall (x : list b64) x_max, In B754_nan x -> saturation x x_max = Ok x.
Proof. exact saturation_nan. Qed.
Print Assumptions C09_nan_unsaturated.
Example C09_ex : saturation [3; -4; 1] 2 = Ok [3/2; -2; 1/2].
Proof.
  rewrite (saturation_eq _ _ 4).
  - destruct (Rltb_spec 2 4); [|lra]. cbn [map]. apply f_equal. repeat (apply (f_equal2 cons); [field|]). reflexivity.
  - simpl. rewrite (Rabs_pos_eq 3), (Rabs_left (-4)), (Rabs_pos_eq 1) by lra. split; [right; left; lra|].
    intros y [E|[E|[E|[]]]]; lra.
Qed.
Example C09_b64_ex : fin (fdec 33 10) = true /\ fin (fmul (fdec 33 10) (fdec 121 10)) = true.
Proof. split; vm_compute; reflexivity. Qed.

(** C10.  normalize and pointing_vector; [sumsq] is the sum of squares. *)
Theorem C10_normalize : forall x : list R,
  (~ Forall (fun a => a = 0) x -> sumsq (normalize x) = 1 /\ exists k, 0 < k /\ normalize x = map (fun a => k * a) x) /\
  (Forall (fun a => a = 0) x -> normalize x = x) /\
  normalize (normalize x) = normalize x.
Proof. exact (fun x => conj (normalize_nonzero x) (conj (normalize_allzero x) (normalize_idem x))). Qed.
Print Assumptions C10_normalize.
(** The record versions used for 3-vectors and quaternions are the same function. *)
Theorem C10_normalize_shapes : (forall v : v3, l3 (normalize3 v) = normalize (l3 v)) /\
  (forall q : quat, lq (normalizeq q) = normalize (lq q)).
Proof. exact (conj normalize3_list normalizeq_list). Qed.
Print Assumptions C10_normalize_shapes.
Theorem C10_pointing_vector : forall p t : v3,
  pointing_vector t p = opp3 (pointing_vector p t) /\
  (p <> t -> unit3 (pointing_vector p t) /\ exists k, 0 < k /\ t = add3 p (scale3 k (pointing_vector p t))) /\
  pointing_vector p p = zero3.
Proof. exact C10_pointing. Qed.
Print Assumptions C10_pointing_vector.
Example C10_ex : ~ Forall (fun a => a = 0) [3; 4].
Proof. intros H. inversion H. lra. Qed.
