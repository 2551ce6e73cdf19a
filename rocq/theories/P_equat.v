(** * atan2 and _quat2equatorial *)
From Coq Require Import Reals ZArith List Bool Lra Psatz.
From Verif Require Import Num Vec M_vector M_quaternion S_rot P_quat.
Local Open Scope R_scope.

Lemma atan2_range y x : - PI < atan2 y x <= PI.
Proof.
  assert (P := PI_RGT_0). assert (A := atan_bound (y / x)).
  unfold atan2.
  destruct (Rlt_dec 0 x); [lra|]. destruct (Rlt_dec x 0).
  - destruct (Rle_dec 0 y).
    + split; [lra|]. assert (y / x <= 0).
      { unfold Rdiv. assert (/ x < 0) by (apply Rinv_lt_0_compat; lra). nra. }
      destruct H as [H|H].
      * apply atan_increasing in H. rewrite atan_0 in H. lra.
      * rewrite H, atan_0. lra.
    + split; [|lra]. assert (0 < y / x).
      { unfold Rdiv. assert (/ x < 0) by (apply Rinv_lt_0_compat; lra). nra. }
      apply atan_increasing in H. rewrite atan_0 in H. lra.
  - destruct (Rlt_dec 0 y); [lra|]. destruct (Rlt_dec y 0); lra.
Qed.

Lemma tan_minus_PI t : cos t <> 0 -> tan (t - PI) = tan t.
Proof.
  intros H. unfold tan. replace (t - PI) with (-(PI - t)) by ring.
  rewrite sin_neg, cos_neg. rewrite <- (sin_PI_x t). rewrite (Rtrigo_facts.cos_pi_minus t).
  rewrite sin_PI_x. field. lra.
Qed.
Lemma tan_plus_PI t : cos t <> 0 -> tan (t + PI) = tan t.
Proof. intros H. unfold tan. rewrite neg_sin, neg_cos. field. lra. Qed.

Lemma atan2_polar k t : 0 < k -> - PI < t <= PI -> atan2 (k * sin t) (k * cos t) = t.
Proof.
  intros Hk [H1 H2]. assert (P := PI_RGT_0). unfold atan2.
  destruct (Rlt_dec 0 (k * cos t)) as [C|C].
  - assert (0 < cos t) by nra.
    assert (- (PI/2) < t < PI/2).
    { split; apply Rnot_le_lt; intros K.
      - assert (cos t <= 0); [|lra]. rewrite <- cos_neg. apply cos_le_0; lra.
      - assert (cos t <= 0); [|lra]. apply cos_le_0; lra. }
    replace (k * sin t / (k * cos t)) with (tan t) by (unfold tan; field; lra).
    apply atan_tan; lra.
  - destruct (Rlt_dec (k * cos t) 0) as [D|D].
    + assert (cos t < 0) by nra.
      replace (k * sin t / (k * cos t)) with (tan t) by (unfold tan; field; lra).
      destruct (Rle_dec 0 (k * sin t)) as [S|S].
      * assert (0 <= sin t) by nra.
        assert (0 <= t).
        { apply Rnot_lt_le; intros K. assert (0 < sin (- t)) by (apply sin_gt_0; lra).
          rewrite sin_neg in H3. lra. }
        assert (PI/2 < t).
        { apply Rnot_le_lt; intros K. assert (0 <= cos t); [|lra]. apply cos_ge_0; lra. }
        rewrite <- tan_minus_PI by lra. rewrite atan_tan by lra. ring.
      * assert (sin t < 0) by nra.
        assert (t < 0).
        { apply Rnot_le_lt; intros K. assert (0 <= sin t) by (apply sin_ge_0; lra). lra. }
        assert (t < - (PI/2)).
        { apply Rnot_le_lt; intros K. assert (0 <= cos t); [|lra]. apply cos_ge_0; lra. }
        rewrite <- tan_plus_PI by lra. rewrite atan_tan by lra. ring.
    + assert (cos t = 0) by nra.
      destruct (Rlt_dec 0 (k * sin t)) as [S|S].
      * assert (0 < sin t) by nra.
        assert (0 <= t).
        { apply Rnot_lt_le; intros K. assert (0 < sin (- t)) by (apply sin_gt_0; lra).
          rewrite sin_neg in H3. lra. }
        destruct (Rtotal_order t (PI/2)) as [Q|[Q|Q]]; [|lra|].
        -- assert (0 < cos t) by (apply cos_gt_0; lra). lra.
        -- assert (cos t < 0) by (apply cos_lt_0; lra). lra.
      * assert (sin t <> 0) by (intros E; generalize (sc1 t); rewrite E, H; lra).
        destruct (Rlt_dec (k * sin t) 0) as [S'|S']; [|exfalso; nra].
        assert (sin t < 0) by nra.
        assert (t < 0).
        { apply Rnot_le_lt; intros K. assert (0 <= sin t) by (apply sin_ge_0; lra). lra. }
        destruct (Rtotal_order t (-(PI/2))) as [Q|[Q|Q]]; [|lra|].
        -- rewrite <- cos_neg in H. assert (cos (-t) < 0) by (apply cos_lt_0; lra). lra.
        -- assert (0 < cos t) by (apply cos_gt_0; lra). lra.
Qed.

Lemma atan2_right_half y x : 0 <= x -> - (PI/2) <= atan2 y x <= PI/2.
Proof.
  intros H. assert (P := PI_RGT_0). assert (A := atan_bound (y / x)).
  unfold atan2.
  destruct (Rlt_dec 0 x); [lra|]. destruct (Rlt_dec x 0); [lra|].
  destruct (Rlt_dec 0 y); [lra|]. destruct (Rlt_dec y 0); lra.
Qed.

Lemma degrees_pos : 0 < 180 / PI.
Proof. assert (P := PI_RGT_0). apply Rdiv_lt_0_compat; lra. Qed.
Lemma degrees_PI : degrees PI = 180.
Proof. assert (P := PI_RGT_0). unfold degrees; field; lra. Qed.
Lemma degrees_radians x : degrees (radians x) = x.
Proof. assert (P := PI_RGT_0). unfold degrees, radians; field; lra. Qed.
Lemma degrees_mono x y : x < y -> degrees x < degrees y.
Proof. intros; apply Rmult_lt_compat_r; [apply degrees_pos|assumption]. Qed.
Lemma degrees_mono_le x y : x <= y -> degrees x <= degrees y.
Proof. intros; apply Rmult_le_compat_r; [left; apply degrees_pos|assumption]. Qed.
Lemma degrees_opp x : degrees (- x) = - degrees x.
Proof. unfold degrees; ring. Qed.
Lemma degrees_half : degrees (PI / 2) = 90.
Proof. assert (P := PI_RGT_0). unfold degrees; field; lra. Qed.

(** The argument of the square root is a sum of squares for unit quaternions. *)
Lemma one_minus_xn2 (q : quat) : unitq q ->
  0 <= 1 - (2 * (qw q * qy q - qx q * qz q)) ^ 2.
Proof.
  unfold unitq; destruct q as [a b c d]; vunfold; rnum. intros H.
  assert (1 - (2 * (a * c - b * d)) ^ 2 =
    ((a*a+b*b+c*c+d*d) - 2*(a*c - b*d)) * ((a*a+b*b+c*c+d*d) + 2*(a*c-b*d))) by (rewrite H; ring).
  rewrite H0.
  apply Rmult_le_pos.
  - replace (a*a+b*b+c*c+d*d - 2*(a*c-b*d)) with ((a-c)^2 + (b+d)^2) by ring. generalize (pow2_ge_0 (a-c)) (pow2_ge_0 (b+d)); lra.
  - replace (a*a+b*b+c*c+d*d + 2*(a*c-b*d)) with ((a+c)^2 + (b-d)^2) by ring. generalize (pow2_ge_0 (a+c)) (pow2_ge_0 (b-d)); lra.
Qed.

Definition wrap360 (x : R) : R := if Rltb x 0 then x + 360 else x.
Lemma wrap360_range y x : 0 <= wrap360 (degrees (atan2 y x)) < 360.
Proof.
  assert (A := atan2_range y x). unfold wrap360.
  assert (degrees (- PI) < degrees (atan2 y x)) by (apply degrees_mono; lra).
  assert (degrees (atan2 y x) <= degrees PI) by (apply degrees_mono_le; lra).
  rewrite degrees_opp, degrees_PI in *. destruct (Rltb_spec (degrees (atan2 y x)) 0); lra.
Qed.

Lemma quat2equatorial_range q : unitq q ->
  exists ra dec roll, quat2equatorial q = Ok (ra, dec, roll) /\
    0 <= ra < 360 /\ -90 <= dec <= 90 /\ 0 <= roll < 360.
Proof.
  intros H. assert (M := one_minus_xn2 q H). unfold quat2equatorial.
  destruct (Rltb_spec (1 - (2 * (qw q * qy q - qx q * qz q)) ^ 2) 0) as [L|L]; [lra|].
  do 3 eexists; split; [reflexivity|]. split; [apply wrap360_range|]. split; [|apply wrap360_range].
  match goal with |- _ <= degrees ?a <= _ => assert (B : - (PI/2) <= a <= PI/2) by (apply atan2_right_half, sqrt_pos) end.
  destruct B as [B1 B2]. apply degrees_mono_le in B1, B2. rewrite degrees_opp, degrees_half in *. lra.
Qed.

Definition to_scalar_last_q (q : quat) : quat := mkq (qx q) (qy q) (qz q) (qw q).

Lemma wrap_atan2 k t : 0 < k -> 0 <= t < 360 ->
  wrap360 (degrees (atan2 (k * sin (radians t)) (k * cos (radians t)))) = t.
Proof.
  intros Hk [H1 H2]. assert (P := PI_RGT_0).
  destruct (Rle_dec t 180) as [L|L].
  - rewrite atan2_polar.
    + rewrite degrees_radians. unfold wrap360. destruct (Rltb_spec t 0); lra.
    + assumption.
    + unfold radians. split; [|].
      * assert (0 <= t * (PI/180)) by (apply Rmult_le_pos; lra). lra.
      * replace PI with (180 * (PI/180)) at 2 by field. apply Rmult_le_compat_r; lra.
  - replace (sin (radians t)) with (sin (radians (t - 360))).
    2:{ replace (radians t) with (radians (t-360) + 2 * PI) by (unfold radians; field). now rewrite sin_plus, sin_2PI, cos_2PI, Rmult_0_r, Rmult_1_r, Rplus_0_r. }
    replace (cos (radians t)) with (cos (radians (t - 360))).
    2:{ replace (radians t) with (radians (t-360) + 2 * PI) by (unfold radians; field). now rewrite cos_plus, sin_2PI, cos_2PI, Rmult_0_r, Rmult_1_r, Rminus_0_r. }
    rewrite atan2_polar.
    + rewrite degrees_radians. unfold wrap360. destruct (Rltb_spec (t-360) 0); lra.
    + assumption.
    + unfold radians. split.
      * replace (- PI) with ((-180) * (PI/180)) by field. apply Rmult_lt_compat_r; lra.
      * assert ((t - 360) * (PI/180) <= 0 * (PI/180)) by (apply Rmult_le_compat_r; lra). lra.
Qed.

Lemma quat2equatorial_scalar_last RA dec roll :
  0 <= RA < 360 -> -90 < dec < 90 -> 0 <= roll < 360 ->
  quat2equatorial (to_scalar_last_q (eulerangle_to_quat RA dec roll)) = Ok (RA, - dec, roll).
Proof.
  intros HR HD HO. assert (P := PI_RGT_0).
  assert (HD' : - (PI/2) < radians dec < PI/2).
  { unfold radians. split.
    - replace (- (PI/2)) with ((-90) * (PI/180)) by field. apply Rmult_lt_compat_r; lra.
    - replace (PI/2) with (90 * (PI/180)) by field. apply Rmult_lt_compat_r; lra. }
  assert (CD : 0 < cos (radians dec)) by (apply cos_gt_0; lra).
  assert (U : unitq (to_scalar_last_q (eulerangle_to_quat RA dec roll))).
  { generalize (euler_unit RA dec roll). unfold unitq, to_scalar_last_q.
    destruct (eulerangle_to_quat RA dec roll); vunfoldg; rnumg; lra. }
  assert (M := one_minus_xn2 _ U).
  unfold quat2equatorial.
  destruct (Rltb_spec (1 - (2 * (qw (to_scalar_last_q (eulerangle_to_quat RA dec roll)) * qy (to_scalar_last_q (eulerangle_to_quat RA dec roll)) - qx (to_scalar_last_q (eulerangle_to_quat RA dec roll)) * qz (to_scalar_last_q (eulerangle_to_quat RA dec roll)))) ^ 2) 0) as [L|L]; [lra|]. clear M L U.
  unfold to_scalar_last_q, eulerangle_to_quat; cbn [qw qx qy qz].
  assert (K1 := sc1 (radians RA/2)). assert (K2 := sc1 (radians dec/2)). assert (K3 := sc1 (radians roll/2)).
  assert (C1 := cos_half (radians RA)). assert (S1 := sin_half (radians RA)).
  assert (C2 := cos_half (radians dec)). assert (S2 := sin_half (radians dec)).
  assert (C3 := cos_half (radians roll)). assert (S3 := sin_half (radians roll)).
  set (s1 := sin (radians RA/2)) in *. set (c1 := cos (radians RA/2)) in *.
  set (s2 := sin (radians dec/2)) in *. set (c2 := cos (radians dec/2)) in *.
  set (s3 := sin (radians roll/2)) in *. set (c3 := cos (radians roll/2)) in *.
  clearbody s1 c1 s2 c2 s3 c3.
  match goal with |- Ok (if Rltb (degrees (atan2 ?xb ?xa)) 0 then _ else _, degrees (atan2 ?xn (sqrt ?m)), if Rltb (degrees (atan2 ?yn ?zn)) 0 then _ else _) = _ =>
    replace xb with (cos (radians dec) * sin (radians RA));
    [replace xa with (cos (radians dec) * cos (radians RA));
    [replace m with ((cos (radians dec))²);
    [replace xn with (1 * sin (radians (- dec)));
    [replace yn with (cos (radians dec) * sin (radians roll));
    [replace zn with (cos (radians dec) * cos (radians roll))|]|]|]|]|]
  end.
  - rewrite sqrt_Rsqr by lra.
    assert (E : atan2 (1 * sin (radians (- dec))) (cos (radians dec)) = radians (- dec)).
    { replace (cos (radians dec)) with (1 * cos (radians (- dec)))
        by (unfold radians; rewrite Ropp_mult_distr_l_reverse, cos_neg; ring).
      apply atan2_polar; [lra|]. unfold radians in *. rewrite Ropp_mult_distr_l_reverse. lra. }
    rewrite E.
    rewrite degrees_radians.
    assert (W1 := wrap_atan2 (cos (radians dec)) RA CD HR). unfold wrap360 in W1. rewrite W1.
    assert (W2 := wrap_atan2 (cos (radians dec)) roll CD HO). unfold wrap360 in W2. rewrite W2.
    reflexivity.
  - rewrite C2, C3. transitivity ((c2 ^ 2 - s2 ^ 2) * (c3 ^ 2 - s3 ^ 2) * (s1^2 + c1^2)); [rewrite K1; ring|ring].
  - rewrite C2, S3. transitivity ((c2 ^ 2 - s2 ^ 2) * (2 * s3 * c3) * (s1^2 + c1^2)); [rewrite K1; ring|ring].
  - replace (radians (-dec)) with (- radians dec) by (unfold radians; ring). rewrite sin_neg, S2.
    transitivity (- (2 * s2 * c2) * (s1^2+c1^2) * (s3^2+c3^2)); [rewrite K1, K3; ring|ring].
  - transitivity (1 - (sin (radians dec))²).
    { rewrite <- cos2. reflexivity. }
    rewrite S2. unfold Rsqr.
    transitivity (1 - (2 * s2 * c2 * (s1^2+c1^2) * (s3^2+c3^2))^2); [rewrite K1, K3; ring|ring].
  - rewrite C1, C2. transitivity ((c2 ^ 2 - s2 ^ 2) * (c1 ^ 2 - s1 ^ 2) * (s3^2 + c3^2)); [rewrite K3; ring|ring].
  - rewrite S1, C2. transitivity ((c2 ^ 2 - s2 ^ 2) * (2 * s1 * c1) * (s3^2 + c3^2)); [rewrite K3; ring|ring].
Qed.

Lemma quat2equatorial_identity : quat2equatorial (eulerangle_to_quat 0 0 0) = Ok (0, 0, 180).
Proof.
  assert (P := PI_RGT_0).
  assert (E : eulerangle_to_quat 0 0 0 = mkq 1 0 0 0).
  { unfold eulerangle_to_quat. replace (radians 0 / 2) with 0 by (unfold radians; field).
    rewrite cos_0, sin_0. apply mkq_c; ring. }
  rewrite E. unfold quat2equatorial; cbn [qw qx qy qz].
  replace (1 - (2 * (1 * 0 - 0 * 0)) ^ 2) with 1 by ring.
  destruct (Rltb_spec 1 0); [lra|].
  replace (2 * (1 * 0 + 0 * 0)) with (1 * sin 0) by (rewrite sin_0; ring).
  replace (1 ^ 2 - 0 ^ 2 - 0 ^ 2 + 0 ^ 2) with (1 * cos 0) by (rewrite cos_0; ring).
  replace (2 * (1 * 0 - 0 * 0)) with (1 * sin 0) by (rewrite sin_0; ring).
  replace (2 * (0 * 0 + 1 * 0)) with (1 * sin PI) by (rewrite sin_PI; ring).
  replace (0 ^ 2 + 0 ^ 2 - 1 ^ 2 - 0 ^ 2) with (1 * cos PI) by (rewrite cos_PI; ring).
  replace (sqrt 1) with (1 * cos 0) by (rewrite cos_0, sqrt_1; ring).
  rewrite !atan2_polar by lra. rewrite degrees_PI. replace (degrees 0) with 0 by (unfold degrees; ring).
  destruct (Rltb_spec 0 0); [lra|]. destruct (Rltb_spec 180 0); [lra|]. reflexivity.
Qed.
