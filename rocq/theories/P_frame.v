(** * Lemmas about frames *)
From Coq Require Import Reals ZArith List Bool Lra Psatz.
From Verif Require Import Num Vec M_vector M_quaternion M_jday M_frame S_rot P_quat P_vec2 P_equat P_jday2.
Local Open Scope R_scope.

(** Rotation about z by the angle t of the coordinate axes. *)
Lemma ecef_rot (t : R) (v : v3) : mv (ecef_matrix t) v = rodrigues ez (- t) v.
Proof. unfold ecef_matrix, rodrigues, ez. rewrite cos_neg, sin_neg. vdestruct. vunfoldg; rnumg; vsplit; ring. Qed.
Lemma ecef_orth (t : R) : mm (ecef_matrix t) (tr3 (ecef_matrix t)) = id3 /\ mm (tr3 (ecef_matrix t)) (ecef_matrix t) = id3 /\ det3 (ecef_matrix t) = 1.
Proof.
  assert (H := sin2_cos2 t). unfold Rsqr in H. unfold ecef_matrix.
  split; [|split]; vunfoldg; rnumg; vsplit; lra.
Qed.
Lemma orth_dot (m : m3) (v w : v3) : mm (tr3 m) m = id3 -> dot3 (mv m v) (mv m w) = dot3 v w.
Proof.
  intros H. assert (E : dot3 (mv m v) (mv m w) = dot3 v (mv (mm (tr3 m) m) w)) by vring.
  rewrite E, H. vring.
Qed.
Lemma ecef_inverse t v : mv (tr3 (ecef_matrix t)) (mv (ecef_matrix t) v) = v /\ mv (ecef_matrix t) (mv (tr3 (ecef_matrix t)) v) = v.
Proof.
  destruct (ecef_orth t) as (H1 & H2 & _).
  assert (A : forall m n : m3, forall v, mv m (mv n v) = mv (mm m n) v) by (intros; vring).
  rewrite !A, H1, H2. split; vring.
Qed.
Lemma ecef_fixes_z t : mv (ecef_matrix t) ez = ez /\ forall v, z3 (mv (ecef_matrix t) v) = z3 v.
Proof. split; [unfold ecef_matrix, ez|intros; unfold ecef_matrix]; vdestruct; vunfoldg; rnumg; try vsplit; ring. Qed.

(** ** lvlh *)
Definition col1 (m : m3) : v3 := row1 (tr3 m).
Definition col2 (m : m3) : v3 := row2 (tr3 m).
Definition col3 (m : m3) : v3 := row3 (tr3 m).
Lemma norm3_unit_inv (v : v3) : v <> zero3 -> unit3 (normalize3 v). Proof. apply normalize3_unit. Qed.
Lemma lvlh_cols r v : col1 (lvlh_to_inertial r v) = cross3 (col2 (lvlh_to_inertial r v)) (col3 (lvlh_to_inertial r v)) /\
  col2 (lvlh_to_inertial r v) = opp3 (normalize3 (cross3 r v)) /\ col3 (lvlh_to_inertial r v) = opp3 (normalize3 r).
Proof. unfold lvlh_to_inertial, col1, col2, col3, tr3. cbn [row1 row2 row3 x3 y3 z3]. repeat split; apply V3_eq; reflexivity. Qed.
Lemma orth_cols (m : m3) : unit3 (col1 m) -> unit3 (col2 m) -> unit3 (col3 m) -> dot3 (col1 m) (col2 m) = 0 -> dot3 (col1 m) (col3 m) = 0 -> dot3 (col2 m) (col3 m) = 0 ->
  mm (tr3 m) m = id3.
Proof.
  destruct m as [[a b c] [d e f] [g h i]]. unfold unit3, col1, col2, col3. vunfold; rnum. intros.
  vsplit; lra.
Qed.
Lemma cross_nz_l (r v : v3) : cross3 r v <> zero3 -> r <> zero3.
Proof. intros H E. apply H. subst. vring. Qed.
Lemma lvlh_ok r v : cross3 r v <> zero3 ->
  let m := lvlh_to_inertial r v in
  mm (tr3 m) m = id3 /\ det3 m = 1 /\
  col3 m = opp3 (normalize3 r) /\ col2 m = opp3 (normalize3 (cross3 r v)) /\
  dot3 (col2 m) v = 0 /\ 0 < dot3 (col1 m) v.
Proof.
  intros H m. assert (Hr := cross_nz_l _ _ H).
  destruct (lvlh_cols r v) as (C1 & C2 & C3). fold m in C1, C2, C3.
  assert (Nr := norm3_gt0 _ Hr). assert (Nh := norm3_gt0 _ H).
  assert (U2 : unit3 (col2 m)). { rewrite C2. unfold unit3. replace (dot3 (opp3 _) (opp3 _)) with (dot3 (normalize3 (cross3 r v)) (normalize3 (cross3 r v))) by (generalize (normalize3 (cross3 r v)); vring). apply (normalize3_unit _ H). }
  assert (U3 : unit3 (col3 m)). { rewrite C3. unfold unit3. replace (dot3 (opp3 _) (opp3 _)) with (dot3 (normalize3 r) (normalize3 r)) by (generalize (normalize3 r); vring). apply (normalize3_unit _ Hr). }
  assert (P23 : dot3 (col2 m) (col3 m) = 0).
  { rewrite C2, C3, (normalize3_nz _ H), (normalize3_nz _ Hr). generalize (/ norm3 (cross3 r v)) (/ norm3 r). vring. }
  assert (U1 : unit3 (col1 m)).
  { unfold unit3 in *. rewrite C1. assert (K := cauchy3 (col2 m) (col3 m)). rewrite P23, U2, U3 in K. lra. }
  assert (P12 : dot3 (col1 m) (col2 m) = 0) by (rewrite C1; generalize (col2 m) (col3 m); vring).
  assert (P13 : dot3 (col1 m) (col3 m) = 0) by (rewrite C1; generalize (col2 m) (col3 m); vring).
  split; [apply orth_cols; assumption|]. split.
  { replace (det3 m) with (dot3 (col1 m) (cross3 (col2 m) (col3 m))) by (unfold col1, col2, col3; generalize m; vring).
    rewrite <- C1. exact U1. }
  split; [exact C3|]. split; [exact C2|]. split.
  { rewrite C2, (normalize3_nz _ H). generalize (/ norm3 (cross3 r v)). vring. }
  rewrite C1, C2, C3, (normalize3_nz _ H), (normalize3_nz _ Hr).
  replace (dot3 _ v) with (/ norm3 (cross3 r v) * / norm3 r * dot3 (cross3 r v) (cross3 r v)).
  2:{ generalize (/ norm3 (cross3 r v)) (/ norm3 r). vring. }
  rewrite <- norm3_sq. assert (0 < / norm3 (cross3 r v)) by (apply Rinv_0_lt_compat; exact Nh). assert (0 < / norm3 r) by (apply Rinv_0_lt_compat; exact Nr).
  apply Rmult_lt_0_compat; apply Rmult_lt_0_compat; assumption.
Qed.
Lemma lvlh_parallel r v : cross3 r v = zero3 ->
  col1 (lvlh_to_inertial r v) = zero3 /\ col2 (lvlh_to_inertial r v) = zero3.
Proof.
  intros H. destruct (lvlh_cols r v) as (C1 & C2 & C3). rewrite C1, C2, H, normalize3_zero.
  assert (E : opp3 (zero3 : v3) = zero3) by vring. rewrite E. split; [generalize (col3 (lvlh_to_inertial r v)); vring|reflexivity].
Qed.

(** ** ecef_to_lla *)
Lemma e2_range : 0.0066 < e2 < 0.0067.
Proof.
  unfold e2, wf. assert (H : 0.003352 < 1 / 298.257223563 < 0.003353) by lra.
  set (f := 1 / 298.257223563) in *. clearbody f. nra.
Qed.
Lemma msqrt_ok x : 0 <= x -> msqrt x = Ok (sqrt x).
Proof. intros H. unfold msqrt. replace (Rltb x 0) with false; [reflexivity|]. symmetry; apply Rltb_false; exact H. Qed.
Lemma mdiv_ok x y : y <> 0 -> mdiv x y = Ok (x / y).
Proof. intros H. unfold mdiv. replace (Reqb y 0) with false; [reflexivity|]. symmetry; apply Reqb_false; exact H. Qed.
Lemma masin_ok x : -1 <= x <= 1 -> masin x = Ok (asin x).
Proof. intros H. unfold masin. replace (Rltb 1 (Rabs x)) with false; [reflexivity|]. symmetry; apply Rltb_false. apply Rabs_le; lra. Qed.
Lemma macos_ok x : -1 <= x <= 1 -> macos x = Ok (acos x).
Proof. intros H. unfold macos. replace (Rltb 1 (Rabs x)) with false; [reflexivity|]. symmetry; apply Rltb_false. apply Rabs_le; lra. Qed.

Lemma lla_zero : ecef_to_lla zero3 = Raise ZeroDivisionError.
Proof.
  unfold ecef_to_lla, lla_initial, zero3. cbn [x3 y3 z3]. rnumg. replace (0 * 0 + 0 * 0) with 0 by ring. rewrite sqrt_0.
  unfold mdiv at 1. replace (Reqb (0 * 0 + 0 * 0) 0) with true; [reflexivity|]. symmetry; apply Reqb_true. ring.
Qed.

(** the geodetic surface point: prime-vertical radius *)
Definition Nrad (phi : R) : R := wa / sqrt (1 - e2 * (sin phi) ^ 2).
(** ECEF (distance from axis, height above equatorial plane) of geodetic latitude phi and height h on the WGS-84
    ellipsoid: the textbook formula. *)
Definition wgs_w (phi h : R) : R := (Nrad phi + h) * cos phi.
Definition wgs_z (phi h : R) : R := (Nrad phi * (1 - e2) + h) * sin phi.
(** meridian radius of curvature *)
Definition Mrad (phi : R) : R := wa * (1 - e2) / (sqrt (1 - e2 * (sin phi) ^ 2)) ^ 3.

Lemma g_pos phi : 0 < 1 - e2 * (sin phi) ^ 2.
Proof. assert (H := e2_range). assert (S := sc1 phi). assert (0 <= (cos phi)^2) by apply pow2_ge_0. nra. Qed.
(** An exact guess is left alone and the exact height is returned. *)
Lemma lla_correct_exact phi h : Mrad phi + h <> 0 ->
  lla_correct (wgs_w phi h) (wgs_z phi h) phi (sin phi) (cos phi) (sin phi * sin phi) = Ok (phi, h).
Proof.
  intros HM. assert (G := g_pos phi). unfold lla_correct.
  replace (sin phi * sin phi) with ((sin phi) ^ 2) by ring.
  rewrite msqrt_ok by lra. cbn [rbind].
  assert (SG : 0 < sqrt (1 - e2 * sin phi ^ 2)) by (apply sqrt_lt_R0; exact G).
  assert (SS : sqrt (1 - e2 * sin phi ^ 2) * sqrt (1 - e2 * sin phi ^ 2) = 1 - e2 * sin phi ^ 2) by (apply sqrt_sqrt; lra).
  rewrite mdiv_ok by lra. cbn [rbind]. rewrite mdiv_ok by lra. cbn [rbind].
  fold (Nrad phi). unfold wgs_w, wgs_z, a6.
  assert (S1 := sc1 phi).
  replace (cos phi * ((Nrad phi + h) * cos phi - Nrad phi * cos phi) + sin phi * ((Nrad phi * (1 - e2) + h) * sin phi - (1 - e2) * Nrad phi * sin phi))
    with h by (transitivity (h * (sin phi ^ 2 + cos phi ^ 2)); [rewrite S1|]; ring).
  replace (cos phi * ((Nrad phi * (1 - e2) + h) * sin phi - (1 - e2) * Nrad phi * sin phi) - sin phi * ((Nrad phi + h) * cos phi - Nrad phi * cos phi))
    with 0 by ring.
  assert (EM : (1 - e2) * Nrad phi / (1 - e2 * sin phi ^ 2) = Mrad phi).
  { unfold Mrad, Nrad. set (sg := sqrt (1 - e2 * sin phi ^ 2)) in *. clearbody sg. rewrite <- SS. field. lra. }
  rewrite mdiv_ok by (rewrite EM; exact HM). cbn [rbind]. f_equal. f_equal; unfold Rdiv; ring.
Qed.

Lemma lla_equator w : 0 < w -> w <> a1 ->
  lla_initial w 0 = Ok (0, 0, 1, 0) /\ lla_correct w 0 0 0 1 0 = Ok (0, w - wa).
Proof.
  intros Hw Ha. assert (W2 : 0 < w * w) by nra. split.
  - unfold lla_initial. rewrite Rabs_R0. replace (0 * 0 + w * w) with (w * w) by ring. rewrite sqrt_square by lra.
    rewrite !mdiv_ok by lra. cbn [rbind]. replace (w * w / (w * w)) with 1 by (field; lra).
    replace (Rltb 0.3 1) with true by (symmetry; apply Rltb_true; lra).
    replace (0 / w * _) with 0 by (unfold Rdiv at 1; ring).
    rewrite masin_ok by lra. cbn [rbind]. replace (1 - 0 * 0) with 1 by ring. rewrite msqrt_ok by lra. cbn [rbind].
    rewrite asin_0, sqrt_1. do 2 f_equal. ring.
  - unfold lla_correct. replace (1 - e2 * 0) with 1 by ring. rewrite msqrt_ok by lra. cbn [rbind]. rewrite sqrt_1.
    rewrite mdiv_ok by lra. cbn [rbind]. rewrite mdiv_ok by lra. cbn [rbind].
    rewrite mdiv_ok. { cbn [rbind]. f_equal. f_equal; field; unfold a6, a1 in *; lra. }
    unfold a6, a1 in *. lra.
Qed.
Lemma lla_pole z : z <> 0 ->
  lla_initial 0 z = Ok (PI / 2, 1, 0, 1) /\ lla_correct 0 (Rabs z) (PI / 2) 1 0 1 = Ok (PI / 2, Rabs z - wa * sqrt (1 - e2)).
Proof.
  intros Hz. assert (Z2 : 0 < z * z) by nra. assert (ZP := Rabs_pos_lt _ Hz). assert (E := e2_range). split.
  - unfold lla_initial. replace (z * z + 0 * 0) with (z * z) by ring.
    replace (sqrt (z * z)) with (Rabs z) by (rewrite <- sqrt_Rsqr_abs; reflexivity).
    rewrite !mdiv_ok by lra. cbn [rbind]. replace (0 * 0 / (z * z)) with 0 by (field; lra).
    replace (Rltb 0.3 0) with false by (symmetry; apply Rltb_false; lra).
    replace (0 / Rabs z * _) with 0 by (unfold Rdiv at 1; ring).
    rewrite macos_ok by lra. cbn [rbind]. replace (1 - 0 * 0) with 1 by ring. rewrite msqrt_ok by lra. cbn [rbind].
    rewrite acos_0, sqrt_1. reflexivity.
  - unfold lla_correct. replace (1 - e2 * 1) with (1 - e2) by ring. rewrite msqrt_ok by lra. cbn [rbind].
    assert (SG : 0 < sqrt (1 - e2)) by (apply sqrt_lt_R0; lra).
    assert (SS : sqrt (1 - e2) * sqrt (1 - e2) = 1 - e2) by (apply sqrt_sqrt; lra).
    rewrite mdiv_ok by lra. cbn [rbind]. rewrite mdiv_ok by lra. cbn [rbind]. unfold a6.
    assert (B : (1 - e2) * (wa / sqrt (1 - e2)) = wa * sqrt (1 - e2)) by (rewrite <- SS at 1; field; lra).
    rewrite B. 
    assert (0 < wa * sqrt (1 - e2)) by (apply Rmult_lt_0_compat; [unfold wa; lra|exact SG]).
    assert (D : wa * sqrt (1 - e2) < wa * sqrt (1 - e2) / (1 - e2)).
    { apply (Rmult_lt_reg_r (1 - e2)); [lra|]. replace (wa * sqrt (1 - e2) / (1 - e2) * (1 - e2)) with (wa * sqrt (1 - e2)) by (field; lra). nra. }
    rewrite mdiv_ok by lra. cbn [rbind]. 
    match goal with |- Ok (_ + ?m / _, _) = _ => replace m with 0 by ring end.
    f_equal. f_equal; unfold Rdiv; ring.
Qed.
(** results depend only on the distance from the axis and |z| *)
Lemma lla_initial_abs w z : lla_initial w (Rabs z) = lla_initial w z.
Proof. unfold lla_initial. rewrite Rabs_Rabsolu. replace (Rabs z * Rabs z) with (z * z) by (rewrite <- Rabs_mult, Rabs_pos_eq; [reflexivity|nra]). reflexivity. Qed.
Definition lla_half (w zp : R) : res (R * R) :=
  rbind (lla_initial w zp) (fun '(lat, s, c, ss) => lla_correct w zp lat s c ss).
Lemma lla_decompose (p : v3) :
  ecef_to_lla p = rbind (lla_half (sqrt (x3 p * x3 p + y3 p * y3 p)) (Rabs (z3 p)))
     (fun '(lat, h) => Ok (degrees (if Rltb (z3 p) 0 then - lat else lat), degrees (atan2 (y3 p) (x3 p)), h)).
Proof.
  unfold ecef_to_lla, lla_half. rewrite lla_initial_abs. destruct (lla_initial _ _) as [[[[lat s] c] ss]|e]; [|reflexivity]. cbn [rbind].
  destruct (lla_correct _ _ _ _ _ _) as [[lat' h]|e]; reflexivity.
Qed.
Lemma lla_equator_full (p : v3) : z3 p = 0 -> p <> zero3 -> x3 p * x3 p + y3 p * y3 p <> a1 * a1 ->
  ecef_to_lla p = Ok (0, degrees (atan2 (y3 p) (x3 p)), sqrt (x3 p * x3 p + y3 p * y3 p) - wa).
Proof.
  intros Hz Hp Ha. assert (P : 0 < x3 p * x3 p + y3 p * y3 p).
  { destruct (Rle_lt_or_eq_dec 0 (x3 p * x3 p + y3 p * y3 p)) as [L|E]; [nra|exact L|]. exfalso; apply Hp.
    destruct p as [x y z]. cbn [x3 y3 z3] in *. subst z. unfold zero3. rnumg. f_equal; nra. }
  assert (S := sqrt_lt_R0 _ P). rewrite lla_decompose, Hz, Rabs_R0. unfold lla_half.
  destruct (lla_equator (sqrt (x3 p * x3 p + y3 p * y3 p)) S) as [E1 E2].
  { intros E. apply Ha. rewrite <- E. rewrite sqrt_sqrt by lra. reflexivity. }
  rewrite E1. cbn [rbind]. rewrite E2. cbn [rbind]. replace (Rltb 0 0) with false by (symmetry; apply Rltb_false; lra).
  unfold degrees at 1. rewrite Rmult_0_l. reflexivity.
Qed.
Lemma lla_pole_full (z : R) : z <> 0 ->
  ecef_to_lla (mk3 0 0 z) = Ok (if Rltb z 0 then -90 else 90, 0, Rabs z - wa * sqrt (1 - e2)).
Proof.
  intros Hz. rewrite lla_decompose. cbn [x3 y3 z3]. replace (0 * 0 + 0 * 0) with 0 by ring. rewrite sqrt_0. unfold lla_half.
  destruct (lla_pole z Hz) as [E1 E2]. rewrite lla_initial_abs, E1. cbn [rbind]. rewrite E2. cbn [rbind].
  replace (degrees (if Rltb z 0 then - (PI / 2) else PI / 2)) with (if Rltb z 0 then -90 else 90).
  2:{ destruct (Rltb z 0); [rewrite degrees_opp|]; rewrite degrees_half; lra. }
  replace (degrees (atan2 0 0)) with 0; [reflexivity|]. unfold atan2. repeat (destruct (Rlt_dec _ _); try lra). unfold degrees; lra.
Qed.
Lemma lla_odd (p : v3) lat lon h : z3 p <> 0 -> ecef_to_lla p = Ok (lat, lon, h) ->
  ecef_to_lla (mk3 (x3 p) (y3 p) (- z3 p)) = Ok (- lat, lon, h).
Proof.
  intros Hz. rewrite !lla_decompose. cbn [x3 y3 z3]. rewrite Rabs_Ropp.
  destruct (lla_half _ _) as [[l h']|e]; [|discriminate]. cbn [rbind]. intros E; injection E as <- <- <-. do 3 f_equal.
  destruct (Rltb_spec (z3 p) 0), (Rltb_spec (- z3 p) 0); try lra; rewrite ?degrees_opp; lra.
Qed.
Lemma lla_lon (p : v3) lat lon h : ecef_to_lla p = Ok (lat, lon, h) -> lon = degrees (atan2 (y3 p) (x3 p)) /\ -180 < lon <= 180.
Proof.
  rewrite lla_decompose. destruct (lla_half _ _) as [[l h']|e]; [|discriminate]. cbn [rbind]. intros E; injection E as <- <- <-.
  split; [reflexivity|]. destruct (atan2_range (y3 p) (x3 p)) as [A B].
  apply degrees_mono in A. apply degrees_mono_le in B. rewrite degrees_opp, degrees_PI in *. lra.
Qed.
Lemma lla_rot_invariant (p q : v3) lat lon h : x3 p * x3 p + y3 p * y3 p = x3 q * x3 q + y3 q * y3 q -> z3 p = z3 q ->
  ecef_to_lla p = Ok (lat, lon, h) -> exists lon', ecef_to_lla q = Ok (lat, lon', h).
Proof.
  intros E1 E2. rewrite !lla_decompose, E1, E2. destruct (lla_half _ _) as [[l h']|e]; [|discriminate]. cbn [rbind].
  intros E; injection E as <- <- <-. eexists; reflexivity.
Qed.
(** geodetic_to_ECEF is not its inverse, even after converting degrees: the height comes back about 10 m off *)
Lemma geodetic_not_inverse : exists h', ecef_to_lla (geodetic_to_ECEF (PI / 2) 0 0) = Ok (90, 0, h') /\ 9 < h' < 11.
Proof.
  assert (E := e2_range).
  set (se := sqrt (1 - (0.0818 * sin (PI / 2)) ^ 2)).
  assert (SE : se * se = 1 - 0.0818 ^ 2). { unfold se. rewrite sin_PI2, sqrt_sqrt; lra. }
  assert (SP : 0 < se). { unfold se. rewrite sin_PI2. apply sqrt_lt_R0. lra. }
  assert (G : geodetic_to_ECEF (PI / 2) 0 0 = mk3 0 0 (6378137 * se)).
  { unfold geodetic_to_ECEF. fold se. rewrite cos_PI2, sin_PI2, cos_0, sin_0. apply mk3_c; try ring.
    rewrite <- SE. unfold Rdiv. transitivity (6378137 * (/ se * se) * se); [|rewrite Rinv_l by lra]; try ring. lra. }
  rewrite G. assert (ZP : 0 < 6378137 * se) by lra. rewrite lla_pole_full by lra.
  replace (Rltb (6378137 * se) 0) with false by (symmetry; apply Rltb_false; lra).
  eexists. split; [reflexivity|]. rewrite Rabs_pos_eq by lra. unfold wa.
  set (sb := sqrt (1 - e2)). assert (SB : sb * sb = 1 - e2) by (apply sqrt_sqrt; lra). assert (SBP : 0 < sb) by (apply sqrt_lt_R0; lra).
  assert (E2 : 0.006694379990 < e2 < 0.006694379991).
  { unfold e2, wf. assert (H : 0.0033528106647 < 1 / 298.257223563 < 0.0033528106648) by lra. set (f := 1 / 298.257223563) in *. clearbody f. nra. }
  assert (S1 : 0.9966 < se < 0.9967) by nra. assert (S2 : 0.9966 < sb < 0.9967) by nra.
  assert (D : (se - sb) * (se + sb) = e2 - 0.0818 ^ 2) by (ring_simplify; lra). 
  assert (1.574 / 1000000 < se - sb < 1.578 / 1000000) by (split; nra). lra.
Qed.
