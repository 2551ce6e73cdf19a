(** * Properties of configuration/environment.py: C31-C35 *)
From Coq Require Import Reals ZArith List Bool Lra Psatz Lia.
From Verif Require Import Num Flt Vec M_vector M_quaternion M_jday M_frame M_env S_rot S_env P_quat P_vec2 P_frame P_env.
Local Open Scope R_scope.

(** ** C31: velocity relative to the atmosphere *)
(** the air moves with w x r, w = EARTH_ROTATION along z *)
Definition air_velocity (r : v3) : v3 := cross3 (mk3 0 0 EARTH_ROTATION) r.
Theorem C31_relative_vel_refuted : forall x v,
  relative_vel x v = add3 (sub3 v (air_velocity x)) (mk3 0 (2 * EARTH_ROTATION * x3 x) 0) /\
  (x3 x = 0 <-> relative_vel x v = sub3 v (air_velocity x)) /\
  (relative_vel x (air_velocity x) = mk3 0 (2 * EARTH_ROTATION * x3 x) 0).
Proof.
  intros [x y z] [a b c]. unfold relative_vel, air_velocity.
  assert (W : 0 < EARTH_ROTATION) by (unfold EARTH_ROTATION; lra). generalize dependent EARTH_ROTATION. intros w W.
  split; [|split]; [| |]; vunfold; rnum; [apply mk3_c; ring| |apply mk3_c; ring].
  split; intros E.
  - subst. apply mk3_c; ring.
  - injection E. intros _ E' _. nra.
Qed.
Print Assumptions C31_relative_vel_refuted.
(** the error for a satellite 6900 km along x is more than a kilometre per second *)
Example C31_ex : 1000 < y3 (relative_vel (mk3 6900000 0 0) (air_velocity (mk3 6900000 0 0))).
Proof. rewrite (proj2 (proj2 (C31_relative_vel_refuted _ (mk3 0 0 0)))). cbn [y3 x3]. unfold EARTH_ROTATION. lra. Qed.

(** ** C32: density *)
Theorem C32_domain : forall h, (exists e, atmo_density h = Raise e) <-> ~ (250000 <= h < 500000).
Proof.
  intros h. rewrite atmo_bands.
  destruct (Rleb_spec 250000 h), (Rltb_spec h 300000), (Rleb_spec 300000 h), (Rltb_spec h 350000), (Rleb_spec 350000 h), (Rltb_spec h 400000),
    (Rleb_spec 400000 h), (Rltb_spec h 450000), (Rleb_spec 450000 h), (Rltb_spec h 500000); cbn [andb]; try lra;
  (split; [intros [e E]; try discriminate E; lra|intros H; try (exfalso; lra); eexists; reflexivity]).
Qed.
Print Assumptions C32_domain.
Theorem C32_raises_unbound : forall h, ~ (250000 <= h < 500000) -> atmo_density h = Raise UnboundLocalError.
Proof.
  intros h H. rewrite atmo_bands.
  destruct (Rleb_spec 250000 h), (Rltb_spec h 300000), (Rleb_spec 300000 h), (Rltb_spec h 350000), (Rleb_spec 350000 h), (Rltb_spec h 400000),
    (Rleb_spec 400000 h), (Rltb_spec h 450000), (Rleb_spec 450000 h), (Rltb_spec h 500000); cbn [andb]; try lra; reflexivity.
Qed.
Print Assumptions C32_raises_unbound.
Lemma jumps : b2 300000 < b1 300000 /\ b3 350000 < b2 350000 /\ b4 400000 < b3 400000 /\ b5 450000 < b4 450000.
Proof.
  unfold b1, b2, b3, b4, b5, band. assert (A := e1). assert (B := e2'). assert (C := e3'). assert (D := e4'). assert (E := e5').
  replace ((300000 - 300000) / 52500) with 0 by lra. replace ((350000 - 350000) / 56400) with 0 by lra. replace ((400000 - 400000) / 59400) with 0 by lra.
  rewrite exp_0. lra.
Qed.
Theorem C32_positive_decreasing : forall h h', 250000 <= h -> h < h' -> h' < 500000 ->
  exists r r', atmo_density h = Ok r /\ atmo_density h' = Ok r' /\ 0 < r' < r.
Proof.
  intros h h' H1 H2 H3. destruct jumps as (J1 & J2 & J3 & J4). rewrite !atmo_bands.
  assert (D1 : forall a b, a <= b -> b1 b <= b1 a) by (intros a b [L| ->]; [left; apply band_dec; lra|lra]).
  assert (D2 : forall a b, a <= b -> b2 b <= b2 a) by (intros a b [L| ->]; [left; apply band_dec; lra|lra]).
  assert (D3 : forall a b, a <= b -> b3 b <= b3 a) by (intros a b [L| ->]; [left; apply band_dec; lra|lra]).
  assert (D4 : forall a b, a <= b -> b4 b <= b4 a) by (intros a b [L| ->]; [left; apply band_dec; lra|lra]).
  assert (D5 : forall a b, a <= b -> b5 b <= b5 a) by (intros a b [L| ->]; [left; apply band_dec; lra|lra]).
  assert (S1 : b1 h' < b1 h) by (apply band_dec; lra). assert (S2 : b2 h' < b2 h) by (apply band_dec; lra).
  assert (S3 : b3 h' < b3 h) by (apply band_dec; lra). assert (S4 : b4 h' < b4 h) by (apply band_dec; lra). assert (S5 : b5 h' < b5 h) by (apply band_dec; lra).
  assert (P1 : 0 < b1 h') by (apply band_pos; lra). assert (P2 : 0 < b2 h') by (apply band_pos; lra). assert (P3 : 0 < b3 h') by (apply band_pos; lra).
  assert (P4 : 0 < b4 h') by (apply band_pos; lra). assert (P5 : 0 < b5 h') by (apply band_pos; lra).
  assert (C2 := D2 300000 350000 ltac:(lra)). assert (C3 := D3 350000 400000 ltac:(lra)). assert (C4 := D4 400000 450000 ltac:(lra)).
  assert (A1 : h < 300000 -> b1 300000 <= b1 h) by (intros; apply D1; lra). assert (A2 : h < 350000 -> b2 350000 <= b2 h) by (intros; apply D2; lra).
  assert (A3 : h < 400000 -> b3 400000 <= b3 h) by (intros; apply D3; lra). assert (A4 : h < 450000 -> b4 450000 <= b4 h) by (intros; apply D4; lra).
  assert (B2 : 300000 <= h' -> b2 h' <= b2 300000) by (intros; apply D2; lra). assert (B3 : 350000 <= h' -> b3 h' <= b3 350000) by (intros; apply D3; lra).
  assert (B4 : 400000 <= h' -> b4 h' <= b4 400000) by (intros; apply D4; lra). assert (B5 : 450000 <= h' -> b5 h' <= b5 450000) by (intros; apply D5; lra).
  clear D1 D2 D3 D4 D5.
  destruct (Rlt_le_dec h 300000) as [L1|L1]; [|destruct (Rlt_le_dec h 350000) as [L2|L2]; [|destruct (Rlt_le_dec h 400000) as [L3|L3]; [|destruct (Rlt_le_dec h 450000) as [L4|L4]]]];
  (destruct (Rlt_le_dec h' 300000) as [M1|M1]; [|destruct (Rlt_le_dec h' 350000) as [M2|M2]; [|destruct (Rlt_le_dec h' 400000) as [M3|M3]; [|destruct (Rlt_le_dec h' 450000) as [M4|M4]]]]); try lra;
  repeat match goal with |- context [Rleb ?a ?b] => destruct (Rleb_spec a b); [|try (exfalso; lra)] || (destruct (Rleb_spec a b); [exfalso; lra|]) end;
  repeat match goal with |- context [Rltb ?a ?b] => (destruct (Rltb_spec a b); [|exfalso; lra]) || (destruct (Rltb_spec a b); [exfalso; lra|]) end;
  cbn [andb]; eexists; eexists; (split; [reflexivity|]; split; [reflexivity|]); lra.
Qed.
Print Assumptions C32_positive_decreasing.
Definition left_limit (f : R -> res R) (b L : R) : Prop :=
  forall eps, 0 < eps -> exists d, 0 < d /\ forall h, b - d < h < b -> exists r, f h = Ok r /\ Rabs (r - L) < eps.
Lemma band_left rho h0 H b (f : R -> res R) : (forall h, b - 50000 < h < b -> f h = Ok (band rho h0 H h)) -> left_limit f b (band rho h0 H b).
Proof.
  intros E eps He. assert (C : continuity_pt (band rho h0 H) b) by (unfold band; reg).
  destruct (C eps He) as (d & Hd & K). exists (Rmin d 50000). split; [apply Rmin_glb_lt; lra|]. intros h Hh.
  assert (M1 := Rmin_l d 50000). assert (M2 := Rmin_r d 50000). exists (band rho h0 H h). split; [apply E; lra|].
  apply (K h). split; [split; [exact I|lra]|]. unfold dist; cbn. unfold R_dist. rewrite Rabs_left; lra.
Qed.
(** across the first three boundaries the density drops by at most 4 per cent; at 450 km it drops by more than half *)
Theorem C32_boundaries : forall b, b = 300000 \/ b = 350000 \/ b = 400000 ->
  exists L r, left_limit atmo_density b L /\ atmo_density b = Ok r /\ 0.96 * L <= r < L.
Proof.
  destruct jumps as (J1 & J2 & J3 & J4). assert (A := e1). assert (B := e2'). assert (C := e3').
  intros b [->|[->| ->]].
  - exists (b1 300000), (b2 300000). split; [|split].
    + apply band_left. intros h Hh. rewrite atmo_bands. destruct (Rleb_spec 250000 h); [|lra]. destruct (Rltb_spec h 300000); [reflexivity|lra].
    + rewrite atmo_bands. destruct (Rltb_spec 300000 300000); [lra|]. destruct (Rleb_spec 300000 300000); [|lra]. destruct (Rltb_spec 300000 350000); [|lra]. rewrite Bool.andb_false_r. reflexivity.
    + split; [|exact J1]. unfold b1, b2, band. replace ((300000 - 300000) / 52500) with 0 by lra. rewrite exp_0. lra.
  - exists (b2 350000), (b3 350000). split; [|split].
    + apply band_left. intros h Hh. rewrite atmo_bands. destruct (Rltb_spec h 300000); [lra|]. rewrite Bool.andb_false_r. destruct (Rleb_spec 300000 h); [|lra]. destruct (Rltb_spec h 350000); [reflexivity|lra].
    + rewrite atmo_bands. destruct (Rltb_spec 350000 300000); [lra|]. destruct (Rltb_spec 350000 350000); [lra|]. destruct (Rleb_spec 350000 350000); [|lra]. destruct (Rltb_spec 350000 400000); [|lra]. rewrite !Bool.andb_false_r. reflexivity.
    + split; [|exact J2]. unfold b2, b3, band. replace ((350000 - 350000) / 56400) with 0 by lra. rewrite exp_0. lra.
  - exists (b3 400000), (b4 400000). split; [|split].
    + apply band_left. intros h Hh. rewrite atmo_bands. destruct (Rltb_spec h 300000); [lra|]. destruct (Rltb_spec h 350000); [lra|]. rewrite !Bool.andb_false_r. destruct (Rleb_spec 350000 h); [|lra]. destruct (Rltb_spec h 400000); [reflexivity|lra].
    + rewrite atmo_bands. destruct (Rltb_spec 400000 300000); [lra|]. destruct (Rltb_spec 400000 350000); [lra|]. destruct (Rltb_spec 400000 400000); [lra|]. destruct (Rleb_spec 400000 400000); [|lra]. destruct (Rltb_spec 400000 450000); [|lra]. rewrite !Bool.andb_false_r. reflexivity.
    + split; [|exact J3]. unfold b3, b4, band. replace ((400000 - 400000) / 59400) with 0 by lra. rewrite exp_0. lra.
Qed.
Print Assumptions C32_boundaries.
Theorem C32_jump_450_refuted : exists L r, left_limit atmo_density 450000 L /\ atmo_density 450000 = Ok r /\ r < 0.45 * L /\
  (* with the reference height of the band itself the boundary would have been within 4 per cent *)
  0.96 * L <= 1.585 * (1 / 10 ^ 12) * exp ((450000 - 450000) / 62200) < L.
Proof.
  assert (D := e4'). assert (E := e5'). exists (b4 450000), (b5 450000). split; [|split].
  - apply band_left. intros h Hh. rewrite atmo_bands. destruct (Rltb_spec h 300000); [lra|]. destruct (Rltb_spec h 350000); [lra|]. destruct (Rltb_spec h 400000); [lra|]. rewrite !Bool.andb_false_r.
    destruct (Rleb_spec 400000 h); [|lra]. destruct (Rltb_spec h 450000); [reflexivity|lra].
  - rewrite atmo_bands. destruct (Rltb_spec 450000 300000); [lra|]. destruct (Rltb_spec 450000 350000); [lra|]. destruct (Rltb_spec 450000 400000); [lra|]. destruct (Rltb_spec 450000 450000); [lra|].
    destruct (Rleb_spec 450000 450000); [|lra]. destruct (Rltb_spec 450000 500000); [|lra]. rewrite !Bool.andb_false_r. reflexivity.
  - unfold b4, b5, band. replace ((450000 - 450000) / 62200) with 0 by lra. rewrite exp_0. lra.
Qed.
Print Assumptions C32_jump_450_refuted.
Example C32_ex : 250000 <= 299999 /\ 299999 < 460000 /\ 460000 < 500000. Proof. lra. Qed.

(** ** C33: gravity *)
Theorem C33_low_fidelity : forall p, p <> mk3 0 0 0 ->
  gradient (fun p => MU / norm3 p) p (gravity_accel false p (norm3 p)) /\
  gravity_accel false p (norm3 p) = scale3 (- (MU / norm3 p ^ 3)) p.
Proof.
  intros p Hp. assert (N := norm3_gt0 p Hp). split.
  - destruct (lo_fi_eq p Hp) as (A & B & C).
    assert (E : forall p, zonal MU 1 0 0 0 p = MU / norm3 p).
    { intros [x y z]. unfold zonal. cbn [x3 y3 z3]. unfold norm3. rnumg. replace (dot3 (mk3 x y z) (mk3 x y z)) with (x^2 + y^2 + z^2) by (vunfold; rnum; ring). ring. }
    split; [|split]; (eapply derivable_pt_lim_ext; [|eassumption]); intros t; apply E.
  - unfold gravity_accel. cbv zeta. generalize MU. intros mu. set (r := norm3 p) in *. clearbody r. clear Hp. destruct p. vunfold; rnum. apply mk3_c; field; lra.
Qed.
Print Assumptions C33_low_fidelity.
(** high fidelity: the z component is the partial derivative of the J2-J3-J4 potential; x and y are short by [error] times x
    and y, twice the J3 and J4 terms *)
Definition j34_error (p : v3) : R :=
  let r := norm3 p in let s := z3 p / r in let q := EARTH_RAD / r in
  2 * (MU / r ^ 3) * (J3 / 2 * q ^ 3 * (35 * s ^ 3 - 15 * s) + J4 / 8 * q ^ 4 * (15 - 210 * s ^ 2 + 315 * s ^ 4)).
Theorem C33_high_fidelity : forall p, p <> mk3 0 0 0 ->
  exists g, gradient (zonal MU EARTH_RAD J2 J3 J4) p g /\
  gravity_accel true p (norm3 p) = sub3 g (mk3 (j34_error p * x3 p) (j34_error p * y3 p) 0).
Proof.
  intros p Hp. eexists. split; [exact (hi_fi_eq p Hp)|].
  assert (N := norm3_gt0 p Hp). assert (E : j34_error p = j34_factor p) by (unfold j34_error, j34_factor; cbv zeta; field; lra).
  rewrite E. generalize (j34_factor p) (gravity_accel true p (norm3 p)). clear. vring.
Qed.
Print Assumptions C33_high_fidelity.
(** with the J2 term alone the formula is the gradient (J3 = J4 = 0 in the potential and the terms left out) *)
Theorem C33_j2_part : forall p, p <> mk3 0 0 0 ->
  let r := norm3 p in let s := z3 p / r in
  gradient (zonal MU EARTH_RAD J2 0 0) p
    (scale3 (- (MU / r ^ 2)) (add3 (div3 p r) (scale3 (3 / 2 * J2 * (EARTH_RAD / r) ^ 2)
       (mk3 ((1 - 5 * s ^ 2) * (x3 p / r)) ((1 - 5 * s ^ 2) * (y3 p / r)) ((3 - 5 * s ^ 2) * s))))).
Proof.
  intros p Hp r s. assert (N := norm3_gt0 p Hp). assert (G := zonal_gradient MU EARTH_RAD J2 0 0 p Hp). cbv zeta in G. fold r in N, G. unfold s.
  match type of G with gradient _ _ ?g => match goal with |- gradient _ _ ?h => replace h with g; [exact G|] end end.
  clear G Hp s. clearbody r. generalize MU EARTH_RAD J2. intros mu re j. unfold zdw, zdz. destruct p as [x y z]. vunfold; rnum. apply mk3_c; field; lra.
Qed.
Print Assumptions C33_j2_part.
(** so on the equator, off the axis, the acceleration is not the gradient *)
Theorem C33_not_gradient_refuted : forall x y, x <> 0 -> ~ gradient (zonal MU EARTH_RAD J2 J3 J4) (mk3 x y 0) (gravity_accel true (mk3 x y 0) (norm3 (mk3 x y 0))).
Proof.
  intros x y Hx G. assert (Hp : mk3 x y 0 <> mk3 0 0 0 :> v3) by (intros E; injection E; auto).
  destruct (C33_high_fidelity _ Hp) as (g & Hg & E). assert (U := gradient_unique _ _ _ _ G Hg). rewrite E in U.
  assert (N := norm3_gt0 _ Hp).
  assert (Z : j34_error (mk3 x y 0) * x = 0). { cbn [x3 y3 z3] in U. revert U. generalize (j34_error (mk3 x y 0)). intros k. destruct g as [a b c]. unfold sub3. cbn [x3 y3 z3]. rnumg. intros U. injection U. lra. }
  apply Rmult_integral in Z. destruct Z as [Z|Z]; [|contradiction]. revert Z. unfold j34_error. cbn [z3]. cbv zeta. set (r := norm3 (mk3 x y 0)) in *. clearbody r.
  replace (0 / r) with 0 by (field; lra). intros Z.
  assert (M : 0 < MU) by (unfold MU, G_NEWTON, EARTH_MASS; lra). assert (K4 : J4 < 0) by (unfold J4; lra). assert (RE : 0 < EARTH_RAD) by (unfold EARTH_RAD; lra).
  assert (0 < MU / r ^ 3) by (apply Rdiv_lt_0_compat; [exact M|apply pow_lt, N]). assert (0 < (EARTH_RAD / r) ^ 4) by (apply pow_lt, Rdiv_lt_0_compat; assumption).
  assert (0 < 2 * (MU / r ^ 3) * (- J4 / 8 * (EARTH_RAD / r) ^ 4 * 15)). { apply Rmult_lt_0_compat; [lra|]. apply Rmult_lt_0_compat; [|lra]. apply Rmult_lt_0_compat; lra. }
  lra.
Qed.
Print Assumptions C33_not_gradient_refuted.
Example C33_ex : mk3 6900000 0 0 <> mk3 0 0 0 :> v3. Proof. intros E. injection E. lra. Qed.

(** ** C34: the magnetic field *)
(** [th] is the sidereal angle; the state's r_ecef and length are those of its position *)
Definition field_at (th : R) (p : v3) : v3 := magnetic_field (mv (ecef_matrix th) p) (norm3 p) (ecef_matrix th).
Theorem C34_dipole : forall th p, p <> mk3 0 0 0 ->
  let B := field_at th p in let r := norm3 p in let m := mv (tr3 (ecef_matrix th)) dipole in
  dot3 m m = dot3 dipole dipole /\
  B = scale3 (/ r ^ 3) (sub3 (scale3 (3 * dot3 m (div3 p r)) (div3 p r)) m) /\
  dot3 B B * r ^ 6 = dot3 dipole dipole + 3 * (dot3 m p / r) ^ 2 /\
  norm3 dipole / r ^ 3 <= norm3 B <= 2 * norm3 dipole / r ^ 3.
Proof.
  intros th p Hp B r m. assert (N := norm3_gt0 p Hp). fold r in N. destruct (ecef_rows th) as (T1 & T2 & T3 & T4). 
  assert (RR : dot3 p p = r ^ 2) by (unfold r; rewrite <- norm3_sq; ring).
  assert (MM : dot3 m m = dot3 dipole dipole) by apply T4.
  assert (MP : dot3 dipole (mv (ecef_matrix th) p) = dot3 m p). { unfold m. rewrite <- (T4 dipole). rewrite T1. reflexivity. }
  assert (EB : B = div3 (sub3 (scale3 (3 * dot3 m p) p) (scale3 (r ^ 2) m)) (r ^ 5)).
  { unfold B, field_at, magnetic_field. cbv zeta. fold r. rewrite MP.
    transitivity (div3 (sub3 (scale3 (3 * dot3 m p) (mv (tr3 (ecef_matrix th)) (mv (ecef_matrix th) p))) (scale3 (r ^ 2) (mv (tr3 (ecef_matrix th)) dipole))) (r ^ 5)).
    - generalize (mv (ecef_matrix th) p) dipole (dot3 m p) (tr3 (ecef_matrix th)). intros u d k tm. clear -N. destruct u, d, tm as [[? ? ?] [? ? ?] [? ? ?]]. vunfold; rnum. apply mk3_c; field; lra.
    - rewrite T1. reflexivity. }
  assert (FN := field_norm m p r N RR). cbv zeta in FN. rewrite <- EB, MM in FN.
  split; [exact MM|]. split; [|split; [exact FN|]].
  - rewrite EB. clear -N. clearbody r m. destruct p, m. vunfold; rnum. apply mk3_c; field; lra.
  - assert (R3 : 0 < r ^ 3) by (apply pow_lt, N).
    assert (C : (dot3 m p / r) ^ 2 <= dot3 dipole dipole).
    { rewrite <- MM. assert (C := cauchy3 m p). assert (P := dot3_nonneg (cross3 m p)). rewrite RR in C.
      replace ((dot3 m p / r) ^ 2) with (dot3 m p ^ 2 / r ^ 2) by (field; lra). apply (Rmult_le_reg_r (r ^ 2)); [apply pow_lt, N|].
      replace (dot3 m p ^ 2 / r ^ 2 * r ^ 2) with (dot3 m p ^ 2) by (field; lra). lra. }
    assert (Q := pow2_ge_0 (dot3 m p / r)). assert (NB := norm3_pos B). assert (ND := norm3_pos dipole).
    assert (SB : (norm3 B * r ^ 3) ^ 2 = dot3 dipole dipole + 3 * (dot3 m p / r) ^ 2). { rewrite <- FN, <- norm3_sq. ring. }
    assert (SD := norm3_sq dipole). assert (X : 0 <= norm3 B * r ^ 3) by (apply Rmult_le_pos; lra).
    assert (L1 : norm3 dipole <= norm3 B * r ^ 3) by (apply Rsqr_incr_0_var; [unfold Rsqr|exact X]; nra).
    assert (L2 : norm3 B * r ^ 3 <= 2 * norm3 dipole) by (apply Rsqr_incr_0_var; [unfold Rsqr|lra]; nra).
    split; apply (Rmult_le_reg_r (r ^ 3)); try exact R3; unfold Rdiv; rewrite Rmult_assoc, Rinv_l, Rmult_1_r by lra; assumption.
Qed.
Print Assumptions C34_dipole.
(** inverse cube, and even in position *)
Theorem C34_scaling : forall th p k, p <> mk3 0 0 0 -> 0 < k ->
  field_at th (scale3 k p) = div3 (field_at th p) (k ^ 3) /\ field_at th (opp3 p) = field_at th p.
Proof.
  intros th p k Hp Hk. assert (N := norm3_gt0 p Hp).
  assert (NK : norm3 (scale3 k p) = k * norm3 p).
  { unfold norm3. rnumg. replace (dot3 (scale3 k p) (scale3 k p)) with (Rsqr k * dot3 p p) by (unfold Rsqr; clear; destruct p; vunfold; rnum; ring).
    rewrite sqrt_mult; [|apply Rle_0_sqr|apply dot3_nonneg]. rewrite sqrt_Rsqr by lra. reflexivity. }
  split.
  - unfold field_at, magnetic_field. cbv zeta. rewrite NK. set (r := norm3 p) in *. clearbody r. generalize (ecef_matrix th) dipole. intros m d. clear Hp NK.
    destruct p as [x y z], d, m as [[? ? ?] [? ? ?] [? ? ?]]. vunfold; rnum. apply mk3_c; field; lra.
  - unfold field_at. rewrite norm3_opp. set (r := norm3 p) in *. clearbody r. unfold magnetic_field. cbv zeta. generalize (ecef_matrix th) dipole. intros m d. clear Hp NK.
    destruct p as [x y z], d, m as [[? ? ?] [? ? ?] [? ? ?]]. vunfold; rnum. apply mk3_c; field; lra.
Qed.
Print Assumptions C34_scaling.
Example C34_ex : mk3 0 0 7000000 <> mk3 0 0 0 :> v3 /\ 0 < 2. Proof. split; [intros E; injection E; lra|lra]. Qed.

(** ** C35: the sun *)
Theorem C35_sun_direction : forall jd, unit3 (earth_to_sun jd).
Proof.
  intros jd. unfold earth_to_sun. cbv zeta. generalize (radians (23.439291 - 0.0130042 * ((jd - 2451545) / 36525))). intros ob.
  generalize (radians (Rmod (280.46 + 36000.771 * ((jd - 2451545) / 36525)) 360 + 1.914666471 * sin (radians (Rmod (357.5277233 + 35999.05034 * ((jd - 2451545) / 36525)) 360)) + 0.019994643 * sin (2 * radians (Rmod (357.5277233 + 35999.05034 * ((jd - 2451545) / 36525)) 360)))). intros l.
  assert (A := sc1 ob). assert (B := sc1 l). unfold unit3, dot3. cbn [x3 y3 z3]. rnumg.
  transitivity (cos l ^ 2 + (sin ob ^ 2 + cos ob ^ 2) * sin l ^ 2); [ring|]. rewrite A. lra.
Qed.
Print Assumptions C35_sun_direction.
Theorem C35_to_sun : forall jd x, dot3 x x < AU ^ 2 ->
  let '(p, _, s) := SRP_info jd x in
  unit3 s /\ (exists d, 0 < d /\ add3 x (scale3 d s) = scale3 AU (earth_to_sun jd) /\ p = SRP_coeff / d ^ 2) /\ 0 < p /\
  (AU - norm3 x) <= norm3 (sub3 (scale3 AU (earth_to_sun jd)) x) <= AU + norm3 x.
Proof.
  intros jd x Hx. unfold SRP_info. cbv zeta. assert (U := C35_sun_direction jd). set (e := earth_to_sun jd) in *. clearbody e.
  assert (A0 : 0 < AU) by (unfold AU; lra). assert (SC : 0 < SRP_coeff) by (unfold SRP_coeff, AU; lra). generalize dependent AU. intros au Hx A0. generalize dependent SRP_coeff. intros co SC.
  set (s := sub3 (scale3 au e) x).
  assert (NX := norm3_pos x). assert (SX := norm3_sq x). assert (LX : norm3 x < au). { apply Rsqr_incrst_0; [unfold Rsqr; rewrite SX; lra|exact NX|lra]. }
  assert (CS : Rabs (dot3 e x) <= norm3 x).
  { apply Rsqr_incr_0_var; [|exact NX]. rewrite <- Rsqr_abs. unfold Rsqr. rewrite SX. assert (C := cauchy3 e x). rewrite U in C. assert (P := dot3_nonneg (cross3 e x)). lra. }
  assert (CS1 := Rle_abs (dot3 e x)). assert (CS2 := Rle_abs (- dot3 e x)). rewrite Rabs_Ropp in CS2.
  assert (SS : dot3 s s = au ^ 2 - 2 * au * dot3 e x + dot3 x x).
  { transitivity (au ^ 2 * dot3 e e - 2 * au * dot3 e x + dot3 x x); [unfold s; clear; destruct e, x; vunfold; rnum; ring|rewrite U; ring]. }
  assert (NZ : s <> zero3). { intros E. assert (dot3 s s = 0) by (rewrite E; vunfold; rnum; ring). nra. }
  assert (NS := norm3_gt0 s NZ). assert (SQ := norm3_sq s). split; [apply normalize3_unit, NZ|]. split; [|split].
  - exists (norm3 s). split; [exact NS|]. split.
    + rewrite (normalize3_nz s NZ). set (n := norm3 s) in *. clearbody n. unfold s. clear -NS. destruct e, x. vunfold; rnum. apply mk3_c; field; lra.
    + rewrite <- SQ. f_equal. ring.
  - apply Rdiv_lt_0_compat; [exact SC|]. rewrite <- SQ. nra.
  - split; (apply Rsqr_incr_0_var; [unfold Rsqr; nra|lra]).
Qed.
Print Assumptions C35_to_sun.
(** outside the Earth the flag is the cylinder: on the night side and nearer than the Earth radius to the Earth-sun axis *)
Theorem C35_shadow : forall jd x, EARTH_RAD ^ 2 <= dot3 x x ->
  let '(_, shadow, _) := SRP_info jd x in
  let e := earth_to_sun jd in
  let along := scale3 (dot3 x e) e in
  shadow = true <-> dot3 x e < 0 /\ norm3 (sub3 x along) < EARTH_RAD.
Proof.
  intros jd x Hx. unfold SRP_info. cbv zeta. assert (U := C35_sun_direction jd). set (e := earth_to_sun jd) in *. clearbody e.
  assert (R0 : 0 < EARTH_RAD) by (unfold EARTH_RAD; lra). generalize dependent EARTH_RAD. intros re Hx R0.
  unfold shadow_test. rnumg. set (d := dot3 x e). set (k := dot3 x x - re ^ 2). assert (K0 : 0 <= k) by (unfold k; lra).
  assert (P : dot3 (sub3 x (scale3 d e)) (sub3 x (scale3 d e)) = dot3 x x - d ^ 2).
  { transitivity (dot3 x x - 2 * d * dot3 x e + d ^ 2 * dot3 e e); [clear; clearbody d; destruct x, e; vunfold; rnum; ring|]. fold d. rewrite U. ring. }
  assert (NP := norm3_sq (sub3 x (scale3 d e))). rewrite P in NP. assert (N0 := norm3_pos (sub3 x (scale3 d e))).
  set (n := norm3 (sub3 x (scale3 d e))) in *. clearbody n. assert (SK := sqrt_sqrt k K0). assert (S0 := sqrt_pos k).
  rewrite Rltb_true. split.
  - intros H. split; [lra|]. apply Rsqr_incrst_0; [unfold Rsqr; rewrite NP|exact N0|lra]. assert (SK' : sqrt k * sqrt k = dot3 x x - re ^ 2) by exact SK. clearbody d.
    assert (0 < (- d - sqrt k) * (- d + sqrt k)) by (apply Rmult_lt_0_compat; lra). nra.
  - intros [H1 H2]. assert (n * n < re * re) by nra. assert (sqrt k * sqrt k < (- d) * (- d)) by (rewrite SK; unfold k; nra).
    assert (sqrt k < - d) by (apply Rsqr_incrst_0; [unfold Rsqr; assumption|exact S0|lra]). lra.
Qed.
Print Assumptions C35_shadow.
(** inside the Earth the binary64 test takes the root of a negative number and answers False *)
Theorem C35_shadow_inside : forall xe xx rr : b64, fin xx = true -> fin rr = true -> 0 <= fR xx -> fR xx < fR rr -> shadow_test xe xx rr = false.
Proof. exact shadow_inside. Qed.
Print Assumptions C35_shadow_inside.
Example C35_ex : dot3 (mk3 6900000 0 0) (mk3 6900000 0 0) < AU ^ 2 /\ EARTH_RAD ^ 2 <= dot3 (mk3 6900000 0 0) (mk3 6900000 0 0) /\
  (fin (fofZ 100) && fltb (fofZ 100) (fofZ 400))%bool = true.
Proof. split; [|split]; [vunfold; rnum; unfold AU; lra|vunfold; rnum; unfold EARTH_RAD; lra|vm_compute; reflexivity]. Qed.
