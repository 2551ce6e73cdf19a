(** * C104: does a star-tracker fix bring the estimate nearer to the measured attitude? *)
From Coq Require Import Reals List Bool Lra Psatz Lia.
From Verif Require Import Num Vec Mat6 M_vector M_quaternion M_jday M_frame M_env M_dyn M_obs S_rot S_env S_dyn S_obs P_quat P_wheel P_env P_dyn P_dyn2 P_obs P_obs2 P_obs3 Props_obs.
Import ListNotations.
Local Open Scope R_scope.

(** the attitude part of the covariance is positive definite, as it is at the start and after every step forward and every fix *)
Definition unsure (f : AttF) : Prop := forall v, v <> zero3 -> 0 < dot3 v (mv (b11 (a_P f)) v).
Lemma dot3_pos (v : v3) : v <> zero3 -> 0 < dot3 v v.
Proof. intros H. destruct (Rle_lt_or_eq_dec 0 _ (dot3_nonneg v)) as [X|X]; [exact X|]. exfalso. apply H, norm0. unfold norm3. rnumg. rewrite <- X. apply sqrt_0. Qed.
Lemma quad_block1 P (v : v3) : dot6 (mk6 v zero3) (mv6 P (mk6 v zero3)) = dot3 v (mv (b11 P) v).
Proof. unfold dot6, mv6. cbn [u1 u2]. rewrite !mv_zero3, add3_0_r. generalize (mv (b11 P) v) (add3 (mv (b21 P) v) zero3). revert v. vring. Qed.
Lemma unsure_init q : unsure (af_init q).
Proof. intros v H. cbn [af_init a_P diag6 b11]. rewrite mv_scalem, mv_id3. replace (dot3 v (scale3 (SENSOR_SIGMA ^ 2) v)) with (SENSOR_SIGMA ^ 2 * dot3 v v) by (generalize (SENSOR_SIGMA ^ 2); revert v H; clear; intros v _; revert v; vring). apply Rmult_lt_0_compat; [apply R_pos|apply dot3_pos, H]. Qed.
Lemma unsure_meas q f f' : cov_ok (a_P f) -> unsure f -> af_measurement q f = Ok f' -> unsure f'.
Proof.
  intros [S Q] UN. unfold af_measurement. destruct (Reqb_spec (det3 (addm af_R (b11 (a_P f)))) 0) as [E|_]; [discriminate|]. unfold af_gain. cbv zeta. intros H. injection H as <-. intros v V. unfold af_reset. cbn [a_P].
  destruct (att_update _ _ R_pos S Q) as (_ & B & _). fold af_R in B. rewrite <- quad_block1, B. cbv zeta. set (g := mv _ _). replace (sub6 (mk6 v zero3) (mk6 g zero3)) with (mk6 (sub3 v g) zero3) by (unfold sub6; cbn [u1 u2]; f_equal; symmetry; apply sub3_0_r). rewrite quad_block1.
  assert (RP := R_pos). destruct (Req_dec (dot3 g g) 0) as [Z|Z].
  - assert (G : g = zero3) by (apply norm0; unfold norm3; rnumg; rewrite Z; apply sqrt_0). rewrite G, sub3_0_r. assert (X := UN v V). assert (N := dot3_nonneg zero3). assert (0 <= SENSOR_SIGMA ^ 2 * dot3 zero3 zero3) by (apply Rmult_le_pos; lra). lra.
  - assert (0 < dot3 g g) by (assert (X := dot3_nonneg g); lra). assert (0 < SENSOR_SIGMA ^ 2 * dot3 g g) by (apply Rmult_lt_0_compat; lra). assert (X := psd_block1 _ Q (sub3 v g)). lra.
Qed.
Lemma unsure_prop w dt f : 0 < dt -> cov_ok (a_P f) -> unsure (af_propagate w dt f).
Proof.
  intros H [S Q] v V. rewrite <- quad_block1. unfold af_propagate. cbv zeta. cbn [a_P]. rewrite mv6_addm, dot6_add_r. assert (X := psd6_conj (af_phi (sub3 w (a_b f)) dt) (a_P f) Q (mk6 v zero3)).
  assert (Y : dot6 (mk6 v zero3) (mv6 (mm6 af_G (mm6 (af_Q dt) (tr6 af_G))) (mk6 v zero3)) = (GYRO_VAR * dt + 0.3333333 * DRIFT_VAR * dt ^ 3) * dot3 v v).
  { rewrite !mv6_mm, dot6_comm, dot6_tr, dot6_comm. assert (E : mv6 (tr6 af_G) (mk6 v zero3) = mk6 (scale3 (-1) v) zero3). { destruct v as [a b c]. unfold mv6, tr6, af_G, diag6. vunfoldg. cbn [u1 u2 b11 b12 b21 b22 row1 row2 row3 x3 y3 z3]. unfold tr3, scalem, id3, zerom. vunfoldg. cbn [row1 row2 row3 x3 y3 z3]. rnumg. f_equal; apply mk3_c; ring. }
    rewrite E, quad_block1. unfold af_Q. cbn [b11]. rewrite mv_scalem, mv_id3. generalize (GYRO_VAR * dt + 0.3333333 * DRIFT_VAR * dt ^ 3). clear. intros k. revert k v. vring. }
  rewrite Y. assert (0 < GYRO_VAR * dt) by (apply Rmult_lt_0_compat; [apply gyro_pos|exact H]). assert (0 < DRIFT_VAR * dt ^ 3) by (apply Rmult_lt_0_compat; [apply drift_pos|apply pow_lt, H]). assert (0 < (GYRO_VAR * dt + 0.3333333 * DRIFT_VAR * dt ^ 3) * dot3 v v) by (apply Rmult_lt_0_compat; [lra|apply dot3_pos, V]). lra.
Qed.
Definition onward (o : AOp) : Prop := match o with AProp _ dt => 0 < dt | _ => True end.
Lemma unsure_run ops : forall f f', cov_ok (a_P f) -> unsure f -> Forall onward ops -> af_run ops f = Ok f' -> cov_ok (a_P f') /\ unsure f'.
Proof.
  induction ops as [|o ops IH]; intros f f' C UN F; cbn [af_run]; [intros E; injection E as <-; split; assumption|]. inversion F as [|? ? F1 F2]; subst. destruct o as [q|w dt]; cbn [af_step].
  - destruct (meas_cov q f C) as (f1 & E & C1 & _). rewrite E. cbn [rbind]. apply (IH f1); [exact C1|exact (unsure_meas q f f1 C UN E)|exact F2].
  - cbn [rbind onward] in *. apply IH; [apply prop_cov; [lra|exact C]|apply unsure_prop; assumption|exact F2].
Qed.

(** what the gain does with the error it is given *)
Lemma gain_strict r P (e : v3) : 0 < r -> symm6 P -> psd6 P -> (forall v, v <> zero3 -> 0 < dot3 v (mv (b11 P) v)) -> e <> zero3 ->
  let k := mv (mm (b11 P) (inv3 (addm (scalem r id3) (b11 P)))) e in 0 < dot3 e k <= dot3 e e /\ dot3 k k <= dot3 e k.
Proof.
  intros Hr SP PP UN NE k. destruct (gain_bounds r P e Hr SP PP) as [_ GB]. fold k in GB. destruct (innovation_pd r P Hr SP PP) as (SS & PS & D). set (S := addm (scalem r id3) (b11 P)) in *. cbv zeta in D.
  set (g := mv (inv3 S) e). assert (K : k = mv (b11 P) g) by (unfold k; rewrite mv_mm; reflexivity).
  assert (E : e = add3 (scale3 r g) (mv (b11 P) g)). { transitivity (mv S g); [symmetry; apply mv_inv3; lra|]. unfold S. rewrite mv_addm, mv_scalem, mv_id3. reflexivity. }
  assert (NG : g <> zero3). { intros G. apply NE. rewrite E, G, mv_zero3. clear. revert r. vring. }
  assert (N := UN g NG). rewrite <- K in *. assert (EK : dot3 e k = r * dot3 g k + dot3 k k) by (rewrite E at 1; clearbody k g; clear; revert r g k; vring). assert (NK := dot3_nonneg k). assert (0 < r * dot3 g k) by (apply Rmult_lt_0_compat; lra). lra.
Qed.
Lemma qw_error (q r : quat) : qw (error_quat q r) = dotq q r.
Proof. destruct q as [a b c d], r as [x y z t]. qunfoldg. vunfoldg. cbn [x3 y3 z3 qw qx qy qz]. rnumg. ring. Qed.
Lemma qw_corrected (q r : quat) (k : v3) : qw (error_quat r (product q (mkqv 1 (scale3 0.5 k)))) = qw (error_quat r q) + dot3 (vec (error_quat r q)) k / 2.
Proof.
  replace 0.5 with (1 / 2) by lra. unfold error_quat. rewrite conj_product, product_assoc. set (e := product (conjugate q) r). clearbody e. destruct e as [a b c d], k as [x y z]. qunfoldg. vunfoldg. cbn [x3 y3 z3 qw qx qy qz]. rnumg. field.
Qed.
(** one fix, in numbers: w is the cosine of half the angle between measured and estimated attitude before, or minus it if the quaternions have
    opposite signs *)
Definition half_cos (q r : quat) : R := dotq q r / normq r.
Lemma fix_numbers q f f' : cov_ok (a_P f) -> unsure f -> unitq q -> a_q f <> zeroq -> a_dq f = zero3 -> half_cos q (a_q f) * half_cos q (a_q f) <> 1 -> af_measurement q f = Ok f' ->
  unitq (a_q f') /\ exists ee ek kk n, let w := half_cos q (a_q f) in let r := normq (a_q f) in w * w + ee = 1 /\ 0 < ek <= r * ee /\ 0 <= kk <= r * ek /\ 0 < n /\ n * n = 1 + kk / 4 /\ dotq q (a_q f') = / n * (w + ek / 2).
Proof.
  intros [S Q] UN Uq N Z NE. assert (R0 := normq_gt0 _ N). assert (RR := normq_sq (a_q f)). unfold half_cos in *. set (r := normq (a_q f)) in *.
  unfold af_measurement. destruct (Reqb_spec (det3 (addm af_R (b11 (a_P f)))) 0) as [E|_]; [discriminate|]. unfold af_gain. cbv zeta. intros H. injection H as <-. unfold af_reset. cbn [a_q a_dq]. rewrite Z, sub3_0_r.
  set (e := error_quat q (a_q f)). assert (UE : qw e * qw e + dot3 (vec e) (vec e) = r * r).
  { transitivity (dotq e e); [destruct e as [a b c d]; unfold dot3, dotq, vec; cbn [qw qx qy qz x3 y3 z3]; rnumg; ring|]. unfold e, error_quat. rewrite product_norm, conj_norm. unfold unitq in *. rewrite Uq, RR. ring. }
  assert (EW : qw e = dotq q (a_q f)) by apply qw_error. assert (NV : vec e <> zero3). { intros V. apply NE. rewrite <- EW. rewrite V in UE. replace (dot3 zero3 zero3) with 0 in UE by (vunfoldg; cbn [x3 y3 z3]; rnumg; ring). rewrite Rplus_0_r in UE. replace (qw e / r * (qw e / r)) with (qw e * qw e / (r * r)) by (field; lra). rewrite UE. field. lra. }
  destruct (gain_strict _ _ (vec e) R_pos S Q UN NV) as [G1 G2]. fold af_R in G1, G2. cbv zeta in G1, G2. set (k := mv (mm (b11 (a_P f)) (inv3 (addm af_R (b11 (a_P f))))) (vec e)) in *.
  assert (NZ2 := reset_nonzero (a_q f) k N). split; [apply normalizeq_unit, NZ2|]. set (p := product (a_q f) (mkqv 1 (scale3 0.5 k))). assert (IR := Rinv_0_lt_compat r R0). assert (NP : 0 < normq p) by (unfold p; rewrite <- reset_product; apply normq_gt0, NZ2).
  exists (dot3 (vec e) (vec e) / (r * r)), (dot3 (vec e) k / r), (dot3 k k), (normq p / r). cbv zeta. rewrite <- EW.
  split; [replace (qw e / r * (qw e / r) + dot3 (vec e) (vec e) / (r * r)) with ((qw e * qw e + dot3 (vec e) (vec e)) / (r * r)) by (field; lra); rewrite UE; field; lra|].
  split; [split; [apply Rdiv_lt_0_compat; lra|]; replace (r * (dot3 (vec e) (vec e) / (r * r))) with (dot3 (vec e) (vec e) / r) by (field; lra); apply Rmult_le_compat_r; lra|].
  split; [split; [apply dot3_nonneg|]; replace (r * (dot3 (vec e) k / r)) with (dot3 (vec e) k) by (field; lra); exact G2|]. split; [apply Rdiv_lt_0_compat; assumption|]. split.
  - replace (normq p / r * (normq p / r)) with (normq p * normq p / (r * r)) by (field; lra). rewrite normq_sq. unfold p. rewrite <- reset_product. assert (NN := reset_norm (a_q f) k). cbv zeta in NN. rewrite NN, <- RR. field. lra.
  - rewrite (normalizeq_nz _ NZ2), reset_product, <- qw_error, error_scale. fold p. assert (QC := qw_corrected (a_q f) q k). fold e in QC. fold p in QC. transitivity (/ normq p * qw (error_quat q p)); [reflexivity|]. rewrite QC. field. split; lra.
Qed.

(** measured and estimated quaternion draw together with every fix *)
Theorem C104_signed : forall q f f', cov_ok (a_P f) -> unsure f -> unitq q -> a_q f <> zeroq -> normq (a_q f) <= 6 / 5 -> a_dq f = zero3 -> half_cos q (a_q f) ^ 2 <> 1 -> af_measurement q f = Ok f' ->
  unitq (a_q f') /\ half_cos q (a_q f) < dotq q (a_q f').
Proof.
  intros q f f' C UN Uq N R1 Z NE M. replace (half_cos q (a_q f) ^ 2) with (half_cos q (a_q f) * half_cos q (a_q f)) in NE by ring. destruct (fix_numbers q f f' C UN Uq N Z NE M) as (UF & ee & ek & kk & n & H). cbv zeta in H. destruct H as (E1 & E2 & E3 & N0 & N2 & ->). split; [exact UF|]. set (w := half_cos q (a_q f)) in *. set (r := normq (a_q f)) in *.
  assert (IN := Rinv_0_lt_compat n N0). assert (N1 : 1 <= n) by nra. assert (NU : n <= 1 + kk / 8) by nra. assert (KE : kk <= 6 / 5 * ek) by nra. apply (Rmult_lt_reg_l n); [exact N0|]. replace (n * (/ n * (w + ek / 2))) with (w + ek / 2) by (field; lra).
  destruct (Rle_lt_dec w 0) as [W|W]; [assert (n * w <= 1 * w) by nra; lra|]. assert (W1 : w <= 1). { assert (0 < r) by apply normq_gt0, N. nra. } assert (n * w <= (1 + kk / 8) * w) by (apply Rmult_le_compat_r; lra). assert (kk * w <= kk * 1) by (apply Rmult_le_compat_l; lra). lra.
Qed.
Print Assumptions C104_signed.
(** so a reading in the hemisphere of the estimate brings it nearer to the measured attitude *)
Theorem C104_toward : forall q f f', cov_ok (a_P f) -> unsure f -> unitq q -> a_q f <> zeroq -> normq (a_q f) <= 6 / 5 -> a_dq f = zero3 -> 0 <= half_cos q (a_q f) -> half_cos q (a_q f) <> 1 -> af_measurement q f = Ok f' ->
  half_cos q (a_q f) ^ 2 < dotq q (a_q f') ^ 2.
Proof.
  intros q f f' C UN Uq N R1 Z W NE M. assert (H : half_cos q (a_q f) ^ 2 <> 1) by (intros E; apply NE; nra). assert (X := proj2 (C104_signed q f f' C UN Uq N R1 Z H M)). nra.
Qed.
Print Assumptions C104_toward.
(** and one of the other sign, which stands for the same attitude, takes it away, whatever the error up to 120 degrees *)
Theorem C104_away_refuted : forall q f f', cov_ok (a_P f) -> unsure f -> unitq q -> a_q f <> zeroq -> normq (a_q f) <= 6 / 5 -> a_dq f = zero3 -> -1 < half_cos q (a_q f) <= - (1 / 2) -> af_measurement q f = Ok f' ->
  dotq q (a_q f') ^ 2 < half_cos q (a_q f) ^ 2.
Proof.
  intros q f f' C UN Uq N R1 Z W M. assert (NE2 : half_cos q (a_q f) * half_cos q (a_q f) <> 1) by (intros E; nra). assert (NE : half_cos q (a_q f) ^ 2 <> 1) by (replace (half_cos q (a_q f) ^ 2) with (half_cos q (a_q f) * half_cos q (a_q f)) by ring; exact NE2). assert (X := proj2 (C104_signed q f f' C UN Uq N R1 Z NE M)).
  destruct (fix_numbers q f f' C UN Uq N Z NE2 M) as (_ & ee & ek & kk & n & H). cbv zeta in H. destruct H as (E1 & E2 & E3 & N0 & N2 & EQ). set (w := half_cos q (a_q f)) in *. set (r := normq (a_q f)) in *. assert (IN := Rinv_0_lt_compat n N0). assert (EE : 0 <= ee) by nra. assert (EK : ek <= 6 / 5 * ee) by nra. assert (NEG : w + ek / 2 < 0) by nra.
  assert (dotq q (a_q f') < 0). { rewrite EQ. assert (0 < / n * - (w + ek / 2)) by (apply Rmult_lt_0_compat; lra). lra. } nra.
Qed.
Print Assumptions C104_away_refuted.
Lemma dq_run ops : forall f f', a_dq f = zero3 -> af_run ops f = Ok f' -> a_dq f' = zero3.
Proof.
  induction ops as [|o ops IH]; intros f f' D; cbn [af_run]; [intros E; injection E as <-; exact D|]. destruct o as [q|w dt]; cbn [af_step].
  - unfold af_measurement. destruct (Reqb (det3 (addm af_R (b11 (a_P f)))) 0); [discriminate|]. destruct (af_gain (a_P f)) as [K1 K2]. cbn [rbind]. apply IH. reflexivity.
  - cbn [rbind]. apply IH. exact D.
Qed.
(** whatever the filter has been through: of the two quaternions of the same true attitude, one improves the estimate and the other spoils it *)
Theorem C104_flight : forall q0 ops f r, Forall onward ops -> af_run ops (af_init q0) = Ok f -> unitq r -> a_q f <> zeroq -> normq (a_q f) <= 6 / 5 -> 1 / 2 <= half_cos r (a_q f) < 1 ->
  (forall v, sandwich (oppq r) v = sandwich r v) /\
  exists g b, af_measurement r f = Ok g /\ af_measurement (oppq r) f = Ok b /\ unitq (a_q g) /\ unitq (a_q b) /\
  dotq r (a_q b) ^ 2 < half_cos r (a_q f) ^ 2 < dotq r (a_q g) ^ 2.
Proof.
  intros q0 ops f r F RUN U N R1 W. split; [intros v; qring|]. destruct (unsure_run ops (af_init q0) f (init_cov q0) (unsure_init q0) F RUN) as [C UN]. assert (D := dq_run ops (af_init q0) f eq_refl RUN).
  destruct (meas_cov r f C) as (g & EG & _). destruct (meas_cov (oppq r) f C) as (b & EB & _). exists g, b. split; [exact EG|]. split; [exact EB|].
  assert (DO : forall x, dotq (oppq r) x = - dotq r x) by (clear; revert r; vring). assert (HO : half_cos (oppq r) (a_q f) = - half_cos r (a_q f)) by (unfold half_cos; rewrite DO; field; assert (X := normq_gt0 _ N); lra).
  assert (UO : unitq (oppq r)) by (unfold unitq in *; rewrite <- U; clear; revert r; vring).
  assert (T := C104_toward r f g C UN U N R1 D ltac:(lra) ltac:(lra) EG). assert (A := C104_away_refuted (oppq r) f b C UN UO N R1 D ltac:(rewrite HO; lra) EB). rewrite DO, HO in A.
  assert (U1 : unitq (a_q g)) by (apply (C104_signed r f g C UN U N R1 D); [|exact EG]; intros E; nra). assert (U2 : unitq (a_q b)) by (apply (C104_signed (oppq r) f b C UN UO N R1 D); [|exact EB]; rewrite HO; intros E; nra).
  split; [exact U1|]. split; [exact U2|]. split; [|exact T]. replace (dotq r (a_q b) ^ 2) with ((- dotq r (a_q b)) ^ 2) by ring. replace (half_cos r (a_q f) ^ 2) with ((- half_cos r (a_q f)) ^ 2) by ring. exact A.
Qed.
Print Assumptions C104_flight.
Example C104_ex : let f := af_init (mkq 1 0 0 0) in let r := mkq 0.8 0 0.6 0 in af_run [] f = Ok f /\ unitq r /\ a_q f <> zeroq /\ normq (a_q f) <= 6 / 5 /\ 1 / 2 <= half_cos r (a_q f) < 1.
Proof.
  cbv zeta. assert (E : normq (mkq 1 0 0 0) = 1). { unfold normq. rnumg. replace (dotq (mkq 1 0 0 0) (mkq 1 0 0 0)) with 1; [apply sqrt_1|]. vunfoldg. cbn [qw qx qy qz]. rnumg. ring. }
  split; [reflexivity|]. split; [unfold unitq; vunfoldg; cbn [qw qx qy qz]; rnumg; lra|]. cbn [af_init a_q]. split; [intros Z; injection Z; rnumg; lra|]. unfold half_cos. rewrite E. split; [lra|]. vunfoldg. cbn [qw qx qy qz]. rnumg. lra.
Qed.
