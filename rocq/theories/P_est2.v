(** * Lemmas: the star-tracker filter when everything turns about one axis *)
From Coq Require Import Reals Bool Lra Psatz.
From Verif Require Import Num Vec Mat6 M_vector M_quaternion M_obs S_rot S_obs S_steady P_quat P_wheel P_dyn P_dyn2 P_obs P_obs3 P_steady Props_obs P_farr.
Local Open Scope R_scope.

(** the attitudes that are turns about n *)
Definition pl (n : v3) (c s : R) : quat := mkqv c (scale3 s n).
Lemma pl_product n c s c' s' : unit3 n -> product (pl n c s) (pl n c' s') = pl n (c * c' - s * s') (c * s' + s * c').
Proof.
  unfold unit3. intros U. destruct n as [x y z]. unfold pl. qunfoldg. revert U. vunfoldg. cbn [x3 y3 z3 qw qx qy qz]. rnumg. intros U. apply mkq_c; try ring.
  replace (s * x * (s' * x) + s * y * (s' * y) + s * z * (s' * z)) with (s * s' * (x * x + y * y + z * z)) by ring. rewrite U. ring.
Qed.
Lemma pl_conj n c s : conjugate (pl n c s) = pl n c (- s).
Proof. destruct n as [x y z]. unfold pl. qunfoldg. vunfoldg. cbn [x3 y3 z3 qw qx qy qz]. rnumg. apply mkq_c; ring. Qed.
Lemma pl_vec n c s : vec (pl n c s) = scale3 s n. Proof. apply vec_mkqv. Qed.
Lemma pl_error n c s cr sr : unit3 n -> vec (error_quat (pl n cr sr) (pl n c s)) = scale3 (c * sr - s * cr) n.
Proof. intros U. unfold error_quat. rewrite pl_conj, pl_product by exact U. rewrite pl_vec. f_equal. ring. Qed.
Lemma pl_dot n c s c' s' : unit3 n -> dotq (pl n c s) (pl n c' s') = c * c' + s * s'.
Proof. unfold unit3. intros U. transitivity (c * c' + s * s' * dot3 n n); [|rewrite U; ring]. clear U. destruct n as [x y z]. unfold pl. qunfoldg. vunfoldg. cbn [x3 y3 z3 qw qx qy qz]. rnumg. ring. Qed.
Lemma pl_sub n c s c' s' : subq (pl n c s) (pl n c' s') = pl n (c - c') (s - s').
Proof. destruct n as [x y z]. unfold pl. qunfoldg. vunfoldg. cbn [x3 y3 z3 qw qx qy qz]. rnumg. apply mkq_c; ring. Qed.
Lemma pl_scale n k c s : scaleq k (pl n c s) = pl n (k * c) (k * s).
Proof. destruct n as [x y z]. unfold pl. qunfoldg. vunfoldg. cbn [x3 y3 z3 qw qx qy qz]. rnumg. apply mkq_c; ring. Qed.
Lemma pl_normq n c s : unit3 n -> normq (pl n c s) = sqrt (c * c + s * s).
Proof. intros U. unfold normq. rewrite pl_dot by exact U. reflexivity. Qed.
Lemma norm3_axis k n : unit3 n -> norm3 (scale3 k n) = Rabs k.
Proof. intros U. unfold norm3. replace (dot3 (scale3 k n) (scale3 k n)) with (k * k). - rnumg. apply sqrt_Rsqr_abs. - transitivity (k * k * dot3 n n); [rewrite U; ring|destruct n as [n1 n2 n3]; vunfoldg; cbn [x3 y3 z3]; rnumg; ring]. Qed.
Lemma cos_Rabs x y : cos (Rabs x * y) = cos (x * y).
Proof. unfold Rabs. destruct (Rcase_abs x); [|reflexivity]. rewrite Ropp_mult_distr_l_reverse. apply cos_neg. Qed.
Lemma psi_axis n w dt : unit3 n -> af_psi (scale3 w n) dt = scale3 (sin (w * dt / 2)) n.
Proof.
  intros U. unfold af_psi. cbv zeta. rewrite norm3_axis by exact U. destruct (Reqb_spec (Rabs w) 0) as [Z|Z]; cbn [negb].
  - assert (W : w = 0) by (destruct (Req_dec w 0) as [X|X]; [exact X|exfalso; exact (Rabs_no_R0 _ X Z)]). rewrite W. replace (0 * dt / 2) with 0 by field. rewrite sin_0. apply zero_scale.
  - rewrite scale_scale. f_equal. replace (Rabs w * dt * 0.5) with (Rabs w * dt / 2) by lra. revert Z. unfold Rabs. destruct (Rcase_abs w); intros Z; [replace (- w * dt / 2) with (- (w * dt / 2)) by field; rewrite sin_neg|]; field; lra.
Qed.
Lemma omega_axis n w dt c s : unit3 n -> let x := w * dt / 2 in af_omega_mul (scale3 w n) dt (pl n c s) = pl n (cos x * c - sin x * s) (sin x * c + s).
Proof.
  intros U x. unfold af_omega_mul. cbv zeta. rewrite psi_axis, norm3_axis, pl_vec by exact U. fold x. replace (cos (Rabs w * dt * 0.5)) with (cos x). 2:{ replace (Rabs w * dt * 0.5) with (Rabs w * (dt / 2)) by lra. rewrite cos_Rabs. f_equal. unfold x. field. }
  unfold pl. assert (Q : qw (mkqv c (scale3 s n)) = c) by reflexivity. rewrite Q. clear Q. replace (mv (subm id3 (crossm (scale3 (sin x) n))) (scale3 s n)) with (scale3 s n).
  2:{ rewrite mv_scale3, mv_subm, mv_id3, crossm_self, sub3_0_r. reflexivity. }
  rewrite scale_scale, add_scale. f_equal; [|f_equal; ring]. replace (dot3 (opp3 (scale3 (sin x) n)) (scale3 s n)) with (- (sin x * s)); [ring|].
  transitivity (- (sin x * s) * dot3 n n); [unfold unit3 in U; rewrite U; ring|]. clear U. generalize (sin x). intros k. destruct n as [n1 n2 n3]; vunfoldg; cbn [x3 y3 z3]; rnumg; ring.
Qed.
Lemma gain_axis n P p q r : unit3 n -> along n P p q r -> det3 (addm af_R (b11 P)) <> 0 -> let v := SENSOR_SIGMA ^ 2 in
  mv (fst (af_gain P)) n = scale3 (p / (p + v)) n /\ mv (snd (af_gain P)) n = scale3 (q / (p + v)) n.
Proof.
  intros U (A1 & A2 & A3 & A4) E v. assert (N : n <> zero3) by (intros Z; unfold unit3 in U; rewrite Z in U; revert U; vunfoldg; cbn [x3 y3 z3]; rnumg; lra). unfold af_gain. cbv zeta. cbn [fst snd].
  assert (SN : mv (addm af_R (b11 P)) n = scale3 (p + v) n). { rewrite mv_addm. unfold af_R. rewrite mv_scalem, mv_id3, A1, add_scale. f_equal. fold v. ring. }
  set (Si := inv3 (addm af_R (b11 P))) in *. assert (SI : scale3 (p + v) (mv Si n) = n). { rewrite <- mv_scale3, <- SN. unfold Si. apply inv3_mv, E. }
  assert (Z : p + v <> 0). { intros Z. rewrite Z in SI. apply N. rewrite <- SI. generalize (mv Si n). clear. vring. }
  assert (SJ : mv Si n = scale3 (/ (p + v)) n). { rewrite <- SI at 2. rewrite scale_scale, Rinv_l, scale_one by exact Z. reflexivity. }
  rewrite !mv_mm, !SJ, !mv_scale3, A1, A3, !scale_scale. split; f_equal; field; exact Z.
Qed.

Definition gain1 (dt p q r : R) := let P := pre_p dt (fa dt) p q r in P / (P + SENSOR_SIGMA ^ 2).
Definition gain2 (dt p q r : R) := let P := pre_p dt (fa dt) p q r in pre_q dt (fc dt) p q r / (P + SENSOR_SIGMA ^ 2).
(** one propagation and one measurement *)
Lemma plane_cycle n f f' c s bh ws dt p q r cr sr : unit3 n -> a_q f = pl n c s -> a_b f = scale3 bh n -> a_dq f = zero3 -> along n (a_P f) p q r ->
  af_measurement (pl n cr sr) (af_propagate (scale3 ws n) dt f) = Ok f' ->
  let x := (ws - bh) * dt / 2 in let c1 := cos x * c - sin x * s in let s1 := sin x * c + s in let y := c1 * sr - s1 * cr in let k := gain1 dt p q r * y / 2 in
  a_q f' = normalizeq (pl n (c1 - s1 * k) (s1 + c1 * k)) /\ a_b f' = scale3 (bh + gain2 dt p q r * y) n /\ a_dq f' = zero3.
Proof.
  intros U Q B D A M x c1 s1 y k. assert (W : sub3 (scale3 ws n) (a_b f) = scale3 (ws - bh) n) by (rewrite B; apply sub_scale).
  assert (A' := along_propagate (scale3 ws n) dt f n (ws - bh) p q r W A). revert M. unfold af_measurement.
  destruct (Reqb_spec (det3 (addm af_R (b11 (a_P (af_propagate (scale3 ws n) dt f))))) 0) as [E|E]; [discriminate|].
  destruct (gain_axis n _ _ _ _ U A' E) as [G1 G2]. destruct (af_gain (a_P (af_propagate (scale3 ws n) dt f))) as [K1 K2]. cbn [fst snd] in G1, G2.
  intros M. injection M as <-. unfold af_propagate. cbv zeta. cbn [a_q a_b a_dq a_db a_P af_reset]. rewrite W, Q, D, B. rewrite omega_axis by exact U. fold x. fold c1. fold s1.
  rewrite pl_error by exact U. fold y. rewrite sub3_0_r, !mv_scale3, G1, G2, !scale_scale. fold (gain1 dt p q r). fold (gain2 dt p q r).
  split; [|split; [|reflexivity]].
  - f_equal. rewrite reset_product. replace (mkqv 1 (scale3 0.5 (scale3 (y * gain1 dt p q r) n))) with (pl n 1 k). + rewrite pl_product by exact U. f_equal; ring. + unfold pl. f_equal. rewrite scale_scale. f_equal. unfold k. lra.
  - rewrite add_scale. f_equal. ring.
Qed.
