(** * The attitude filter's covariance about a fixed axis *)
From Coq Require Import Reals Bool Lra Psatz.
From Verif Require Import Num Vec Mat6 M_vector M_quaternion M_obs S_rot S_obs S_steady P_quat P_wheel P_dyn P_dyn2 P_obs P_obs3 P_steady Props_obs.
Local Open Scope R_scope.

Definition along (n : v3) (P : M6) (p q r : R) : Prop :=
  mv (b11 P) n = scale3 p n /\ mv (b12 P) n = scale3 q n /\ mv (b21 P) n = scale3 q n /\ mv (b22 P) n = scale3 r n.
Lemma tr3_addm (a b : m3) : tr3 (addm a b) = addm (tr3 a) (tr3 b). Proof. vring. Qed.
Lemma tr3_subm (a b : m3) : tr3 (subm a b) = subm (tr3 a) (tr3 b). Proof. vring. Qed.
Lemma tr3_scalem k (a : m3) : tr3 (scalem k a) = scalem k (tr3 a). Proof. vring. Qed.
Lemma tr3_mm (a b : m3) : tr3 (mm a b) = mm (tr3 b) (tr3 a). Proof. vring. Qed.
Lemma tr3_id : tr3 (id3 (T:=R)) = id3. Proof. vring. Qed.
Lemma tr3_zero : tr3 (zerom (T:=R)) = zerom. Proof. vring. Qed.
Lemma crossm_self s (n : v3) : mv (crossm (scale3 s n)) n = zero3. Proof. qring. Qed.
Lemma crossm_self' s (n : v3) : mv (tr3 (crossm (scale3 s n))) n = zero3. Proof. qring. Qed.
Lemma scale_zero3 k : scale3 k (zero3 (T:=R)) = zero3. Proof. vring. Qed.
Lemma scale_one (n : v3) : scale3 1 n = n. Proof. vring. Qed.
Lemma add_scale a b (n : v3) : add3 (scale3 a n) (scale3 b n) = scale3 (a + b) n. Proof. vring. Qed.
Lemma sub_scale a b (n : v3) : sub3 (scale3 a n) (scale3 b n) = scale3 (a - b) n. Proof. vring. Qed.
Lemma scale_scale a b (n : v3) : scale3 a (scale3 b n) = scale3 (a * b) n. Proof. vring. Qed.
Lemma zero_scale (n : v3) : zero3 = scale3 0 n. Proof. vring. Qed.

Lemma phi11_axis s (n : v3) dt : mv (phi_11 (scale3 s n) dt) n = n /\ mv (tr3 (phi_11 (scale3 s n) dt)) n = n.
Proof.
  unfold phi_11. cbv zeta. generalize (sin (norm3 (scale3 s n) * dt) / norm3 (scale3 s n)) ((1 - cos (norm3 (scale3 s n) * dt)) / norm3 (scale3 s n) ^ 2). intros k1 k2. assert (A := crossm_self s n). assert (B := crossm_self' s n). set (X := crossm (scale3 s n)) in *. clearbody X.
  destruct (negb (Reqb (norm3 (scale3 s n) ^ 2) 0)); [|destruct (negb (Reqb (norm3 (scale3 s n)) 0))]; rewrite ?tr3_addm, ?tr3_subm, ?tr3_scalem, ?tr3_mm, ?tr3_id, ?mv_addm, ?mv_subm, ?mv_scalem, ?mv_mm, ?mv_id3, ?A, ?B, ?mv_zero3, ?scale_zero3, ?add3_0_r, ?sub3_0_r; split; reflexivity.
Qed.
Lemma phi12_axis s (n : v3) dt : mv (phi_12 (scale3 s n) dt) n = scale3 (- dt) n /\ mv (tr3 (phi_12 (scale3 s n) dt)) n = scale3 (- dt) n.
Proof.
  unfold phi_12. cbv zeta. generalize ((norm3 (scale3 s n) * dt - sin (norm3 (scale3 s n) * dt)) / norm3 (scale3 s n) ^ 3) ((1 - cos (norm3 (scale3 s n) * dt)) / norm3 (scale3 s n) ^ 2). intros k1 k2. assert (A := crossm_self s n). assert (B := crossm_self' s n). set (X := crossm (scale3 s n)) in *. clearbody X.
  destruct (negb (Reqb (norm3 (scale3 s n) ^ 2) 0)); [destruct (negb (Reqb (norm3 (scale3 s n) ^ 3) 0))|]; rewrite ?tr3_addm, ?tr3_subm, ?tr3_addm, ?tr3_scalem, ?tr3_mm, ?tr3_id, ?mv_subm, ?mv_addm, ?mv_scalem, ?mv_mm, ?mv_id3, ?A, ?B, ?mv_zero3, ?scale_zero3, ?add3_0_r, ?sub3_0_r; split; reflexivity.
Qed.
Definition fa dt := GYRO_VAR * dt + 0.3333333 * DRIFT_VAR * dt ^ 3.
Definition fc dt := 0.5 * DRIFT_VAR * dt ^ 2.
Definition fd dt := DRIFT_VAR * dt.

(** blocks of a 6x6 matrix acting on n, from its action on (x n, y n) *)
Lemma along_iff n P p q r : (forall x y, mv6 P (mk6 (scale3 x n) (scale3 y n)) = mk6 (scale3 (p * x + q * y) n) (scale3 (q * x + r * y) n)) <-> along n P p q r.
Proof.
  split.
  - intros H. assert (A := H 1 0). assert (B := H 0 1). unfold mv6 in A, B. cbn [u1 u2] in A, B. replace (scale3 0 n) with (zero3 (T:=R)) in A, B by vring. rewrite mv_zero3, mv_zero3, !add3_0_r, !scale_one in A. rewrite mv_zero3, mv_zero3, !add3_0_l, !scale_one in B. assert (A1 := f_equal u1 A). assert (A2 := f_equal u2 A). assert (B1 := f_equal u1 B). assert (B2 := f_equal u2 B). cbn [u1 u2] in A1, A2, B1, B2.
    unfold along. rewrite A1, A2, B1, B2. split; [f_equal; ring|]. split; [f_equal; ring|]. split; f_equal; ring.
  - intros (A & B & C & D) x y. unfold mv6. cbn [u1 u2]. rewrite !mv_scale3, A, B, C, D, !scale_scale, !add_scale. f_equal; f_equal; ring.
Qed.
Lemma along_propagate w dt f n s p q r : sub3 w (a_b f) = scale3 s n -> along n (a_P f) p q r ->
  along n (a_P (af_propagate w dt f)) (pre_p dt (fa dt) p q r) (pre_q dt (fc dt) p q r) (pre_r (fd dt) p q r).
Proof.
  intros W A. apply along_iff. intros x y. assert (A0 := proj2 (along_iff _ _ _ _ _) A); clear A; rename A0 into A. unfold af_propagate. cbv zeta. cbn [a_P]. rewrite W, mv6_addm, !mv6_mm. destruct (phi11_axis s n dt) as [F1 F1']. destruct (phi12_axis s n dt) as [F2 F2'].
  assert (T : mv6 (tr6 (af_phi (scale3 s n) dt)) (mk6 (scale3 x n) (scale3 y n)) = mk6 (scale3 x n) (scale3 (y - dt * x) n)).
  { unfold af_phi, tr6, mv6. cbn [u1 u2 b11 b12 b21 b22]. rewrite tr3_zero, tr3_id, mv_zerom, mv_id3, add3_0_r, !mv_scale3, F1', F2', scale_scale, add_scale. f_equal. f_equal. ring. }
  rewrite T, A. assert (T2 : forall u v, mv6 (af_phi (scale3 s n) dt) (mk6 (scale3 u n) (scale3 v n)) = mk6 (scale3 (u - dt * v) n) (scale3 v n)).
  { intros u v. unfold af_phi, mv6. cbn [u1 u2 b11 b12 b21 b22]. rewrite mv_zerom, mv_id3, add3_0_l, !mv_scale3, F1, F2, scale_scale, add_scale. f_equal. f_equal. ring. }
  rewrite T2. unfold af_G. assert (TG : tr6 (diag6 (-1) 1) = diag6 (-1) 1) by apply diag6_symm. rewrite TG, !diag6_mv. cbn [u1 u2]. unfold af_Q. cbv zeta. unfold mv6, add6. cbn [u1 u2 b11 b12 b21 b22]. rewrite !mv_scalem, !mv_id3, !scale_scale, !add_scale, !scale_scale. cbn [u1 u2]. rewrite !add_scale. unfold pre_p, pre_q, pre_r, fa, fc, fd.
  generalize GYRO_VAR DRIFT_VAR 0.3333333. intros. replace (-0.5) with (- (1 / 2)) by lra. replace 0.5 with (1 / 2) by lra. f_equal; f_equal; field.
Qed.
Lemma along_measure qr f f' n p q r : n <> zero3 -> along n (a_P f) p q r -> af_measurement qr f = Ok f' ->
  let v := SENSOR_SIGMA ^ 2 in along n (a_P f') (p - p * p / (p + v)) (q - p * q / (p + v)) (r - q * q / (p + v)).
Proof.
  intros N A M v. destruct A as (A1 & A2 & A3 & A4). revert M. unfold af_measurement. destruct (Reqb_spec (det3 (addm af_R (b11 (a_P f)))) 0) as [E|E]; [discriminate|]. unfold af_gain. cbv zeta. intros M. injection M as <-. cbn [a_P af_reset].
  assert (SN : mv (addm af_R (b11 (a_P f))) n = scale3 (p + v) n). { rewrite mv_addm. unfold af_R. rewrite mv_scalem, mv_id3, A1, add_scale. f_equal. fold v. ring. }
  set (Si := inv3 (addm af_R (b11 (a_P f)))) in *. assert (SI : scale3 (p + v) (mv Si n) = n). { rewrite <- mv_scale3, <- SN. unfold Si. apply inv3_mv, E. }
  assert (Z : p + v <> 0). { intros Z. rewrite Z in SI. apply N. rewrite <- SI. generalize (mv Si n). clear. vring. }
  assert (SJ : mv Si n = scale3 (/ (p + v)) n). { rewrite <- SI at 2. rewrite scale_scale, Rinv_l, scale_one by exact Z. reflexivity. }
  apply along_iff. intros x y. rewrite mv6_mm. assert (AA : along n (a_P f) p q r) by (split; [|split; [|split]]; assumption). assert (A0 := proj2 (along_iff _ _ _ _ _) AA). rewrite A0, mv6_subm, mv6_id. unfold mv6. cbn [u1 u2 b11 b12 b21 b22]. rewrite !mv_zerom, !add3_0_r, !mv_scale3, !mv_mm, !SJ, !mv_scale3, A1, A3, !scale_scale. unfold sub6. cbn [u1 u2]. rewrite !sub_scale. f_equal; f_equal; field; exact Z.
Qed.
(** one propagation and one measurement *)
Lemma along_cycle w dt qr f f' n s p q r : n <> zero3 -> sub3 w (a_b f) = scale3 s n -> along n (a_P f) p q r -> af_measurement qr (af_propagate w dt f) = Ok f' ->
  let v := SENSOR_SIGMA ^ 2 in along n (a_P f') (nx_p dt (fa dt) v p q r) (nx_q dt (fa dt) (fc dt) v p q r) (nx_r dt (fa dt) (fc dt) (fd dt) v p q r).
Proof. intros N W A M. exact (along_measure _ _ _ _ _ _ _ N (along_propagate w dt f n s p q r W A) M). Qed.
Lemma along_psd n P p q r : unit3 n -> cov_ok P -> along n P p q r -> psd p q r.
Proof.
  intros U [_ Q] A x y. assert (A0 := proj2 (along_iff _ _ _ _ _) A); clear A; rename A0 into A. assert (K := Q (mk6 (scale3 x n) (scale3 y n))). rewrite A in K. unfold dot6 in K. cbn [u1 u2] in K. unfold unit3 in U.
  assert (D : forall a b, dot3 (scale3 a n) (scale3 b n) = a * b) by (intros a b; transitivity (a * b * dot3 n n); [vring|rewrite U; ring]). rewrite !D in K. unfold fm. lra.
Qed.
Lemma noise_ok dt : 0 < dt -> 0 < fd dt /\ fd dt * dt * dt / 4 < fa dt /\ - (fd dt * dt) / 2 <= fc dt /\ 0 < fa dt * fd dt - fc dt * fc dt.
Proof.
  intros H. assert (G := gyro_pos). assert (D := drift_pos). unfold fa, fc, fd. set (g := GYRO_VAR) in *. set (d := DRIFT_VAR) in *. clearbody g d. assert (GH : 0 < g * dt) by (apply Rmult_lt_0_compat; assumption). assert (DH : 0 < d * dt) by (apply Rmult_lt_0_compat; assumption). assert (DH2 : 0 < d * dt ^ 2) by (apply Rmult_lt_0_compat; [exact D|apply pow_lt, H]). assert (DH3 : 0 < d * dt ^ 3) by (apply Rmult_lt_0_compat; [exact D|apply pow_lt, H]).
  split; [exact DH|]. split; [|split].
  - replace (d * dt * dt * dt / 4) with (d * dt ^ 3 / 4) by field. lra.
  - replace (- (d * dt * dt) / 2) with (- (d * dt ^ 2) / 2) by field. lra.
  - replace ((g * dt + 0.3333333 * d * dt ^ 3) * (d * dt) - 0.5 * d * dt ^ 2 * (0.5 * d * dt ^ 2)) with (g * dt * (d * dt) + (0.3333333 - 0.25) * ((d * dt) * (d * dt ^ 3))) by lra.
    assert (0 < g * dt * (d * dt)) by (apply Rmult_lt_0_compat; assumption). assert (0 < (d * dt) * (d * dt ^ 3)) by (apply Rmult_lt_0_compat; assumption). lra.
Qed.
