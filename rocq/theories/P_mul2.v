(** * Lemmas: covariance and gains of the star-tracker filter with several gyro steps per measurement *)
From Coq Require Import Reals Lra Psatz Lia.
From Verif Require Import Num Vec Mat6 M_vector M_quaternion M_obs S_rot S_obs S_steady P_quat P_wheel P_dyn P_dyn2 P_obs P_obs3 P_steady Props_obs P_farr P_est1 P_est2 P_est3 P_tot3 P_orb3 P_tri1 P_tri2 P_tri3 P_tri4 P_tri5 P_mul1.
Local Open Scope R_scope.

(** ** the noise that n gyro steps add *)
Definition nD (dt : R) (n : nat) : R := INR n * fd dt.
Fixpoint nC (dt : R) (n : nat) : R := match n with O => 0 | S n => nC dt n - dt * nD dt n + fc dt end.
Fixpoint nA (dt : R) (n : nat) : R := match n with O => 0 | S n => nA dt n - 2 * dt * nC dt n + dt * dt * nD dt n + fa dt end.
Definition preN (dt : R) (n : nat) (c : R * R * R) : R * R * R := let '(p, q, r) := c in (pre_p (INR n * dt) (nA dt n) p q r, pre_q (INR n * dt) (nC dt n) p q r, pre_r (nD dt n) p q r).
Lemma preN_0 dt c : preN dt 0 c = c.
Proof. destruct c as [[p q] r]. unfold preN, pre_p, pre_q, pre_r, nD. cbn [nA nC INR]. f_equal; [f_equal; ring|ring]. Qed.
Lemma preN_S dt n c : preN dt (S n) c = pre3 dt (preN dt n c).
Proof. destruct c as [[p q] r]. unfold preN, pre3, pre_p, pre_q, pre_r, nD. cbn [nA nC]. unfold nD. rewrite S_INR. f_equal; [f_equal; ring|ring]. Qed.
Lemma nC_eq dt n : nC dt n = DRIFT_VAR * dt ^ 2 * (INR n * (2 - INR n)) / 2.
Proof. induction n as [|n IH]; [cbn [nC INR]; field|]. cbn [nC]. rewrite IH, S_INR. unfold nD, fc, fd. replace 0.5 with (1 / 2) by lra. field. Qed.
Lemma noise_fm dt n x y : fm (nA dt (S n)) (nC dt (S n)) (nD dt (S n)) x y = fm (nA dt n) (nC dt n) (nD dt n) x (y - dt * x) + fm (fa dt) (fc dt) (fd dt) x y.
Proof. cbn [nA nC]. unfold fm, nD. rewrite S_INR. ring. Qed.
Lemma fa_pos dt : 0 < dt -> 0 < fa dt.
Proof. intros H. destruct (noise_ok dt H) as (N1 & N2 & _). assert (0 < fd dt * dt * dt) by (apply Rmult_lt_0_compat; [apply Rmult_lt_0_compat; assumption|assumption]). lra. Qed.
Lemma noise_psd dt n : 0 < dt -> psd (nA dt n) (nC dt n) (nD dt n).
Proof.
  intros H. destruct (noise_ok dt H) as (N1 & N2 & N3 & N4). induction n as [|n IH]; intros x y; [unfold fm, nD; cbn [nA nC INR]; lra|]. rewrite noise_fm. assert (A := IH x (y - dt * x)). assert (B := N_psd dt (fa dt) (fc dt) (fd dt) H N2 N1 N4 x y). lra.
Qed.
Lemma noise_okN dt n : 0 < dt -> (1 <= n)%nat -> 0 < INR n * dt /\ 0 < nA dt n /\ - (nD dt n * (INR n * dt)) / 2 <= nC dt n /\ 0 < nD dt n /\ 0 < nA dt n * nD dt n - nC dt n * nC dt n.
Proof.
  intros H L. assert (NP : 0 < INR n) by (apply lt_0_INR; lia). destruct n as [|n]; [lia|]. destruct (noise_ok dt H) as (N1 & N2 & N3 & N4). destruct (fm_low (fa dt) (fc dt) (fd dt) (fa_pos dt H) N4) as (e & E & LOW).
  assert (LOWN : forall x y, e * (x * x + y * y) <= fm (nA dt (S n)) (nC dt (S n)) (nD dt (S n)) x y). { intros x y. rewrite noise_fm. assert (A := noise_psd dt n H x (y - dt * x)). assert (B := LOW x y). lra. }
  assert (D0 : 0 < nD dt (S n)) by (unfold nD; apply Rmult_lt_0_compat; assumption). split; [apply Rmult_lt_0_compat; assumption|]. split. { assert (X := LOWN 1 0). unfold fm in X. lra. } split; [|split; [exact D0|]].
  - rewrite nC_eq. unfold nD, fd. set (m := INR (S n)) in *. assert (DP := drift_pos). assert (0 <= DRIFT_VAR * dt ^ 2 * m) by (apply Rmult_le_pos; [apply Rmult_le_pos; [lra|apply pow2_ge_0]|lra]). replace (- (m * (DRIFT_VAR * dt) * (m * dt)) / 2) with (DRIFT_VAR * dt ^ 2 * (m * (2 - m)) / 2 - DRIFT_VAR * dt ^ 2 * m) by field. lra.
  - set (a := nA dt (S n)) in *. set (c := nC dt (S n)) in *. set (d := nD dt (S n)) in *. assert (X := LOWN d (- c)). unfold fm in X. assert (Y : 0 < e * (d * d + - c * - c)). { apply Rmult_lt_0_compat; [exact E|]. assert (0 < d * d) by (apply Rmult_lt_0_compat; assumption). assert (Z := sq0 (- c)). lra. }
    apply (Rmult_lt_reg_l d); [exact D0|]. lra.
Qed.

(** ** gains *)
Section Gains.
Context (h a c d : R) (Hh : 0 < h) (Ha : 0 < a) (Hc : - (d * h) / 2 <= c) (Hd : 0 < d) (HN : 0 < a * d - c * c).
Local Notation v := (SENSOR_SIGMA ^ 2).
Definition nxg (k : R * R * R) : R * R * R := let '(p, q, r) := k in (nx_p h a v p q r, nx_q h a c v p q r, nx_r h a c d v p q r).
Fixpoint covg (lam mu nu : R) (k : nat) : R * R * R := match k with O => (lam, mu, nu) | S k => nxg (covg lam mu nu k) end.
Definition g1 (k : R * R * R) : R := let '(p, q, r) := k in pre_p h a p q r / (pre_p h a p q r + v).
Definition g2 (k : R * R * R) : R := let '(p, q, r) := k in pre_q h c p q r / (pre_p h a p q r + v).
Definition g1_inf : R := st_p h a c d v / v.
Definition g2_inf : R := st_q h a c d v / v.
Lemma covg_psd lam mu nu k : psd lam mu nu -> psd3 (covg lam mu nu k).
Proof. intros PS. induction k as [|k IH]; [exact PS|]. cbn [covg]. destruct (covg lam mu nu k) as [[x y] z]. exact (nx_psd_w h a c d v Ha R_pos HN x y z IH). Qed.
Lemma covg_conv lam mu nu : psd lam mu nu -> exists M rho, 0 <= M /\ 0 <= rho < 1 /\ (forall k, sz3 (covg lam mu nu k) <= M) /\
  forall k, 0 < g1 (covg lam mu nu k) < 1 /\ Rabs (g1 (covg lam mu nu k) - g1_inf) <= M * rho ^ k /\ Rabs (g2 (covg lam mu nu k) - g2_inf) <= M * rho ^ k.
Proof.
  intros PS. assert (V := R_pos). destruct (recursion_converges_w h a c d v Hh Ha Hc Hd V HN) as (rho & R1 & K).
  set (g := covg lam mu nu). destruct (K (fun k => fst (fst (g k))) (fun k => snd (fst (g k))) (fun k => snd (g k))) as [M HM].
  - exact PS.
  - intros k. unfold g. cbn [covg]. destruct (covg lam mu nu k) as [[x y] z]. split; [reflexivity|split; reflexivity].
  - assert (M0 : 0 <= M). { destruct (HM O) as (X & _). rewrite pow_O, Rmult_1_r in X. eapply Rle_trans; [apply Rabs_pos|exact X]. }
    set (sp := st_p h a c d v) in *. set (sq := st_q h a c d v) in *. set (sr := st_r h a c d v) in *. set (b := Rabs sp + 2 * Rabs sq + Rabs sr + 4 * M). assert (P1 := Rabs_pos sp). assert (P2 := Rabs_pos sq). assert (P3 := Rabs_pos sr).
    assert (RK1 : forall k, rho ^ k <= 1) by (intros k; rewrite <- (pow1 k); apply pow_incr; lra).
    assert (MV : 0 <= M / v) by (apply Rmult_le_pos; [exact M0|left; apply Rinv_0_lt_compat, V]).
    exists (b + M / v), rho. split; [unfold b; lra|]. split; [exact R1|]. split.
    + intros k. destruct (HM k) as (X & Y & Z). fold g. revert X Y Z. destruct (g k) as [[p q] r]. cbn [fst snd sz3]. intros X Y Z. assert (M * rho ^ k <= M * 1) by (apply Rmult_le_compat_l; [exact M0|apply RK1]). apply abs_le_2 in X, Y, Z. unfold sz, b. lra.
    + intros k. assert (PKk := covg_psd lam mu nu k PS). destruct (HM (S k)) as (X & Y & _). revert X Y PKk. unfold g. cbn [covg]. destruct (covg lam mu nu k) as [[p q] r]. cbn [fst snd nxg psd3 g1 g2]. intros X Y PKk.
    assert (PP := pre_pos_w h a Ha _ _ _ PKk). unfold nx_p in X. unfold nx_q in Y. set (P := pre_p h a p q r) in *. set (Q := pre_q h c p q r) in *.
    assert (RK : rho ^ S k <= rho ^ k). { cbn [pow]. assert (0 <= rho ^ k) by (apply pow_le; lra). assert (rho * rho ^ k <= 1 * rho ^ k) by (apply Rmult_le_compat_r; lra). lra. } assert (MR : M * rho ^ S k <= M * rho ^ k) by (apply Rmult_le_compat_l; assumption). assert (IV := Rinv_0_lt_compat v V).
    assert (B0 : 0 <= b * rho ^ k) by (apply Rmult_le_pos; [unfold b; lra|apply pow_le; lra]).
    unfold g1_inf, g2_inf. fold sp. fold sq. clearbody sp sq sr.
    set (vv := SENSOR_SIGMA ^ 2) in *. clearbody vv.
    split. { assert (0 < P / (P + vv)) by (apply Rdiv_lt_0_compat; lra). assert (P / (P + vv) < 1); [|lra]. apply Rmult_lt_reg_r with (P + vv); [lra|]. replace (P / (P + vv) * (P + vv)) with P by (field; lra). lra. }
    rewrite Rmult_plus_distr_r. split.
    * replace (P / (P + vv) - sp / vv) with ((P - P * P / (P + vv) - sp) * / vv) by (field; split; lra). rewrite Rabs_mult, (Rabs_pos_eq (/ vv)) by lra. replace (M / vv * rho ^ k) with (M * rho ^ k * / vv) by (field; lra). assert (Rabs (P - P * P / (P + vv) - sp) * / vv <= M * rho ^ k * / vv) by (apply Rmult_le_compat_r; lra). lra.
    * replace (Q / (P + vv) - sq / vv) with ((Q - P * Q / (P + vv) - sq) * / vv) by (field; split; lra). rewrite Rabs_mult, (Rabs_pos_eq (/ vv)) by lra. replace (M / vv * rho ^ k) with (M * rho ^ k * / vv) by (field; lra). assert (Rabs (Q - P * Q / (P + vv) - sq) * / vv <= M * rho ^ k * / vv) by (apply Rmult_le_compat_r; lra). lra.
Qed.
Lemma g_inf : 0 < g1_inf < 1 /\ g2_inf < 0 /\ 0 < - g2_inf * h < 2 + 2 * (1 - g1_inf / 2).
Proof.
  assert (V := R_pos). destruct (st_facts_w h a c d v Hh Ha Hc Hd V HN) as (E0 & U0 & UR & _ & s & S0 & US & M0 & UE). unfold g1_inf, g2_inf, st_p, st_q.
  set (u := st_u h a c d v) in *. set (w := SENSOR_SIGMA ^ 2) in *. set (e := sqrt d) in *. set (m := st_m h a c d w) in *.
  assert (UU : 0 < u * u) by (apply Rmult_lt_0_compat; exact U0). assert (Q : 0 < w / (u * u)) by (apply Rdiv_lt_0_compat; assumption). assert (Q1 : w / (u * u) < 1). { apply Rmult_lt_reg_r with (u * u); [exact UU|]. replace (w / (u * u) * (u * u)) with w by (field; lra). lra. }
  split. { replace (w * (1 - w / (u * u)) / w) with (1 - w / (u * u)) by (field; split; lra). lra. }
  assert (EU : 0 < e / u) by (apply Rdiv_lt_0_compat; assumption). replace (- e * w / u / w) with (- (e / u)) by (field; split; lra). split; [lra|]. replace (- - (e / u) * h) with (h * e / u) by (field; lra).
  split. { apply Rdiv_lt_0_compat; [apply Rmult_lt_0_compat; assumption|exact U0]. } replace (2 + 2 * (1 - w * (1 - w / (u * u)) / w / 2)) with ((3 * (u * u) + w) / (u * u)) by (field; split; lra).
  apply Rmult_lt_reg_r with (u * u); [exact UU|]. replace (h * e / u * (u * u)) with (h * e * u) by (field; lra). replace ((3 * (u * u) + w) / (u * u) * (u * u)) with (3 * (u * u) + w) by (field; lra).
  assert (MU : m * u = u * u + w) by (replace m with (2 * u - s) by lra; lra). assert (h * e / 2 * u < m * u) by (apply Rmult_lt_compat_r; assumption). lra.
Qed.
End Gains.

(** ** size and form of the covariance between measurements *)
Lemma sz_pre h a c d p q r : 0 <= h -> sz (pre_p h a p q r) (pre_q h c p q r) (pre_r d p q r) <= (1 + h) * (1 + h) * sz p q r + sz a c d.
Proof.
  intros H. unfold sz. set (A := Rabs p). set (B := Rabs q). set (C := Rabs r). assert (A0 : 0 <= A) by apply Rabs_pos. assert (B0 : 0 <= B) by apply Rabs_pos. assert (C0 : 0 <= C) by apply Rabs_pos.
  assert (T1 : Rabs (pre_p h a p q r) <= A + 2 * (h * B) + h * h * C + Rabs a).
  { unfold pre_p. eapply Rle_trans; [apply Rabs_triang|]. apply Rplus_le_compat_r. eapply Rle_trans; [apply Rabs_triang|]. apply Rplus_le_compat; [eapply Rle_trans; [apply Rabs_triang|]; rewrite Rabs_Ropp; apply Rplus_le_compat; [apply Rle_refl|]|].
    - rewrite !Rabs_mult, (Rabs_pos_eq 2), (Rabs_pos_eq h) by lra. fold B. lra.
    - rewrite !Rabs_mult, (Rabs_pos_eq h) by lra. apply Rle_refl. }
  assert (T2 : Rabs (pre_q h c p q r) <= B + h * C + Rabs c).
  { unfold pre_q. eapply Rle_trans; [apply Rabs_triang|]. apply Rplus_le_compat_r. eapply Rle_trans; [apply Rabs_triang|]. rewrite Rabs_Ropp, Rabs_mult, (Rabs_pos_eq h) by lra. apply Rle_refl. }
  assert (T3 : Rabs (pre_r d p q r) <= C + Rabs d) by (unfold pre_r; eapply Rle_trans; [apply Rabs_triang|]; apply Rle_refl).
  assert (HA : 0 <= h * A) by (apply Rmult_le_pos; assumption). assert (HB : 0 <= h * B) by (apply Rmult_le_pos; assumption). assert (HHA : 0 <= h * h * A) by (apply Rmult_le_pos; [apply sq0|assumption]). assert (HHB : 0 <= h * h * B) by (apply Rmult_le_pos; [apply sq0|assumption]). lra.
Qed.
Lemma preN_psd dt n cov : 0 < dt -> psd3 cov -> psd3 (preN dt n cov).
Proof.
  destruct cov as [[p q] r]. cbn [psd3 preN]. intros H PS x y. replace (fm (pre_p (INR n * dt) (nA dt n) p q r) (pre_q (INR n * dt) (nC dt n) p q r) (pre_r (nD dt n) p q r) x y) with (fm p q r x (y - INR n * dt * x) + fm (nA dt n) (nC dt n) (nD dt n) x y) by (unfold fm, pre_p, pre_q, pre_r; ring).
  assert (X := PS x (y - INR n * dt * x)). assert (Y := noise_psd dt n H x y). lra.
Qed.
Lemma preN_size dt N M : 0 < dt -> exists B, 1 <= B /\ M <= B /\ forall cov, sz3 cov <= M -> forall n, (n <= N)%nat -> sz3 (preN dt n cov) <= B.
Proof.
  intros H. induction N as [|N (B & B1 & BM & IH)].
  - exists (Rmax 1 M). split; [apply Rmax_l|]. split; [apply Rmax_r|]. intros cov C n L. replace n with O by lia. rewrite preN_0. eapply Rle_trans; [exact C|apply Rmax_r].
  - set (k := sz (fa dt) (fc dt) (fd dt)). assert (K0 : 0 <= k) by apply sz_pos. set (B' := (1 + dt) * (1 + dt) * B + k). assert (BB : B <= B'). { unfold B'. assert (0 <= (2 * dt + dt * dt) * B) by (apply Rmult_le_pos; [assert (X := sq0 dt); lra|lra]). lra. }
    exists B'. split; [lra|]. split; [lra|]. intros cov C n L. destruct (Nat.eq_dec n (S N)) as [->|NE]; [|eapply Rle_trans; [apply (IH cov C); lia|exact BB]]. rewrite preN_S. assert (X := IH cov C N (le_n N)). destruct (preN dt N cov) as [[p q] r]. cbn [pre3 sz3] in *. eapply Rle_trans; [apply sz_pre; lra|]. unfold B'. fold k. apply Rplus_le_compat_r, Rmult_le_compat_l; [|exact X]. apply sq0.
Qed.

(** ** n gyro steps *)
Fixpoint gyro_steps (dt : R) (w : nat -> v3) (n : nat) (f : AttF) : AttF := match n with O => f | S n => af_propagate (w n) dt (gyro_steps dt w n f) end.
Lemma steps_b dt w n f : a_b (gyro_steps dt w n f) = a_b f /\ a_dq (gyro_steps dt w n f) = a_dq f.
Proof. induction n as [|n [IH1 IH2]]; [split; reflexivity|]. cbn [gyro_steps]. unfold af_propagate. cbn [a_b a_dq]. split; assumption. Qed.
Lemma steps_within dt : 0 < dt -> exists c, 0 < c /\ forall eta B N cov w f, 0 < eta <= 1 -> psd3 cov -> (forall n, (n <= N)%nat -> sz3 (preN dt n cov) <= B) ->
  (forall n, (n < N)%nat -> let v := sub3 (w n) (a_b f) in norm3 v * dt <= 1 /\ B * norm3 v <= c * eta) -> within eta (a_P f) cov -> forall n, (n <= N)%nat -> within eta (a_P (gyro_steps dt w n f)) (preN dt n cov).
Proof.
  intros H. destruct (between_propagate dt H) as (c & C0 & BP). exists c. split; [exact C0|]. intros eta B N cov w f ET PS SZ HV BW. induction n as [|n IH]; intros L; [rewrite preN_0; exact BW|]. specialize (IH ltac:(lia)). rewrite preN_S. cbn [gyro_steps].
  destruct (HV n ltac:(lia)) as [V1 V2]. assert (SZn := SZ n ltac:(lia)). assert (PSn := preN_psd dt n cov H PS). destruct (preN dt n cov) as [[p q] r]. cbn [within pre3 sz3 psd3] in *. destruct (steps_b dt w n f) as [EB _]. apply BP; [exact ET|exact PSn|rewrite EB; exact V1| |exact IH]. rewrite EB. eapply Rle_trans; [|exact V2]. apply Rmult_le_compat_r; [apply n3pos|exact SZn].
Qed.
(** the measurement *)
Lemma measure_within qr f f' eta p q r : 0 < eta <= 1 -> psd p q r -> 0 < p -> between eta (a_P f) p q r -> af_measurement qr f = Ok f' ->
  let v := SENSOR_SIGMA ^ 2 in between eta (a_P f') (p - p * p / (p + v)) (q - p * q / (p + v)) (r - q * q / (p + v)).
Proof.
  intros ET PR P0 B M v. assert (V := R_pos). fold v in V.
  destruct (between_cov _ _ _ _ _ (proj2 ET) PR B) as [SY PD]. destruct B as [_ B]. revert M. unfold af_measurement. destruct (Reqb_spec (det3 (addm af_R (b11 (a_P f)))) 0) as [E|E]; [discriminate|]. unfold af_gain. cbv zeta. intros M. injection M as <-. cbn [a_P af_reset].
  destruct (att_update v (a_P f) V SY PD) as (S' & _ & _). split; [exact S'|]. intros x. destruct (att_best v (a_P f) V SY PD x) as [UP (l0 & LO)]. unfold af_R. fold v.
  set (P' := mm6 (subm6 id6 (mkB (mm (b11 (a_P f)) (inv3 (addm (scalem v id3) (b11 (a_P f))))) zerom (mm (b21 (a_P f)) (inv3 (addm (scalem v id3) (b11 (a_P f))))) zerom)) (a_P f)) in *.
  assert (E0 : pre_p 0 0 p q r = p /\ pre_q 0 0 p q r = q /\ pre_r 0 p q r = r) by (unfold pre_p, pre_q, pre_r; split; [ring|split; ring]). destruct E0 as (E1 & E2 & E3).
  destruct (nx_best3 0 0 0 0 v p q r V ltac:(rewrite E1; exact P0) (u1 x) (u2 x)) as [SU (l1 & SL)]. unfold nx_p, nx_q, nx_r in SU, SL. rewrite E1, E2, E3 in SU, SL. set (F := fm3 (p - p * p / (p + v)) (q - p * q / (p + v)) (r - q * q / (p + v)) (u1 x) (u2 x)) in *. split.
  - rewrite LO. assert (B1 := proj1 (B (mk6 (sub3 (u1 x) l0) (u2 x)))). cbn [u1 u2] in B1. assert (X := SU l0). assert (Y := dot3_nonneg l0). assert (Z : 0 <= v * dot3 l0 l0) by (apply Rmult_le_pos; lra). assert ((1 - eta) * F <= (1 - eta) * (fm3 p q r (sub3 (u1 x) l0) (u2 x) + v * dot3 l0 l0)) by (apply Rmult_le_compat_l; lra). assert (0 <= eta * (v * dot3 l0 l0)) by (apply Rmult_le_pos; lra). lra.
  - rewrite SL. eapply Rle_trans; [apply (UP l1)|]. assert (B1 := proj2 (B (mk6 (sub3 (u1 x) l1) (u2 x)))). cbn [u1 u2] in B1. assert (Y := dot3_nonneg l1). assert (Z : 0 <= v * dot3 l1 l1) by (apply Rmult_le_pos; lra). assert (0 <= eta * (v * dot3 l1 l1)) by (apply Rmult_le_pos; lra). lra.
Qed.
