(** * Lemmas: the star-tracker filter's gains and its errors about one axis *)
From Coq Require Import Reals Bool Lra Psatz.
From Flocq Require Import Core.
From Verif Require Import Num Vec Mat6 M_vector M_quaternion M_obs S_rot S_obs S_steady P_quat P_obs P_obs3 P_posf P_steady Props_obs P_farr P_est1 P_est2.
Local Open Scope R_scope.

(** ** the gains *)
Definition nx (dt : R) (c : R * R * R) : R * R * R := let v := SENSOR_SIGMA ^ 2 in let '(p, q, r) := c in (nx_p dt (fa dt) v p q r, nx_q dt (fa dt) (fc dt) v p q r, nx_r dt (fa dt) (fc dt) (fd dt) v p q r).
Fixpoint covs (dt lam mu nu : R) (k : nat) : R * R * R := match k with O => (lam, mu, nu) | S k => nx dt (covs dt lam mu nu k) end.
Definition kk1 (dt lam mu nu : R) (k : nat) : R := let '(p, q, r) := covs dt lam mu nu k in gain1 dt p q r.
Definition kk2 (dt lam mu nu : R) (k : nat) : R := let '(p, q, r) := covs dt lam mu nu k in gain2 dt p q r.
Definition k1_inf (dt : R) : R := st_p dt (fa dt) (fc dt) (fd dt) (SENSOR_SIGMA ^ 2) / SENSOR_SIGMA ^ 2.
Definition k2_inf (dt : R) : R := st_q dt (fa dt) (fc dt) (fd dt) (SENSOR_SIGMA ^ 2) / SENSOR_SIGMA ^ 2.
Lemma gains_conv dt lam mu nu : 0 < dt -> psd lam mu nu -> exists M rho, 0 <= M /\ 0 <= rho < 1 /\
  forall k, 0 < kk1 dt lam mu nu k < 1 /\ Rabs (kk1 dt lam mu nu k - k1_inf dt) <= M * rho ^ k /\ Rabs (kk2 dt lam mu nu k - k2_inf dt) <= M * rho ^ k.
Proof.
  intros H PS. destruct (noise_ok dt H) as (N1 & N2 & N3 & N4). assert (V := R_pos). destruct (recursion_converges dt (fa dt) (fc dt) (fd dt) (SENSOR_SIGMA ^ 2) H N2 N3 N1 V N4) as (rho & R1 & K).
  set (g := covs dt lam mu nu). destruct (K (fun k => fst (fst (g k))) (fun k => snd (fst (g k))) (fun k => snd (g k))) as [M HM].
  - exact PS.
  - intros k. unfold g. cbn [covs]. destruct (covs dt lam mu nu k) as [[x y] z]. split; [reflexivity|split; reflexivity].
  - assert (PK : forall k, psd (fst (fst (g k))) (snd (fst (g k))) (snd (g k))).
    { induction k as [|k IH]; [exact PS|]. unfold g in *. cbn [covs]. destruct (covs dt lam mu nu k) as [[x y] z]. cbn [fst snd nx] in *. apply (nx_psd dt (fa dt) (fc dt) (fd dt) (SENSOR_SIGMA ^ 2) H N2 N1 V N4 _ _ _ IH). }
    assert (M0 : 0 <= M). { destruct (HM O) as (X & _). rewrite pow_O, Rmult_1_r in X. eapply Rle_trans; [apply Rabs_pos|exact X]. }
    exists (M / SENSOR_SIGMA ^ 2), rho. split; [apply Rmult_le_pos; [exact M0|left; apply Rinv_0_lt_compat, V]|]. split; [exact R1|]. intros k. assert (PKk := PK k). destruct (HM (S k)) as (X & Y & _). revert X Y PKk. unfold kk1, kk2, g. cbn [covs]. destruct (covs dt lam mu nu k) as [[p q] r]. cbn [fst snd nx]. intros X Y PKk.
    assert (PP := pre_pos dt (fa dt) (fd dt) H N2 N1 _ _ _ PKk). unfold gain1, gain2. unfold nx_p in X. unfold nx_q in Y. set (P := pre_p dt (fa dt) p q r) in *. set (Q := pre_q dt (fc dt) p q r) in *. set (v := SENSOR_SIGMA ^ 2) in *. cbv zeta. fold P. fold Q.
    assert (RK : rho ^ S k <= rho ^ k). { cbn [pow]. assert (0 <= rho ^ k) by (apply pow_le; lra). assert (rho * rho ^ k <= 1 * rho ^ k) by (apply Rmult_le_compat_r; lra). lra. } assert (MR : M * rho ^ S k <= M * rho ^ k) by (apply Rmult_le_compat_l; assumption). assert (IV := Rinv_0_lt_compat v V).
    split. { assert (0 < P / (P + v)) by (apply Rdiv_lt_0_compat; lra). assert (P / (P + v) < 1); [|lra]. apply Rmult_lt_reg_r with (P + v); [lra|]. replace (P / (P + v) * (P + v)) with P by (field; lra). lra. }
    unfold k1_inf, k2_inf. fold v. split.
    + replace (P / (P + v) - st_p dt (fa dt) (fc dt) (fd dt) v / v) with ((P - P * P / (P + v) - st_p dt (fa dt) (fc dt) (fd dt) v) * / v) by (field; lra). rewrite Rabs_mult, (Rabs_pos_eq (/ v)) by lra. replace (M / v * rho ^ k) with (M * rho ^ k * / v) by (field; lra). apply Rmult_le_compat_r; lra.
    + replace (Q / (P + v) - st_q dt (fa dt) (fc dt) (fd dt) v / v) with ((Q - P * Q / (P + v) - st_q dt (fa dt) (fc dt) (fd dt) v) * / v) by (field; lra). rewrite Rabs_mult, (Rabs_pos_eq (/ v)) by lra. replace (M / v * rho ^ k) with (M * rho ^ k * / v) by (field; lra). apply Rmult_le_compat_r; lra.
Qed.
Lemma gains_inf dt : 0 < dt -> 0 < k1_inf dt < 1 /\ k2_inf dt < 0 /\ 0 < - k2_inf dt * dt / 2 < 2.
Proof.
  intros H. destruct (noise_ok dt H) as (N1 & N2 & N3 & N4). assert (V := R_pos). destruct (st_facts dt (fa dt) (fc dt) (fd dt) (SENSOR_SIGMA ^ 2) H N2 N3 N1 V) as (E0 & U0 & UR & _ & s & S0 & US & M0 & UE). unfold k1_inf, k2_inf, st_p, st_q.
  set (u := st_u dt (fa dt) (fc dt) (fd dt) (SENSOR_SIGMA ^ 2)) in *. set (v := SENSOR_SIGMA ^ 2) in *. set (e := sqrt (fd dt)) in *. set (m := st_m dt (fa dt) (fc dt) (fd dt) v) in *.
  assert (UU : 0 < u * u) by (apply Rmult_lt_0_compat; exact U0). assert (Q : 0 < v / (u * u)) by (apply Rdiv_lt_0_compat; assumption). assert (Q1 : v / (u * u) < 1). { apply Rmult_lt_reg_r with (u * u); [exact UU|]. replace (v / (u * u) * (u * u)) with v by (field; lra). lra. }
  split. { replace (v * (1 - v / (u * u)) / v) with (1 - v / (u * u)) by (field; lra). lra. }
  assert (EU : 0 < e / u) by (apply Rdiv_lt_0_compat; assumption). replace (- e * v / u / v) with (- (e / u)) by (field; lra). split; [lra|]. replace (- - (e / u) * dt / 2) with (e * dt / (2 * u)) by (field; lra). assert (ED : 0 < e * dt) by (apply Rmult_lt_0_compat; assumption).
  split; [apply Rdiv_lt_0_compat; lra|]. apply Rmult_lt_reg_r with (2 * u); [lra|]. replace (e * dt / (2 * u) * (2 * u)) with (e * dt) by (field; lra). lra.
Qed.

(** ** the errors after one cycle *)
Lemma cos_x x : Rabs x <= 1 -> 0 <= 1 - cos x <= x * x / 2.
Proof.
  intros H. assert (E : cos x = cos (Rabs x)) by (unfold Rabs; destruct (Rcase_abs x); [symmetry; apply cos_neg|reflexivity]). assert (C := cos_taylor (Rabs x) ltac:(split; [apply Rabs_pos|exact H])). rewrite <- E in C. assert (B := COS_bound x).
  replace (Rabs x ^ 2) with (x * x) in C. 2:{ replace (Rabs x ^ 2) with (Rabs x * Rabs x) by ring. rewrite <- Rabs_mult. symmetry. apply Rabs_pos_eq, sq0. } lra.
Qed.
Lemma sin_x x : Rabs x <= 1 -> Rabs (sin x - x) <= x * x /\ Rabs (sin x) <= Rabs x.
Proof.
  assert (P : forall y, 0 <= y <= 1 -> Rabs (sin y - y) <= y * y /\ Rabs (sin y) <= y).
  { intros y Y. destruct (sin_taylor y Y) as [A B]. assert (Y3 : 0 <= y ^ 3) by (apply pow_le; lra). assert (Y35 : y ^ 5 <= y ^ 3). { replace (y ^ 5) with (y ^ 3 * (y * y)) by ring. assert (y * y <= 1) by nra. assert (y ^ 3 * (y * y) <= y ^ 3 * 1) by (apply Rmult_le_compat_l; lra). lra. }
    assert (Y32 : y ^ 3 <= y * y). { replace (y ^ 3) with (y * y * y) by ring. assert (0 <= y * y) by apply sq0. assert (y * y * y <= y * y * 1) by (apply Rmult_le_compat_l; lra). lra. } assert (Y2 : y * y <= y) by nra. split; apply Rabs_le; lra. }
  intros H. unfold Rabs in H. destruct (Rcase_abs x) as [N|N].
  - destruct (P (- x) ltac:(lra)) as [A B]. rewrite sin_neg in A, B. split; [replace (sin x - x) with (- (- sin x - - x)) by ring; rewrite Rabs_Ropp; replace (x * x) with (- x * - x) by ring; exact A|]. rewrite Rabs_Ropp in B. rewrite (Rabs_left x N). exact B.
  - rewrite (Rabs_pos_eq x) by lra. apply P. lra.
Qed.
Section Step.
Context (c s cr sr x k1 : R) (UC : c * c + s * s = 1) (UR : cr * cr + sr * sr = 1) (K1 : 0 <= k1 <= 1).
Local Notation m := (c * cr + s * sr).
Local Notation u := (c * sr - s * cr).
Local Notation S' := (Rabs u + Rabs x).
Context (M0 : 0 <= m) (SM : S' <= 1 / 4).
Local Notation c1 := (cos x * c - sin x * s).
Local Notation s1 := (sin x * c + s).
Local Notation y := (c1 * sr - s1 * cr).
Local Notation g := (c1 * cr + s1 * sr).
Lemma unit_le a b : a * a + b * b = 1 -> Rabs a <= 1.
Proof. intros H. assert (X := sq0 b). apply Rabs_le. split; nra. Qed.
Lemma step_est : Rabs (y - (u - x)) <= 2 * (S' * S') /\ Rabs (g - 1) <= S' * S'.
Proof.
  assert (Pu := Rabs_pos u). assert (Px := Rabs_pos x). destruct (cos_x x ltac:(lra)) as [CX CX']. destruct (sin_x x ltac:(lra)) as [SX SX'].
  assert (MU : m * m + u * u = 1). { transitivity ((c * c + s * s) * (cr * cr + sr * sr)); [ring|rewrite UC, UR; ring]. }
  assert (M1 : m <= 1) by (assert (X := sq0 u); nra). assert (ML : 0 <= 1 - m <= u * u). { split; [lra|]. assert (0 <= (1 - m) * m) by (apply Rmult_le_pos; lra). lra. }
  assert (AS : Rabs s <= 1) by (apply (unit_le s c); lra). assert (ACR : Rabs cr <= 1) by (apply (unit_le cr sr UR)). assert (ASR : Rabs sr <= 1) by (apply (unit_le sr cr); lra).
  assert (T1 : Rabs (s * cr) <= 1). { rewrite Rabs_mult. rewrite <- (Rmult_1_l 1). apply Rmult_le_compat; try apply Rabs_pos; assumption. } assert (T2 : Rabs (s * sr) <= 1). { rewrite Rabs_mult. rewrite <- (Rmult_1_l 1). apply Rmult_le_compat; try apply Rabs_pos; assumption. }
  assert (XX : x * x = Rabs x * Rabs x) by (rewrite <- Rabs_mult; symmetry; apply Rabs_pos_eq, sq0). assert (UU : u * u = Rabs u * Rabs u) by (rewrite <- Rabs_mult; symmetry; apply Rabs_pos_eq, sq0).
  assert (Ey : y - (u - x) = - (u * (1 - cos x)) - m * (sin x - x) + (1 - m) * x - (1 - cos x) * (s * cr)) by ring.
  assert (Eg : g - 1 = - (1 - m) - m * (1 - cos x) + sin x * u + (1 - cos x) * (s * sr)) by ring.
  rewrite Ey, Eg. clear Ey Eg. set (uu := u) in *. set (mm := m) in *. set (cx := 1 - cos x) in *. set (sx := sin x - x) in *. set (a := s * cr) in *. set (b := s * sr) in *. set (z := sin x) in *. set (U := Rabs uu) in *. set (X := Rabs x) in *.
  assert (A1 : Rabs (uu * cx) <= U * (X * X / 2)) by (rewrite Rabs_mult, (Rabs_pos_eq cx) by lra; apply Rmult_le_compat_l; lra).
  assert (A2 : Rabs (mm * sx) <= 1 * (X * X)) by (rewrite Rabs_mult, (Rabs_pos_eq mm) by lra; apply Rmult_le_compat; try apply Rabs_pos; lra).
  assert (A3 : Rabs ((1 - mm) * x) <= U * U * X) by (rewrite Rabs_mult, (Rabs_pos_eq (1 - mm)) by lra; apply Rmult_le_compat_r; [exact Px|lra]).
  assert (A4 : Rabs (cx * a) <= X * X / 2 * 1) by (rewrite Rabs_mult, (Rabs_pos_eq cx) by lra; apply Rmult_le_compat; try apply Rabs_pos; lra).
  assert (A5 : Rabs (cx * b) <= X * X / 2 * 1) by (rewrite Rabs_mult, (Rabs_pos_eq cx) by lra; apply Rmult_le_compat; try apply Rabs_pos; lra).
  assert (A6 : Rabs (z * uu) <= X * U) by (rewrite Rabs_mult; apply Rmult_le_compat_r; [exact Pu|exact SX']).
  assert (A7 : Rabs (mm * cx) <= X * X / 2) by (rewrite Rabs_mult, (Rabs_pos_eq mm), (Rabs_pos_eq cx) by lra; apply Rle_trans with (1 * cx); [apply Rmult_le_compat_r; lra|lra]).
  assert (XU : 0 <= X * U) by (apply Rmult_le_pos; assumption). assert (X2 : 0 <= X * X) by apply sq0. assert (U2 : 0 <= U * U) by apply sq0.
  assert (B1 : U * (X * X / 2) <= 1 / 4 * (X * X / 2)) by (apply Rmult_le_compat_r; lra). assert (B2 : U * U * X <= U * U * (1 / 4)) by (apply Rmult_le_compat_l; lra).
  assert (SS : (U + X) * (U + X) = U * U + 2 * (X * U) + X * X) by ring. rewrite SS. assert (NN : 0 <= 1 - mm) by lra.
  apply Rabs_le_inv in A1, A2, A3, A4, A5, A6, A7. split; apply Rabs_le; lra.
Qed.
Local Notation k := (k1 * y / 2).
Local Notation D := (sqrt ((c1 - s1 * k) * (c1 - s1 * k) + (s1 + c1 * k) * (s1 + c1 * k))).
Local Notation c' := (/ D * (c1 - s1 * k)).
Local Notation s' := (/ D * (s1 + c1 * k)).
Lemma step_full : 0 < (c1 - s1 * k) * (c1 - s1 * k) + (s1 + c1 * k) * (s1 + c1 * k) /\ c' * c' + s' * s' = 1 /\ 0 <= c' * cr + s' * sr /\ Rabs (c' * sr - s' * cr - (1 - k1 / 2) * (u - x)) <= 5 * (S' * S') /\ Rabs (y - (u - x)) <= 2 * (S' * S').
Proof.
  destruct step_est as [Ey Eg]. assert (Pu := Rabs_pos u). assert (Px := Rabs_pos x). set (G := g) in *. set (Y := y) in *. set (K := k1 * Y / 2). set (SS := S') in *.
  assert (S0 : 0 <= SS) by (unfold SS; lra). assert (S2 : 0 <= SS * SS) by apply sq0. assert (S4 : SS * SS <= SS / 4). { assert (SS * SS <= SS * (1 / 4)) by (apply Rmult_le_compat_l; lra). lra. }
  assert (DD : (c1 - s1 * K) * (c1 - s1 * K) + (s1 + c1 * K) * (s1 + c1 * K) = (G * G + Y * Y) * (1 + K * K)). { transitivity ((G * G + Y * Y) * (1 + K * K) + (1 - (cr * cr + sr * sr)) * ((c1 * c1 + s1 * s1) * (1 + K * K))); [unfold G, Y; ring|rewrite UR; ring]. }
  rewrite DD. set (Dd := (G * G + Y * Y) * (1 + K * K)) in *.
  assert (UX : Rabs (u - x) <= SS) by (unfold SS; eapply Rle_trans; [apply Rabs_triang|rewrite Rabs_Ropp; lra]).
  assert (YB : Rabs Y <= 3 / 2 * SS). { replace Y with ((Y - (u - x)) + (u - x)) by ring. eapply Rle_trans; [apply Rabs_triang|]. lra. }
  assert (YB' : Rabs Y <= 3 / 8) by lra. assert (YY : Y * Y <= 9 / 4 * (SS * SS)). { replace (Y * Y) with (Rabs Y * Rabs Y) by (rewrite <- Rabs_mult; apply Rabs_pos_eq, sq0). replace (9 / 4 * (SS * SS)) with ((3 / 2 * SS) * (3 / 2 * SS)) by field. apply Rmult_le_compat; try apply Rabs_pos; assumption. }
  assert (KA : Rabs K <= Rabs Y / 2). { unfold K. replace (k1 * Y / 2) with (k1 * (Y / 2)) by field. rewrite Rabs_mult, (Rabs_pos_eq k1) by lra. replace (Y / 2) with (Y * / 2) by field. rewrite Rabs_mult, (Rabs_pos_eq (/ 2)) by lra. assert (Py := Rabs_pos Y). assert (k1 * (Rabs Y * / 2) <= 1 * (Rabs Y * / 2)) by (apply Rmult_le_compat_r; lra). lra. }
  assert (KK : K * K <= Y * Y / 4). { replace (K * K) with (Rabs K * Rabs K) by (rewrite <- Rabs_mult; apply Rabs_pos_eq, sq0). replace (Y * Y / 4) with ((Rabs Y / 2) * (Rabs Y / 2)). - apply Rmult_le_compat; try apply Rabs_pos; assumption. - replace (Rabs Y / 2 * (Rabs Y / 2)) with (Rabs Y * Rabs Y / 4) by field. rewrite <- Rabs_mult, Rabs_pos_eq by apply sq0. reflexivity. }
  assert (S16 : SS * SS <= 1 / 16) by lra. assert (S44 : (SS * SS) * (SS * SS) <= 1 / 16 * (SS * SS)) by (apply Rmult_le_compat_r; assumption).
  assert (Y0 := sq0 Y). assert (K0 := sq0 K). set (T := SS * SS) in *. assert (Eg' := Rabs_le_inv _ _ Eg).
  assert (G1 : 15 / 16 <= G) by lra. assert (GL : 1 - 2 * T <= G * G). { assert (0 <= (G - 1) * (G - 1)) by apply sq0. lra. } assert (GU : G * G <= 1 + 2 * T + 1 / 16 * T). { assert ((G - 1) * (G - 1) <= T * T). { replace ((G - 1) * (G - 1)) with (Rabs (G - 1) * Rabs (G - 1)) by (rewrite <- Rabs_mult; apply Rabs_pos_eq, sq0). apply Rmult_le_compat; try apply Rabs_pos; assumption. } lra. }
  assert (DL : 1 - 2 * T <= Dd). { unfold Dd. assert (0 <= (G * G + Y * Y) * (K * K)) by (apply Rmult_le_pos; lra). lra. }
  assert (DU : Dd <= 1 + 6 * T). { unfold Dd. assert (G * G + Y * Y <= 1 + 5 * T) by lra. assert (0 <= G * G + Y * Y) by lra. assert ((G * G + Y * Y) * (K * K) <= (1 + 5 * T) * (9 / 16 * T)) by (apply Rmult_le_compat; lra). assert ((1 + 5 * T) * (9 / 16 * T) = 9 / 16 * T + 45 / 16 * (T * T)) by field. lra. }
  assert (DP : 0 < Dd) by lra. set (d := sqrt Dd). assert (D0 : 0 < d) by (apply sqrt_lt_R0, DP). assert (D2 : d * d = Dd) by (apply sqrt_def; lra). assert (D9 : 9 / 10 <= d) by nra.
  assert (ID : Rabs (/ d - 1) <= 5 * T). { replace (/ d - 1) with ((1 - Dd) * / (d * (1 + d))) by (rewrite <- D2; field; lra). rewrite Rabs_mult. assert (Q : 9 / 10 * (19 / 10) <= d * (1 + d)) by (apply Rmult_le_compat; lra). assert (IQ : 0 < / (d * (1 + d))) by (apply Rinv_0_lt_compat; lra). rewrite (Rabs_pos_eq (/ (d * (1 + d)))) by lra.
    assert (Rabs (1 - Dd) <= 6 * T) by (apply Rabs_le; lra). assert (I2 : / (d * (1 + d)) <= / (12 / 10)) by (apply Rinv_le_contravar; lra). replace (5 * T) with (6 * T * / (12 / 10)) by field. apply Rmult_le_compat; [apply Rabs_pos|lra|assumption|exact I2]. }
  assert (IP := Rinv_0_lt_compat d D0). split; [exact DP|]. split; [|split; [|split]].
  - transitivity (/ d * / d * ((c1 - s1 * K) * (c1 - s1 * K) + (s1 + c1 * K) * (s1 + c1 * K))); [ring|]. rewrite DD, <- D2. field. lra.
  - replace (/ d * (c1 - s1 * K) * cr + / d * (s1 + c1 * K) * sr) with (/ d * (G + K * Y)) by (unfold G, Y; ring). apply Rmult_le_pos; [lra|]. replace (K * Y) with (k1 * (Y * Y) / 2) by (unfold K; field). assert (0 <= k1 * (Y * Y)) by (apply Rmult_le_pos; lra). lra.
  - replace (/ d * (c1 - s1 * K) * sr - / d * (s1 + c1 * K) * cr) with (/ d * (Y * (1 - k1 * G / 2))) by (unfold K, G, Y; field; lra).
    replace (/ d * (Y * (1 - k1 * G / 2)) - (1 - k1 / 2) * (u - x)) with ((Y - (u - x)) * (1 - k1 / 2) - Y * (k1 / 2) * (G - 1) + Y * (1 - k1 * G / 2) * (/ d - 1)) by (field; lra).
    assert (F1 : Rabs ((Y - (u - x)) * (1 - k1 / 2)) <= 2 * T * 1). { rewrite Rabs_mult. apply Rmult_le_compat; try apply Rabs_pos; [exact Ey|]. apply Rabs_le. lra. }
    assert (F2 : Rabs (Y * (k1 / 2) * (G - 1)) <= 3 / 8 * (1 / 2) * T). { rewrite !Rabs_mult. apply Rmult_le_compat; try apply Rabs_pos; [apply Rmult_le_pos; apply Rabs_pos| |exact Eg]. apply Rmult_le_compat; try apply Rabs_pos; [exact YB'|apply Rabs_le; lra]. }
    assert (F3 : Rabs (Y * (1 - k1 * G / 2) * (/ d - 1)) <= 3 / 8 * 1 * (5 * T)). { rewrite !Rabs_mult. apply Rmult_le_compat; try apply Rabs_pos; [apply Rmult_le_pos; apply Rabs_pos| |exact ID]. apply Rmult_le_compat; try apply Rabs_pos; [exact YB'|]. assert (0 <= k1 * G <= 1 * (17 / 16)) by (split; [apply Rmult_le_pos; lra|apply Rmult_le_compat; lra]). apply Rabs_le. lra. }
    apply Rabs_le_inv in F1, F2, F3. apply Rabs_le. lra.
  - exact Ey.
Qed.
End Step.
