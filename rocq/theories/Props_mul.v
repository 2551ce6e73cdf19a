(** * C118: several gyro steps between two star-tracker readings, in the filter alone and in the daemon *)
From Coq Require Import Reals ZArith List Bool Lra Psatz Lia.
From Verif Require Import Num Vec Mat6 M_vector M_quaternion M_frame M_jday S_frame P_spin P_qf M_struct M_dyn M_integ M_obs M_ctrl M_fsm M_mgr S_rot S_integ S_obs S_steady P_quat P_wheel P_dyn P_dyn2 P_integ P_obs P_obs3 P_steady Props_obs Props_frame Props_dyn Props_mgr P_farr P_est1 P_est2 P_est3 P_tot3 P_orb3 Props_est P_tri1 P_tri2 P_tri3 P_tri4 P_tri5 Props_tri P_half1 P_half2 Props_half P_mul1 P_mul2 P_mul3 P_mul4 P_mul5.
Import ListNotations.
Local Open Scope R_scope.

(** N gyro readings, then a star-tracker reading *)
Definition rounds (dt : R) (N : nat) (gyro : nat -> nat -> v3) (tracker : nat -> quat) (f : nat -> AttF) : Prop :=
  forall k, af_measurement (tracker k) (gyro_steps dt (gyro k) N (f k)) = Ok (f (S k)).
Lemma steps_cov dt w n f : 0 <= dt -> cov_ok (a_P f) -> cov_ok (a_P (gyro_steps dt w n f)).
Proof. intros H C. induction n as [|n IH]; [exact C|]. cbn [gyro_steps]. apply prop_cov; [exact H|exact IH]. Qed.
Lemma rounds_exist dt N gyro tracker f0 : 0 <= dt -> cov_ok (a_P f0) -> exists f, f O = f0 /\ rounds dt N gyro tracker f.
Proof.
  intros H OK. set (g := fix g (k : nat) : AttF := match k with O => f0 | S k => match af_measurement (tracker k) (gyro_steps dt (gyro k) N (g k)) with Ok f => f | Raise _ => f0 end end).
  assert (ST : forall k, cov_ok (a_P (g k)) -> af_measurement (tracker k) (gyro_steps dt (gyro k) N (g k)) = Ok (g (S k)) /\ cov_ok (a_P (g (S k)))).
  { intros k CK. destruct (meas_cov (tracker k) _ (steps_cov dt (gyro k) N (g k) H CK)) as (f' & E & CF & _). assert (G : g (S k) = f') by (cbn [g]; fold (g k); rewrite E; reflexivity). rewrite G. split; [exact E|exact CF]. }
  assert (C : forall k, cov_ok (a_P (g k))) by (induction k as [|k IH]; [exact OK|apply ST, IH]). exists g. split; [reflexivity|]. intros k. apply ST, C.
Qed.
Lemma steps_ext dt w w' n f : (forall j, (j < n)%nat -> w j = w' j) -> gyro_steps dt w n f = gyro_steps dt w' n f.
Proof. induction n as [|n IH]; intros H; [reflexivity|]. cbn [gyro_steps]. rewrite IH, H; [reflexivity|lia|intros j L; apply H; lia]. Qed.
Lemma sub_none (g b : v3) : sub3 g (scale3 (1 - 1) b) = g. Proof. vring. Qed.
Lemma sub_once (g b : v3) : sub3 g (scale3 (2 - 1) b) = sub3 g b. Proof. vring. Qed.
Lemma scale_inv1 (b : v3) : scale3 (/ 1) b = b. Proof. rewrite Rinv_1. apply scale3_1. Qed.

(** ** the filter, from any starting covariance that is the same about all axes *)
Theorem C118_filter : forall dt N lam mu nu, 0 < dt -> (1 <= N)%nat -> (forall x y, 0 <= lam * (x * x) + 2 * mu * (x * y) + nu * (y * y)) -> exists eps K rho, 0 < eps /\ 0 < K /\ 0 < rho < 1 /\
  forall qs bs r d gyro tracker f, dotq (qs O) (qs O) = 1 -> dotq (a_q (f O)) (a_q (f O)) = 1 -> a_dq (f O) = zero3 -> even_cov (a_P (f O)) lam mu nu -> 0 <= r <= eps -> 0 <= d <= eps -> missed (qs O) bs (f O) <= eps ->
  turning_fast dt N qs bs r d gyro tracker -> rounds dt N gyro tracker f -> forall k, missed (qs k) bs (f k) <= K * (rho ^ k * missed (qs O) bs (f O) + d + r ^ 2).
Proof.
  intros dt N lam mu nu H LN PS. destruct (fast_run 1 dt N lam mu nu ltac:(lra) H LN PS) as (eps & K & rho & E0 & K0 & R0 & T). exists eps, K, rho. split; [exact E0|]. split; [exact K0|]. split; [exact R0|]. intros qs bs r d gyro tracker f Us U0 DQ EV HR HD HM TU RN k.
  assert (X := T qs bs r d gyro tracker f Us U0 DQ EV HR HD). rewrite scale_inv1 in X. apply X; [exact HM|exact TU|]. intros j. rewrite (steps_ext dt _ (gyro j)); [apply RN|]. intros l _. apply sub_none.
Qed.
Print Assumptions C118_filter.
(** from the filter's own start *)
Theorem C118_filter_start : forall dt N, 0 < dt -> (1 <= N)%nat -> exists eps K rho, 0 < eps /\ 0 < K /\ 0 < rho < 1 /\
  forall qs bs q0 r d gyro tracker, dotq (qs O) (qs O) = 1 -> dotq q0 q0 = 1 -> 0 <= r <= eps -> 0 <= d <= eps -> let e0 := normq (subq q0 (qs O)) + norm3 bs in e0 <= eps -> turning_fast dt N qs bs r d gyro tracker ->
  exists f, f O = af_init q0 /\ rounds dt N gyro tracker f /\ forall k, normq (subq (a_q (f k)) (qs k)) <= K * (rho ^ k * e0 + d + r ^ 2) /\ norm3 (sub3 (a_b (f k)) bs) <= K * (rho ^ k * e0 + d + r ^ 2).
Proof.
  intros dt N H LN. destruct (C118_filter dt N (SENSOR_SIGMA ^ 2) 0 (INITIAL_BIAS ^ 2) H LN) as (eps & K & rho & E0 & K0 & R0 & T).
  { intros x y. assert (0 <= SENSOR_SIGMA ^ 2 * (x * x)) by (apply Rmult_le_pos; [left; apply R_pos|apply sq0]). assert (0 <= INITIAL_BIAS ^ 2 * (y * y)) by (apply Rmult_le_pos; [apply pow2_ge_0|apply sq0]). lra. }
  exists eps, K, rho. split; [exact E0|]. split; [exact K0|]. split; [exact R0|]. intros qs bs q0 r d gyro tracker Us U0 HR HD e0 HE AR. destruct (rounds_exist dt N gyro tracker (af_init q0)) as (f & F0 & RUN); [lra|apply init_cov|].
  exists f. split; [exact F0|]. split; [exact RUN|]. assert (EV : even_cov (a_P (f O)) (SENSOR_SIGMA ^ 2) 0 (INITIAL_BIAS ^ 2)). { rewrite F0. unfold even_cov, af_init. cbn [a_P]. unfold diag6. f_equal; generalize (id3 (T:=R)); clear; vring. }
  assert (EM : missed (qs O) bs (f O) = e0). { rewrite F0. unfold missed, e0, af_init. cbn [a_q a_b]. f_equal. replace (sub3 zero3 bs) with (scale3 (-1) bs) by vring. rewrite nscale, Rabs_left by lra. ring. }
  assert (X := T qs bs r d gyro tracker f Us). rewrite EM in X. specialize (X ltac:(rewrite F0; exact U0) ltac:(rewrite F0; reflexivity) EV HR HD HE AR RUN). intros k. assert (Y := X k). unfold missed in Y. assert (N1 := n3pos (sub3 (a_b (f k)) bs)). assert (N2 := normq0 (subq (a_q (f k)) (qs k))). lra.
Qed.
Print Assumptions C118_filter_start.

(** ** the daemon: how many gyro steps a call does *)
Definition fit_exactly (dt dur : R) (N : nat) : Prop := forall k, (1 <= k)%nat -> ((k <= N)%nat <-> fits dt dur k).
Lemma fit_multiple dt N : 0.001 <= dt -> fit_exactly dt (INR N * dt) N.
Proof.
  intros H k L. rewrite fits_iff. split.
  - intros LE. apply le_INR in LE. assert (INR k * dt <= INR N * dt) by (apply Rmult_le_compat_r; lra). lra.
  - intros LT. destruct (le_lt_dec k N) as [A|A]; [exact A|exfalso]. apply le_INR in A. rewrite S_INR in A. assert ((INR N + 1) * dt <= INR k * dt) by (apply Rmult_le_compat_r; lra). lra.
Qed.
Lemma loop_fit {W} (step : W -> res W) dt dur N : fit_exactly dt dur N -> forall fuel j w w', (j <= N)%nat -> int_loop fuel step dt dur (INR (S j) * dt) w = Some (Ok w') -> riter (N - j) step w = Ok w'.
Proof.
  intros F. induction fuel as [|fuel IH]; intros j w w' L; [discriminate|]. cbn [int_loop]. destruct (loop_cond dur (INR (S j) * dt)) eqn:C.
  - apply cond_R in C. assert (LJ : (S j <= N)%nat) by (apply F; [lia|]; rewrite fits_iff; exact C). destruct (step w) as [x|e] eqn:SW; [|discriminate]. assert (NX : ((INR (S j) * dt)%R + dt)%num = (INR (S (S j)) * dt)%R) by (rnumg; rewrite (S_INR (S j)); ring). rewrite NX. intros E. apply IH in E; [|exact LJ]. replace (N - j)%nat with (S (N - S j)) by lia. cbn [riter]. rewrite SW. exact E.
  - intros E. injection E as <-. assert (NJ : j = N). { destruct (le_lt_dec N j) as [A|A]; [lia|exfalso]. assert (X := proj1 (F (S j) ltac:(lia)) A). rewrite fits_iff in X. apply cond_R in X. congruence. } subst j. replace (N - N)%nat with O by lia. reflexivity.
Qed.
Lemma int_fit {W} (step : W -> res W) dt dur N fuel w w' : fit_exactly dt dur N -> integrate fuel step dt dur w = Some (Ok w') -> riter N step w = Ok w'.
Proof. intros F. unfold integrate. replace (int_loop fuel step dt dur dt w) with (int_loop fuel step dt dur (INR 1 * dt) w) by (rewrite Rmult_1_l; reflexivity). intros E. apply (loop_fit step dt dur N F) in E; [|lia]. rewrite Nat.sub_0_r in E. exact E. Qed.
Lemma steps_same dt w n f : gyro_steps dt (fun _ => w) n (af_propagate w dt f) = af_propagate w dt (gyro_steps dt (fun _ => w) n f).
Proof. induction n as [|n IH]; [reflexivity|]. cbn [gyro_steps]. rewrite IH. reflexivity. Qed.
Lemma riter_steps dt w n : forall f, riter n (fun a => Ok (af_propagate w dt a)) f = Ok (gyro_steps dt (fun _ => w) n f).
Proof. induction n as [|n IH]; intros f; [reflexivity|]. cbn [riter gyro_steps]. rewrite IH, steps_same. reflexivity. Qed.

(** the daemon's calls last N gyro steps each: it finds the attitude and half the bias *)
Theorem C118_daemon : forall dt dur N, 0 < dt -> (1 <= N)%nat -> fit_exactly dt dur N -> exists eps K rho, 0 < eps /\ 0 < K /\ 0 < rho < 1 /\
  forall model i m q0 qs bs r d, calls model i m -> (forall k, i_dur (i k) = dur) -> kf_gyro_dt (g_filter (m O)) = dt -> kf_att (g_filter (m O)) = af_init q0 ->
  unitq q0 -> unitq (qs O) -> 0 <= r <= eps -> 0 <= d <= eps -> normq (subq (i_att (i O)) (qs O)) <= d -> turning_fast dt N qs bs r d (fun k _ => gyro (i k)) (fun k => i_att (i (S k))) ->
  let e0 := normq (subq q0 (qs O)) + norm3 bs in e0 <= eps ->
  forall k, normq (subq (v_att (cs_v (given (i k) (m k)))) (qs k)) <= K * (rho ^ k * e0 + d + r ^ 2) /\
    norm3 (sub3 (v_rate (cs_v (given (i k) (m k)))) (sub3 (gyro (i k)) (scale3 (1 / 2) bs))) <= K * (rho ^ k * e0 + d + r ^ 2) /\
    norm3 (sub3 (a_b (kf_att (g_filter (m (S k))))) (scale3 (1 / 2) bs)) <= K * (rho ^ k * e0 + d + r ^ 2).
Proof.
  intros dt dur N H LN FT. destruct (fast_run 2 dt N (SENSOR_SIGMA ^ 2 / 2) 0 (INITIAL_BIAS ^ 2)) as (eps & K & rho & E0 & K0 & R0 & T); [lra|lra|exact LN| |].
  { intros x y. assert (0 <= SENSOR_SIGMA ^ 2 * (x * x)) by (apply Rmult_le_pos; [left; apply R_pos|apply sq0]). assert (0 <= INITIAL_BIAS ^ 2 * (y * y)) by (apply Rmult_le_pos; [apply pow2_ge_0|apply sq0]). lra. }
  exists (eps / 4), (3 * K), rho. split; [lra|]. split; [lra|]. split; [exact R0|]. intros model i m q0 qs bs r d C HD HG HA U0 Us HR HDd TR0 TU e0 HE.
  assert (GD : forall k, kf_gyro_dt (g_filter (m k)) = dt) by (induction k as [|k IH]; [exact HG|]; destruct (call_att _ _ _ _ _ _ _ _ _ _ _ _ _ _ (C k)) as (g & _ & _ & E & _); rewrite E; exact IH).
  set (G := fun k => kf_att (g_filter (fst (sensor_input (i_store (i k)) (Some (i_pos (i k), i_vel (i k), i_att (i k))) (m k))))).
  assert (ST : forall k, af_measurement (i_att (i k)) (kf_att (g_filter (m k))) = Ok (G k) /\ kf_att (g_filter (m (S k))) = gyro_steps dt (fun _ => sub3 (gyro (i k)) (a_b (G k))) N (G k)).
  { intros k. destruct (call_att _ _ _ _ _ _ _ _ _ _ _ _ _ _ (C k)) as (g & E1 & E3 & _ & E2). fold (G k) in E3. subst g. split; [exact E1|]. rewrite GD, HD in E2. apply (int_fit _ _ _ _ _ _ _ FT) in E2. rewrite riter_steps in E2. injection E2 as E2. symmetry. exact E2. }
  assert (CY : forall k, af_measurement (i_att (i (S k))) (gyro_steps dt (fun _ => sub3 (gyro (i k)) (scale3 (2 - 1) (a_b (G k)))) N (G k)) = Ok (G (S k))). { intros k. rewrite sub_once, <- (proj2 (ST k)). apply ST. }
  assert (M0 := proj1 (ST O)). rewrite HA in M0. destruct (first_meas _ _ _ U0 M0) as (F1 & F2 & F3 & F4 & F5).
  assert (N0 := normq0 (subq q0 (qs O))). assert (NB := n3pos bs).
  assert (TRI : forall a b c : quat, normq (subq a c) <= normq (subq a b) + normq (subq b c)). { intros a b c. replace (subq a c) with (addq (subq a b) (subq b c)) by vring. apply P_qf.normq_triangle. }
  assert (SYM : forall a b : quat, normq (subq a b) = normq (subq b a)). { intros a b. unfold normq. f_equal. rnumg. vring. }
  replace (/ 2) with (1 / 2) in T by lra.
  assert (EM : missed (qs O) (scale3 (1 / 2) bs) (G O) <= 2 * e0 + d). { unfold missed. rewrite F2. replace (sub3 zero3 (scale3 (1 / 2) bs)) with (scale3 (- (1 / 2)) bs) by (clear; vring). rewrite nscale, Rabs_Ropp, Rabs_pos_eq by lra. assert (A := TRI (a_q (G O)) q0 (qs O)). assert (B := TRI (i_att (i O)) (qs O) q0). rewrite (SYM (qs O) q0) in B. unfold e0. lra. }
  assert (X := T qs bs r d (fun k _ => gyro (i k)) (fun k => i_att (i (S k))) G Us F4 F3 F1 ltac:(lra) ltac:(lra) ltac:(lra) TU CY).
  intros k. assert (Y := X k). set (M := missed (qs O) (scale3 (1 / 2) bs) (G O)) in *. assert (RK : 0 < rho ^ k <= 1) by (split; [apply pow_lt; lra|rewrite <- (pow1 k); apply pow_incr; lra]).
  assert (BN : K * (rho ^ k * M + d + r ^ 2) <= 3 * K * (rho ^ k * e0 + d + r ^ 2)). { replace (3 * K * (rho ^ k * e0 + d + r ^ 2)) with (K * (3 * (rho ^ k * e0 + d + r ^ 2))) by ring. apply Rmult_le_compat_l; [lra|]. assert (rho ^ k * M <= rho ^ k * (2 * e0 + d)) by (apply Rmult_le_compat_l; lra). assert (rho ^ k * d <= 1 * d) by (apply Rmult_le_compat_r; lra). assert (0 <= rho ^ k * e0) by (apply Rmult_le_pos; unfold e0; lra). assert (0 <= r ^ 2) by apply pow2_ge_0. lra. }
  unfold missed in Y. assert (N1 := n3pos (sub3 (a_b (G k)) (scale3 (1 / 2) bs))). assert (N2 := normq0 (subq (a_q (G k)) (qs k))).
  assert (BB : norm3 (sub3 (a_b (G k)) (scale3 (1 / 2) bs)) <= 3 * K * (rho ^ k * e0 + d + r ^ 2)) by lra. split; [|split].
  - change (v_att (cs_v (given (i k) (m k)))) with (a_q (G k)). lra.
  - change (v_rate (cs_v (given (i k) (m k)))) with (sub3 (gyro (i k)) (a_b (G k))). replace (sub3 (sub3 (gyro (i k)) (a_b (G k))) (sub3 (gyro (i k)) (scale3 (1 / 2) bs))) with (scale3 (-1) (sub3 (a_b (G k)) (scale3 (1 / 2) bs))) by (generalize (gyro (i k)) (a_b (G k)); clear; vring). rewrite nscale, Rabs_left by lra. lra.
  - rewrite (proj2 (ST k)), (proj1 (steps_b dt _ N (G k))). exact BB.
Qed.
Print Assumptions C118_daemon.
(** a body at rest, exact sensors, calls of any fixed duration in which at least one gyro step fits *)
Theorem C118_rest : forall dt dur, 0 < dt -> dt < dur + 0.001 -> exists eps K rho, 0 < eps /\ 0 < K /\ 0 < rho < 1 /\
  forall model i m qs bs, calls model i m -> (forall k, i_dur (i k) = dur) -> kf_gyro_dt (g_filter (m O)) = dt -> kf_att (g_filter (m O)) = af_init qs ->
  unitq qs -> norm3 bs <= eps -> (forall k, gyro (i k) = bs /\ i_att (i k) = qs) ->
  forall k, norm3 (sub3 (v_rate (cs_v (given (i k) (m k)))) (scale3 (1 / 2) bs)) <= K * rho ^ k * norm3 bs.
Proof.
  intros dt dur H HD1. destruct (count_exists dt (dur + 0.001) H) as [N HN]. assert (FT : fit_exactly dt dur N) by (intros k L; rewrite fits_iff; apply HN, L). assert (LN : (1 <= N)%nat) by (apply FT; [lia|]; rewrite fits_iff; simpl INR; lra).
  destruct (C118_daemon dt dur N H LN FT) as (eps & K & rho & E0 & K0 & R0 & T). exists eps, K, rho. split; [exact E0|]. split; [exact K0|]. split; [exact R0|]. intros model i m qs bs C HD HG HA U HB S k.
  assert (ZQ : normq (subq qs qs) = 0). { unfold normq. rnumg. replace (dotq (subq qs qs) (subq qs qs)) with 0 by vring. apply sqrt_0. }
  assert (TU : turning_fast dt N (fun _ => qs) bs 0 0 (fun k _ => gyro (i k)) (fun k => i_att (i (Datatypes.S k)))).
  { intros j. exists (mk3 1 0 0), 0. split; [unfold unit3; vunfoldg; cbn [x3 y3 z3]; rnumg; ring|]. split; [rewrite Rabs_R0; lra|]. split; [unfold about, mkqv; replace (0 * (INR N * dt) / 2) with 0 by field; rewrite cos_0, sin_0; clear; destruct qs as [q0 qa qb qc]; unfold product; vunfoldg; cbn [qw qx qy qz x3 y3 z3]; rnumg; f_equal; ring|]. split.
    - intros l _. rewrite (proj1 (S j)). replace (sub3 bs (add3 (scale3 0 (mk3 1 0 0)) bs)) with (zero3 (T:=R)) by (clear; destruct bs as [ba bb bc]; vunfoldg; cbn [x3 y3 z3]; rnumg; f_equal; ring). rewrite nzero. lra.
    - rewrite (proj2 (S (Datatypes.S j))), ZQ. lra. }
  destruct (T model i m qs (fun _ => qs) bs 0 0 C HD HG HA U U ltac:(lra) ltac:(lra) ltac:(cbv beta; rewrite (proj2 (S O)), ZQ; lra) TU ltac:(cbv beta zeta; rewrite ZQ; lra) k) as (_ & X & _). cbv beta in X.
  rewrite (proj1 (S k)), ZQ in X. replace (sub3 bs (scale3 (1 / 2) bs)) with (scale3 (1 / 2) bs) in X by (clear; destruct bs as [b1 b2 b3]; vunfoldg; cbn [x3 y3 z3]; rnumg; f_equal; lra). eapply Rle_trans; [exact X|]. right. ring.
Qed.
Print Assumptions C118_rest.
(** ** calls too short for a gyro step: the filter never learns any bias, and the controllers are given the gyro's reading as it is *)
Lemma none_step {W} fuel (step : W -> res W) dt dur w w' : dur + 0.001 <= dt -> integrate fuel step dt dur w = Some (Ok w') -> w' = w.
Proof.
  intros H. unfold integrate. destruct fuel as [|fuel]; [discriminate|]. cbn [int_loop]. destruct (loop_cond dur dt) eqn:C; [apply cond_R in C; lra|]. intros E. injection E as <-. reflexivity.
Qed.
Theorem C118_short : forall model i m q0 dt, calls model i m -> kf_gyro_dt (g_filter (m O)) = dt -> (forall k, i_dur (i k) + 0.001 <= dt) -> kf_att (g_filter (m O)) = af_init q0 ->
  forall k, a_b (kf_att (g_filter (m k))) = zero3 /\ v_rate (cs_v (given (i k) (m k))) = gyro (i k).
Proof.
  intros model i m q0 dt C HG HD HA. set (I := fun f => a_b f = zero3 /\ b21 (a_P f) = zerom).
  assert (ZM : forall a : m3, mm zerom a = zerom) by vring. assert (ZV : forall u : v3, mv zerom u = zero3) by vring.
  assert (ME : forall z f g, I f -> af_measurement z f = Ok g -> I g).
  { intros z f g (A & B). unfold af_measurement. destruct (Reqb (det3 (addm af_R (b11 (a_P f)))) 0); [discriminate|]. unfold af_gain. rewrite B, ZM. intros E. injection E as <-. unfold I, af_reset. cbn [a_b a_P a_db]. rewrite ZV, A, add3_0_r. split; [reflexivity|]. unfold mm6, subm6, id6, diag6. cbn [b11 b12 b21 b22]. rewrite B. generalize (b11 (a_P f)). clear. vring. }
  assert (GD : forall k, kf_gyro_dt (g_filter (m k)) = dt) by (induction k as [|k IH]; [exact HG|]; destruct (call_att _ _ _ _ _ _ _ _ _ _ _ _ _ _ (C k)) as (g & _ & _ & E & _); rewrite E; exact IH).
  assert (ST : forall k, I (kf_att (g_filter (m k))) -> I (kf_att (g_filter (m (S k)))) /\ v_rate (cs_v (given (i k) (m k))) = gyro (i k)).
  { intros k IK. destruct (call_att _ _ _ _ _ _ _ _ _ _ _ _ _ _ (C k)) as (g & E1 & E3 & _ & E2). assert (IG := ME _ _ _ IK E1). rewrite GD in E2. apply none_step in E2; [|apply HD]. rewrite E2. split; [exact IG|]. unfold given, shown. rewrite E3. cbn [cs_v v_rate]. rewrite (proj1 IG). apply sub3_0_r. }
  assert (INV : forall k, I (kf_att (g_filter (m k)))). { induction k as [|k IH]; [rewrite HA; split; [reflexivity|]; unfold af_init, diag6; cbn [a_P b21]; reflexivity|apply ST, IH]. }
  intros k. split; [apply INV|apply ST, INV].
Qed.
Print Assumptions C118_short.
(** ** such runs exist for every duration: SLEEP, a fixed position, a position filter whose step is longer than the call *)
Definition rest_long (fuel : nat) (bs : v3) (qs : quat) (dur a : R) (c : AClock) : Call := mkCall fuel (fun _ => c) c (mkCS (mkSV zero3 zero3 qs bs []) zero3) dur 1 zero3 zero3 (mk3 a 0 0) zero3 qs.
Lemma rest_long_step fuel bs qs dt dur N a c m : 0 < dt -> 0 < dur -> fit_exactly dt dur N -> (N < fuel)%nat -> wgs_a <= a -> let i := rest_long fuel bs qs dur a c in let ok m := cov_ok (a_P (kf_att (g_filter m))) /\ symm6 (p_P (kf_pos (g_filter m))) /\ psd6 (p_P (kf_pos (g_filter m))) /\ p_x (kf_pos (g_filter m)) = mk6 (mk3 a 0 0) zero3 /\
    kf_gyro_dt (g_filter m) = dt /\ dur + 0.001 <= kf_gps_dt (g_filter m) in
  ok m -> exists m', mgr_propagate false (i_fuel i) (i_store i) (i_clock i) (i_meas i) (i_dur i) (i_id i) (i_bore i) (i_tgt i) (Some (i_pos i, i_vel i, i_att i)) m = Some (Ok m') /\ ok m'.
Proof.
  intros H HDu FT FU HA i ok (O1 & O2 & O3 & O4 & O5 & O6). unfold i, rest_long. cbn [i_fuel i_store i_clock i_meas i_dur i_id i_bore i_tgt i_pos i_vel i_att]. unfold mgr_propagate, sensor_input, kf_update.
  assert (WA : 0 < wgs_a /\ wgs_a * wgs_e2 < wgs_a /\ 0 <= wgs_a * wgs_e2) by (assert (FF : 0.003 < wgs_f < 0.004) by (unfold wgs_f; lra); assert (E2 : 0 < wgs_e2 < 1) by (unfold wgs_e2; nra); unfold wgs_a; lra). destruct WA as (W1 & W2 & W3).
  assert (PU : exists p, pf_update (fun _ => c) (mk3 a 0 0) zero3 (kf_pos (g_filter m)) = (p, None) /\ symm6 (p_P p) /\ psd6 (p_P p) /\ p_x p = mk6 (mk3 a 0 0) zero3).
  { destruct (pf_step_cov (kf_pos (g_filter m)) (PUpd (fun _ => c) (mk3 a 0 0) zero3) O2 O3) as [S1 S2]. cbn [pf_step] in S1, S2. destruct (pf_inv _ O2 O3) as (N' & EN & _). revert S1 S2. unfold pf_update. rewrite EN, O4. cbv zeta.
    assert (XE : add6 (mk6 (mk3 a 0 0) zero3) (mv6 (mm6 (p_P (kf_pos (g_filter m))) N') (sub6 (mk6 (mk3 a 0 0) zero3) (mk6 (mk3 a 0 0) zero3))) = mk6 (mk3 a 0 0) zero3).
    { replace (sub6 (mk6 (mk3 a 0 0) zero3) (mk6 (mk3 a 0 0) zero3)) with zero6 by (unfold sub6, zero6; cbn [u1 u2]; f_equal; vunfoldg; cbn [x3 y3 z3]; rnumg; f_equal; ring). rewrite mv6_zero. unfold add6, zero6. cbn [u1 u2]. rewrite !add3_0_r. reflexivity. }
    rewrite XE. cbn [u1 u2]. unfold refresh. cbv zeta. set (th := clk_theta c). rewrite (C13_lla_equator (mv (ecef_matrix th) (mk3 a 0 0))).
    - intros S1 S2. eexists. split; [reflexivity|]. cbn [fst p_P p_x] in *. split; [exact S1|]. split; [exact S2|reflexivity].
    - unfold ecef_matrix. vunfoldg. cbn. rnumg. ring.
    - intros Z. assert (D : dot3 (mv (ecef_matrix th) (mk3 a 0 0)) (mv (ecef_matrix th) (mk3 a 0 0)) = a * a). { assert (X := sin2_cos2 th). unfold Rsqr in X. transitivity (a * a * (sin th * sin th + cos th * cos th)); [|rewrite X; ring]. unfold ecef_matrix. generalize (sin th) (cos th). intros s' c'. vunfoldg. cbn. rnumg. ring. } rewrite Z in D. revert D. vunfoldg. cbn [x3 y3 z3]. rnumg. nra.
    - assert (D : x3 (mv (ecef_matrix th) (mk3 a 0 0)) * x3 (mv (ecef_matrix th) (mk3 a 0 0)) + y3 (mv (ecef_matrix th) (mk3 a 0 0)) * y3 (mv (ecef_matrix th) (mk3 a 0 0)) = a * a). { assert (X := sin2_cos2 th). unfold Rsqr in X. transitivity (a * a * (sin th * sin th + cos th * cos th)); [|rewrite X; ring]. unfold ecef_matrix. generalize (sin th) (cos th). intros s' c'. vunfoldg. cbn. rnumg. ring. } rewrite D. nra. }
  destruct PU as (p & -> & P1 & P2 & P3). destruct (meas_cov qs _ O1) as (g & -> & CG & _).
  unfold mission_input. cbn [kf_output g_filter kf_att kf_pos kf_gyro_dt kf_gps_dt cs_v v_rate]. unfold mission_commands. cbn [Z.eqb st_value Pos.eqb orb set_cmds g_filter]. unfold kf_propagate. cbn [kf_last kf_att kf_pos kf_gyro_dt kf_gps_dt g_filter]. rewrite O5.
  assert (IN : forall w, integrate fuel (fun a => Ok (af_propagate w dt a)) dt dur g = Some (Ok (gyro_steps dt (fun _ => w) N g))).
  { intros w. unfold integrate. rewrite (loop_runs _ _ _ N); [rewrite riter_steps; reflexivity| | |exact FU].
    - intros j Lj. apply cond_R. rewrite acc_R. assert (X := proj1 (FT (S j) ltac:(lia)) ltac:(lia)). rewrite fits_iff, S_INR in X. lra.
    - destruct (loop_cond dur (acc dt N dt)) eqn:E; [|reflexivity]. exfalso. apply cond_R in E. rewrite acc_R in E. assert (X := proj2 (FT (S N) ltac:(lia))). rewrite fits_iff, S_INR in X. specialize (X ltac:(lra)). lia. }
  rewrite IN. destruct fuel as [|fuel]; [lia|]. unfold integrate. cbn [int_loop].
  assert (C3 : loop_cond dur (kf_gps_dt (g_filter m)) = false). { destruct (loop_cond dur (kf_gps_dt (g_filter m))) eqn:E; [|reflexivity]. apply cond_R in E. lra. } rewrite C3. eexists. split; [reflexivity|]. unfold ok. cbn [g_filter kf_att kf_pos kf_gyro_dt kf_gps_dt]. split; [apply steps_cov; [lra|exact CG]|]. repeat split; assumption.
Qed.
Theorem C118_runs : forall dt dur a (c : AClock) m0 qs bs, 0 < dt -> 0 < dur -> wgs_a <= a -> kf_att (g_filter m0) = af_init qs -> symm6 (p_P (kf_pos (g_filter m0))) -> psd6 (p_P (kf_pos (g_filter m0))) -> p_x (kf_pos (g_filter m0)) = mk6 (mk3 a 0 0) zero3 ->
  kf_gyro_dt (g_filter m0) = dt -> dur + 0.001 <= kf_gps_dt (g_filter m0) -> exists i m, m O = m0 /\ calls false i m /\ (forall k, i_dur (i k) = dur) /\ (forall k, gyro (i k) = bs /\ i_att (i k) = qs).
Proof.
  intros dt dur a c m0 qs bs H HDu HA A0 P1 P2 P3 G1 G2. destruct (count_exists dt (dur + 0.001) H) as [N HN]. assert (FT : fit_exactly dt dur N) by (intros k L; rewrite fits_iff; apply HN, L). set (i := rest_long (S N) bs qs dur a c). set (st := fun m => mgr_propagate false (i_fuel i) (i_store i) (i_clock i) (i_meas i) (i_dur i) (i_id i) (i_bore i) (i_tgt i) (Some (i_pos i, i_vel i, i_att i)) m).
  set (nx := fun m => match st m with Some (Ok m') => m' | _ => m end). set (m := fun k => Nat.iter k nx m0). exists (fun _ => i), m. split; [reflexivity|]. split; [|split; [reflexivity|]; intros k; split; reflexivity].
  assert (OK := fun m => rest_long_step (S N) bs qs dt dur N a c m H HDu FT ltac:(lia) HA). cbv zeta in OK. fold i in OK.
  assert (INV : forall k, cov_ok (a_P (kf_att (g_filter (m k)))) /\ symm6 (p_P (kf_pos (g_filter (m k)))) /\ psd6 (p_P (kf_pos (g_filter (m k)))) /\ p_x (kf_pos (g_filter (m k))) = mk6 (mk3 a 0 0) zero3 /\ kf_gyro_dt (g_filter (m k)) = dt /\ dur + 0.001 <= kf_gps_dt (g_filter (m k))).
  { induction k as [|k IH]; [unfold m; cbn [Nat.iter nat_rect]; rewrite A0; split; [apply init_cov|]; repeat split; assumption|]. destruct (OK (m k) IH) as (m' & E & IM). change (m (S k)) with (nx (m k)). unfold nx, st. rewrite E. exact IM. }
  intros k. destruct (OK (m k) (INV k)) as (m' & E & _). cbv beta. rewrite E. change (m (S k)) with (nx (m k)). unfold nx, st. rewrite E. reflexivity.
Qed.
Print Assumptions C118_runs.
(** ** for no duration of the calls is a body at rest, watched by exact sensors, shown to be at rest in the end *)
Theorem C118_no_duration_refuted : forall dt dur a, 0 < dt -> 0 < dur -> wgs_a <= a -> exists model i m qs bs, calls model i m /\ (forall k, i_dur (i k) = dur) /\ kf_gyro_dt (g_filter (m O)) = dt /\ kf_att (g_filter (m O)) = af_init qs /\ (forall k, gyro (i k) = bs /\ i_att (i k) = qs) /\ bs <> zero3 /\
  exists k0, forall k, (k0 <= k)%nat -> norm3 bs / 4 <= norm3 (v_rate (cs_v (given (i k) (m k)))).
Proof.
  intros dt dur a H HDu HA. set (qs := mkq 1 0 0 0). assert (UQ : unitq qs) by (unfold unitq, qs; vunfoldg; cbn [qw qx qy qz]; rnumg; ring).
  set (f0 := mkKF (af_init qs) (mkPF (mk6 (mk3 a 0 0) zero3) (diag6 1 1) ex_st) None dt (dur + 1)). set (m0 := mkMgr f0 (g_mag ex_mgr) (g_whl ex_mgr) [] []).
  assert (RUN : forall bs, exists i m, m O = m0 /\ calls false i m /\ (forall k, i_dur (i k) = dur) /\ (forall k, gyro (i k) = bs /\ i_att (i k) = qs)). { intros bs. apply (C118_runs dt dur a (CClock day0) m0 qs bs H HDu HA); [reflexivity|apply diag6_symm|apply diag6_psd; lra|reflexivity|reflexivity|cbn; lra]. }
  assert (NB : forall e, 0 < e -> norm3 (mk3 e 0 0) = e). { intros e He. unfold norm3. rnumg. replace (dot3 (mk3 e 0 0) (mk3 e 0 0)) with (e * e) by (vunfoldg; cbn [x3 y3 z3]; rnumg; ring). apply sqrt_square. lra. }
  destruct (Rlt_dec dt (dur + 0.001)) as [L|L].
  - destruct (C118_rest dt dur H L) as (eps & K & rho & E0 & K0 & R0 & T). set (bs := mk3 eps 0 0). assert (NBe := NB eps E0). fold bs in NBe. destruct (RUN bs) as (i & m & M0 & C & ID & SN).
    assert (B := T false i m qs bs C ID ltac:(rewrite M0; reflexivity) ltac:(rewrite M0; reflexivity) UQ ltac:(lra) SN). exists false, i, m, qs, bs. split; [exact C|]. split; [exact ID|]. split; [rewrite M0; reflexivity|]. split; [rewrite M0; reflexivity|]. split; [exact SN|]. split; [intros Z; rewrite Z, nzero in NBe; lra|].
    destruct (pow_lt_1_zero rho) with (y := / (4 * K)) as (k0 & HK). { rewrite Rabs_pos_eq; lra. } { apply Rinv_0_lt_compat. lra. }
    exists k0. intros k Hk. assert (X := HK k Hk). rewrite Rabs_pos_eq in X by (apply pow_le; lra). assert (Y := B k). rewrite NBe in Y |- *. set (w := v_rate (cs_v (given (i k) (m k)))) in *. assert (Z : K * rho ^ k <= 1 / 4). { apply Rle_trans with (K * / (4 * K)); [apply Rmult_le_compat_l; lra|right; field; lra]. } assert (K * rho ^ k * eps <= 1 / 4 * eps) by (apply Rmult_le_compat_r; lra).
    assert (TR := nadd w (scale3 (-1) (sub3 w (scale3 (1 / 2) bs)))). replace (add3 w (scale3 (-1) (sub3 w (scale3 (1 / 2) bs)))) with (scale3 (1 / 2) bs) in TR by (generalize w bs; clear; vring). rewrite !nscale, NBe, (Rabs_pos_eq (1 / 2)), (Rabs_left (-1)) in TR by lra. lra.
  - set (bs := mk3 1 0 0). assert (NB1 := NB 1 ltac:(lra)). fold bs in NB1. destruct (RUN bs) as (i & m & M0 & C & ID & SN). exists false, i, m, qs, bs. split; [exact C|]. split; [exact ID|]. split; [rewrite M0; reflexivity|]. split; [rewrite M0; reflexivity|]. split; [exact SN|]. split; [intros Z; rewrite Z, nzero in NB1; lra|].
    exists O. intros k _. destruct (C118_short false i m qs dt C ltac:(rewrite M0; reflexivity) ltac:(intros j; rewrite ID; lra) ltac:(rewrite M0; reflexivity) k) as [_ ->]. rewrite (proj1 (SN k)), NB1. lra.
Qed.
Print Assumptions C118_no_duration_refuted.
(** the filter alone, twenty gyro steps a reading: the body at rest, the estimate turned about one axis, the bias along another, sensors exact *)
Example C118_ex : exists t f, 0 < t /\ f O = af_init (mkq 1 0 0 0) /\ rounds 0.05 20 (fun _ _ => mk3 0 t 0) (fun _ => mkq 1 0 0 0) f /\ forall e, 0 < e -> exists k0, forall k, (k0 <= k)%nat -> norm3 (sub3 (a_b (f k)) (mk3 0 t 0)) < e.
Proof.
  destruct (C118_filter_start 0.05 20) as (eps & K & rho & E0 & K0 & R0 & T); [lra|lia|]. set (t := eps). assert (NB : norm3 (mk3 0 t 0) = t). { unfold norm3. rnumg. replace (dot3 (mk3 0 t 0) (mk3 0 t 0)) with (t * t) by (vunfoldg; cbn [x3 y3 z3]; rnumg; ring). apply sqrt_square. unfold t. lra. }
  assert (ZQ : normq (subq (mkq 1 0 0 0) (mkq 1 0 0 0)) = 0). { unfold normq. rnumg. replace (dotq (subq (mkq 1 0 0 0) (mkq 1 0 0 0)) (subq (mkq 1 0 0 0) (mkq 1 0 0 0))) with 0 by (vunfoldg; cbn [qw qx qy qz]; rnumg; ring). apply sqrt_0. }
  assert (U1 : dotq (mkq 1 0 0 0) (mkq 1 0 0 0) = 1) by (vunfoldg; cbn [qw qx qy qz]; rnumg; ring).
  destruct (T (fun _ => mkq 1 0 0 0) (mk3 0 t 0) (mkq 1 0 0 0) 0 0 (fun _ _ => mk3 0 t 0) (fun _ => mkq 1 0 0 0)) as (f & F0 & RN & BD); [exact U1|exact U1|lra|lra|rewrite ZQ, NB; unfold t; lra| |].
  { intros j. exists (mk3 1 0 0), 0. split; [unfold unit3; vunfoldg; cbn [x3 y3 z3]; rnumg; ring|]. split; [rewrite Rabs_R0; lra|]. split; [unfold about, mkqv; replace (0 * (INR 20 * 0.05) / 2) with 0 by (unfold Rdiv; ring); rewrite cos_0, sin_0; clear; unfold product; vunfoldg; cbn [qw qx qy qz x3 y3 z3]; rnumg; f_equal; ring|]. split.
    - intros l _. replace (sub3 (mk3 0 t 0) (add3 (scale3 0 (mk3 1 0 0)) (mk3 0 t 0))) with (zero3 (T:=R)) by (vunfoldg; cbn [x3 y3 z3]; rnumg; f_equal; ring). rewrite nzero. lra.
    - rewrite ZQ. lra. }
  exists t, f. split; [exact E0|]. split; [exact F0|]. split; [exact RN|]. intros e HE. cbv zeta in BD. rewrite ZQ, NB in BD. assert (KE : 0 < K * t) by (apply Rmult_lt_0_compat; assumption).
  destruct (pow_lt_1_zero rho) with (y := e / (2 * (K * t))) as (k0 & HK). { rewrite Rabs_pos_eq; lra. } { apply Rdiv_lt_0_compat; lra. }
  exists k0. intros k Hk. assert (X := HK k Hk). rewrite Rabs_pos_eq in X by (apply pow_le; lra). destruct (BD k) as [_ B]. replace (K * (rho ^ k * (0 + t) + 0 + 0 ^ 2)) with (rho ^ k * (K * t)) in B by ring. assert (rho ^ k * (K * t) <= e / (2 * (K * t)) * (K * t)) by (apply Rmult_le_compat_r; lra). assert (QE : e / (2 * (K * t)) * (K * t) = e / 2) by (generalize dependent (K * t); intros; field; lra). lra.
Qed.
(** twenty gyro steps of 0.05 s fit in a call of one second, none in a call of 0.04 s *)
Example C118_fit : fit_exactly 0.05 (INR 20 * 0.05) 20 /\ fit_exactly 0.05 0.04 0.
Proof. split; [apply fit_multiple; lra|]. intros k L. rewrite fits_iff. split; [lia|]. intros F. exfalso. apply le_INR in L. simpl (INR 1) in L. lra. Qed.
