(** * C103: what the star-tracker filter makes of perfect measurements *)
From Coq Require Import Reals List Lra Lia Psatz.
From Coquelicot Require Import Coquelicot.
From Verif Require Import Num Vec Mat6 M_vector M_quaternion M_obs S_rot S_obs S_steady P_quat P_wheel P_dyn P_dyn2 P_obs P_obs3 P_steady Props_obs P_farr P_est1 P_est2 P_est3.
Local Open Scope R_scope.

(** one cycle after another: the gyro is read, the estimate propagated over dt, a star-tracker attitude taken *)
Definition cycles (dt : R) (gyro : nat -> v3) (tracker : nat -> quat) (f : nat -> AttF) : Prop :=
  forall k, af_measurement (tracker k) (af_propagate (gyro k) dt (f k)) = Ok (f (S k)).
Lemma cycles_exist dt gyro tracker f0 : 0 <= dt -> cov_ok (a_P f0) -> exists f, f O = f0 /\ cycles dt gyro tracker f.
Proof.
  intros H OK. set (g := fix g (k : nat) : AttF := match k with O => f0 | S k => match af_measurement (tracker k) (af_propagate (gyro k) dt (g k)) with Ok f => f | Raise _ => f0 end end).
  assert (ST : forall k, cov_ok (a_P (g k)) -> af_measurement (tracker k) (af_propagate (gyro k) dt (g k)) = Ok (g (S k)) /\ cov_ok (a_P (g (S k)))).
  { intros k CK. destruct (meas_cov (tracker k) _ (prop_cov (gyro k) dt (g k) H CK)) as (f' & E & CF & _). assert (G : g (S k) = f') by (cbn [g]; fold (g k); rewrite E; reflexivity). rewrite G. split; [exact E|exact CF]. }
  assert (C : forall k, cov_ok (a_P (g k))) by (induction k as [|k IH]; [exact OK|apply ST, IH]). exists g. split; [reflexivity|]. intros k. apply ST, C.
Qed.
(** the attitude turned by 2 h about n *)
Definition about (n : v3) (h : R) : quat := mkqv (cos h) (scale3 (sin h) n).
(** n is a principal axis of both covariance blocks *)
Definition axis_cov (n : v3) (P : M6) (lam mu nu : R) : Prop :=
  mv (b11 P) n = scale3 lam n /\ mv (b12 P) n = scale3 mu n /\ mv (b21 P) n = scale3 mu n /\ mv (b22 P) n = scale3 nu n.

(** along the axis the run is four numbers *)
Lemma nz_unit n : unit3 n -> n <> zero3.
Proof. intros U Z. unfold unit3 in U. rewrite Z in U. revert U. vunfoldg. cbn [x3 y3 z3]. rnumg. lra. Qed.
Lemma axis_run n dt ws cr sr f c0 s0 b0 lam mu nu : unit3 n -> cycles dt (fun _ => scale3 ws n) (fun k => pl n (cr k) (sr k)) f ->
  a_q (f O) = pl n c0 s0 -> a_b (f O) = scale3 b0 n -> a_dq (f O) = zero3 -> along n (a_P (f O)) lam mu nu ->
  exists c s bh : nat -> R, c O = c0 /\ s O = s0 /\ bh O = b0 /\ (forall k, a_q (f k) = pl n (c k) (s k) /\ a_b (f k) = scale3 (bh k) n) /\
  forall k, let x := (ws - bh k) * dt / 2 in let c1 := cos x * c k - sin x * s k in let s1 := sin x * c k + s k in let y := c1 * sr k - s1 * cr k in let kk := kk1 dt lam mu nu k * y / 2 in
    bh (S k) = bh k + kk2 dt lam mu nu k * y /\
    let d := (c1 - s1 * kk) * (c1 - s1 * kk) + (s1 + c1 * kk) * (s1 + c1 * kk) in
    (0 < d -> c (S k) = / sqrt d * (c1 - s1 * kk) /\ s (S k) = / sqrt d * (s1 + c1 * kk)) /\ c (S k) * c (S k) + s (S k) * s (S k) <= 1.
Proof.
  intros U RUN Q0 B0 D0 A0. assert (NZ := nz_unit n U).
  assert (DN : forall a, dot3 n (scale3 a n) = a) by (intros a; transitivity (a * dot3 n n); [vring|unfold unit3 in U; rewrite U; ring]).
  set (c := fun k => qw (a_q (f k))). set (s := fun k => dot3 n (vec (a_q (f k)))). set (bh := fun k => dot3 n (a_b (f k))).
  assert (PQ : forall k a b, a_q (f k) = pl n a b -> c k = a /\ s k = b). { intros k a b E. unfold c, s. rewrite E, pl_vec, DN. split; [|reflexivity]. unfold pl, mkqv. reflexivity. }
  assert (PB : forall k b, a_b (f k) = scale3 b n -> bh k = b). { intros k b E. unfold bh. rewrite E. apply DN. }
  assert (INV : forall k, (exists a b, a_q (f k) = pl n a b) /\ (exists b, a_b (f k) = scale3 b n) /\ a_dq (f k) = zero3 /\ let '(p, q, r) := covs dt lam mu nu k in along n (a_P (f k)) p q r).
  { induction k as [|k ((a & b & EQ) & (b1 & EB) & ED & EA)]; [split; [exists c0, s0; exact Q0|]; split; [exists b0; exact B0|]; split; [exact D0|exact A0]|]. cbn [covs]. destruct (covs dt lam mu nu k) as [[p q] r]. cbn [nx].
    destruct (plane_cycle n (f k) (f (S k)) a b b1 ws dt p q r (cr k) (sr k) U EQ EB ED EA (RUN k)) as (E1 & E2 & E3). split; [|split; [|split; [exact E3|]]].
    - rewrite E1. set (a1 := cos ((ws - b1) * dt / 2) * a - sin ((ws - b1) * dt / 2) * b). set (b2 := sin ((ws - b1) * dt / 2) * a + b). set (kk := gain1 dt p q r * (a1 * sr k - b2 * cr k) / 2). destruct (Req_dec (normq (pl n (a1 - b2 * kk) (b2 + a1 * kk))) 0) as [Z|Z]; [apply normq_zero in Z; rewrite Z, normalizeq_zero; exists 0, 0; unfold pl; rewrite <- zero_scale; reflexivity|]. rewrite normalizeq_nz by (intros E; apply Z, normq_zero, E). rewrite pl_scale. eexists _, _. reflexivity.
    - eexists. exact E2.
    - assert (W : sub3 (scale3 ws n) (a_b (f k)) = scale3 (ws - b1) n) by (rewrite EB; apply sub_scale). exact (along_cycle _ dt _ (f k) (f (S k)) n _ p q r NZ W EA (RUN k)). }
  assert (VAL : forall k, a_q (f k) = pl n (c k) (s k) /\ a_b (f k) = scale3 (bh k) n).
  { intros k. destruct (INV k) as ((a & b & EQ) & (b1 & EB) & _). destruct (PQ k a b EQ) as [-> ->]. rewrite (PB k b1 EB). split; assumption. }
  exists c, s, bh. destruct (PQ O c0 s0 Q0) as [-> ->]. rewrite (PB O b0 B0). split; [reflexivity|]. split; [reflexivity|]. split; [reflexivity|]. split; [exact VAL|]. intros k.
  destruct (INV k) as (_ & _ & ED & EA). destruct (VAL k) as [EQ EB]. intros x c1 s1 y kk. unfold kk, kk1, kk2. destruct (covs dt lam mu nu k) as [[p q] r] eqn:EC.
  destruct (plane_cycle n (f k) (f (S k)) (c k) (s k) (bh k) ws dt p q r (cr k) (sr k) U EQ EB ED EA (RUN k)) as (E1 & E2 & E3). fold x in E1, E2. fold c1 s1 in E1, E2. fold y in E1, E2. set (kk' := gain1 dt p q r * y / 2) in *.
  split; [apply PB; exact E2|]. cbv zeta. set (d := (c1 - s1 * kk') * (c1 - s1 * kk') + (s1 + c1 * kk') * (s1 + c1 * kk')).
  destruct (Rle_lt_dec d 0) as [DZ|DP].
  - split; [lra|]. assert (D1 : c1 - s1 * kk' = 0 /\ s1 + c1 * kk' = 0). { assert (X := sq0 (c1 - s1 * kk')). assert (Y := sq0 (s1 + c1 * kk')). unfold d in DZ. split; apply Rsqr_0_uniq; unfold Rsqr; lra. } destruct D1 as [D1 D2]. rewrite D1, D2 in E1. assert (ZQ : pl n 0 0 = zeroq) by (unfold pl; rewrite <- zero_scale; reflexivity). rewrite ZQ, normalizeq_zero, <- ZQ in E1. destruct (PQ (S k) 0 0 E1) as [-> ->]. lra.
  - assert (NQ := pl_normq n (c1 - s1 * kk') (s1 + c1 * kk') U). fold d in NQ. assert (SD := sqrt_lt_R0 d DP). assert (NZQ : pl n (c1 - s1 * kk') (s1 + c1 * kk') <> zeroq). { intros Z. rewrite Z in NQ. assert (ZZ : normq (T:=R) zeroq = 0) by (apply normq_zero; reflexivity). rewrite ZZ in NQ. lra. }
    rewrite (normalizeq_nz _ NZQ), NQ, pl_scale in E1. destruct (PQ (S k) _ _ E1) as [X Y]. split; [intros _; split; [exact X|exact Y]|]. rewrite X, Y. right. transitivity (/ sqrt d * / sqrt d * d); [unfold d; ring|]. rewrite <- (sqrt_def d) at 3 by lra. field. lra.
Qed.
(** the body does not turn: the gyro shows its bias b n and nothing else, the star tracker shows the attitude q *)
Theorem C103_rest : forall dt lam mu nu, 0 < dt -> (forall x y, 0 <= lam * (x * x) + 2 * mu * (x * y) + nu * (y * y)) -> exists eps K rho, 0 < eps /\ 0 < K /\ 0 < rho < 1 /\
  forall n h b h0 b0 f, unit3 n -> axis_cov n (a_P (f O)) lam mu nu -> a_q (f O) = about n h0 -> a_b (f O) = scale3 b0 n -> a_dq (f O) = zero3 ->
  cycles dt (fun _ => scale3 b n) (fun _ => about n h) f ->
  let err k := normq (subq (a_q (f k)) (about n h)) + norm3 (sub3 (a_b (f k)) (scale3 b n)) in
  err O <= eps -> forall k, err k <= K * rho ^ k * err O.
Proof.
  intros dt lam mu nu H PS0. assert (PS : psd lam mu nu) by (intros x y; unfold fm; assert (X := PS0 x y); lra). destruct (gains_conv dt lam mu nu H PS) as (M & r0 & M0 & R0 & GC). destruct (gains_inf dt H) as (I1 & I2 & I3).
  set (a := 1 - k1_inf dt / 2). set (g := - k2_inf dt * dt / 2) in *. set (B2 := Rabs (k2_inf dt) + M). assert (B20 : 0 <= B2) by (assert (X := Rabs_pos (k2_inf dt)); unfold B2; lra). assert (MH : 0 <= M * dt) by (apply Rmult_le_pos; lra). assert (BH : 0 <= B2 * dt) by (apply Rmult_le_pos; lra).
  destruct (local_conv a g (5 + B2 * dt) (M / 2 + M * dt / 2) r0) as (E0 & K & rho & E0p & K0 & R1 & LC); [unfold a; lra|unfold a; lra|lra|lra|exact R0|].
  assert (ID : 0 < / dt) by (apply Rinv_0_lt_compat, H). exists (Rmin 1 (E0 / (1 + dt))), ((2 + 2 / dt) * K * (1 + dt)), rho. split; [apply Rmin_glb_lt; [lra|apply Rdiv_lt_0_compat; lra]|]. split; [apply Rmult_lt_0_compat; [apply Rmult_lt_0_compat; [unfold Rdiv; lra|exact K0]|lra]|]. split; [exact R1|].
  intros n h b h0 b0 f U A Q B D RUN err ERR. destruct (axis_run n dt b (fun _ => cos h) (fun _ => sin h) f (cos h0) (sin h0) b0 lam mu nu U RUN Q B D A) as (c & s & bh & C0 & S0 & BH0 & VAL & REC).
  set (m := fun k => c k * cos h + s k * sin h). set (u := fun k => c k * sin h - s k * cos h). set (x := fun k => (b - bh k) * dt / 2). assert (UR : cos h * cos h + sin h * sin h = 1) by (assert (X := sin2_cos2 h); unfold Rsqr in X; lra).
  assert (EE : forall k, err k = sqrt ((c k - cos h) * (c k - cos h) + (s k - sin h) * (s k - sin h)) + Rabs (bh k - b)). { intros k. unfold err. destruct (VAL k) as [-> ->]. fold (pl n (cos h) (sin h)). unfold about. change (mkqv (cos h) (scale3 (sin h) n)) with (pl n (cos h) (sin h)). rewrite pl_sub, pl_normq, sub_scale, norm3_axis by exact U. reflexivity. }
  assert (EX : forall k, Rabs (x k) = Rabs (bh k - b) * (dt / 2)). { intros k. unfold x. replace ((b - bh k) * dt / 2) with (- ((bh k - b) * (dt / 2))) by field. rewrite Rabs_Ropp, Rabs_mult, (Rabs_pos_eq (dt / 2)) by lra. reflexivity. }
  assert (EQ2 : forall k, c k * c k + s k * s k = 1 -> (c k - cos h) * (c k - cos h) + (s k - sin h) * (s k - sin h) = 2 * (1 - m k) /\ m k * m k + u k * u k = 1).
  { intros k UC. split; [|unfold m, u; transitivity ((c k * c k + s k * s k) * (cos h * cos h + sin h * sin h)); [ring|rewrite UC, UR; ring]]. transitivity ((c k * c k + s k * s k) + (cos h * cos h + sin h * sin h) - 2 * m k); [unfold m; ring|rewrite UC, UR; ring]. }
  assert (UC0 : c O * c O + s O * s O = 1) by (rewrite C0, S0; assert (X := sin2_cos2 h0); unfold Rsqr in X; lra).
  set (q0 := sqrt ((c O - cos h) * (c O - cos h) + (s O - sin h) * (s O - sin h))). assert (ER0 := EE O). fold q0 in ER0. assert (Q0p : 0 <= q0) by apply sqrt_pos. assert (AB0 := Rabs_pos (bh O - b)). destruct (EQ2 O UC0) as [Q2 MU0].
  assert (QQ : q0 * q0 = 2 * (1 - m O)). { unfold q0. rewrite sqrt_def; [exact Q2|]. assert (X := sq0 (c O - cos h)). assert (Y := sq0 (s O - sin h)). lra. }
  assert (ERR1 : err O <= 1) by (eapply Rle_trans; [exact ERR|apply Rmin_l]). assert (ERR2 : err O <= E0 / (1 + dt)) by (eapply Rle_trans; [exact ERR|apply Rmin_r]).
  assert (MO : 0 <= m O <= 1). { assert (q0 * q0 <= 1 * 1) by (apply Rmult_le_compat; lra). assert (X := sq0 q0). lra. }
  assert (UQ : Rabs (u O) <= q0). { apply Rsqr_incr_0_var; [|exact Q0p]. rewrite <- Rsqr_abs. unfold Rsqr. rewrite QQ. assert (0 <= (1 - m O) * (1 - m O)) by apply sq0. lra. }
  assert (INI : Rabs (u O) + Rabs (x O) <= (1 + dt) * err O). { rewrite EX, ER0. assert (0 <= dt * q0) by (apply Rmult_le_pos; lra). assert (0 <= Rabs (bh O - b) * dt) by (apply Rmult_le_pos; lra). lra. }
  assert (I0 : Rabs (u O) + Rabs (x O) <= E0). { eapply Rle_trans; [exact INI|]. replace E0 with ((1 + dt) * (E0 / (1 + dt))) by (field; lra). apply Rmult_le_compat_l; lra. }
  assert (ST : forall k, (c k * c k + s k * s k = 1 /\ 0 <= m k) -> Rabs (u k) + Rabs (x k) <= 1 / 4 -> (c (S k) * c (S k) + s (S k) * s (S k) = 1 /\ 0 <= m (S k)) /\
    Rabs (u (S k) - a * (u k - x k)) + Rabs (x (S k) - (x k + g * (u k - x k))) <= ((M / 2 + M * dt / 2) * r0 ^ k + (5 + B2 * dt) * (Rabs (u k) + Rabs (x k))) * (Rabs (u k) + Rabs (x k))).
  { intros k [UC MK] SK. destruct (REC k) as (RB & RQ & _). cbv zeta in RB, RQ. fold (x k) in RB, RQ. destruct (GC k) as (G1 & G2 & G3).
    destruct (step_full (c k) (s k) (cos h) (sin h) (x k) (kk1 dt lam mu nu k) UC UR ltac:(lra) MK SK) as (DP & UN & MN & EU & EY). destruct (RQ DP) as [RC RS]. rewrite <- RC, <- RS in UN, MN, EU. clear RQ RC RS DP.
    set (y := (cos (x k) * c k - sin (x k) * s k) * sin h - (sin (x k) * c k + s k) * cos h) in *. fold (u k) in EU, EY. fold (u (S k)) in EU. fold (m (S k)) in MN. split; [split; [exact UN|exact MN]|].
    set (SS := Rabs (u k) + Rabs (x k)) in *. set (P := r0 ^ k) in *. assert (P0 : 0 <= P) by (apply pow_le; lra). assert (P1 : P <= 1) by (unfold P; rewrite <- (pow1 k); apply pow_incr; lra). assert (MP : M * P <= M * 1) by (apply Rmult_le_compat_l; lra).
    assert (S0' : 0 <= SS) by (assert (X := Rabs_pos (u k)); assert (Y := Rabs_pos (x k)); unfold SS; lra). assert (UX : Rabs (u k - x k) <= SS) by (unfold SS; eapply Rle_trans; [apply Rabs_triang|rewrite Rabs_Ropp; lra]).
    assert (F1 : Rabs (u (S k) - a * (u k - x k)) <= 5 * (SS * SS) + M * P / 2 * SS).
    { replace (u (S k) - a * (u k - x k)) with ((u (S k) - (1 - kk1 dt lam mu nu k / 2) * (u k - x k)) + - ((kk1 dt lam mu nu k - k1_inf dt) * / 2 * (u k - x k))) by (unfold a; field). eapply Rle_trans; [apply Rabs_triang|]. apply Rplus_le_compat; [exact EU|]. rewrite Rabs_Ropp, !Rabs_mult, (Rabs_pos_eq (/ 2)) by lra. apply Rmult_le_compat; try apply Rabs_pos; [apply Rmult_le_pos; [apply Rabs_pos|lra]|lra|exact UX]. }
    assert (KB : Rabs (kk2 dt lam mu nu k) <= B2). { replace (kk2 dt lam mu nu k) with (k2_inf dt + (kk2 dt lam mu nu k - k2_inf dt)) by ring. eapply Rle_trans; [apply Rabs_triang|]. unfold B2. lra. }
    assert (F2 : Rabs (x (S k) - (x k + g * (u k - x k))) <= B2 * (dt / 2) * (2 * (SS * SS)) + M * P * (dt / 2) * SS).
    { replace (x (S k) - (x k + g * (u k - x k))) with (- (kk2 dt lam mu nu k * (dt / 2) * (y - (u k - x k))) + - ((kk2 dt lam mu nu k - k2_inf dt) * (dt / 2) * (u k - x k))) by (replace (x (S k)) with (x k - kk2 dt lam mu nu k * y * dt / 2) by (unfold x; rewrite RB; fold y; field); unfold g; field).
      eapply Rle_trans; [apply Rabs_triang|]. rewrite !Rabs_Ropp, !Rabs_mult, !(Rabs_pos_eq (dt / 2)) by lra. apply Rplus_le_compat; (apply Rmult_le_compat; try apply Rabs_pos; [apply Rmult_le_pos; [apply Rabs_pos|lra]| |]); try assumption; apply Rmult_le_compat_r; lra. }
    replace (((M / 2 + M * dt / 2) * P + (5 + B2 * dt) * SS) * SS) with (5 * (SS * SS) + M * P / 2 * SS + (B2 * (dt / 2) * (2 * (SS * SS)) + M * P * (dt / 2) * SS)) by field. lra. }
  intros k. destruct (LC (fun k => c k * c k + s k * s k = 1 /\ 0 <= m k) u x I0 (conj UC0 (proj1 MO)) ST k) as ((UC & MK) & _ & BND). destruct (EQ2 k UC) as [Q2k MUk].
  assert (M1 : m k <= 1) by (assert (X := sq0 (u k)); nra). assert (QK : sqrt ((c k - cos h) * (c k - cos h) + (s k - sin h) * (s k - sin h)) <= 2 * Rabs (u k)).
  { rewrite Q2k. assert (AU := Rabs_pos (u k)). rewrite <- (sqrt_square (2 * Rabs (u k))) by lra. apply sqrt_le_1_alt. replace (2 * Rabs (u k) * (2 * Rabs (u k))) with (4 * (Rabs (u k) * Rabs (u k))) by ring. rewrite <- Rabs_mult, (Rabs_pos_eq (u k * u k)) by apply sq0. assert (0 <= m k * (1 - m k)) by (apply Rmult_le_pos; lra). lra. }
  assert (BK : Rabs (bh k - b) = 2 / dt * Rabs (x k)) by (rewrite EX; field; lra). rewrite EE, BK.
  assert (AU := Rabs_pos (u k)). assert (AX := Rabs_pos (x k)). assert (DX : 0 <= 2 / dt * Rabs (u k)) by (apply Rmult_le_pos; [unfold Rdiv; lra|exact AU]).
  eapply Rle_trans with ((2 + 2 / dt) * (Rabs (u k) + Rabs (x k))); [lra|]. assert (RK : 0 <= rho ^ k) by (apply pow_le; lra).
  eapply Rle_trans; [apply Rmult_le_compat_l; [unfold Rdiv; lra|]; eapply Rle_trans; [exact BND|apply Rmult_le_compat_l; [apply Rmult_le_pos; lra|exact INI]]|]. right. field. lra.
Qed.
Print Assumptions C103_rest.
(** the filter's own starting covariance has every axis, so from its start state the same holds about every axis, with one bound for all *)
Theorem C103_from_start : forall dt, 0 < dt -> exists eps K rho, 0 < eps /\ 0 < K /\ 0 < rho < 1 /\
  forall n h b h0, unit3 n -> let e0 := normq (subq (about n h0) (about n h)) + Rabs b in e0 <= eps ->
  exists f, f O = af_init (about n h0) /\ cycles dt (fun _ => scale3 b n) (fun _ => about n h) f /\
  forall k, normq (subq (a_q (f k)) (about n h)) <= K * rho ^ k * e0 /\ norm3 (sub3 (a_b (f k)) (scale3 b n)) <= K * rho ^ k * e0.
Proof.
  intros dt H. destruct (C103_rest dt (SENSOR_SIGMA ^ 2) 0 (INITIAL_BIAS ^ 2) H) as (eps & K & rho & E0 & K0 & R0 & T).
  { intros x y. assert (0 <= SENSOR_SIGMA ^ 2 * (x * x)) by (apply Rmult_le_pos; [left; apply R_pos|apply sq0]). assert (0 <= INITIAL_BIAS ^ 2 * (y * y)) by (apply Rmult_le_pos; [apply pow2_ge_0|apply sq0]). lra. }
  exists eps, K, rho. split; [exact E0|]. split; [exact K0|]. split; [exact R0|]. intros n h b h0 U e0 HE. destruct (cycles_exist dt (fun _ => scale3 b n) (fun _ => about n h) (af_init (about n h0))) as (f & F0 & RUN); [lra|apply init_cov|].
  exists f. split; [exact F0|]. split; [exact RUN|]. assert (B : forall k, mv (scalem k id3) n = scale3 k n) by (intros; rewrite mv_scalem, mv_id3; reflexivity).
  assert (AC : axis_cov n (a_P (f O)) (SENSOR_SIGMA ^ 2) 0 (INITIAL_BIAS ^ 2)). { rewrite F0. split; [apply B|]. split; [cbn; rewrite mv_zerom; apply zero_scale|]. split; [cbn; rewrite mv_zerom; apply zero_scale|apply B]. }
  assert (X := T n h b h0 0 f U AC). cbv zeta beta in X. rewrite F0 in X. assert (EB : norm3 (sub3 (a_b (af_init (about n h0))) (scale3 b n)) = Rabs b). { cbn [af_init a_b]. rewrite <- (norm3_axis b n U). unfold norm3. f_equal. vunfoldg. cbn [x3 y3 z3]. rnumg. ring. }
  rewrite EB in X. cbn [af_init a_q] in X. specialize (X eq_refl ltac:(cbn [af_init a_b]; apply zero_scale) eq_refl RUN HE). intros k. assert (Y := X k). cbv beta in Y. fold e0 in Y. assert (N1 := norm3_pos (sub3 (a_b (f k)) (scale3 b n))). assert (N2 : 0 <= normq (subq (a_q (f k)) (about n h))) by apply sqrt_pos. lra.
Qed.
Print Assumptions C103_from_start.

(** a body that turns steadily about the axis is not followed: the estimates of attitude and bias do not both tend to the truth.  Attitudes are
    compared up to sign. *)
Lemma lim_shift (u : nat -> R) l : is_lim_seq u l -> is_lim_seq (fun k => u (S k)) l. Proof. apply is_lim_seq_incr_1. Qed.
Lemma sin_osc h x : sin x <> 0 -> ~ is_lim_seq (fun k => sin (h + INR k * (2 * x))) (sin x).
Proof.
  intros NX L. set (a := fun k => sin (h + INR k * (2 * x))) in *. assert (L1 := lim_shift _ _ L). assert (L2 := lim_shift _ _ L1). cbv beta in L1, L2.
  assert (R : forall k, a (S (S k)) + a k = a (S k) * (2 * cos (2 * x))).
  { intros k. unfold a. rewrite !S_INR. set (t := h + (INR k + 1) * (2 * x)). replace (h + (INR k + 1 + 1) * (2 * x)) with (t + 2 * x) by (unfold t; ring). replace (h + INR k * (2 * x)) with (t - 2 * x) by (unfold t; ring). rewrite sin_plus, sin_minus. ring. }
  assert (E : is_lim_seq (fun k => a (S (S k)) + a k) (sin x + sin x)) by (apply (is_lim_seq_plus' _ _ _ _ L2 L)).
  assert (E' : is_lim_seq (fun k => a (S (S k)) + a k) (sin x * (2 * cos (2 * x)))). { apply (is_lim_seq_ext (fun k => a (S k) * (2 * cos (2 * x)))); [intros; symmetry; apply R|]. apply (is_lim_seq_mult' _ _ _ _ L1 (is_lim_seq_const _)). }
  assert (Q := is_lim_seq_unique _ _ E). rewrite (is_lim_seq_unique _ _ E') in Q. injection Q as Q. assert (C : cos (2 * x) = 1). { apply (Rmult_eq_reg_l (2 * sin x)); lra. } rewrite cos_2a_sin in C. assert (sin x * sin x = 0) by lra. apply NX. apply Rsqr_0_uniq. exact H.
Qed.
Lemma lim_0_bound (u v : nat -> R) : (forall k, Rabs (u k) <= v k) -> is_lim_seq v 0 -> is_lim_seq u 0.
Proof.
  intros B L. apply is_lim_seq_abs_0. apply (is_lim_seq_le_le (fun _ => 0) _ v); [intros k; split; [apply Rabs_pos|apply B]|apply is_lim_seq_const|exact L].
Qed.
Theorem C103_turning_refuted : forall dt n h w b h0 b0 f lam mu nu, 0 < dt -> unit3 n -> sin (w * dt / 2) <> 0 ->
  axis_cov n (a_P (f O)) lam mu nu -> cov_ok (a_P (f O)) -> a_q (f O) = about n h0 -> a_b (f O) = scale3 b0 n -> a_dq (f O) = zero3 ->
  let truth k := about n (h + INR k * (w * dt / 2)) in
  cycles dt (fun _ => scale3 (w + b) n) (fun k => truth (S k)) f ->
  ~ (Un_cv (fun k => dotq (a_q (f k)) (truth k) ^ 2) 1 /\ Un_cv (fun k => norm3 (sub3 (a_b (f k)) (scale3 b n))) 0).
Proof.
  intros dt n h w b h0 b0 f lam mu nu H U NX A OK Q B D truth RUN [CV1 CV2]. apply is_lim_seq_Reals in CV1. apply is_lim_seq_Reals in CV2. assert (PS := along_psd n (a_P (f O)) lam mu nu U OK A).
  set (x := w * dt / 2) in *. set (al := fun k => h + INR k * x). set (cr := fun k => cos (al k)). set (sr := fun k => sin (al k)).
  destruct (axis_run n dt (w + b) (fun k => cr (S k)) (fun k => sr (S k)) f (cos h0) (sin h0) b0 lam mu nu U RUN Q B D A) as (c & s & bh & C0 & S0 & BH0 & VAL & REC).
  destruct (gains_conv dt lam mu nu H PS) as (M & r0 & M0 & R0 & GC). destruct (gains_inf dt H) as (_ & I2 & _).
  assert (UR : forall k, cr k * cr k + sr k * sr k = 1) by (intros k; unfold cr, sr; assert (X := sin2_cos2 (al k)); unfold Rsqr in X; lra).
  set (m := fun k => c k * cr k + s k * sr k). set (u := fun k => c k * sr k - s k * cr k).
  assert (LM : is_lim_seq (fun k => m k * m k) 1). { apply (is_lim_seq_ext (fun k => dotq (a_q (f k)) (truth k) ^ 2)); [|exact CV1]. intros k. destruct (VAL k) as [-> _]. unfold truth. change (about n (h + INR k * x)) with (pl n (cr k) (sr k)). rewrite pl_dot by exact U. fold (m k). ring. }
  assert (LB : is_lim_seq (fun k => bh k - b) 0). { apply is_lim_seq_abs_0. apply (is_lim_seq_ext (fun k => norm3 (sub3 (a_b (f k)) (scale3 b n)))); [|exact CV2]. intros k. destruct (VAL k) as [_ ->]. rewrite sub_scale, norm3_axis by exact U. reflexivity. }
  assert (CS : forall k, c k * c k + s k * s k <= 1). { intros [|k]; [rewrite C0, S0; assert (X := sin2_cos2 h0); unfold Rsqr in X; lra|]. destruct (REC k) as (_ & _ & X). exact X. }
  assert (UB : forall k, u k * u k <= 1 - m k * m k). { intros k. assert (m k * m k + u k * u k = c k * c k + s k * s k); [|assert (X := CS k); lra]. unfold m, u. transitivity ((c k * c k + s k * s k) * (cr k * cr k + sr k * sr k)); [ring|rewrite UR; ring]. }
  assert (LU2 : is_lim_seq (fun k => u k * u k) 0). { apply (lim_0_bound _ (fun k => 1 - m k * m k)); [intros k; rewrite Rabs_pos_eq by apply sq0; apply UB|]. replace 0 with (1 - 1) by ring. apply (is_lim_seq_minus' _ _ _ _ (is_lim_seq_const 1) LM). }
  assert (LU : is_lim_seq u 0). { apply is_lim_seq_abs_0. apply (is_lim_seq_ext (fun k => sqrt (u k * u k))); [intros k; apply sqrt_Rsqr_abs|]. rewrite <- sqrt_0. apply is_lim_seq_continuous; [apply continuity_pt_sqrt; lra|exact LU2]. }
  assert (LX : is_lim_seq (fun k => (w + b - bh k) * dt / 2) x). { apply (is_lim_seq_ext (fun k => x - (bh k - b) * (dt / 2))); [intros k; unfold x; field|]. replace (Finite x) with (Finite (x - 0 * (dt / 2))) by (f_equal; ring). apply (is_lim_seq_minus' _ _ _ _ (is_lim_seq_const x)). apply (is_lim_seq_mult' _ _ _ _ LB (is_lim_seq_const _)). }
  set (xx := fun k => (w + b - bh k) * dt / 2) in *.
  assert (LC : is_lim_seq (fun k => cos (xx k)) (cos x)) by (apply is_lim_seq_continuous; [apply continuity_cos|exact LX]). assert (LS : is_lim_seq (fun k => sin (xx k)) (sin x)) by (apply is_lim_seq_continuous; [apply continuity_sin|exact LX]).
  set (y := fun k => (cos (xx k) * c k - sin (xx k) * s k) * sr (S k) - (sin (xx k) * c k + s k) * cr (S k)).
  assert (LK : is_lim_seq (kk2 dt lam mu nu) (k2_inf dt)). { assert (LR : is_lim_seq (fun k => M * r0 ^ k) 0) by (replace (Finite 0) with (Finite (M * 0)) by (f_equal; ring); apply (is_lim_seq_mult' _ _ _ _ (is_lim_seq_const M)); apply is_lim_seq_geom; rewrite Rabs_pos_eq; lra). assert (L := lim_0_bound (fun k => kk2 dt lam mu nu k - k2_inf dt) _ (fun k => proj2 (proj2 (GC k))) LR). apply (is_lim_seq_ext (fun k => (kk2 dt lam mu nu k - k2_inf dt) + k2_inf dt)); [intros; ring|]. replace (Finite (k2_inf dt)) with (Finite (0 + k2_inf dt)) by (f_equal; ring). apply (is_lim_seq_plus' _ _ _ _ L (is_lim_seq_const _)). }
  assert (LKY : is_lim_seq (fun k => kk2 dt lam mu nu k * y k) 0). { apply (is_lim_seq_ext (fun k => (bh (S k) - b) - (bh k - b))); [intros k; destruct (REC k) as (E & _); cbv zeta in E; fold (xx k) in E; fold (y k) in E; rewrite E; ring|]. replace (Finite 0) with (Finite (0 - 0)) by (f_equal; ring). apply (is_lim_seq_minus' _ _ _ _ (lim_shift _ _ LB) LB). }
  assert (LY : is_lim_seq y 0).
  { assert (L := is_lim_seq_div' _ _ _ _ LKY LK ltac:(lra)). replace (0 / k2_inf dt) with 0 in L by (field; lra). apply (is_lim_seq_ext_loc (fun k => kk2 dt lam mu nu k * y k / kk2 dt lam mu nu k)); [|exact L].
    assert (EV : eventually (fun k => kk2 dt lam mu nu k < 0)). { apply is_lim_seq_spec in LK. assert (PO : 0 < - k2_inf dt) by lra. destruct (LK (mkposreal _ PO)) as [N HN]. exists N. intros k Hk. assert (X := HN k Hk). cbn [pos] in X. apply Rabs_def2 in X. lra. }
    destruct EV as [N HN]. exists N. intros k Hk. assert (X := HN k Hk). field. lra. }
  (** y is nearly m times the miss of a perfect estimate *)
  assert (BD : forall k, Rabs (m k) <= 1 /\ Rabs (u k) <= 1 /\ Rabs (cr k) <= 1 /\ Rabs (sr k) <= 1). { intros k. assert (X1 := UB k). assert (X2 := sq0 (u k)). assert (X3 := sq0 (m k)). assert (X4 := UR k). assert (X5 := sq0 (cr k)). assert (X6 := sq0 (sr k)). split; [|split; [|split]]; apply Rabs_le; split; nra. }
  set (ys := fun k => - (1 - cos x) * (sr k * cr (S k))).
  assert (TRI : forall k, cr (S k) = cr k * cos x - sr k * sin x /\ sr (S k) = sr k * cos x + cr k * sin x). { intros k. unfold cr, sr, al. rewrite S_INR. replace (h + (INR k + 1) * x) with ((h + INR k * x) + x) by ring. split; [apply cos_plus|apply sin_plus]. }
  assert (DEC : forall k, m k * ys k = y k - u k * ((cos x * sr k + sin x * cr k) * sr (S k) - (sin x * sr k - cr k) * cr (S k)) - (cos (xx k) - cos x) * (c k * sr (S k)) + (sin (xx k) - sin x) * (s k * sr (S k) + c k * cr (S k))).
  { intros k. assert (EC : c k = m k * cr k + u k * sr k) by (unfold m, u; transitivity (c k * (cr k * cr k + sr k * sr k)); [rewrite UR; ring|ring]). assert (ES : s k = m k * sr k - u k * cr k) by (unfold m, u; transitivity (s k * (cr k * cr k + sr k * sr k)); [rewrite UR; ring|ring]).
    assert (EY : y k = (cos x * c k - sin x * s k) * sr (S k) - (sin x * c k + s k) * cr (S k) + (cos (xx k) - cos x) * (c k * sr (S k)) - (sin (xx k) - sin x) * (s k * sr (S k) + c k * cr (S k))) by (unfold y; ring).
    assert (YS : ys k = (cos x * cr k - sin x * sr k) * sr (S k) - (sin x * cr k + sr k) * cr (S k)). { destruct (TRI k) as [T1 T2]. assert (UK := UR k). assert (Z1 : sr (S k) * cr k - cr (S k) * sr k = sin x) by (rewrite T1, T2; transitivity (sin x * (cr k * cr k + sr k * sr k)); [ring|rewrite UK; ring]).
      assert (Z2 : sr k * sr (S k) + cr k * cr (S k) = cos x) by (rewrite T1, T2; transitivity (cos x * (cr k * cr k + sr k * sr k)); [ring|rewrite UK; ring]). unfold ys. transitivity (cos x * (sr (S k) * cr k - cr (S k) * sr k) + (cos x - 1) * (sr k * cr (S k)) - sin x * (sr k * sr (S k) + cr k * cr (S k))); [rewrite Z1, Z2; ring|ring]. }
    rewrite EY, YS, EC, ES. ring. }
  assert (NUL : forall (v z : nat -> R) (B : R), is_lim_seq v 0 -> (forall k, Rabs (z k) <= B) -> is_lim_seq (fun k => v k * z k) 0).
  { intros v z B1 L HB. apply (lim_0_bound _ (fun k => B1 * Rabs (v k))); [intros k; rewrite Rabs_mult, Rmult_comm; apply Rmult_le_compat_r; [apply Rabs_pos|apply HB]|]. replace (Finite 0) with (Finite (B1 * 0)) by (f_equal; ring). apply (is_lim_seq_mult' _ _ _ _ (is_lim_seq_const B1)). apply (proj1 (is_lim_seq_abs_0 v)). exact L. }
  assert (LE1 : forall v l, is_lim_seq v (Finite l) -> is_lim_seq (fun k => v k - l) 0). { intros v l L. replace (Finite 0) with (Finite (l - l)) by (f_equal; ring). apply (is_lim_seq_minus' _ _ _ _ L (is_lim_seq_const l)). }
  assert (AC : forall k, Rabs (c k) <= 1 /\ Rabs (s k) <= 1). { intros k. assert (X := CS k). assert (X1 := sq0 (c k)). assert (X2 := sq0 (s k)). split; apply Rabs_le; split; nra. }
  assert (AX : Rabs (cos x) <= 1 /\ Rabs (sin x) <= 1) by (split; apply Rabs_le; [assert (X := COS_bound x)|assert (X := SIN_bound x)]; lra). destruct AX as [ACX ASX].
  assert (MU1 : forall p q P1 P2, Rabs p <= P1 -> Rabs q <= P2 -> Rabs (p * q) <= P1 * P2) by (intros p q P1 P2 X Y; rewrite Rabs_mult; apply Rmult_le_compat; try apply Rabs_pos; assumption).
  assert (AD1 : forall p q P1 P2, Rabs p <= P1 -> Rabs q <= P2 -> Rabs (p + q) <= P1 + P2) by (intros p q P1 P2 X Y; eapply Rle_trans; [apply Rabs_triang|lra]).
  assert (SU1 : forall p q P1 P2, Rabs p <= P1 -> Rabs q <= P2 -> Rabs (p - q) <= P1 + P2) by (intros p q P1 P2 X Y; eapply Rle_trans; [apply Rabs_triang|rewrite Rabs_Ropp; lra]).
  assert (LMY : is_lim_seq (fun k => m k * ys k) 0).
  { apply (is_lim_seq_ext (fun k => y k - u k * ((cos x * sr k + sin x * cr k) * sr (S k) - (sin x * sr k - cr k) * cr (S k)) - (cos (xx k) - cos x) * (c k * sr (S k)) + (sin (xx k) - sin x) * (s k * sr (S k) + c k * cr (S k)))); [intros k; symmetry; apply DEC|].
    replace (Finite 0) with (Finite (0 - 0 - 0 + 0)) by (f_equal; ring). apply is_lim_seq_plus'; [apply is_lim_seq_minus'; [apply is_lim_seq_minus'; [exact LY|]|]|].
    - apply (NUL u _ ((1 * 1 + 1 * 1) * 1 + (1 * 1 + 1) * 1) LU). intros k. destruct (BD k) as (_ & _ & X1 & X2). destruct (BD (S k)) as (_ & _ & X3 & X4). apply SU1; apply MU1; try assumption; [apply AD1; apply MU1; assumption|apply SU1; [apply MU1; assumption|assumption]].
    - apply (NUL _ _ (1 * 1) (LE1 _ _ LC)). intros k. destruct (BD (S k)) as (_ & _ & X3 & X4). destruct (AC k). apply MU1; assumption.
    - apply (NUL _ _ (1 * 1 + 1 * 1) (LE1 _ _ LS)). intros k. destruct (BD (S k)) as (_ & _ & X3 & X4). destruct (AC k). apply AD1; apply MU1; assumption. }
  assert (LYS : is_lim_seq (fun k => (m k * m k) * ys k) 0). { apply (is_lim_seq_ext (fun k => m k * ys k * m k)); [intros; ring|]. apply (NUL _ _ 1 LMY). intros k. apply BD. }
  assert (LYS1 : is_lim_seq ys 0).
  { apply (is_lim_seq_ext (fun k => m k * m k * ys k - (m k * m k - 1) * ys k)); [intros; ring|]. replace (Finite 0) with (Finite (0 - 0)) by (f_equal; ring). apply is_lim_seq_minus'; [exact LYS|]. apply (NUL _ _ ((1 + 1) * (1 * 1)) (LE1 _ _ LM)). intros k. destruct (BD k) as (_ & _ & X1 & X2). destruct (BD (S k)) as (_ & _ & X3 & X4). unfold ys. apply MU1; [rewrite Rabs_Ropp; apply SU1; [rewrite Rabs_R1; lra|exact ACX]|apply MU1; assumption]. }
  assert (CX : 1 - cos x <> 0). { intros Z. apply NX. assert (P := sin2_cos2 x). unfold Rsqr in P. apply Rsqr_0_uniq. unfold Rsqr. replace (cos x) with 1 in P by lra. lra. }
  apply (sin_osc (2 * h + x) x NX). apply (is_lim_seq_ext (fun k => sin x + ys k * (- (2 / (1 - cos x))))).
  - intros k. unfold ys. replace (sin x + - (1 - cos x) * (sr k * cr (S k)) * - (2 / (1 - cos x))) with (sin x + 2 * (sr k * cr (S k))) by (field; exact CX). unfold cr, sr. replace (2 * h + x + INR k * (2 * x)) with (al k + al (S k)) by (unfold al; rewrite S_INR; ring). replace x with (al (S k) - al k) at 1 by (unfold al; rewrite S_INR; ring). rewrite sin_minus, sin_plus. ring.
  - replace (Finite (sin x)) with (Finite (sin x + 0 * - (2 / (1 - cos x)))) by (f_equal; ring). apply is_lim_seq_plus'; [apply is_lim_seq_const|]. apply is_lim_seq_mult'; [exact LYS1|apply is_lim_seq_const].
Qed.
Print Assumptions C103_turning_refuted.
(** a satellite turning at one degree a second about its third axis, with a gyro bias, seen twenty times a second, the filter started right on the attitude *)
Example C103_ex : let n := mk3 0 0 1 in let w := 0.0175 in let b := 0.0001 in exists f, unit3 n /\ sin (w * 0.05 / 2) <> 0 /\ axis_cov n (a_P (f O)) (SENSOR_SIGMA ^ 2) 0 (INITIAL_BIAS ^ 2) /\ cov_ok (a_P (f O)) /\
  a_q (f O) = about n 1 /\ a_b (f O) = scale3 0 n /\ a_dq (f O) = zero3 /\ cycles 0.05 (fun _ => scale3 (w + b) n) (fun k => about n (1 + INR (S k) * (w * 0.05 / 2))) f.
Proof.
  cbv zeta. set (n := mk3 0 0 1). destruct (cycles_exist 0.05 (fun _ => scale3 (0.0175 + 0.0001) n) (fun k => about n (1 + INR (S k) * (0.0175 * 0.05 / 2))) (af_init (about n 1))) as (f & F0 & RUN); [lra|apply init_cov|]. exists f. rewrite F0.
  split; [unfold unit3, n; vunfoldg; rnumg; ring|]. split; [assert (0 < sin (0.0175 * 0.05 / 2)); [|lra]; apply sin_gt_0; [lra|assert (X := PI2_3_2); unfold PI2 in X; lra]|]. assert (B : forall k, mv (scalem k id3) n = scale3 k n) by (intros; rewrite mv_scalem, mv_id3; reflexivity).
  split; [split; [apply B|]; split; [cbn; rewrite mv_zerom; apply zero_scale|]; split; [cbn; rewrite mv_zerom; apply zero_scale|apply B]|]. split; [apply init_cov|]. split; [reflexivity|]. split; [apply zero_scale|]. split; [reflexivity|]. exact RUN.
Qed.
