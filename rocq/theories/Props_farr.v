(** * C91: the steady state of the attitude filter *)
From Coq Require Import Reals List Lra Psatz.
From Coquelicot Require Import Coquelicot.
From Verif Require Import Num Vec Mat6 M_vector M_quaternion M_obs S_rot S_obs S_steady P_quat P_wheel P_dyn P_dyn2 P_obs P_obs3 P_steady Props_obs P_farr.
Local Open Scope R_scope.

(** ** the process noise.  For the error equations angle' = - w x angle - bias - (gyro noise), bias' = (drift noise) the covariance
    added over a step is an integral; at zero estimated rate the code adds the integral plus a cross term of the wrong sign. *)
Theorem C91_noise : forall ws dt f x, sub3 ws (a_b f) = zero3 ->
  let y := mk6 (mv (tr3 (phi_11 zero3 dt)) (u1 x)) (add3 (mv (tr3 (phi_12 zero3 dt)) (u1 x)) (u2 x)) in
  exists I, is_RInt (fun s => GYRO_VAR * dot3 (mv (tr3 (phi_11 zero3 s)) (u1 x)) (mv (tr3 (phi_11 zero3 s)) (u1 x)) +
                    DRIFT_VAR * dot3 (add3 (mv (tr3 (phi_12 zero3 s)) (u1 x)) (u2 x)) (add3 (mv (tr3 (phi_12 zero3 s)) (u1 x)) (u2 x))) 0 dt I /\
    dot6 x (mv6 (a_P (af_propagate ws dt f)) x) = dot6 y (mv6 (a_P f) y) + I +
      DRIFT_VAR * (2 * dt ^ 2 * dot3 (u1 x) (u2 x) - (1 / 3 - 0.3333333) * dt ^ 3 * dot3 (u1 x) (u1 x)).
Proof.
  intros ws dt f x W y. assert (C := C50_covariance ws dt f x). cbv zeta in C. rewrite W in C. fold y in C. rewrite C.
  set (A := dot3 (u1 x) (u1 x)). set (B := dot3 (u1 x) (u2 x)). set (D := dot3 (u2 x) (u2 x)).
  assert (E1 : forall s, mv (tr3 (phi_11 zero3 s)) (u1 x) = u1 x) by (intros s; rewrite phi11_zero, tr3_id, mv_id3; reflexivity).
  assert (E2 : forall s, mv (tr3 (phi_12 zero3 s)) (u1 x) = scale3 (- s) (u1 x)) by (intros s; rewrite phi12_zero, tr3_scalem, tr3_id, mv_scalem, mv_id3; reflexivity).
  exists (GYRO_VAR * dt * A + DRIFT_VAR * (dt ^ 3 / 3 * A - dt ^ 2 * B + dt * D)). split.
  - apply is_RInt_ext with (fun s => GYRO_VAR * A + DRIFT_VAR * (s ^ 2 * A - 2 * s * B + D)).
    { intros s _. rewrite E1, E2. fold A. f_equal. f_equal. unfold A, B, D. generalize (u1 x) (u2 x). clear. intros [a b c] [d e g]. vunfoldg. cbn [x3 y3 z3]. rnumg. ring. }
    set (F := fun s => GYRO_VAR * s * A + DRIFT_VAR * (s ^ 3 / 3 * A - s ^ 2 * B + s * D)).
    assert (Q := is_RInt_derive F (fun s => GYRO_VAR * A + DRIFT_VAR * (s ^ 2 * A - 2 * s * B + D)) 0 dt).
    replace (GYRO_VAR * dt * A + DRIFT_VAR * (dt ^ 3 / 3 * A - dt ^ 2 * B + dt * D)) with (minus (F dt) (F 0)) by (unfold minus, plus, opp, F; cbn; field).
    apply Q; intros s _.
    + unfold F. auto_derive; [exact Logic.I|field].
    + apply (ex_derive_continuous (V := R_NormedModule)). auto_derive. exact Logic.I.
  - unfold A, B, D. generalize (dot6 y (mv6 (a_P f) y)) GYRO_VAR DRIFT_VAR (u1 x) (u2 x). clear. intros k g d [a b c] [a' b' c']. vunfoldg. cbn [x3 y3 z3]. rnumg. replace 0.0833333 with (0.3333333 - 1 / 4) by lra. field.
Qed.
Print Assumptions C91_noise.

(** ** the generic step: every start converges, geometrically, to the closed form *)
Theorem C91_cycle_converges : forall h a c d v, 0 < h -> 0 < d -> 0 < v -> d * h * h / 4 < a -> - (d * h) / 2 <= c -> 0 < a * d - c * c ->
  0 < st_p h a c d v < v /\ 0 < st_r h a c d v /\ st_q h a c d v < 0 /\
  exists rho, 0 <= rho < 1 /\ forall p q r : nat -> R,
    (forall x y, 0 <= p O * x * x + 2 * q O * x * y + r O * y * y) -> (forall k, cycle h a c d v (p k) (q k) (r k) (p (S k)) (q (S k)) (r (S k))) ->
    exists M, forall k, Rabs (p k - st_p h a c d v) <= M * rho ^ k /\ Rabs (q k - st_q h a c d v) <= M * rho ^ k /\ Rabs (r k - st_r h a c d v) <= M * rho ^ k.
Proof.
  intros h a c d v Hh Hd Hv A C N. destruct (st_facts h a c d v Hh A C Hd Hv) as (E0 & U0 & UR & EQ & _). destruct (st_pd h a c d v Hh A C Hd Hv) as [P D].
  assert (QN : st_q h a c d v < 0). { unfold st_q. assert (0 < sqrt d * v / st_u h a c d v) by (apply Rdiv_lt_0_compat; [apply Rmult_lt_0_compat; assumption|exact U0]). replace (- sqrt d * v / st_u h a c d v) with (- (sqrt d * v / st_u h a c d v)) by (field; lra). lra. }
  split. { split; [exact P|]. unfold st_p. assert (0 < v / (st_u h a c d v * st_u h a c d v)) by (apply Rdiv_lt_0_compat; nra). nra. }
  split. { apply (Rmult_lt_reg_l (st_p h a c d v)); [exact P|]. nra. } split; [exact QN|].
  destruct (recursion_converges h a c d v Hh A C Hd Hv N) as (rho & R1 & K). exists rho. split; [exact R1|]. intros p q r H0 HS.
  assert (PS : psd (p O) (q O) (r O)) by exact H0. apply K; [exact PS|]. intros k. assert (Z : psd (p k) (q k) (r k) -> p (S k) = nx_p h a v (p k) (q k) (r k) /\ q (S k) = nx_q h a c v (p k) (q k) (r k) /\ r (S k) = nx_r h a c d v (p k) (q k) (r k)).
  { intros PK. assert (PP := pre_pos h a d Hh A Hd _ _ _ PK). destruct (HS k) as (X & Y & W). fold (pre_p h a (p k) (q k) (r k)) in X, Y, W. set (P0 := pre_p h a (p k) (q k) (r k)) in *. unfold nx_p, nx_q, nx_r, pre_q, pre_r. fold P0.
    assert (Z0 : P0 + v <> 0) by lra. split; [|split]; apply (Rmult_eq_reg_r (P0 + v)); try exact Z0; rewrite ?X, ?Y, ?W; field; exact Z0. }
  apply Z. clear Z. induction k as [|k IH]; [exact PS|].
  assert (PP := pre_pos h a d Hh A Hd _ _ _ IH). destruct (HS k) as (X & Y & W). fold (pre_p h a (p k) (q k) (r k)) in X, Y, W. set (P0 := pre_p h a (p k) (q k) (r k)) in *. assert (Z0 : P0 + v <> 0) by lra.
  assert (E : p (S k) = nx_p h a v (p k) (q k) (r k) /\ q (S k) = nx_q h a c v (p k) (q k) (r k) /\ r (S k) = nx_r h a c d v (p k) (q k) (r k)).
  { unfold nx_p, nx_q, nx_r, pre_q, pre_r. fold P0. split; [|split]; apply (Rmult_eq_reg_r (P0 + v)); try exact Z0; rewrite ?X, ?Y, ?W; field; exact Z0. }
  destruct E as (-> & -> & ->). apply (nx_psd h a c d v Hh A Hd Hv N _ _ _ IH).
Qed.
Print Assumptions C91_cycle_converges.

(** ** the filter: propagations about one body axis n, each followed by a measurement *)
Definition spin_run (n : v3) (dt : R) (f : nat -> AttF) : Prop :=
  forall k, exists w q s, sub3 w (a_b (f k)) = scale3 s n /\ af_measurement q (af_propagate w dt (f k)) = Ok (f (S k)).
Theorem C91_converges : forall dt, 0 < dt -> exists rho, 0 <= rho < 1 /\ forall n f lam mu nu, unit3 n -> cov_ok (a_P (f O)) -> spin_run n dt f ->
  mv (b11 (a_P (f O))) n = scale3 lam n -> mv (b12 (a_P (f O))) n = scale3 mu n -> mv (b21 (a_P (f O))) n = scale3 mu n -> mv (b22 (a_P (f O))) n = scale3 nu n ->
  let a := GYRO_VAR * dt + 0.3333333 * DRIFT_VAR * dt ^ 3 in let c := 0.5 * DRIFT_VAR * dt ^ 2 in let d := DRIFT_VAR * dt in let v := SENSOR_SIGMA ^ 2 in
  exists M, forall k, Rabs (dot3 n (mv (b11 (a_P (f k))) n) - st_p dt a c d v) <= M * rho ^ k /\
    Rabs (dot3 n (mv (b12 (a_P (f k))) n) - st_q dt a c d v) <= M * rho ^ k /\
    Rabs (dot3 n (mv (b21 (a_P (f k))) n) - st_q dt a c d v) <= M * rho ^ k /\
    Rabs (dot3 n (mv (b22 (a_P (f k))) n) - st_r dt a c d v) <= M * rho ^ k.
Proof.
  intros dt H. destruct (noise_ok dt H) as (N1 & N2 & N3 & N4). destruct (recursion_converges dt (fa dt) (fc dt) (fd dt) (SENSOR_SIGMA ^ 2) H N2 N3 N1 R_pos N4) as (rho & R1 & K).
  exists rho. split; [exact R1|]. intros n f lam mu nu U OK RUN B1 B2 B3 B4 a c d v. fold (fa dt) in a. fold (fc dt) in c. fold (fd dt) in d.
  assert (D1 : forall m k, mv m n = scale3 k n -> dot3 n (mv m n) = k) by (intros m k ->; transitivity (k * dot3 n n); [vring|rewrite U; ring]).
  assert (NZ : n <> zero3) by (intros Z; unfold unit3 in U; rewrite Z in U; revert U; vunfoldg; cbn [x3 y3 z3]; rnumg; lra).
  set (g := fix g (k : nat) : R * R * R := match k with O => (lam, mu, nu) | S k => let '(p, q, r) := g k in (nx_p dt a v p q r, nx_q dt a c v p q r, nx_r dt a c d v p q r) end).
  assert (AL : forall k, along n (a_P (f k)) (fst (fst (g k))) (snd (fst (g k))) (snd (g k))).
  { induction k as [|k IH]; [split; [exact B1|]; split; [exact B2|]; split; [exact B3|exact B4]|]. destruct (RUN k) as (w & q & s & W & ME). assert (CY := along_cycle w dt q (f k) (f (S k)) n s _ _ _ NZ W IH ME). cbv zeta in CY. cbn [g]. destruct (g k) as [[x y] z]. exact CY. }
  destruct (K (fun k => fst (fst (g k))) (fun k => snd (fst (g k))) (fun k => snd (g k))) as [M HM].
  - cbv beta. apply (along_psd n (a_P (f O))); [exact U|exact OK|apply AL].
  - intros k. cbn [g]. destruct (g k) as [[x y] z]. split; [reflexivity|split; reflexivity].
  - exists M. intros k. destruct (AL k) as (C1 & C2 & C3 & C4). rewrite (D1 _ _ C1), (D1 _ _ C2), (D1 _ _ C3), (D1 _ _ C4). destruct (HM k) as (X & Y & Z). split; [exact X|]. split; [exact Y|]. split; [exact Y|exact Z].
Qed.
Print Assumptions C91_converges.
(** such runs exist: from any covariance, for every spin profile about n and every sequence of star-tracker attitudes *)
Theorem C91_runs : forall n dt f0 (s : nat -> R) (q : nat -> quat), 0 <= dt -> cov_ok (a_P f0) ->
  exists f, f O = f0 /\ (forall k, af_measurement (q k) (af_propagate (add3 (a_b (f k)) (scale3 (s k) n)) dt (f k)) = Ok (f (S k))) /\ spin_run n dt f.
Proof.
  intros n dt f0 s q H OK. set (g := fix g (k : nat) : AttF := match k with O => f0 | S k => match af_measurement (q k) (af_propagate (add3 (a_b (g k)) (scale3 (s k) n)) dt (g k)) with Ok f => f | Raise _ => f0 end end).
  assert (C : forall k, cov_ok (a_P (g k)) /\ af_measurement (q k) (af_propagate (add3 (a_b (g k)) (scale3 (s k) n)) dt (g k)) = Ok (g (S k))).
  { assert (ST : forall k, cov_ok (a_P (g k)) -> exists f', af_measurement (q k) (af_propagate (add3 (a_b (g k)) (scale3 (s k) n)) dt (g k)) = Ok f' /\ g (S k) = f' /\ cov_ok (a_P f')).
    { intros k CK. destruct (meas_cov (q k) _ (prop_cov (add3 (a_b (g k)) (scale3 (s k) n)) dt (g k) H CK)) as (f' & E & CF & _). exists f'. split; [exact E|]. split; [|exact CF]. cbn [g]. fold (g k). rewrite E. reflexivity. }
    induction k as [|k [IH _]].
    - split; [exact OK|]. destruct (ST O OK) as (f' & E & G & _). rewrite G. exact E.
    - destruct (ST k IH) as (f' & E & G & CF). assert (CG : cov_ok (a_P (g (S k)))) by (rewrite G; exact CF). split; [exact CG|]. destruct (ST (S k) CG) as (f2 & E2 & G2 & _). rewrite G2. exact E2. }
  exists g. split; [reflexivity|]. split; [intros k; apply C|]. intros k. exists (add3 (a_b (g k)) (scale3 (s k) n)), (q k), (s k). split; [generalize (a_b (g k)); vring|apply C].
Qed.
Print Assumptions C91_runs.
(** from the start state every axis qualifies *)
Theorem C91_from_start : forall dt, 0 < dt -> exists rho, 0 <= rho < 1 /\ forall n q0 f, unit3 n -> f O = af_init q0 -> spin_run n dt f ->
  let a := GYRO_VAR * dt + 0.3333333 * DRIFT_VAR * dt ^ 3 in let c := 0.5 * DRIFT_VAR * dt ^ 2 in let d := DRIFT_VAR * dt in let v := SENSOR_SIGMA ^ 2 in
  exists M, forall k, Rabs (dot3 n (mv (b11 (a_P (f k))) n) - st_p dt a c d v) <= M * rho ^ k /\
    Rabs (dot3 n (mv (b22 (a_P (f k))) n) - st_r dt a c d v) <= M * rho ^ k.
Proof.
  intros dt H. destruct (C91_converges dt H) as (rho & R1 & K). exists rho. split; [exact R1|]. intros n q0 f U F0 RUN.
  assert (B : forall k, mv (scalem k id3) n = scale3 k n) by (intros; rewrite mv_scalem, mv_id3; reflexivity).
  destruct (K n f (SENSOR_SIGMA ^ 2) 0 (INITIAL_BIAS ^ 2) U) as [M HM].
  - rewrite F0. apply init_cov.
  - exact RUN.
  - rewrite F0. apply B.
  - rewrite F0. cbn. rewrite mv_zerom. apply zero_scale.
  - rewrite F0. cbn. rewrite mv_zerom. apply zero_scale.
  - rewrite F0. apply B.
  - exists M. intros k. destruct (HM k) as (X & _ & _ & Y). split; [exact X|exact Y].
Qed.
Print Assumptions C91_from_start.
(** the covariance the code settles at is larger, for the attitude and for the bias, than with the noise integral of [C91_noise] *)
Theorem C91_pessimistic : forall dt, 0 < dt -> let d := DRIFT_VAR * dt in let v := SENSOR_SIGMA ^ 2 in
  let ax := GYRO_VAR * dt + DRIFT_VAR * dt ^ 3 / 3 in let cx := - (DRIFT_VAR * dt ^ 2 / 2) in
  let a := GYRO_VAR * dt + 0.3333333 * DRIFT_VAR * dt ^ 3 in let c := 0.5 * DRIFT_VAR * dt ^ 2 in
  (d * dt * dt / 4 < ax /\ - (d * dt) / 2 <= cx /\ 0 < ax * d - cx * cx) /\
  st_p dt ax cx d v < st_p dt a c d v < v /\ st_r dt ax cx d v < st_r dt a c d v.
Proof.
  intros dt H d v ax cx a c. destruct (noise_ok dt H) as (N1 & N2 & N3 & N4). fold (fa dt) in a. fold (fc dt) in c. fold (fd dt) in d. fold a in N2, N4. fold c in N3, N4. fold d in N1, N2, N3, N4.
  assert (G := gyro_pos). assert (D := drift_pos). assert (GH : 0 < GYRO_VAR * dt) by (apply Rmult_lt_0_compat; assumption). assert (DH3 : 0 < DRIFT_VAR * dt ^ 3) by (apply Rmult_lt_0_compat; [exact D|apply pow_lt, H]). assert (DH2 : 0 < DRIFT_VAR * dt ^ 2) by (apply Rmult_lt_0_compat; [exact D|apply pow_lt, H]).
  assert (X : d * dt * dt / 4 < ax /\ - (d * dt) / 2 <= cx /\ 0 < ax * d - cx * cx).
  { unfold ax, cx, d, fd. set (g := GYRO_VAR) in *. set (e := DRIFT_VAR) in *. clearbody g e. split; [|split].
    - replace (e * dt * dt * dt / 4) with (e * dt ^ 3 / 4) by field. lra.
    - replace (- (e * dt * dt) / 2) with (- (e * dt ^ 2 / 2)) by field. lra.
    - replace ((g * dt + e * dt ^ 3 / 3) * (e * dt) - - (e * dt ^ 2 / 2) * - (e * dt ^ 2 / 2)) with (g * dt * (e * dt) + e * dt * (e * dt ^ 3) / 12) by field. assert (0 < e * dt) by (apply Rmult_lt_0_compat; assumption). assert (0 < g * dt * (e * dt)) by (apply Rmult_lt_0_compat; assumption). assert (0 < e * dt * (e * dt ^ 3)) by (apply Rmult_lt_0_compat; assumption). lra. }
  split; [exact X|]. destruct X as (X1 & X2 & X3). assert (VP := R_pos). fold v in VP. destruct (st_mono dt d v ax cx a c H N1 VP X1 X2 X3 N2 N3 N4) as [L1 L2].
  - unfold a, c, ax, cx, fa, fc. replace (dt * - (DRIFT_VAR * dt ^ 2 / 2)) with (- (DRIFT_VAR * dt ^ 3 / 2)) by field. replace (dt * (0.5 * DRIFT_VAR * dt ^ 2)) with (0.5 * (DRIFT_VAR * dt ^ 3)) by ring. lra.
  - unfold c, cx, fc. lra.
  - split; [|exact L2]. split; [exact L1|]. apply (C91_cycle_converges dt a c d v H N1 VP N2 N3 N4).
Qed.
Print Assumptions C91_pessimistic.
Example C91_ex : exists f, f O = af_init (mkq 1 0 0 0) /\ spin_run (mk3 0 0 1) 0.05 f /\ unit3 (mk3 0 0 1) /\ (0 < 0.05)%R /\ sub3 (mk3 0.1 0.2 0.3) (mk3 0.1 0.2 0.3) = zero3 (T:=R).
Proof.
  destruct (C91_runs (mk3 0 0 1) 0.05 (af_init (mkq 1 0 0 0)) (fun _ => 0.01) (fun _ => mkq 1 0 0 0) ltac:(lra) (init_cov _)) as (f & F & _ & RUN). exists f. split; [exact F|]. split; [exact RUN|]. split; [unfold unit3; vunfoldg; cbn [x3 y3 z3]; rnumg; ring|]. split; [lra|apply sub3_self].
Qed.
