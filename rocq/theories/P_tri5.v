(** * Lemmas: the star-tracker filter's errors, cycle by cycle *)
From Coq Require Import Reals Lra Psatz Lia.
From Verif Require Import Num Vec Mat6 M_vector M_quaternion M_obs S_rot S_obs S_steady P_quat P_wheel P_dyn P_dyn2 P_obs P_obs3 P_steady Props_obs P_farr P_est1 P_est2 P_est3 P_tot3 P_orb3 P_tri1 P_tri2 P_tri3 P_tri4.
Local Open Scope R_scope.

Definition within (eta : R) (P : M6) (c : R * R * R) : Prop := let '(p, q, r) := c in between eta P p q r.
Definition psd3 (c : R * R * R) : Prop := let '(p, q, r) := c in psd p q r.
Definition sz3 (c : R * R * R) : R := let '(p, q, r) := c in sz p q r.
Definition pre3 (dt : R) (c : R * R * R) : R * R * R := let '(p, q, r) := c in (pre_p dt (fa dt) p q r, pre_q dt (fc dt) p q r, pre_r (fd dt) p q r).
Lemma abs_le_2 a b m : Rabs (a - b) <= m -> Rabs a <= Rabs b + m.
Proof. intros H. replace a with (b + (a - b)) by ring. eapply Rle_trans; [apply Rabs_triang|]. lra. Qed.
Lemma covs_bound dt lam mu nu : 0 < dt -> psd lam mu nu -> exists B, 1 <= B /\ forall k, psd3 (covs dt lam mu nu k) /\ sz3 (covs dt lam mu nu k) <= B /\ sz3 (pre3 dt (covs dt lam mu nu k)) <= B.
Proof.
  intros H PS. destruct (noise_ok dt H) as (N1 & N2 & N3 & N4). assert (V := R_pos). destruct (recursion_converges dt (fa dt) (fc dt) (fd dt) (SENSOR_SIGMA ^ 2) H N2 N3 N1 V N4) as (rho & R1 & K).
  set (p := fun k => fst (fst (covs dt lam mu nu k))). set (q := fun k => snd (fst (covs dt lam mu nu k))). set (r := fun k => snd (covs dt lam mu nu k)). assert (EQ : forall k, covs dt lam mu nu k = (p k, q k, r k)) by (intros k; unfold p, q, r; destruct (covs dt lam mu nu k) as [[pp qq] rr]; reflexivity).
  destruct (K p q r) as (M & KM). { unfold p, q, r. cbn [covs fst snd]. exact PS. } { intros k. unfold p, q, r. cbn [covs]. unfold nx. destruct (covs dt lam mu nu k) as [[pp qq] rr]. cbn [fst snd]. split; [reflexivity|]. split; reflexivity. }
  assert (M0 : 0 <= M). { destruct (KM O) as [X _]. rewrite pow_O, Rmult_1_r in X. assert (Y := Rabs_pos (p O - st_p dt (fa dt) (fc dt) (fd dt) (SENSOR_SIGMA ^ 2))). lra. }
  set (sp := st_p dt (fa dt) (fc dt) (fd dt) (SENSOR_SIGMA ^ 2)) in *. set (sq := st_q dt (fa dt) (fc dt) (fd dt) (SENSOR_SIGMA ^ 2)) in *. set (sr := st_r dt (fa dt) (fc dt) (fd dt) (SENSOR_SIGMA ^ 2)) in *. clearbody sp sq sr.
  set (b := Rabs sp + Rabs sq + Rabs sr + M). assert (P1 := Rabs_pos sp). assert (P2 := Rabs_pos sq). assert (P3 := Rabs_pos sr).
  assert (BB : forall k, Rabs (p k) <= b /\ Rabs (q k) <= b /\ Rabs (r k) <= b). { intros k. destruct (KM k) as (A & B & C). assert (RK : rho ^ k <= 1) by (rewrite <- (pow1 k); apply pow_incr; lra). assert (M * rho ^ k <= M * 1) by (apply Rmult_le_compat_l; assumption). apply abs_le_2 in A, B, C. unfold b. lra. }
  assert (B0 : 0 <= b) by (unfold b; lra). assert (PSD : forall k, psd3 (covs dt lam mu nu k)). { induction k as [|k IH]; [exact PS|]. cbn [covs]. destruct (covs dt lam mu nu k) as [[pp qq] rr]. cbn [nx psd3] in *. apply nx_psd; assumption. }
  set (fn := Rabs (fa dt) + 2 * Rabs (fc dt) + Rabs (fd dt)). assert (F0 : 0 <= fn) by (unfold fn; assert (X := Rabs_pos (fa dt)); assert (Y := Rabs_pos (fc dt)); assert (Z := Rabs_pos (fd dt)); lra).
  assert (HB : 0 <= dt * b) by (apply Rmult_le_pos; lra). assert (HHB : 0 <= dt * dt * b) by (apply Rmult_le_pos; [apply sq0|lra]).
  exists (1 + 4 * b + 4 * (dt * b) + dt * dt * b + fn). split; [lra|]. intros k. split; [apply PSD|]. rewrite EQ. cbn [sz3 pre3]. destruct (BB k) as (A & B & C). unfold sz. split; [lra|].
  assert (T1 : Rabs (pre_p dt (fa dt) (p k) (q k) (r k)) <= b + 2 * (dt * b) + dt * dt * b + Rabs (fa dt)).
  { unfold pre_p. eapply Rle_trans; [apply Rabs_triang|]. apply Rplus_le_compat_r. eapply Rle_trans; [apply Rabs_triang|]. apply Rplus_le_compat; [eapply Rle_trans; [apply Rabs_triang|]; rewrite Rabs_Ropp; apply Rplus_le_compat; [exact A|]|].
    - rewrite !Rabs_mult, (Rabs_pos_eq 2), (Rabs_pos_eq dt) by lra. assert (dt * Rabs (q k) <= dt * b) by (apply Rmult_le_compat_l; lra). lra.
    - rewrite !Rabs_mult, (Rabs_pos_eq dt) by lra. apply Rmult_le_compat_l; [apply sq0|exact C]. }
  assert (T2 : Rabs (pre_q dt (fc dt) (p k) (q k) (r k)) <= b + dt * b + Rabs (fc dt)).
  { unfold pre_q. eapply Rle_trans; [apply Rabs_triang|]. apply Rplus_le_compat_r. eapply Rle_trans; [apply Rabs_triang|]. rewrite Rabs_Ropp, Rabs_mult, (Rabs_pos_eq dt) by lra. assert (dt * Rabs (r k) <= dt * b) by (apply Rmult_le_compat_l; lra). lra. }
  assert (T3 : Rabs (pre_r (fd dt) (p k) (q k) (r k)) <= b + Rabs (fd dt)) by (unfold pre_r; eapply Rle_trans; [apply Rabs_triang|]; lra).
  unfold fn. lra.
Qed.

Lemma vec_diff k (u X x : v3) : sub3 (scale3 k (sub3 u X)) (scale3 k (sub3 u x)) = scale3 (- k) (sub3 X x). Proof. vring. Qed.
Lemma vec_gain k k' (y : v3) : sub3 (scale3 k y) (scale3 k' y) = scale3 (k - k') y. Proof. vring. Qed.
(** one cycle *)
Lemma cycle_est dt : 0 < dt -> exists c, 0 < c /\ forall eta B cov w z qs bs f f' d s, 0 < eta <= 1 -> 1 <= B -> psd3 cov -> sz3 cov <= B -> sz3 (pre3 dt cov) <= B ->
  dotq (a_q f) (a_q f) = 1 -> dotq qs qs = 1 -> 0 <= qw (error_quat qs (a_q f)) -> a_dq f = zero3 -> within eta (a_P f) cov ->
  let u := vec (error_quat qs (a_q f)) in let x := scale3 (dt / 2) (sub3 bs (a_b f)) in let v := SENSOR_SIGMA ^ 2 in let sE := (B / v + 1) * (2 * (eta * B) / v) in
  s = norm3 u + norm3 x -> 0 <= d -> normq (subq z qs) <= d -> norm3 (scale3 (dt / 2) (sub3 w bs)) <= d -> s + 2 * d <= 1 / 8 -> B * (2 * (s + d)) <= c * eta * dt -> sE <= 1 ->
  af_measurement z (af_propagate w dt f) = Ok f' ->
  let '(p, q, r) := cov in let k1 := gain1 dt p q r in let k2 := gain2 dt p q r in let W := s + 2 * d in let Y := norm3 (sub3 u x) + 2 * (W * W) + 3 * d in
  dotq (a_q f') (a_q f') = 1 /\ 0 <= qw (error_quat qs (a_q f')) /\ a_dq f' = zero3 /\ within eta (a_P f') (nx dt cov) /\ 0 < k1 < 1 /\
  norm3 (sub3 (vec (error_quat qs (a_q f'))) (scale3 (1 - k1 / 2) (sub3 u x))) <= 60 * (W * W) + sE * Y + 2 * d /\
  norm3 (sub3 (scale3 (dt / 2) (sub3 bs (a_b f'))) (add3 x (scale3 (- k2 * dt / 2) (sub3 u x)))) <= dt / 2 * (sE * Y + Rabs k2 * (2 * (W * W) + 3 * d)).
Proof.
  intros H. destruct (between_propagate dt H) as (c & C0 & BP). exists c. split; [exact C0|]. intros eta B [[p q] r] w z qs bs f f' d s ET B1 PS SZ SZ' Uq Us E0 DQ BW u x v sE ES D0 Hz Hw HS HB SE M. cbv beta iota delta [psd3 sz3 pre3 within] in PS, SZ, SZ', BW. intros k1 k2 W Y.
  assert (V := R_pos). fold v in V. destruct (noise_ok dt H) as (N1 & N2 & N3 & N4). assert (P0 := pre_pos dt (fa dt) (fd dt) H N2 N1 p q r PS).
  set (wv := sub3 w (a_b f)). set (X := scale3 (dt / 2) wv). assert (XX : X = add3 (scale3 (dt / 2) (sub3 w bs)) x) by (unfold X, wv, x; generalize (a_b f); clear; vring). assert (Xx : sub3 X x = scale3 (dt / 2) (sub3 w bs)) by (rewrite XX; generalize (scale3 (dt / 2) (sub3 w bs)) x; clear; vring).
  assert (Pu := n3pos u). assert (Px := n3pos x). assert (PX := n3pos X). assert (NX : norm3 X <= norm3 x + d) by (rewrite XX; eapply Rle_trans; [apply nadd|]; lra). assert (NXw : norm3 X = dt / 2 * norm3 wv) by (unfold X; rewrite nscale, Rabs_pos_eq by lra; reflexivity).
  assert (WV : norm3 wv * dt <= 1) by lra. assert (WV2 : sz p q r * norm3 wv <= c * eta). { apply Rle_trans with (B * norm3 wv); [apply Rmult_le_compat_r; [apply n3pos|exact SZ]|]. apply Rmult_le_reg_r with dt; [exact H|]. eapply Rle_trans; [|exact HB]. replace (B * norm3 wv * dt) with (B * (2 * norm3 X)) by (rewrite NXw; field). apply Rmult_le_compat_l; lra. }
  assert (BPR := BP eta w f p q r ET PS WV WV2 BW). set (f1 := af_propagate w dt f) in *. assert (BME := between_measure dt z f1 f' eta p q r H ET PS BPR M). cbv zeta in BME.
  assert (PR : psd (pre_p dt (fa dt) p q r) (pre_q dt (fc dt) p q r) (pre_r (fd dt) p q r)). { intros y1 y2. replace (fm (pre_p dt (fa dt) p q r) (pre_q dt (fc dt) p q r) (pre_r (fd dt) p q r) y1 y2) with (fm p q r y1 (y2 - dt * y1) + fm (fa dt) (fc dt) (fd dt) y1 y2) by (unfold fm, pre_p, pre_q, pre_r; ring). assert (X1 := PS y1 (y2 - dt * y1)). assert (Y1 := N_psd dt (fa dt) (fc dt) (fd dt) H N2 N1 N4 y1 y2). lra. }
  assert (GN := gains_near eta (a_P f1) _ _ _ ET PR P0 BPR). fold v in GN. cbv zeta in GN.
  assert (K1B : 0 < k1 < 1). { unfold k1, gain1. cbv zeta. fold v. split; [apply Rdiv_lt_0_compat; lra|]. apply Rmult_lt_reg_r with (pre_p dt (fa dt) p q r + v); [lra|]. unfold Rdiv. rewrite Rmult_assoc, Rinv_l by lra. lra. }
  destruct (psi_facts wv dt H) as (F1 & F2 & F3 & F4); [fold X; lra|]. fold X in F2, F3, F4. set (cc := cos (norm3 wv * dt * 0.5)) in *. set (psi := af_psi wv dt) in *.
  assert (Q1 : a_q f1 = moved_q cc psi (a_q f)) by reflexivity. assert (AB1 : a_b f1 = a_b f) by reflexivity. assert (DQ1 : a_dq f1 = zero3) by exact DQ. clearbody f1. revert M. unfold af_measurement. destruct (Reqb_spec (det3 (addm af_R (b11 (a_P f1)))) 0) as [E|E]; [discriminate|]. destruct (af_gain (a_P f1)) as [K1 K2]. intros M. injection M as M.
  rewrite DQ1, sub3_0_r, Q1, AB1 in M. set (y := vec (error_quat z (moved_q cc psi (a_q f)))) in *. unfold af_reset in M. cbn [a_dq a_db a_q a_b a_P] in M.
  assert (MQ : a_q f' = normalizeq (fixed_q (moved_q cc psi (a_q f)) (mv K1 y))) by (rewrite <- M; reflexivity). assert (MB : a_b f' = add3 (a_b f) (mv K2 y)) by (rewrite <- M; reflexivity). assert (MD : a_dq f' = zero3) by (rewrite <- M; reflexivity).
  assert (HW : norm3 (vec (error_quat qs (a_q f))) + norm3 X + d <= 1 / 8) by (fold u; lra). set (W1 := norm3 (vec (error_quat qs (a_q f))) + norm3 X + d) in *. assert (W1W : W1 <= W) by (unfold W1, W; fold u; lra). assert (W10 : 0 <= W1) by (unfold W1; fold u; lra). assert (W2 : W1 * W1 <= W * W) by (apply Rmult_le_compat; lra).
  set (SZp := sz (pre_p dt (fa dt) p q r) (pre_q dt (fc dt) p q r) (pre_r (fd dt) p q r)) in *. assert (SZp0 : 0 <= SZp) by apply sz_pos. assert (BV : 0 <= B / v) by (apply Rmult_le_pos; [lra|left; apply Rinv_0_lt_compat, V]). assert (SV : SZp / v <= B / v) by (apply Rmult_le_compat_r; [left; apply Rinv_0_lt_compat, V|exact SZ']).
  assert (EV : 0 <= 2 * (eta * SZp) / v <= 2 * (eta * B) / v). { split; [apply Rmult_le_pos; [|left; apply Rinv_0_lt_compat, V]; assert (0 <= eta * SZp) by (apply Rmult_le_pos; lra); lra|]. apply Rmult_le_compat_r; [left; apply Rinv_0_lt_compat, V|]. assert (eta * SZp <= eta * B) by (apply Rmult_le_compat_l; lra). lra. }
  assert (SV0 : 0 <= SZp / v) by (apply Rmult_le_pos; [lra|left; apply Rinv_0_lt_compat, V]). assert (G1 : 2 * (eta * SZp) / v <= sE). { unfold sE. apply Rle_trans with (1 * (2 * (eta * B) / v)); [lra|]. apply Rmult_le_compat_r; lra. } assert (G2 : (SZp / v + 1) * (2 * (eta * SZp) / v) <= sE) by (unfold sE; apply Rmult_le_compat; lra).
  destruct (GN y) as [GA GB]. assert (NY := n3pos y). assert (GA' : norm3 (sub3 (mv K1 y) (scale3 k1 y)) <= sE * norm3 y) by (eapply Rle_trans; [exact GA|]; apply Rmult_le_compat_r; assumption). assert (GB' : norm3 (sub3 (mv K2 y) (scale3 k2 y)) <= sE * norm3 y) by (eapply Rle_trans; [exact GB|]; apply Rmult_le_compat_r; assumption). assert (SE0 : 0 <= sE) by lra.
  destruct (cyc_y (a_q f) qs z psi X cc d Uq Us E0 F1 F2 F3 F4 D0 Hz HW) as (Y1 & _ & Y3 & _). fold y in Y1, Y3. fold W1 in Y1, Y3. fold u in Y1.
  destruct (cyc_fix (a_q f) qs z psi X cc d Uq Us E0 F1 F2 F3 F4 D0 Hz HW k1 sE (mv K1 y)) as (C1 & C2 & C3); [lra|lra|exact GA'|]. rewrite <- MQ in C1, C2, C3. fold W1 in C3. fold u in C3. fold y in C3.
  assert (YY : norm3 y <= Y). { unfold Y. rewrite (v_back y (sub3 u x)). eapply Rle_trans; [apply nadd|]. rewrite (v_chain y (sub3 u X) (sub3 u x)). assert (Z0 := nadd (sub3 y (sub3 u X)) (sub3 (sub3 u X) (sub3 u x))). replace (sub3 (sub3 u X) (sub3 u x)) with (scale3 (-1) (sub3 X x)) in Z0 at 2 by (generalize u X x; clear; vring). rewrite nscale, Xx in Z0. replace (Rabs (-1)) with 1 in Z0 by (rewrite Rabs_left; lra). lra. }
  assert (SY : sE * norm3 y <= sE * Y) by (apply Rmult_le_compat_l; assumption).
  split; [exact C1|]. split; [exact C2|]. split; [exact MD|]. split; [exact BME|]. split; [exact K1B|]. split.
  - rewrite (v_chain _ (scale3 (1 - k1 / 2) (sub3 u X)) _). eapply Rle_trans; [apply nadd|]. rewrite vec_diff, nscale, Rabs_Ropp, (Rabs_pos_eq (1 - k1 / 2)), Xx by lra. assert ((1 - k1 / 2) * norm3 (scale3 (dt / 2) (sub3 w bs)) <= 1 * d) by (apply Rmult_le_compat; try apply n3pos; lra). lra.
  - rewrite MB. replace (sub3 (scale3 (dt / 2) (sub3 bs (add3 (a_b f) (mv K2 y)))) (add3 x (scale3 (- k2 * dt / 2) (sub3 u x)))) with (scale3 (- (dt / 2)) (add3 (sub3 (mv K2 y) (scale3 k2 y)) (scale3 k2 (add3 (sub3 y (sub3 u X)) (scale3 (-1) (sub3 X x)))))).
    2:{ unfold x. generalize (mv K2 y) y u X (a_b f) k2. clear. intros a b0 e g h k. destruct a as [a1 a2 a3], b0 as [b1 b2 b3], e as [e1 e2 e3], g as [g1 g2 g3], h as [h1 h2 h3], bs as [s1 s2 s3]. vunfoldg. cbn [x3 y3 z3]. rnumg. f_equal; field. }
    rewrite nscale, Rabs_Ropp, (Rabs_pos_eq (dt / 2)) by lra. apply Rmult_le_compat_l; [lra|]. eapply Rle_trans; [apply nadd|]. rewrite (nscale k2). assert (Z1 := nadd (sub3 y (sub3 u X)) (scale3 (-1) (sub3 X x))). rewrite (nscale (-1)), Xx in Z1. replace (Rabs (-1)) with 1 in Z1 by (rewrite Rabs_left; lra). assert (K20 := Rabs_pos k2).
    assert (Rabs k2 * norm3 (add3 (sub3 y (sub3 u X)) (scale3 (-1) (sub3 X x))) <= Rabs k2 * (2 * (W * W) + 3 * d)) by (apply Rmult_le_compat_l; [exact K20|]; rewrite Xx; lra). lra.
Qed.
