(** * Lemmas: the star-tracker filter with several gyro steps per measurement, its bias subtracted kap times from the readings *)
From Coq Require Import Reals Lra Psatz Lia.
From Verif Require Import Num Vec Mat6 M_vector M_quaternion M_obs S_rot S_obs S_steady P_quat P_wheel P_dyn P_dyn2 P_obs P_obs3 P_steady Props_obs P_farr P_est1 P_est2 P_est3 P_tot3 P_orb3 Props_est P_tri1 P_tri2 P_tri3 P_tri4 P_tri5 Props_tri P_half1 P_mul1 P_mul2 P_mul3 P_mul4.
Local Open Scope R_scope.

(** the body turns at a constant rate of at most r between two star-tracker readings; the N gyro readings in between are within d of that rate plus the bias bs,
    the star-tracker reading within d of the attitude then *)
Definition turning_fast (dt : R) (N : nat) (qs : nat -> quat) (bs : v3) (r d : R) (gyro : nat -> nat -> v3) (tracker : nat -> quat) : Prop :=
  forall k, exists n w, unit3 n /\ Rabs w <= r /\ qs (S k) = product (qs k) (about n (w * (INR N * dt) / 2)) /\ (forall j, (j < N)%nat -> norm3 (sub3 (gyro k j) (add3 (scale3 w n) bs)) <= d) /\ normq (subq (tracker k) (qs (S k))) <= d.
Lemma fast_unit dt N qs bs r d gyro tracker : dotq (qs O) (qs O) = 1 -> turning_fast dt N qs bs r d gyro tracker -> forall k, dotq (qs k) (qs k) = 1.
Proof. intros U T. induction k as [|k IH]; [exact U|]. destruct (T k) as (n & w & Un & _ & -> & _). rewrite product_size, IH, (about_unit n _ Un). ring. Qed.
Lemma kap_off kap h (bs b : v3) : kap <> 0 -> scale3 (h / 2) (sub3 bs (scale3 kap b)) = scale3 (- (kap * h / 2)) (sub3 b (scale3 (/ kap) bs)).
Proof. intros H. destruct bs as [a1 a2 a3], b as [b1 b2 b3]. vunfoldg. cbn [x3 y3 z3]. rnumg. f_equal; field; exact H. Qed.
Lemma kap_same k (g b w : v3) : sub3 (sub3 g (scale3 k b)) (sub3 w (scale3 k b)) = sub3 g w. Proof. vring. Qed.
Lemma kap_gain h k (bs w b c : v3) : scale3 (h / 2) (sub3 (sub3 (add3 w bs) (scale3 k b)) c) = add3 (scale3 (h / 2) (sub3 (sub3 bs (scale3 k b)) c)) (scale3 (h / 2) w). Proof. vring. Qed.
Lemma kap_mid kap h (bs b c : v3) : kap <> 0 -> scale3 (h / 2) (sub3 (sub3 bs (scale3 (kap - 1) b)) c) = scale3 (/ kap) (add3 (scale3 (kap - 1) (scale3 (h / 2) (sub3 bs (scale3 kap b)))) (scale3 (h / 2) (sub3 bs (scale3 kap c)))).
Proof. intros H. destruct bs as [a1 a2 a3], b as [b1 b2 b3], c as [c1 c2 c3]. vunfoldg. cbn [x3 y3 z3]. rnumg. f_equal; field; exact H. Qed.
Lemma kap_here kap h (bs b : v3) : scale3 (h / 2) (sub3 (sub3 bs (scale3 (kap - 1) b)) b) = scale3 (h / 2) (sub3 bs (scale3 kap b)). Proof. vring. Qed.
Lemma kap_move kap k h (x x' t v : v3) : kap <> 0 -> sub3 (add3 (scale3 (/ kap) (add3 (scale3 (kap - 1) x) x')) t) (add3 (add3 x t) (scale3 (- k * h / 2) v)) = scale3 (/ kap) (sub3 x' (add3 x (scale3 (- k * (kap * h / 2)) v))).
Proof. intros H. destruct x as [a1 a2 a3], x' as [b1 b2 b3], t as [c1 c2 c3], v as [d1 d2 d3]. vunfoldg. cbn [x3 y3 z3]. rnumg. f_equal; field; exact H. Qed.

Lemma fast_run : forall kap dt N lam mu nu, 0 < kap <= 2 -> 0 < dt -> (1 <= N)%nat -> (forall x y, 0 <= lam * (x * x) + 2 * mu * (x * y) + nu * (y * y)) -> exists eps K rho, 0 < eps /\ 0 < K /\ 0 < rho < 1 /\
  forall qs bs r d gyro tracker f, dotq (qs O) (qs O) = 1 -> dotq (a_q (f O)) (a_q (f O)) = 1 -> a_dq (f O) = zero3 -> even_cov (a_P (f O)) lam mu nu -> 0 <= r <= eps -> 0 <= d <= eps -> missed (qs O) (scale3 (/ kap) bs) (f O) <= eps ->
  turning_fast dt N qs bs r d gyro tracker -> (forall k, af_measurement (tracker k) (gyro_steps dt (fun j => sub3 (gyro k j) (scale3 (kap - 1) (a_b (f k)))) N (f k)) = Ok (f (S k))) ->
  forall k, missed (qs k) (scale3 (/ kap) bs) (f k) <= K * (rho ^ k * missed (qs O) (scale3 (/ kap) bs) (f O) + d + r ^ 2).
Proof.
  intros kap dt N lam mu nu HK H LN PS0. assert (KZ : kap <> 0) by lra. assert (PS : psd lam mu nu). { intros x y. unfold fm. assert (X := PS0 x y). lra. } clear PS0.
  destruct (noise_okN dt N H LN) as (HH & HA & HC & HD0 & HN0). set (h := INR N * dt) in *. set (an := nA dt N) in *. set (cn := nC dt N) in *. set (dn := nD dt N) in *. set (covs := covg h an cn dn lam mu nu).
  destruct (covg_conv h an cn dn HH HA HC HD0 HN0 lam mu nu PS) as (M & rho0 & M0 & RH & SZM & GC). fold covs in SZM, GC. destruct (g_inf h an cn dn HH HA HC HD0 HN0) as (K1B & K2N & K2B). set (i1 := g1_inf h an cn dn) in *. set (i2 := g2_inf h an cn dn) in *. clearbody i1 i2.
  destruct (preN_size dt N M H) as (B & B1 & _ & CB). destruct (cycle_N dt N H LN) as (cc & CC0 & CYC). set (E := grow N) in *. assert (E2 : 2 <= E) by apply grow_ge.
  set (v := SENSOR_SIGMA ^ 2). assert (V : 0 < v) by apply R_pos. set (Kb := Rabs i2 + M). assert (Kb0 : 0 <= Kb) by (unfold Kb; assert (X := Rabs_pos i2); lra). set (kh := kap * h / 2). assert (KH : 0 < kh <= h). { unfold kh. assert (0 < kap * h) by (apply Rmult_lt_0_compat; lra). assert (kap * h <= 2 * h) by (apply Rmult_le_compat_r; lra). lra. }
  assert (HKb : 0 <= h * (1 + Kb)) by (apply Rmult_le_pos; lra). set (Cs := E * (750 + 16 * (h * (1 + Kb)))). assert (Cs0 : 0 <= Cs) by (unfold Cs; apply Rmult_le_pos; lra).
  assert (GAM : 0 < - i2 * kh < 2 + 2 * (1 - i1 / 2)). { assert (0 < - i2 * kh) by (apply Rmult_lt_0_compat; lra). assert (- i2 * kh <= - i2 * h) by (apply Rmult_le_compat_l; lra). lra. }
  destruct (tri_conv (1 - i1 / 2) (- i2 * kh) Cs (M * (1 + h)) rho0) as (sig & SG & TC); [lra|exact GAM|exact Cs0|apply Rmult_le_pos; lra|exact RH|].
  set (c3 := (B / v + 1) * (2 * B / v)). assert (BV : 0 < B / v) by (apply Rdiv_lt_0_compat; lra). assert (C30 : 0 < c3). { unfold c3. apply Rmult_lt_0_compat; [lra|]. apply Rdiv_lt_0_compat; lra. }
  set (hh := 1 + h). assert (H0 : 1 < hh) by (unfold hh; lra).
  set (sm := Rmin 1 (sig / hh)). assert (SM0 : 0 < sm) by (apply Rmin_pos; [lra|apply Rdiv_lt_0_compat; lra]). assert (SM1 : sm <= 1) by apply Rmin_l. assert (SM2 : hh * sm <= sig). { apply Rle_trans with (hh * (sig / hh)); [apply Rmult_le_compat_l; [lra|apply Rmin_r]|right; field; lra]. }
  set (eta := Rmin 1 (sm / c3)). assert (ET : 0 < eta <= 1) by (split; [apply Rmin_pos; [lra|apply Rdiv_lt_0_compat; lra]|apply Rmin_l]). assert (ES : (B / v + 1) * (2 * (eta * B) / v) <= sm). { replace ((B / v + 1) * (2 * (eta * B) / v)) with (c3 * eta) by (unfold c3; field; lra). apply Rle_trans with (c3 * (sm / c3)); [apply Rmult_le_compat_l; [lra|apply Rmin_r]|right; field; lra]. }
  set (sE := (B / v + 1) * (2 * (eta * B) / v)) in *. assert (SE0 : 0 <= sE). { unfold sE. apply Rmult_le_pos; [lra|]. apply Rmult_le_pos; [|left; apply Rinv_0_lt_compat, V]. assert (0 <= eta * B) by (apply Rmult_le_pos; lra). lra. }
  set (e1 := Rmin (1 / (32 * E)) (cc * eta * dt / (8 * B))). assert (CE : 0 < cc * eta * dt) by (apply Rmult_lt_0_compat; [apply Rmult_lt_0_compat; lra|exact H]). assert (E10 : 0 < e1) by (apply Rmin_pos; apply Rdiv_lt_0_compat; lra). assert (E11 : E * (4 * e1) <= 1 / 8). { apply Rle_trans with (E * (4 * (1 / (32 * E)))); [apply Rmult_le_compat_l; [lra|]; apply Rmult_le_compat_l; [lra|apply Rmin_l]|right; field; lra]. }
  assert (E13 : e1 <= 1 / 64). { assert (2 * (4 * e1) <= E * (4 * e1)) by (apply Rmult_le_compat_r; lra). lra. }
  assert (E12 : B * (8 * e1) <= cc * eta * dt). { apply Rle_trans with (B * (8 * (cc * eta * dt / (8 * B)))); [apply Rmult_le_compat_l; [lra|]; apply Rmult_le_compat_l; [lra|apply Rmin_r]|right; field; lra]. }
  destruct (TC e1 E10) as (eps & K & rho & EP & K0 & RHO & RUN).
  set (ee := Rmin 1 (Rmin (eps / (2 * hh)) (e1 / (2 * hh)))). assert (IE1 : 0 < eps / (2 * hh)) by (apply Rdiv_lt_0_compat; lra). assert (IE2 : 0 < e1 / (2 * hh)) by (apply Rdiv_lt_0_compat; lra). assert (EE0 : 0 < ee) by (repeat apply Rmin_pos; lra).
  assert (EE1 : ee <= 1) by apply Rmin_l. assert (EE2 : 2 * (hh * ee) <= eps). { apply Rle_trans with (2 * (hh * (eps / (2 * hh)))); [apply Rmult_le_compat_l; [lra|]; apply Rmult_le_compat_l; [lra|]; eapply Rle_trans; [apply Rmin_r|apply Rmin_l]|right; field; lra]. } assert (EE3 : 2 * (hh * ee) <= e1). { apply Rle_trans with (2 * (hh * (e1 / (2 * hh)))); [|right; field; lra]. apply Rmult_le_compat_l; [lra|]. apply Rmult_le_compat_l; [lra|]. eapply Rle_trans; [apply Rmin_r|apply Rmin_r]. }
  exists ee, ((2 + 1 / kh) * K * (hh * hh)), rho. assert (ID : 0 < 1 / kh) by (apply Rdiv_lt_0_compat; lra). split; [exact EE0|]. split; [apply Rmult_lt_0_compat; [apply Rmult_lt_0_compat; lra|apply Rmult_lt_0_compat; lra]|]. split; [exact RHO|].
  intros qs bs r d gyro tracker f Us0 U0 DQ0 EV HR HD HM AR CY. assert (US := fast_unit _ _ _ _ _ _ _ _ Us0 AR). set (u := fun k => vec (error_quat (qs k) (a_q (f k)))). set (x := fun k => scale3 (h / 2) (sub3 bs (scale3 kap (a_b (f k))))).
  assert (XB : forall k, norm3 (x k) = kh * norm3 (sub3 (a_b (f k)) (scale3 (/ kap) bs))). { intros k. unfold x. rewrite (kap_off _ _ _ _ KZ), nscale, Rabs_Ropp. fold kh. rewrite Rabs_pos_eq by lra. reflexivity. }
  unfold missed in *. assert (NB0 := n3pos (sub3 (a_b (f O)) (scale3 (/ kap) bs))). assert (NQ0 := normq0 (subq (a_q (f O)) (qs O))). assert (SD : 0 <= dotq (a_q (f O)) (qs O)) by (apply near_side; [exact U0|exact Us0|lra]).
  set (dd := hh * d). assert (HDD : d <= dd /\ h / 2 * d <= dd) by (unfold dd, hh; assert (0 <= h * d) by (apply Rmult_le_pos; lra); lra). assert (DD1 : 0 <= dd <= hh * ee) by (unfold dd; split; [apply Rmult_le_pos; lra|apply Rmult_le_compat_l; lra]).
  set (th := r * h / 2). assert (TH1 : 0 <= th). { unfold th. assert (0 <= r * h) by (apply Rmult_le_pos; lra). lra. } assert (TH2 : 2 * th <= hh * ee). { unfold th, hh. assert (r * h <= ee * h) by (apply Rmult_le_compat_r; lra). lra. } assert (TH3 : th * th <= 1 * th) by (apply Rmult_le_compat_r; lra). assert (TH4 := sq0 th). set (D := dd + th * th). assert (HDe : 0 <= D <= eps) by (unfold D; lra).
  set (I := fun k => dotq (a_q (f k)) (a_q (f k)) = 1 /\ 0 <= qw (error_quat (qs k) (a_q (f k))) /\ a_dq (f k) = zero3 /\ within eta (a_P (f k)) (covs k)).
  destruct (err_dist _ _ U0 Us0 SD) as [ED1 ED2]. assert (S0 : norm3 (u O) + norm3 (x O) <= hh * (normq (subq (a_q (f O)) (qs O)) + norm3 (sub3 (a_b (f O)) (scale3 (/ kap) bs)))). { rewrite XB. unfold u, hh. assert (0 <= h * normq (subq (a_q (f O)) (qs O))) by (apply Rmult_le_pos; lra). assert (kh * norm3 (sub3 (a_b (f O)) (scale3 (/ kap) bs)) <= h * norm3 (sub3 (a_b (f O)) (scale3 (/ kap) bs))) by (apply Rmult_le_compat_r; lra). lra. }
  assert (MAIN := RUN I u x D). cbv zeta in MAIN. specialize (MAIN HDe).
  assert (SE1 : norm3 (u O) + norm3 (x O) <= eps). { eapply Rle_trans; [exact S0|]. assert (hh * (normq (subq (a_q (f O)) (qs O)) + norm3 (sub3 (a_b (f O)) (scale3 (/ kap) bs))) <= hh * ee) by (apply Rmult_le_compat_l; lra). lra. }
  assert (I0 : I O). { split; [exact U0|]. split; [rewrite err_parts; exact SD|]. split; [exact DQ0|]. unfold covs. cbn [covg]. apply even_within; [lra|exact PS|exact EV]. }
  specialize (MAIN SE1 I0).
  assert (FIN : forall k, I k /\ norm3 (u k) + norm3 (x k) <= e1 /\ norm3 (u k) + norm3 (x k) <= K * (rho ^ k * (norm3 (u O) + norm3 (x O)) + D)).
  { apply MAIN. clear MAIN. intros k (IU & IE & ID0 & IW) SK. assert (PK := covg_psd h an cn dn HA HN0 lam mu nu k PS). fold covs in PK. assert (SZ := CB (covs k) (SZM k)). destruct (AR k) as (n & w & Un & Hw & EQ & AG & AT). fold h in EQ. set (s := norm3 (u k) + norm3 (x k)) in *. assert (Nu := n3pos (u k)). assert (Nx := n3pos (x k)). assert (Sp : 0 <= s) by (unfold s; lra). assert (SU : norm3 (u k) <= s) by (unfold s; lra).
    assert (HAw : Rabs (w * h / 2) <= th). { unfold th, Rdiv. rewrite !Rabs_mult, (Rabs_pos_eq h), (Rabs_pos_eq (/ 2)) by lra. apply Rmult_le_compat_r; [lra|]. apply Rmult_le_compat_r; lra. }
    destruct (turned (a_q (f k)) (qs k) n (w * h / 2) (x k) IU (US k) IE Un ltac:(lra)) as (T1 & T2 & T3). { fold (u k). lra. } rewrite <- EQ in T1, T2, T3. fold (u k) in T2, T3. assert (HA0 := Rabs_pos (w * h / 2)). set (hw := w * h / 2) in *.
    set (bw := sub3 (add3 (scale3 w n) bs) (scale3 (kap - 1) (a_b (f k)))). assert (XW : forall b, scale3 (h / 2) (sub3 bw b) = add3 (scale3 (h / 2) (sub3 (sub3 bs (scale3 (kap - 1) (a_b (f k)))) b)) (scale3 hw n)). { intros b. unfold bw. rewrite kap_gain, scale_scale. do 2 f_equal. unfold hw. field. }
    assert (GY : forall j, (j < N)%nat -> norm3 (scale3 (h / 2) (sub3 (sub3 (gyro k j) (scale3 (kap - 1) (a_b (f k)))) bw)) <= dd). { intros j Lj. unfold bw. rewrite kap_same, nscale, Rabs_pos_eq by lra. assert (Z := AG j Lj). assert (h / 2 * norm3 (sub3 (gyro k j) (add3 (scale3 w n) bs)) <= h / 2 * d) by (apply Rmult_le_compat_l; lra). lra. }
    assert (ST := CYC eta B (covs k) (fun j => sub3 (gyro k j) (scale3 (kap - 1) (a_b (f k)))) (tracker k) (qs (S k)) bw (f k) (f (S k)) dd). specialize (ST (norm3 (vec (error_quat (qs (S k)) (a_q (f k)))) + norm3 (scale3 (h / 2) (sub3 bw (a_b (f k))))) ET B1 PK SZ IU (US (S k)) T1 ID0 IW). cbv zeta in ST. fold h in ST. specialize (ST eq_refl). fold an in ST. fold cn in ST. fold dn in ST. fold E in ST. rewrite !XW in ST. rewrite (kap_mid kap h bs (a_b (f k)) (a_b (f (S k))) KZ), kap_here in ST. fold (x k) in ST. fold (x (S k)) in ST. fold (u (S k)) in ST.
    set (u' := vec (error_quat (qs (S k)) (a_q (f k)))) in *. set (x' := add3 (x k) (scale3 hw n)) in *. assert (N1 : norm3 n = 1) by (unfold norm3; rnumg; rewrite Un; apply sqrt_1). assert (NX' : norm3 x' <= norm3 (x k) + th). { unfold x'. eapply Rle_trans; [apply nadd|]. rewrite nscale, N1. lra. } assert (Nu' := n3pos u'). assert (Nx' := n3pos x').
    set (s' := norm3 u' + norm3 x') in *. assert (Hs' : 0 <= s' <= 2 * s + 2 * th) by (unfold s', s; lra).
    assert (HG : E * (s' + 2 * dd) <= 1 / 8). { eapply Rle_trans; [|exact E11]. apply Rmult_le_compat_l; lra. }
    specialize (ST (proj1 DD1) ltac:(lra) GY ltac:(lra) HG). assert (HBs : B * (2 * (s' + dd)) <= cc * eta * dt). { eapply Rle_trans; [|exact E12]. apply Rmult_le_compat_l; lra. }
    specialize (ST HBs ltac:(fold v; fold sE; lra) (CY k)). fold v in ST. fold sE in ST.
    destruct (GC k) as (GK & G1 & G2). change (covs (S k)) with (nxg h an cn dn (covs k)) in *. unfold I. change (covs (S k)) with (nxg h an cn dn (covs k)). destruct ST as (A1 & A2 & A3 & A4 & A5 & A6 & A7). split; [split; [exact A1|]; split; [exact A2|]; split; [exact A3|exact A4]|].
    set (k1 := g1 h an (covs k)) in *. set (k2 := g2 h an cn (covs k)) in *. set (W := s' + 2 * dd) in *. assert (NUX : norm3 (sub3 (u k) (x k)) <= s) by apply nsub. set (rk := M * rho0 ^ k) in *. assert (RK : rk <= M). { unfold rk. assert (rho0 ^ k <= 1) by (rewrite <- (pow1 k); apply pow_incr; lra). assert (M * rho0 ^ k <= M * 1) by (apply Rmult_le_compat_l; lra). lra. }
    assert (K2U : Rabs k2 <= Kb) by (apply abs_le_2 in G2; unfold Kb; lra). set (R1 := norm3 (sub3 (sub3 u' x') (sub3 (u k) (x k)))) in *. assert (R10 : 0 <= R1) by apply n3pos. assert (S2 := sq0 s).
    set (T := E * (s * s + D)). assert (TT : 2 * (s * s + D) <= T) by (unfold T; apply Rmult_le_compat_r; lra). assert (T0 : 0 <= T) by lra.
    assert (BR : R1 <= 2 * T). { apply Rle_trans with (4 * (s * s) + 4 * D); [|lra]. eapply Rle_trans; [exact T3|]. assert (Q := sq_sum s th Sp TH1). assert ((norm3 (u k) + Rabs hw) * (norm3 (u k) + Rabs hw) <= (s + th) * (s + th)) by (apply Rmult_le_compat; lra). unfold D. lra. }
    assert (WW : W * W <= 12 * (s * s) + 12 * D). { assert (W <= 2 * (s + th + dd)) by (unfold W; lra). assert (W0 : 0 <= W) by (unfold W; lra). assert (W * W <= 2 * (s + th + dd) * (2 * (s + th + dd))) by (apply Rmult_le_compat; lra). assert (dd * dd <= 1 * dd) by (apply Rmult_le_compat_r; lra). unfold D. assert (Z1 := sq0 (s - th)). assert (Z2 := sq0 (s - dd)). assert (Z3 := sq0 (th - dd)). lra. }
    set (ew := E * (W * W)) in *. assert (EWT : 0 <= ew <= 12 * T). { split; [unfold ew; apply Rmult_le_pos; [lra|apply sq0]|]. apply Rle_trans with (E * (12 * (s * s) + 12 * D)); [apply Rmult_le_compat_l; lra|right; unfold T; ring]. }
    assert (YN : norm3 (sub3 u' x') <= s + R1). { rewrite (v_back (sub3 u' x') (sub3 (u k) (x k))). eapply Rle_trans; [apply nadd|]. fold R1. lra. }
    set (Y := norm3 (sub3 u' x') + ew + 3 * dd) in *. assert (DDD : dd <= D) by (unfold D; lra). assert (BY : Y <= s + 16 * T) by (unfold Y; lra).
    assert (SEY : sE * Y <= sE * s + 16 * T). { apply Rle_trans with (sE * (s + 16 * T)); [apply Rmult_le_compat_l; assumption|]. assert (sE * (16 * T) <= 1 * (16 * T)) by (apply Rmult_le_compat_r; lra). lra. }
    assert (P1 : norm3 (sub3 (u (S k)) (scale3 (1 - i1 / 2) (sub3 (u k) (x k)))) <= 60 * ew + sE * Y + 2 * dd + R1 + rk * s).
    { rewrite (v_chain _ (scale3 (1 - k1 / 2) (sub3 u' x')) _). eapply Rle_trans; [apply nadd|]. rewrite (v_chain (scale3 (1 - k1 / 2) (sub3 u' x')) (scale3 (1 - k1 / 2) (sub3 (u k) (x k))) _). eapply Rle_trans; [apply Rplus_le_compat_l, nadd|]. rewrite scale_sub, vec_gain, !nscale. fold R1. replace (1 - k1 / 2 - (1 - i1 / 2)) with (- ((k1 - i1) * / 2)) by field. rewrite Rabs_Ropp, Rabs_mult, (Rabs_pos_eq (/ 2)), (Rabs_pos_eq (1 - k1 / 2)) by lra. assert (RA := Rabs_pos (k1 - i1)). assert (Rabs (k1 - i1) * / 2 * norm3 (sub3 (u k) (x k)) <= rk * s) by (apply Rmult_le_compat; try apply n3pos; lra). assert ((1 - k1 / 2) * R1 <= 1 * R1) by (apply Rmult_le_compat_r; lra). lra. }
    replace (sub3 (add3 (scale3 (/ kap) (add3 (scale3 (kap - 1) (x k)) (x (S k)))) (scale3 hw n)) (add3 x' (scale3 (- k2 * h / 2) (sub3 u' x')))) with (scale3 (/ kap) (sub3 (x (S k)) (add3 (x k) (scale3 (- k2 * kh) (sub3 u' x'))))) in A7 by (symmetry; unfold x' at 1; unfold kh; apply kap_move, KZ). assert (IK : 0 < / kap) by (apply Rinv_0_lt_compat; lra). rewrite nscale, (Rabs_pos_eq (/ kap)) in A7 by lra.
    assert (A8 : norm3 (sub3 (x (S k)) (add3 (x k) (scale3 (- k2 * kh) (sub3 u' x')))) <= kh * (sE * Y + Rabs k2 * (ew + 3 * dd))). { apply Rmult_le_reg_l with (/ kap); [exact IK|]. eapply Rle_trans; [exact A7|]. right. unfold kh. field. exact KZ. } clear A7.
    assert (SYP : 0 <= sE * Y) by (apply Rmult_le_pos; [exact SE0|unfold Y; assert (Z := n3pos (sub3 u' x')); lra]).
    assert (P2 : norm3 (sub3 (x (S k)) (add3 (x k) (scale3 (- i2 * kh) (sub3 (u k) (x k))))) <= h * (sE * Y + Kb * (ew + 3 * dd)) + h * (Kb * R1) + h * (rk * s)).
    { rewrite (v_chain _ (add3 (x k) (scale3 (- k2 * kh) (sub3 u' x'))) _). eapply Rle_trans; [apply nadd|]. rewrite Rplus_assoc. apply Rplus_le_compat.
      - eapply Rle_trans; [exact A8|]. assert (KE : Rabs k2 * (ew + 3 * dd) <= Kb * (ew + 3 * dd)) by (apply Rmult_le_compat_r; lra). apply Rmult_le_compat; [lra| |lra|lra]. assert (0 <= Rabs k2 * (ew + 3 * dd)) by (apply Rmult_le_pos; [apply Rabs_pos|lra]). lra.
      - rewrite add_sub. rewrite (v_chain _ (scale3 (- k2 * kh) (sub3 (u k) (x k))) _). eapply Rle_trans; [apply nadd|]. rewrite scale_sub, vec_gain, !nscale. fold R1. replace (- k2 * kh) with (- (kh * k2)) by ring. replace (- (kh * k2) - - i2 * kh) with (- (kh * (k2 - i2))) by ring. rewrite !Rabs_Ropp, !Rabs_mult, !(Rabs_pos_eq kh) by lra. assert (RA := Rabs_pos (k2 - i2)). assert (Q1 : Rabs (k2 - i2) * norm3 (sub3 (u k) (x k)) <= rk * s) by (apply Rmult_le_compat; try apply n3pos; lra). assert (Q0 : 0 <= Rabs (k2 - i2) * norm3 (sub3 (u k) (x k))) by (apply Rmult_le_pos; [exact RA|apply n3pos]).
        assert (kh * (Rabs (k2 - i2) * norm3 (sub3 (u k) (x k))) <= h * (rk * s)) by (apply Rmult_le_compat; lra). assert (Q3 : 0 <= Rabs k2 * R1) by (apply Rmult_le_pos; [apply Rabs_pos|exact R10]). assert (Q4 : Rabs k2 * R1 <= Kb * R1) by (apply Rmult_le_compat_r; lra). assert (kh * (Rabs k2 * R1) <= h * (Kb * R1)) by (apply Rmult_le_compat; lra). lra. }
    assert (B1' : Kb * (ew + 3 * dd) + Kb * R1 <= Kb * (16 * T)). { rewrite <- Rmult_plus_distr_l. apply Rmult_le_compat_l; lra. }
    assert (B2' : h * (sE * Y + (Kb * (ew + 3 * dd) + Kb * R1)) <= h * (sE * s + 16 * ((1 + Kb) * T))). { apply Rmult_le_compat_l; lra. }
    assert (SES : hh * (sE * s) <= sig * s). { rewrite <- Rmult_assoc. apply Rmult_le_compat_r; [exact Sp|]. assert (hh * sE <= hh * sm) by (apply Rmult_le_compat_l; lra). lra. } unfold hh in SES.
    replace ((M * (1 + h) * rho0 ^ k + sig + Cs * s) * s + Cs * D) with (rk * s + h * (rk * s) + sig * s + 750 * T + 16 * (h * ((1 + Kb) * T))) by (unfold rk, Cs, T; ring). lra. }
  intros k. destruct (FIN k) as ((IU & IE & _) & _ & BND). rewrite err_parts in IE. destruct (err_dist _ _ IU (US k) IE) as [_ ED]. assert (NB := n3pos (sub3 (a_b (f k)) (scale3 (/ kap) bs))). assert (BX : norm3 (sub3 (a_b (f k)) (scale3 (/ kap) bs)) = 1 / kh * norm3 (x k)) by (rewrite XB; field; lra). rewrite BX. assert (NU := n3pos (u k)). assert (NXk := n3pos (x k)).
  assert (RK : 0 <= rho ^ k) by (apply pow_le; lra). apply Rle_trans with ((2 + 1 / kh) * (norm3 (u k) + norm3 (x k))). { unfold u in *. assert (0 <= 1 / kh * norm3 (vec (error_quat (qs k) (a_q (f k))))) by (apply Rmult_le_pos; lra). lra. }
  rewrite !Rmult_assoc. apply Rmult_le_compat_l; [lra|]. eapply Rle_trans; [exact BND|]. apply Rmult_le_compat_l; [lra|]. rewrite <- Rmult_assoc. set (e0 := normq (subq (a_q (f O)) (qs O)) + norm3 (sub3 (a_b (f O)) (scale3 (/ kap) bs))) in *. assert (E00 : 0 <= e0) by (unfold e0; lra). assert (HH2 : hh <= hh * hh) by (assert (hh * 1 <= hh * hh) by (apply Rmult_le_compat_l; lra); lra).
  assert (Z1 : rho ^ k * (norm3 (u O) + norm3 (x O)) <= hh * hh * (rho ^ k * e0)). { apply Rle_trans with (rho ^ k * (hh * e0)); [apply Rmult_le_compat_l; assumption|]. replace (rho ^ k * (hh * e0)) with (hh * (rho ^ k * e0)) by ring. apply Rmult_le_compat_r; [apply Rmult_le_pos; assumption|exact HH2]. }
  assert (Z2 : dd <= hh * hh * d) by (unfold dd; apply Rmult_le_compat_r; lra). assert (Z3 : th * th <= hh * hh * r ^ 2). { replace (th * th) with (h * h / 4 * r ^ 2) by (unfold th; field). apply Rmult_le_compat_r; [apply pow2_ge_0|]. unfold hh. assert (X := sq0 h). lra. }
  unfold D. lra.
Qed.
