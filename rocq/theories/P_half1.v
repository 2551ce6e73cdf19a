(** * Lemmas: the star-tracker filter when the bias is subtracted from its gyro reading before it subtracts it again *)
From Coq Require Import Reals Lra Psatz Lia.
From Verif Require Import Num Vec Mat6 M_vector M_quaternion M_obs S_rot S_obs S_steady P_quat P_wheel P_dyn P_dyn2 P_obs P_obs3 P_steady Props_obs P_farr P_est1 P_est2 P_est3 P_tot3 P_orb3 Props_est P_tri1 P_tri2 P_tri3 P_tri4 P_tri5 Props_tri.
Local Open Scope R_scope.

(** the steady gains leave room for twice the bias gain *)
Lemma gains_double dt : 0 < dt -> 0 < - k2_inf dt * dt < 2 + 2 * (1 - k1_inf dt / 2).
Proof.
  intros H. destruct (gains_inf dt H) as (K1 & K2 & K3). split; [lra|]. destruct (noise_ok dt H) as (N1 & N2 & N3 & N4). assert (V := R_pos). destruct (st_facts dt (fa dt) (fc dt) (fd dt) (SENSOR_SIGMA ^ 2) H N2 N3 N1 V) as (E0 & U0 & UR & _ & s & S0 & US & M0 & UE). unfold k1_inf, k2_inf, st_p, st_q in *.
  set (u := st_u dt (fa dt) (fc dt) (fd dt) (SENSOR_SIGMA ^ 2)) in *. set (v := SENSOR_SIGMA ^ 2) in *. set (e := sqrt (fd dt)) in *. set (m := st_m dt (fa dt) (fc dt) (fd dt) v) in *.
  replace (- (- e * v / u / v) * dt) with (dt * e / u) by (field; lra). replace (2 + 2 * (1 - v * (1 - v / (u * u)) / v / 2)) with ((3 * (u * u) + v) / (u * u)) by (field; lra).
  assert (UU : 0 < u * u) by (apply Rmult_lt_0_compat; exact U0). apply Rmult_lt_reg_r with (u * u); [exact UU|]. replace (dt * e / u * (u * u)) with (dt * e * u) by (field; lra). replace ((3 * (u * u) + v) / (u * u) * (u * u)) with (3 * (u * u) + v) by (field; lra).
  assert (MU : m * u = u * u + v) by (replace m with (2 * u - s) by lra; lra). assert (dt * e / 2 * u < m * u) by (apply Rmult_lt_compat_r; assumption). lra.
Qed.
Lemma half_off dt (bs b : v3) : scale3 (dt / 2) (sub3 bs (scale3 2 b)) = scale3 (- dt) (sub3 b (scale3 (1 / 2) bs)).
Proof. destruct bs as [a1 a2 a3], b as [b1 b2 b3]. vunfoldg. cbn [x3 y3 z3]. rnumg. f_equal; field. Qed.
Lemma off_gain2 dt (bs w b c : v3) : scale3 (dt / 2) (sub3 (sub3 (add3 w bs) b) c) = add3 (scale3 (dt / 2) (sub3 (sub3 bs b) c)) (scale3 (dt / 2) w). Proof. vring. Qed.
Lemma off_same (g b w : v3) : sub3 (sub3 g b) (sub3 w b) = sub3 g w. Proof. vring. Qed.
Lemma off_mid dt (bs b c : v3) : scale3 (dt / 2) (sub3 (sub3 bs b) c) = scale3 (1 / 2) (add3 (scale3 (dt / 2) (sub3 bs (scale3 2 b))) (scale3 (dt / 2) (sub3 bs (scale3 2 c)))).
Proof. destruct bs as [a1 a2 a3], b as [b1 b2 b3], c as [c1 c2 c3]. vunfoldg. cbn [x3 y3 z3]. rnumg. f_equal; field. Qed.
Lemma off_here dt (bs b : v3) : scale3 (dt / 2) (sub3 (sub3 bs b) b) = scale3 (dt / 2) (sub3 bs (scale3 2 b)). Proof. vring. Qed.
Lemma off_move2 k dt (x x' t v : v3) : sub3 (add3 (scale3 (1 / 2) (add3 x x')) t) (add3 (add3 x t) (scale3 (- k * dt / 2) v)) = scale3 (1 / 2) (sub3 x' (add3 x (scale3 (- k * dt) v))).
Proof. destruct x as [a1 a2 a3], x' as [b1 b2 b3], t as [c1 c2 c3], v as [d1 d2 d3]. vunfoldg. cbn [x3 y3 z3]. rnumg. f_equal; field. Qed.

Lemma twice_run : forall dt lam mu nu, 0 < dt -> (forall x y, 0 <= lam * (x * x) + 2 * mu * (x * y) + nu * (y * y)) -> exists eps K rho, 0 < eps /\ 0 < K /\ 0 < rho < 1 /\
  forall qs bs r d gyro tracker f, dotq (qs O) (qs O) = 1 -> dotq (a_q (f O)) (a_q (f O)) = 1 -> a_dq (f O) = zero3 -> even_cov (a_P (f O)) lam mu nu -> 0 <= r <= eps -> 0 <= d <= eps -> missed (qs O) (scale3 (1 / 2) bs) (f O) <= eps ->
  turning dt qs bs r d gyro tracker -> (forall k, af_measurement (tracker k) (af_propagate (sub3 (gyro k) (a_b (f k))) dt (f k)) = Ok (f (S k))) ->
  forall k, missed (qs k) (scale3 (1 / 2) bs) (f k) <= K * (rho ^ k * missed (qs O) (scale3 (1 / 2) bs) (f O) + d + r ^ 2).
Proof.
  intros dt lam mu nu H PS0. assert (PS : psd lam mu nu). { intros x y. unfold fm. assert (X := PS0 x y). lra. } clear PS0.
  destruct (gains_conv dt lam mu nu H PS) as (M & rho0 & M0 & RH & GC). destruct (gains_inf dt H) as (K1B & K2N & _). assert (K2B := gains_double dt H). destruct (covs_bound dt lam mu nu H PS) as (B & B1 & CB). destruct (cycle_est dt H) as (cc & CC0 & CYC).
  set (v := SENSOR_SIGMA ^ 2). assert (V : 0 < v) by apply R_pos. set (Kb := Rabs (k2_inf dt) + M). assert (Kb0 : 0 <= Kb) by (unfold Kb; assert (X := Rabs_pos (k2_inf dt)); lra).
    set (Cs := 757 + 32 * (dt * (1 + Kb))). assert (Cs0 : 0 <= Cs) by (unfold Cs; assert (0 <= dt * (1 + Kb)) by (apply Rmult_le_pos; lra); lra).
  destruct (tri_conv (1 - k1_inf dt / 2) (- k2_inf dt * dt) Cs (M * (1 + 2 * dt)) rho0) as (sig & SG & TC); [lra|lra|lra|apply Rmult_le_pos; lra|exact RH|].
  set (c3 := (B / v + 1) * (2 * B / v)). assert (BV : 0 < B / v) by (apply Rdiv_lt_0_compat; lra). assert (C30 : 0 < c3). { unfold c3. apply Rmult_lt_0_compat; [lra|]. apply Rdiv_lt_0_compat; lra. }
  set (sm := Rmin 1 (sig / (2 + 2 * dt))). assert (SM0 : 0 < sm) by (apply Rmin_pos; [lra|apply Rdiv_lt_0_compat; lra]). assert (SM1 : sm <= 1) by apply Rmin_l. assert (SM2 : (2 + 2 * dt) * sm <= sig). { apply Rle_trans with ((2 + 2 * dt) * (sig / (2 + 2 * dt))); [apply Rmult_le_compat_l; [lra|apply Rmin_r]|right; field; lra]. }
  set (eta := Rmin 1 (sm / c3)). assert (ET : 0 < eta <= 1) by (split; [apply Rmin_pos; [lra|apply Rdiv_lt_0_compat; lra]|apply Rmin_l]). assert (ES : (B / v + 1) * (2 * (eta * B) / v) <= sm). { replace ((B / v + 1) * (2 * (eta * B) / v)) with (c3 * eta) by (unfold c3; field; lra). apply Rle_trans with (c3 * (sm / c3)); [apply Rmult_le_compat_l; [lra|apply Rmin_r]|right; field; lra]. }
  set (sE := (B / v + 1) * (2 * (eta * B) / v)) in *. assert (SE0 : 0 <= sE). { unfold sE. apply Rmult_le_pos; [lra|]. apply Rmult_le_pos; [|left; apply Rinv_0_lt_compat, V]. assert (0 <= eta * B) by (apply Rmult_le_pos; lra). lra. }
  set (e1 := Rmin (1 / 32) (cc * eta * dt / (8 * B))). assert (CE : 0 < cc * eta * dt) by (repeat apply Rmult_lt_0_compat; lra). assert (E10 : 0 < e1) by (apply Rmin_pos; [lra|apply Rdiv_lt_0_compat; lra]). assert (E11 : e1 <= 1 / 32) by apply Rmin_l. assert (E12 : B * (8 * e1) <= cc * eta * dt). { apply Rle_trans with (B * (8 * (cc * eta * dt / (8 * B)))); [apply Rmult_le_compat_l; [lra|]; apply Rmult_le_compat_l; [lra|apply Rmin_r]|right; field; lra]. }
  destruct (TC e1 E10) as (eps & K & rho & EP & K0 & RHO & RUN). set (h := 1 + dt). assert (H0 : 1 < h) by (unfold h; lra).
  set (ee := Rmin 1 (Rmin (eps / (2 * h)) (e1 / (2 * h)))). assert (IE1 : 0 < eps / (2 * h)) by (apply Rdiv_lt_0_compat; lra). assert (IE2 : 0 < e1 / (2 * h)) by (apply Rdiv_lt_0_compat; lra). assert (EE0 : 0 < ee) by (repeat apply Rmin_pos; lra).
  assert (EE1 : ee <= 1) by apply Rmin_l. assert (EE2 : 2 * (h * ee) <= eps). { apply Rle_trans with (2 * (h * (eps / (2 * h)))); [apply Rmult_le_compat_l; [lra|]; apply Rmult_le_compat_l; [lra|]; eapply Rle_trans; [apply Rmin_r|apply Rmin_l]|right; field; lra]. } assert (EE3 : 2 * (h * ee) <= e1). { apply Rle_trans with (2 * (h * (e1 / (2 * h)))); [|right; field; lra]. apply Rmult_le_compat_l; [lra|]. apply Rmult_le_compat_l; [lra|]. eapply Rle_trans; [apply Rmin_r|apply Rmin_r]. }
  exists ee, ((2 + 2 / dt) * K * (h * h)), rho. assert (ID : 0 < 2 / dt) by (apply Rdiv_lt_0_compat; lra). split; [exact EE0|]. split; [apply Rmult_lt_0_compat; [apply Rmult_lt_0_compat; lra|apply Rmult_lt_0_compat; lra]|]. split; [exact RHO|].
  intros qs bs r d gyro tracker f Us0 U0 DQ0 EV HR HD HM AR CY. assert (US := turning_unit _ _ _ _ _ _ _ Us0 AR). set (u := fun k => vec (error_quat (qs k) (a_q (f k)))). set (x := fun k => scale3 (dt / 2) (sub3 bs (scale3 2 (a_b (f k))))).
  assert (XB : forall k, norm3 (x k) = dt * norm3 (sub3 (a_b (f k)) (scale3 (1 / 2) bs))). { intros k. unfold x. rewrite half_off, nscale, Rabs_Ropp, Rabs_pos_eq by lra. reflexivity. }
  unfold missed in *. assert (NB0 := n3pos (sub3 (a_b (f O)) (scale3 (1 / 2) bs))). assert (NQ0 := normq0 (subq (a_q (f O)) (qs O))). assert (SD : 0 <= dotq (a_q (f O)) (qs O)) by (apply near_side; [exact U0|exact Us0|lra]).
  set (dd := h * d). assert (HDD : d <= dd /\ dt / 2 * d <= dd) by (unfold dd, h; assert (0 <= dt * d) by (apply Rmult_le_pos; lra); lra). assert (DD1 : 0 <= dd <= h * ee) by (unfold dd; split; [apply Rmult_le_pos; lra|apply Rmult_le_compat_l; lra]).
  set (th := r * dt / 2). assert (TH1 : 0 <= th). { unfold th. assert (0 <= r * dt) by (apply Rmult_le_pos; lra). lra. } assert (TH2 : 2 * th <= h * ee). { unfold th, h. assert (r * dt <= ee * dt) by (apply Rmult_le_compat_r; lra). lra. } assert (TH3 : th * th <= 1 * th) by (apply Rmult_le_compat_r; lra). assert (TH4 := sq0 th). set (D := dd + th * th). assert (HDe : 0 <= D <= eps) by (unfold D; lra).
  set (I := fun k => dotq (a_q (f k)) (a_q (f k)) = 1 /\ 0 <= qw (error_quat (qs k) (a_q (f k))) /\ a_dq (f k) = zero3 /\ within eta (a_P (f k)) (covs dt lam mu nu k)).
  destruct (err_dist _ _ U0 Us0 SD) as [ED1 ED2]. assert (S0 : norm3 (u O) + norm3 (x O) <= h * (normq (subq (a_q (f O)) (qs O)) + norm3 (sub3 (a_b (f O)) (scale3 (1 / 2) bs)))). { rewrite XB. unfold u, h. assert (0 <= dt * normq (subq (a_q (f O)) (qs O))) by (apply Rmult_le_pos; lra). assert (0 <= dt * norm3 (sub3 (a_b (f O)) (scale3 (1 / 2) bs))) by (apply Rmult_le_pos; lra). lra. }
  assert (MAIN := RUN I u x D). cbv zeta in MAIN. specialize (MAIN HDe).
  assert (SE1 : norm3 (u O) + norm3 (x O) <= eps). { eapply Rle_trans; [exact S0|]. assert (h * (normq (subq (a_q (f O)) (qs O)) + norm3 (sub3 (a_b (f O)) (scale3 (1 / 2) bs))) <= h * ee) by (apply Rmult_le_compat_l; lra). lra. }
  assert (I0 : I O). { split; [exact U0|]. split; [rewrite err_parts; exact SD|]. split; [exact DQ0|]. cbn [covs]. apply even_within; [lra|exact PS|exact EV]. }
  specialize (MAIN SE1 I0).
  assert (FIN : forall k, I k /\ norm3 (u k) + norm3 (x k) <= e1 /\ norm3 (u k) + norm3 (x k) <= K * (rho ^ k * (norm3 (u O) + norm3 (x O)) + D)).
  { apply MAIN. clear MAIN. intros k (IU & IE & ID0 & IW) SK. destruct (CB k) as (PK & SZ1 & SZ2). destruct (AR k) as (n & w & Un & Hw & EQ & AG & AT). set (s := norm3 (u k) + norm3 (x k)) in *. assert (Nu := n3pos (u k)). assert (Nx := n3pos (x k)). assert (Sp : 0 <= s) by (unfold s; lra). assert (SU : norm3 (u k) <= s) by (unfold s; lra).
    assert (HA : Rabs (w * dt / 2) <= th). { unfold th, Rdiv. rewrite !Rabs_mult, (Rabs_pos_eq dt), (Rabs_pos_eq (/ 2)) by lra. apply Rmult_le_compat_r; [lra|]. apply Rmult_le_compat_r; lra. }
    destruct (turned (a_q (f k)) (qs k) n (w * dt / 2) (x k) IU (US k) IE Un ltac:(lra)) as (T1 & T2 & T3). { fold (u k). lra. } rewrite <- EQ in T1, T2, T3. fold (u k) in T2, T3. assert (HA0 := Rabs_pos (w * dt / 2)). set (hw := w * dt / 2) in *.
    set (bw := sub3 (add3 (scale3 w n) bs) (a_b (f k))). assert (XW : forall b, scale3 (dt / 2) (sub3 bw b) = add3 (scale3 (dt / 2) (sub3 (sub3 bs (a_b (f k))) b)) (scale3 hw n)). { intros b. unfold bw. rewrite off_gain2, scale_scale. do 2 f_equal. unfold hw. field. }
    assert (GY : norm3 (scale3 (dt / 2) (sub3 (sub3 (gyro k) (a_b (f k))) bw)) <= dd). { unfold bw. rewrite off_same, nscale, Rabs_pos_eq by lra. assert (dt / 2 * norm3 (sub3 (gyro k) (add3 (scale3 w n) bs)) <= dt / 2 * d) by (apply Rmult_le_compat_l; lra). lra. }
    assert (ST := CYC eta B (covs dt lam mu nu k) (sub3 (gyro k) (a_b (f k))) (tracker k) (qs (S k)) bw (f k) (f (S k)) dd). specialize (ST (norm3 (vec (error_quat (qs (S k)) (a_q (f k)))) + norm3 (scale3 (dt / 2) (sub3 bw (a_b (f k))))) ET B1 PK SZ1 SZ2 IU (US (S k)) T1 ID0 IW). cbv zeta in ST. specialize (ST eq_refl). rewrite !XW in ST. rewrite (off_mid dt bs (a_b (f k)) (a_b (f (S k)))), off_here in ST. fold (x k) in ST. fold (x (S k)) in ST. fold (u (S k)) in ST.
    set (u' := vec (error_quat (qs (S k)) (a_q (f k)))) in *. set (x' := add3 (x k) (scale3 hw n)) in *. assert (N1 : norm3 n = 1) by (unfold norm3; rnumg; rewrite Un; apply sqrt_1). assert (NX' : norm3 x' <= norm3 (x k) + th). { unfold x'. eapply Rle_trans; [apply nadd|]. rewrite nscale, N1. lra. } assert (Nu' := n3pos u'). assert (Nx' := n3pos x').
    set (s' := norm3 u' + norm3 x') in *. assert (Hs' : 0 <= s' <= 2 * s + 2 * th) by (unfold s', s; lra).
    specialize (ST (proj1 DD1) ltac:(lra) GY ltac:(lra)). assert (HBs : B * (2 * (s' + dd)) <= cc * eta * dt). { eapply Rle_trans; [|exact E12]. apply Rmult_le_compat_l; lra. }
    specialize (ST HBs ltac:(fold v; fold sE; lra) (CY k)). fold v in ST. fold sE in ST.
    destruct (GC k) as (GK & G1 & G2). unfold kk1, kk2 in GK, G1, G2. unfold I. cbn [covs]. destruct (covs dt lam mu nu k) as [[p q] r0]. destruct ST as (A1 & A2 & A3 & A4 & A5 & A6 & A7). split; [split; [exact A1|]; split; [exact A2|]; split; [exact A3|exact A4]|].
    set (k1 := gain1 dt p q r0) in *. set (k2 := gain2 dt p q r0) in *. set (W := s' + 2 * dd) in *. assert (NUX : norm3 (sub3 (u k) (x k)) <= s) by apply nsub. set (rk := M * rho0 ^ k) in *. assert (RK : rk <= M). { unfold rk. assert (rho0 ^ k <= 1) by (rewrite <- (pow1 k); apply pow_incr; lra). assert (M * rho0 ^ k <= M * 1) by (apply Rmult_le_compat_l; lra). lra. }
    assert (K2U : Rabs k2 <= Kb) by (apply abs_le_2 in G2; unfold Kb; lra). set (R1 := norm3 (sub3 (sub3 u' x') (sub3 (u k) (x k)))) in *. assert (R10 : 0 <= R1) by apply n3pos.
    assert (BR : R1 <= 4 * (s * s) + 4 * D). { eapply Rle_trans; [exact T3|]. assert (Q := sq_sum s th Sp TH1). assert ((norm3 (u k) + Rabs hw) * (norm3 (u k) + Rabs hw) <= (s + th) * (s + th)) by (apply Rmult_le_compat; lra). unfold D. lra. }
    assert (WW : W * W <= 12 * (s * s) + 12 * D). { assert (W <= 2 * (s + th + dd)) by (unfold W; lra). assert (W0 : 0 <= W) by (unfold W; lra). assert (W * W <= 2 * (s + th + dd) * (2 * (s + th + dd))) by (apply Rmult_le_compat; lra). assert (dd * dd <= 1 * dd) by (apply Rmult_le_compat_r; lra). unfold D. assert (Z1 := sq0 (s - th)). assert (Z2 := sq0 (s - dd)). assert (Z3 := sq0 (th - dd)). lra. }
    assert (YN : norm3 (sub3 u' x') <= s + R1). { rewrite (v_back (sub3 u' x') (sub3 (u k) (x k))). eapply Rle_trans; [apply nadd|]. fold R1. lra. }
    set (Y := norm3 (sub3 u' x') + 2 * (W * W) + 3 * dd) in *. assert (DDD : dd <= D) by (unfold D; lra). assert (S2 := sq0 s). assert (BY : Y <= s + 28 * (s * s) + 31 * D) by (unfold Y; lra).
    assert (SEY : sE * Y <= sE * s + 28 * (s * s) + 31 * D). { apply Rle_trans with (sE * (s + 28 * (s * s) + 31 * D)); [apply Rmult_le_compat_l; assumption|]. assert (sE * (28 * (s * s) + 31 * D) <= 1 * (28 * (s * s) + 31 * D)) by (apply Rmult_le_compat_r; lra). lra. }
    assert (P1 : norm3 (sub3 (u (S k)) (scale3 (1 - k1_inf dt / 2) (sub3 (u k) (x k)))) <= 60 * (W * W) + sE * Y + 2 * dd + R1 + rk * s).
    { rewrite (v_chain _ (scale3 (1 - k1 / 2) (sub3 u' x')) _). eapply Rle_trans; [apply nadd|]. rewrite (v_chain (scale3 (1 - k1 / 2) (sub3 u' x')) (scale3 (1 - k1 / 2) (sub3 (u k) (x k))) _). eapply Rle_trans; [apply Rplus_le_compat_l, nadd|]. rewrite scale_sub, vec_gain, !nscale. fold R1. replace (1 - k1 / 2 - (1 - k1_inf dt / 2)) with (- ((k1 - k1_inf dt) * / 2)) by field. rewrite Rabs_Ropp, Rabs_mult, (Rabs_pos_eq (/ 2)), (Rabs_pos_eq (1 - k1 / 2)) by lra. assert (RA := Rabs_pos (k1 - k1_inf dt)). assert (Rabs (k1 - k1_inf dt) * / 2 * norm3 (sub3 (u k) (x k)) <= rk * s) by (apply Rmult_le_compat; try apply n3pos; lra). assert ((1 - k1 / 2) * R1 <= 1 * R1) by (apply Rmult_le_compat_r; lra). lra. }
    replace (sub3 (add3 (scale3 (1 / 2) (add3 (x k) (x (S k)))) (scale3 hw n)) (add3 x' (scale3 (- k2 * dt / 2) (sub3 u' x')))) with (scale3 (1 / 2) (sub3 (x (S k)) (add3 (x k) (scale3 (- k2 * dt) (sub3 u' x'))))) in A7 by (symmetry; unfold x' at 1; apply off_move2). rewrite nscale, (Rabs_pos_eq (1 / 2)) in A7 by lra. assert (P2 : norm3 (sub3 (x (S k)) (add3 (x k) (scale3 (- k2_inf dt * dt) (sub3 (u k) (x k))))) <= dt * (sE * Y + Kb * (2 * (W * W) + 3 * dd)) + dt * (Kb * R1) + 2 * dt * (rk * s)).
    { rewrite (v_chain _ (add3 (x k) (scale3 (- k2 * dt) (sub3 u' x'))) _). eapply Rle_trans; [apply nadd|]. rewrite Rplus_assoc. apply Rplus_le_compat.
      - assert (Z : dt / 2 * (sE * Y + Rabs k2 * (2 * (W * W) + 3 * dd)) <= dt / 2 * (sE * Y + Kb * (2 * (W * W) + 3 * dd))) by (apply Rmult_le_compat_l; [lra|]; apply Rplus_le_compat_l, Rmult_le_compat_r; [assert (X := sq0 W); lra|exact K2U]). lra.
      - rewrite add_sub. rewrite (v_chain _ (scale3 (- k2 * dt) (sub3 (u k) (x k))) _). eapply Rle_trans; [apply nadd|]. rewrite scale_sub, vec_gain, !nscale. fold R1. replace (- k2 * dt) with (- (dt * k2)) by ring. replace (- (dt * k2) - - k2_inf dt * dt) with (- (dt * (k2 - k2_inf dt))) by ring. rewrite !Rabs_Ropp, !Rabs_mult, !(Rabs_pos_eq dt) by lra. assert (RA := Rabs_pos (k2 - k2_inf dt)). assert (Rabs (k2 - k2_inf dt) * norm3 (sub3 (u k) (x k)) <= rk * s) by (apply Rmult_le_compat; try apply n3pos; lra). assert (dt * (Rabs (k2 - k2_inf dt) * norm3 (sub3 (u k) (x k))) <= dt * (rk * s)) by (apply Rmult_le_compat_l; lra). assert (0 <= rk * s) by (eapply Rle_trans; [|eassumption]; apply Rmult_le_pos; [exact RA|apply n3pos]). assert (0 <= dt * (rk * s)) by (apply Rmult_le_pos; lra). assert (Rabs k2 * R1 <= Kb * R1) by (apply Rmult_le_compat_r; lra). assert (dt * (Rabs k2 * R1) <= dt * (Kb * R1)) by (apply Rmult_le_compat_l; lra). lra. }
    assert (B1' : Kb * (2 * (W * W) + 3 * dd) + Kb * R1 <= Kb * (28 * (s * s) + 31 * D)). { rewrite <- Rmult_plus_distr_l. apply Rmult_le_compat_l; lra. } assert (KSD : 0 <= Kb * (s * s + D)) by (apply Rmult_le_pos; lra).
    assert (B2' : dt * (sE * Y + (Kb * (2 * (W * W) + 3 * dd) + Kb * R1)) <= dt * (sE * s + 31 * ((1 + Kb) * (s * s + D)))). { apply Rmult_le_compat_l; [lra|]. assert (0 <= Kb * (s * s)) by (apply Rmult_le_pos; lra). lra. }
    assert (SES : (1 + dt) * (sE * s) <= sig * s). { rewrite <- Rmult_assoc. apply Rmult_le_compat_r; [exact Sp|]. assert ((1 + dt) * sE <= (2 + 2 * dt) * sm) by (apply Rmult_le_compat; lra). lra. }
    assert (DK : 0 <= dt * ((1 + Kb) * (s * s + D))) by (apply Rmult_le_pos; [lra|]; apply Rmult_le_pos; lra).
    replace ((M * (1 + 2 * dt) * rho0 ^ k + sig + Cs * s) * s + Cs * D) with (rk * s + 2 * dt * (rk * s) + sig * s + 757 * (s * s + D) + 32 * (dt * ((1 + Kb) * (s * s + D)))) by (unfold rk, Cs; ring). lra. }
  intros k. destruct (FIN k) as ((IU & IE & _) & _ & BND). rewrite err_parts in IE. destruct (err_dist _ _ IU (US k) IE) as [_ ED]. assert (NB := n3pos (sub3 (a_b (f k)) (scale3 (1 / 2) bs))). assert (BX : norm3 (sub3 (a_b (f k)) (scale3 (1 / 2) bs)) = 1 / dt * norm3 (x k)) by (rewrite XB; field; lra). rewrite BX. assert (NU := n3pos (u k)). assert (NXk := n3pos (x k)).
  assert (RK : 0 <= rho ^ k) by (apply pow_le; lra). apply Rle_trans with ((2 + 2 / dt) * (norm3 (u k) + norm3 (x k))). { unfold u in *. assert (0 <= 2 / dt * norm3 (vec (error_quat (qs k) (a_q (f k))))) by (apply Rmult_le_pos; lra). lra. }
  rewrite !Rmult_assoc. apply Rmult_le_compat_l; [lra|]. eapply Rle_trans; [exact BND|]. apply Rmult_le_compat_l; [lra|]. rewrite <- Rmult_assoc. set (e0 := normq (subq (a_q (f O)) (qs O)) + norm3 (sub3 (a_b (f O)) (scale3 (1 / 2) bs))) in *. assert (E00 : 0 <= e0) by (unfold e0; lra). assert (HH : h <= h * h) by (assert (h * 1 <= h * h) by (apply Rmult_le_compat_l; lra); lra).
  assert (Z1 : rho ^ k * (norm3 (u O) + norm3 (x O)) <= h * h * (rho ^ k * e0)). { apply Rle_trans with (rho ^ k * (h * e0)); [apply Rmult_le_compat_l; assumption|]. replace (rho ^ k * (h * e0)) with (h * (rho ^ k * e0)) by ring. apply Rmult_le_compat_r; [apply Rmult_le_pos; assumption|exact HH]. }
  assert (Z2 : dd <= h * h * d) by (unfold dd; apply Rmult_le_compat_r; lra). assert (Z3 : th * th <= h * h * r ^ 2). { replace (th * th) with (dt * dt / 4 * r ^ 2) by (unfold th; field). apply Rmult_le_compat_r; [apply pow2_ge_0|]. unfold h. assert (X := sq0 dt). lra. }
  unfold D. lra.
Qed.
