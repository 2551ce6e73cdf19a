(** * Lemmas: one cycle of the attitude filter on a body that turns, in a Lyapunov function *)
From Coq Require Import Reals Lra Psatz Lia.
From Verif Require Import Num Vec Mat6 M_vector M_quaternion M_obs S_rot S_obs S_steady P_quat P_wheel P_dyn P_dyn2 P_obs P_obs3 P_steady Props_obs P_farr P_est1 P_est2 P_est3 P_tot3 P_orb3 Props_est P_tri1 P_tri2 P_tri3 P_tri4 P_tri5 Props_tri P_who1.
Local Open Scope R_scope.

Lemma turn_vec q qs c (T : v3) : vec (error_quat (product qs (mkqv c T)) q) = let u := vec (error_quat qs q) in add3 (add3 (scale3 c u) (scale3 (qw (error_quat qs q)) T)) (cross3 u T).
Proof. cbv zeta. destruct q as [q0 qa qb qc], qs as [p0 pa pb pc], T as [na nb nc]. unfold error_quat, product, conjugate, mkqv, vec. vunfoldg. cbn [qw qx qy qz x3 y3 z3]. rnumg. f_equal; ring. Qed.
Lemma turn_w q qs c (T : v3) : qw (error_quat (product qs (mkqv c T)) q) = c * qw (error_quat qs q) - dot3 (vec (error_quat qs q)) T.
Proof. destruct q as [q0 qa qb qc], qs as [p0 pa pb pc], T as [na nb nc]. unfold error_quat, product, conjugate, mkqv, vec. vunfoldg. cbn [qw qx qy qz x3 y3 z3]. rnumg. ring. Qed.
Lemma turn_split c e0 (u T Th x : v3) : sub3 (sub3 (add3 (add3 (scale3 c u) (scale3 e0 T)) (cross3 u T)) (add3 x Th)) (sub3 u x) =
  add3 (add3 (scale3 (- (1 - c)) u) (add3 (scale3 (- (1 - e0)) T) (sub3 T Th))) (cross3 u T).
Proof. vring. Qed.
(** a turn by a quaternion with vector part near Th *)
Definition turns (th : R) (Th : v3) (c : R) (T : v3) : Prop := c * c + dot3 T T = 1 /\ 0 <= 1 - c <= th * th /\ norm3 (sub3 T Th) <= th * th /\ norm3 T <= 2 * th /\ norm3 Th <= 2 * th.
Lemma turn_err q qs c T Th th x : dotq q q = 1 -> dotq qs qs = 1 -> 0 <= qw (error_quat qs q) -> turns th Th c T -> 0 <= th <= 1 / 16 -> let u := vec (error_quat qs q) in norm3 u <= 1 / 16 ->
  let u' := vec (error_quat (product qs (mkqv c T)) q) in
  0 <= qw (error_quat (product qs (mkqv c T)) q) /\ norm3 u' <= 2 * norm3 u + 2 * th /\ norm3 (sub3 (sub3 u' (add3 x Th)) (sub3 u x)) <= 2 * ((norm3 u + th) * (norm3 u + th)).
Proof.
  intros Uq Us E0 (HC & C1 & T1 & T2 & _) Hh u Hu u'. unfold u'. rewrite turn_vec, turn_w. cbv zeta. fold u. set (e0 := qw (error_quat qs q)) in *. assert (U0 := n3pos u). assert (T0 := n3pos T).
  assert (EN : e0 * e0 + norm3 u * norm3 u = 1). { assert (X := err_size q qs). rewrite Uq, Us, dotq_parts in X. fold e0 in X. fold u in X. rewrite n3sq. lra. } assert (CU := ncross u T). assert (DU := ndot u T). set (m := norm3 u) in *. assert (E1 : e0 <= 1) by nra. assert (E2 : 1 - e0 <= m * m) by nra.
  assert (MM : m * m <= 1 / 16 * (1 / 16)) by (apply Rmult_le_compat; lra). assert (AA : th * th <= 1 / 16 * (1 / 16)) by (apply Rmult_le_compat; lra). assert (AM : m * norm3 T <= m * (2 * th)) by (apply Rmult_le_compat_l; lra). assert (AM1 : m * th <= 1 / 16 * (1 / 16)) by (apply Rmult_le_compat; lra). assert (AM0 : 0 <= m * th) by (apply Rmult_le_pos; lra).
  split; [|split].
  - assert (Y := Rle_abs (dot3 u T)). assert (9 / 10 * (9 / 10) <= c * e0) by (apply Rmult_le_compat; lra). lra.
  - eapply Rle_trans; [apply nadd|]. eapply Rle_trans; [apply Rplus_le_compat_r, nadd|]. rewrite !nscale, (Rabs_pos_eq c), (Rabs_pos_eq e0) by lra. fold m. assert (c * m <= 1 * m) by (apply Rmult_le_compat_r; lra). assert (e0 * norm3 T <= 1 * (2 * th)) by (apply Rmult_le_compat; lra). assert (m * th <= m * (1 / 16)) by (apply Rmult_le_compat_l; lra). lra.
  - rewrite turn_split. eapply Rle_trans; [apply nadd|]. eapply Rle_trans; [apply Rplus_le_compat_r, nadd|]. eapply Rle_trans; [apply Rplus_le_compat_r, Rplus_le_compat_l, nadd|]. rewrite !nscale, !Rabs_Ropp, (Rabs_pos_eq (1 - c)), (Rabs_pos_eq (1 - e0)) by lra. fold m.
    assert ((1 - c) * m <= th * th * (1 / 16)) by (apply Rmult_le_compat; lra). assert ((1 - e0) * norm3 T <= m * m * (2 * (1 / 16))) by (apply Rmult_le_compat; lra). assert (0 <= m * m) by apply sq0. assert (0 <= th * th) by apply sq0. lra.
Qed.
(** the estimate is a unit quaternion on the near side, with a covariance near that of the exact filter after k cycles *)
Definition fit (dt lam mu nu eta : R) (k : nat) (qs : quat) (f : AttF) : Prop :=
  dotq (a_q f) (a_q f) = 1 /\ 0 <= qw (error_quat qs (a_q f)) /\ a_dq f = zero3 /\ within eta (a_P f) (covs dt lam mu nu k).
(** error of attitude, and half a cycle's turn by the error of the bias *)
Definition fu (qs : quat) (f : AttF) : v3 := vec (error_quat qs (a_q f)).
Definition fx (dt : R) (bs : v3) (f : AttF) : v3 := scale3 (dt / 2) (sub3 bs (a_b f)).

Lemma filter_step dt lam mu nu : 0 < dt -> psd lam mu nu -> exists p q r m m2 la B n0 e1 C eta, 0 < m /\ m <= m2 /\ 0 < la < 1 /\ 1 <= B /\ 0 < e1 <= 1 / 32 /\ 0 < C /\ 0 < eta <= 1 /\
  (forall u x : v3, 0 <= fm3 p q r u x) /\
  (forall u x, m * ((norm3 u + norm3 x) * (norm3 u + norm3 x)) <= 2 * fm3 p q r u x) /\ (forall u x, fm3 p q r u x <= m2 * ((norm3 u + norm3 x) * (norm3 u + norm3 x))) /\
  forall k qs bs om c T w z f f' dd th, dotq qs qs = 1 -> fit dt lam mu nu eta k qs f -> norm3 (fu qs f) + norm3 (fx dt bs f) <= e1 -> 0 <= th <= e1 / 4 -> 0 <= dd <= e1 / 4 -> turns th (scale3 (dt / 2) om) c T ->
  normq (subq z (product qs (mkqv c T))) <= dd -> norm3 (scale3 (dt / 2) (sub3 w (add3 om bs))) <= dd -> af_measurement z (af_propagate w dt f) = Ok f' ->
  fit dt lam mu nu eta (S k) (product qs (mkqv c T)) f' /\
  fm3 p q r (fu (product qs (mkqv c T)) f') (fx dt bs f') <= (if (k <? n0)%nat then B else la) * fm3 p q r (fu qs f) (fx dt bs f) + C * (dd * dd + th * th * (th * th)).
Proof.
  intros H PS.
  destruct (gains_conv dt lam mu nu H PS) as (M & rho0 & M0 & RH & GC). destruct (gains_inf dt H) as (K1B & K2N & K2B). destruct (covs_bound dt lam mu nu H PS) as (B & B1 & CB). destruct (cycle_est dt H) as (cc & CC0 & CYC).
  destruct (lyap_step (1 - k1_inf dt / 2) (- k2_inf dt * dt / 2)) as (lp & lq & lr & m & m2 & t & K1 & Hm & Hm2 & T0 & K10 & POS & LO2 & UP & STEP); [lra|lra|].
  set (v := SENSOR_SIGMA ^ 2). assert (V : 0 < v) by apply R_pos. set (Kb := Rabs (k2_inf dt) + M). assert (Kb0 : 0 <= Kb) by (unfold Kb; assert (X := Rabs_pos (k2_inf dt)); lra).
  set (Cs := 3000 + 52 * (dt * (1 + Kb))). assert (Cs0 : 1 <= Cs) by (unfold Cs; assert (0 <= dt * (1 + Kb)) by (apply Rmult_le_pos; lra); lra).
  set (ws := Rmin 1 (t / (2 * K1))). assert (WS : 0 < ws) by (apply Rmin_pos; [lra|apply Rdiv_lt_0_compat; lra]). assert (WS1 : ws <= 1) by apply Rmin_l. assert (WS2 : K1 * (ws * ws) <= t / 2).
  { apply Rle_trans with (K1 * (1 * (t / (2 * K1)))); [apply Rmult_le_compat_l; [lra|]; apply Rmult_le_compat; try lra; apply Rmin_r|]. right. field. lra. }
  set (sig := ws / 4). assert (SG : 0 < sig) by (unfold sig; lra). set (MM := M * (1 + dt)). assert (MM0 : 0 <= MM) by (unfold MM; apply Rmult_le_pos; lra).
  destruct (pow_lt_1_zero rho0) with (y := ws / (2 * (MM + 1))) as (n0 & N0). { rewrite Rabs_pos_eq; lra. } { apply Rdiv_lt_0_compat; lra. }
  assert (LATE : forall k, (n0 <= k)%nat -> MM * rho0 ^ k <= ws / 2). { intros k Hk. assert (X := N0 k Hk). rewrite Rabs_pos_eq in X by (apply pow_le; lra). apply Rle_trans with ((MM + 1) * (ws / (2 * (MM + 1)))); [apply Rmult_le_compat; try lra; apply pow_le; lra|]. right. field. lra. }
  set (c3 := (B / v + 1) * (2 * B / v)). assert (BV : 0 < B / v) by (apply Rdiv_lt_0_compat; lra). assert (C30 : 0 < c3). { unfold c3. apply Rmult_lt_0_compat; [lra|]. apply Rdiv_lt_0_compat; lra. }
  set (sm := Rmin 1 (sig / (2 + 2 * dt))). assert (SM0 : 0 < sm) by (apply Rmin_pos; [lra|apply Rdiv_lt_0_compat; lra]). assert (SM1 : sm <= 1) by apply Rmin_l. assert (SM2 : (2 + 2 * dt) * sm <= sig). { apply Rle_trans with ((2 + 2 * dt) * (sig / (2 + 2 * dt))); [apply Rmult_le_compat_l; [lra|apply Rmin_r]|right; field; lra]. }
  set (eta := Rmin 1 (sm / c3)). assert (ET : 0 < eta <= 1) by (split; [apply Rmin_pos; [lra|apply Rdiv_lt_0_compat; lra]|apply Rmin_l]). assert (ES : (B / v + 1) * (2 * (eta * B) / v) <= sm). { replace ((B / v + 1) * (2 * (eta * B) / v)) with (c3 * eta) by (unfold c3; field; lra). apply Rle_trans with (c3 * (sm / c3)); [apply Rmult_le_compat_l; [lra|apply Rmin_r]|right; field; lra]. }
  set (sE := (B / v + 1) * (2 * (eta * B) / v)) in *. assert (SE0 : 0 <= sE). { unfold sE. apply Rmult_le_pos; [lra|]. apply Rmult_le_pos; [|left; apply Rinv_0_lt_compat, V]. assert (0 <= eta * B) by (apply Rmult_le_pos; lra). lra. }
  assert (CE : 0 < cc * eta * dt) by (apply Rmult_lt_0_compat; [apply Rmult_lt_0_compat; lra|lra]).
  set (e1 := Rmin (1 / 32) (Rmin (cc * eta * dt / (8 * B)) (ws / (4 * Cs)))). assert (E10 : 0 < e1) by (apply Rmin_pos; [lra|apply Rmin_pos; apply Rdiv_lt_0_compat; lra]). assert (E11 : e1 <= 1 / 32) by apply Rmin_l.
  assert (E12 : B * (8 * e1) <= cc * eta * dt). { apply Rle_trans with (B * (8 * (cc * eta * dt / (8 * B)))); [apply Rmult_le_compat_l; [lra|]; apply Rmult_le_compat_l; [lra|]; eapply Rle_trans; [apply Rmin_r|apply Rmin_l]|right; field; lra]. }
  assert (E13 : Cs * e1 <= ws / 4). { apply Rle_trans with (Cs * (ws / (4 * Cs))); [apply Rmult_le_compat_l; [lra|]; eapply Rle_trans; apply Rmin_r|right; field; lra]. }
  set (BB := 1 + K1 * ((MM + 1) * (MM + 1))). assert (BB1 : 1 <= BB) by (unfold BB; assert (X := sq0 (MM + 1)); assert (0 <= K1 * ((MM + 1) * (MM + 1))) by (apply Rmult_le_pos; lra); lra).
  assert (C0 : 0 < K1 * (Cs * Cs) * 2) by (apply Rmult_lt_0_compat; [apply Rmult_lt_0_compat; [lra|apply Rmult_lt_0_compat; lra]|lra]).
  exists lp, lq, lr, m, m2, (1 - t / 2), BB, n0, e1, (K1 * (Cs * Cs) * 2), eta. split; [exact Hm|]. split; [exact Hm2|]. split; [lra|]. split; [exact BB1|]. split; [lra|]. split; [exact C0|]. split; [exact ET|]. split; [exact POS|]. split; [exact LO2|]. split; [exact UP|].
  intros k qs bs om c T w z f f' dd th Us (IU & IE & ID0 & IW) SK HT HD TU AT AG CY. destruct (CB k) as (PK & SZ1 & SZ2). set (u := fu qs f) in *. set (x := fx dt bs f) in *. set (s := norm3 u + norm3 x) in *. assert (Nu := n3pos u). assert (Nx := n3pos x). assert (Sp : 0 <= s) by (unfold s; lra). assert (SU : norm3 u <= s) by (unfold s; lra).
  set (Th := scale3 (dt / 2) om) in *. destruct (turn_err (a_q f) qs c T Th th x IU Us IE TU ltac:(lra)) as (T1 & T2 & T3). { fold u. change (norm3 u <= 1 / 16). lra. } set (qs' := product qs (mkqv c T)) in *. change (vec (error_quat qs (a_q f))) with u in T2, T3.
  assert (Us' : dotq qs' qs' = 1). { unfold qs'. rewrite product_size, Us, Rmult_1_l. destruct TU as (X & _). rewrite <- X. destruct T as [ta tb tc]. unfold mkqv. vunfoldg. cbn [qw qx qy qz x3 y3 z3]. rnumg. ring. }
  set (bw := add3 om bs) in *. assert (XW : forall b, scale3 (dt / 2) (sub3 bw b) = add3 (scale3 (dt / 2) (sub3 bs b)) Th) by (intros b; apply off_gain).
  assert (ST := CYC eta B (covs dt lam mu nu k) w z qs' bw f f' dd (norm3 (vec (error_quat qs' (a_q f))) + norm3 (scale3 (dt / 2) (sub3 bw (a_b f)))) ET B1 PK SZ1 SZ2 IU Us' T1 ID0 IW). cbv zeta in ST. specialize (ST eq_refl). rewrite !XW in ST. change (scale3 (dt / 2) (sub3 bs (a_b f))) with x in ST. change (scale3 (dt / 2) (sub3 bs (a_b f'))) with (fx dt bs f') in ST. change (vec (error_quat qs' (a_q f'))) with (fu qs' f') in ST.
  set (u' := vec (error_quat qs' (a_q f))) in *. set (x' := add3 x Th) in *. assert (NTh : norm3 Th <= 2 * th) by apply TU. assert (NX' : norm3 x' <= norm3 x + 2 * th). { unfold x'. eapply Rle_trans; [apply nadd|]. lra. } assert (Nu' := n3pos u'). assert (Nx' := n3pos x').
  set (s' := norm3 u' + norm3 x') in *. assert (Hs' : 0 <= s' <= 2 * s + 4 * th) by (unfold s', s; lra).
  specialize (ST (proj1 HD) ltac:(lra) AG ltac:(lra)). assert (HBs : B * (2 * (s' + dd)) <= cc * eta * dt). { eapply Rle_trans; [|exact E12]. apply Rmult_le_compat_l; lra. }
  specialize (ST HBs ltac:(fold v; fold sE; lra) CY). fold v in ST. fold sE in ST.
  destruct (GC k) as (GK & G1 & G2). unfold kk1, kk2 in GK, G1, G2. unfold fit. cbn [covs]. destruct (covs dt lam mu nu k) as [[p q] r0]. destruct ST as (A1 & A2 & A3 & A4 & A5 & A6 & A7). split; [split; [exact A1|]; split; [exact A2|]; split; [exact A3|exact A4]|].
  set (k1 := gain1 dt p q r0) in *. set (k2 := gain2 dt p q r0) in *. set (W := s' + 2 * dd) in *. assert (NUX : norm3 (sub3 u x) <= s) by apply nsub. set (rk := M * rho0 ^ k) in *. assert (RP : 0 <= rho0 ^ k <= 1) by (split; [apply pow_le; lra|rewrite <- (pow1 k); apply pow_incr; lra]). assert (RK : 0 <= rk <= M). { unfold rk. split; [apply Rmult_le_pos; lra|]. assert (M * rho0 ^ k <= M * 1) by (apply Rmult_le_compat_l; lra). lra. }
  set (D := dd + th * th). assert (TH4 := sq0 th). assert (HDe : 0 <= D) by (unfold D; lra).
  assert (K2U : Rabs k2 <= Kb) by (apply abs_le_2 in G2; unfold Kb; lra). set (R1 := norm3 (sub3 (sub3 u' x') (sub3 u x))) in *. assert (R10 : 0 <= R1) by apply n3pos.
  assert (BR : R1 <= 4 * (s * s) + 4 * D). { eapply Rle_trans; [exact T3|]. assert (Q := sq_sum s th Sp (proj1 HT)). assert ((norm3 u + th) * (norm3 u + th) <= (s + th) * (s + th)) by (apply Rmult_le_compat; lra). unfold D. lra. }
  assert (S2 := sq0 s). assert (WW : W * W <= 12 * (s * s) + 48 * D). { assert (W <= 2 * (s + 2 * th + dd)) by (unfold W; lra). assert (W0 : 0 <= W) by (unfold W; lra). assert (W * W <= 2 * (s + 2 * th + dd) * (2 * (s + 2 * th + dd))) by (apply Rmult_le_compat; lra). assert (dd * dd <= 1 * dd) by (apply Rmult_le_compat_r; lra). unfold D. assert (Z1 := sq0 (s - 2 * th)). assert (Z2 := sq0 (s - dd)). assert (Z3 := sq0 (2 * th - dd)). lra. }
  assert (YN : norm3 (sub3 u' x') <= s + R1). { rewrite (v_back (sub3 u' x') (sub3 u x)). eapply Rle_trans; [apply nadd|]. fold R1. lra. }
  set (Y := norm3 (sub3 u' x') + 2 * (W * W) + 3 * dd) in *. assert (DDD : dd <= D) by (unfold D; lra). assert (BY : Y <= s + 28 * (s * s) + 103 * D) by (unfold Y; lra).
  assert (SEY : sE * Y <= sE * s + 28 * (s * s) + 103 * D). { apply Rle_trans with (sE * (s + 28 * (s * s) + 103 * D)); [apply Rmult_le_compat_l; assumption|]. assert (sE * (28 * (s * s) + 103 * D) <= 1 * (28 * (s * s) + 103 * D)) by (apply Rmult_le_compat_r; lra). lra. }
  assert (P1 : norm3 (sub3 (fu qs' f') (scale3 (1 - k1_inf dt / 2) (sub3 u x))) <= 60 * (W * W) + sE * Y + 2 * dd + R1 + rk * s).
  { rewrite (v_chain _ (scale3 (1 - k1 / 2) (sub3 u' x')) _). eapply Rle_trans; [apply nadd|]. rewrite (v_chain (scale3 (1 - k1 / 2) (sub3 u' x')) (scale3 (1 - k1 / 2) (sub3 u x)) _). eapply Rle_trans; [apply Rplus_le_compat_l, nadd|]. rewrite scale_sub, vec_gain, !nscale. fold R1. replace (1 - k1 / 2 - (1 - k1_inf dt / 2)) with (- ((k1 - k1_inf dt) * / 2)) by field. rewrite Rabs_Ropp, Rabs_mult, (Rabs_pos_eq (/ 2)), (Rabs_pos_eq (1 - k1 / 2)) by lra. assert (RA := Rabs_pos (k1 - k1_inf dt)). assert (Rabs (k1 - k1_inf dt) * / 2 * norm3 (sub3 u x) <= rk * s) by (apply Rmult_le_compat; try apply n3pos; lra). assert ((1 - k1 / 2) * R1 <= 1 * R1) by (apply Rmult_le_compat_r; lra). lra. }
  replace (sub3 (add3 (fx dt bs f') Th) (add3 x' (scale3 (- k2 * dt / 2) (sub3 u' x')))) with (sub3 (fx dt bs f') (add3 x (scale3 (- k2 * dt / 2) (sub3 u' x')))) in A7 by (symmetry; unfold x' at 1; apply off_move).
  assert (P2 : norm3 (sub3 (fx dt bs f') (add3 x (scale3 (- k2_inf dt * dt / 2) (sub3 u x)))) <= dt / 2 * (sE * Y + Kb * (2 * (W * W) + 3 * dd)) + dt / 2 * (Kb * R1) + dt * (rk * s)).
  { rewrite (v_chain _ (add3 x (scale3 (- k2 * dt / 2) (sub3 u' x'))) _). eapply Rle_trans; [apply nadd|]. rewrite Rplus_assoc. apply Rplus_le_compat.
    - eapply Rle_trans; [exact A7|]. apply Rmult_le_compat_l; [lra|]. apply Rplus_le_compat_l, Rmult_le_compat_r; [assert (X := sq0 W); lra|exact K2U].
    - rewrite add_sub. rewrite (v_chain _ (scale3 (- k2 * dt / 2) (sub3 u x)) _). eapply Rle_trans; [apply nadd|]. rewrite scale_sub, vec_gain, !nscale. fold R1. replace (- k2 * dt / 2) with (- (dt / 2 * k2)) by field. replace (- (dt / 2 * k2) - - k2_inf dt * dt / 2) with (- (dt / 2 * (k2 - k2_inf dt))) by field. rewrite !Rabs_Ropp, !Rabs_mult, !(Rabs_pos_eq (dt / 2)) by lra. assert (RA := Rabs_pos (k2 - k2_inf dt)). assert (Rabs (k2 - k2_inf dt) * norm3 (sub3 u x) <= rk * s) by (apply Rmult_le_compat; try apply n3pos; lra). assert (dt / 2 * (Rabs (k2 - k2_inf dt) * norm3 (sub3 u x)) <= dt / 2 * (rk * s)) by (apply Rmult_le_compat_l; lra). assert (0 <= rk * s) by (apply Rmult_le_pos; lra). assert (0 <= dt * (rk * s)) by (apply Rmult_le_pos; lra). assert (Rabs k2 * R1 <= Kb * R1) by (apply Rmult_le_compat_r; lra). assert (dt / 2 * (Rabs k2 * R1) <= dt / 2 * (Kb * R1)) by (apply Rmult_le_compat_l; lra). lra. }
  assert (B1' : Kb * (2 * (W * W) + 3 * dd) + Kb * R1 <= Kb * (28 * (s * s) + 103 * D)). { rewrite <- Rmult_plus_distr_l. apply Rmult_le_compat_l; lra. } assert (KSD : 0 <= Kb * (s * s + D)) by (apply Rmult_le_pos; lra).
  assert (B2' : dt / 2 * (sE * Y + (Kb * (2 * (W * W) + 3 * dd) + Kb * R1)) <= dt / 2 * (sE * s + 103 * ((1 + Kb) * (s * s + D)))). { apply Rmult_le_compat_l; [lra|]. assert (0 <= Kb * (s * s)) by (apply Rmult_le_pos; lra). lra. }
  assert (SES : (1 + dt / 2) * (sE * s) <= sig * s). { rewrite <- Rmult_assoc. apply Rmult_le_compat_r; [exact Sp|]. assert ((1 + dt / 2) * sE <= (2 + 2 * dt) * sm) by (apply Rmult_le_compat; lra). lra. }
  assert (DK : 0 <= dt * ((1 + Kb) * (s * s + D))) by (apply Rmult_le_pos; [lra|]; apply Rmult_le_pos; lra).
  assert (REM : norm3 (sub3 (fu qs' f') (scale3 (1 - k1_inf dt / 2) (sub3 u x))) + norm3 (sub3 (fx dt bs f') (add3 x (scale3 (- k2_inf dt * dt / 2) (sub3 u x)))) <= (MM * rho0 ^ k + sig + Cs * s) * s + Cs * D).
  { replace ((MM * rho0 ^ k + sig + Cs * s) * s + Cs * D) with (rk * s + dt * (rk * s) + sig * s + 3000 * (s * s + D) + 52 * (dt * ((1 + Kb) * (s * s + D)))) by (unfold rk, Cs, MM; ring). lra. }
  assert (CSs : 0 <= Cs * s <= ws / 4). { split; [apply Rmult_le_pos; lra|]. assert (Cs * s <= Cs * e1) by (apply Rmult_le_compat_l; lra). lra. } assert (MR : 0 <= MM * rho0 ^ k <= MM). { split; [apply Rmult_le_pos; lra|]. assert (MM * rho0 ^ k <= MM * 1) by (apply Rmult_le_compat_l; lra). lra. }
  set (wv := MM * rho0 ^ k + sig + Cs * s) in *. assert (wv0 : 0 <= wv) by (unfold wv; lra). assert (CD0 : 0 <= Cs * D) by (apply Rmult_le_pos; lra). assert (FIN := STEP u x (fu qs' f') (fx dt bs f') wv (Cs * D) wv0 CD0 REM). assert (L0 := POS u x).
  assert (DQ : K1 * (Cs * D * (Cs * D)) <= K1 * (Cs * Cs) * 2 * (dd * dd + th * th * (th * th))). { replace (K1 * (Cs * D * (Cs * D))) with (K1 * (Cs * Cs) * (D * D)) by ring. assert (X := sq_sum dd (th * th) (proj1 HD) TH4). fold D in X. replace (K1 * (Cs * Cs) * 2 * (dd * dd + th * th * (th * th))) with (K1 * (Cs * Cs) * (2 * (dd * dd) + 2 * (th * th * (th * th)))) by ring. apply Rmult_le_compat_l; [|lra]. apply Rmult_le_pos; [lra|apply sq0]. }
  eapply Rle_trans; [exact FIN|]. apply Rplus_le_compat; [|exact DQ]. apply Rmult_le_compat_r; [exact L0|]. destruct (Nat.ltb_spec k n0) as [HK|HK].
  - assert (wv <= MM + 1) by (unfold wv, sig; lra). assert (K1 * (wv * wv) <= K1 * ((MM + 1) * (MM + 1))) by (apply Rmult_le_compat_l; [lra|]; apply Rmult_le_compat; lra). unfold BB. lra.
  - assert (X := LATE k HK). assert (wv <= ws) by (unfold wv, sig; lra). assert (K1 * (wv * wv) <= K1 * (ws * ws)) by (apply Rmult_le_compat_l; [lra|]; apply Rmult_le_compat; lra). lra.
Qed.
