(** * C115: the star-tracker filter finds attitude and gyro bias about all three axes, to within what its sensors are wrong by *)
From Coq Require Import Reals Lra Psatz Lia.
From Verif Require Import Num Vec Mat6 M_vector M_quaternion M_obs S_rot S_obs S_steady P_quat P_wheel P_dyn P_dyn2 P_obs P_obs3 P_steady Props_obs P_farr P_est1 P_est2 P_est3 P_tot3 P_orb3 Props_est P_tri1 P_tri2 P_tri3 P_tri4 P_tri5.
Local Open Scope R_scope.

(** the same covariance about every axis *)
Definition even_cov (P : M6) (lam mu nu : R) : Prop := P = mkB (scalem lam id3) (scalem mu id3) (scalem mu id3) (scalem nu id3).
(** how far the estimate is from the attitude qs and the gyro bias bs *)
Definition missed (qs : quat) (bs : v3) (f : AttF) : R := normq (subq (a_q f) qs) + norm3 (sub3 (a_b f) bs).
(** the body keeps the attitude qs; each gyro reading is within d of the bias bs, each star-tracker reading within d of qs *)
Definition at_rest (qs : quat) (bs : v3) (d : R) (gyro : nat -> v3) (tracker : nat -> quat) : Prop :=
  forall k, norm3 (sub3 (gyro k) bs) <= d /\ normq (subq (tracker k) qs) <= d.

Lemma even_form P lam mu nu x : even_cov P lam mu nu -> dot6 x (mv6 P x) = fm3 lam mu nu (u1 x) (u2 x).
Proof. intros ->. unfold mv6, dot6, fm3. cbn [u1 u2 b11 b12 b21 b22]. rewrite !mv_scalem, !mv_id3. generalize (u1 x) (u2 x). clear. vring. Qed.
Lemma even_within eta P lam mu nu : 0 < eta -> psd lam mu nu -> even_cov P lam mu nu -> within eta P (lam, mu, nu).
Proof.
  intros E PS EV. split; [rewrite EV; unfold symm6, tr6; cbn [b11 b12 b21 b22]; rewrite !tr3_scalem, !P_farr.tr3_id; reflexivity|]. intros x. rewrite (even_form _ _ _ _ x EV). assert (X := fm3_pos lam mu nu PS (u1 x) (u2 x)). assert (0 <= eta * fm3 lam mu nu (u1 x) (u2 x)) by (apply Rmult_le_pos; lra). lra.
Qed.
(** the vector part of the error measures the attitude error *)
Lemma err_dist q qs : dotq q q = 1 -> dotq qs qs = 1 -> 0 <= dotq q qs -> norm3 (vec (error_quat qs q)) <= normq (subq q qs) <= 2 * norm3 (vec (error_quat qs q)).
Proof.
  intros Uq Us H. assert (E := err_size q qs). rewrite Uq, Us, dotq_parts, err_parts in E. set (t := dotq q qs) in *. assert (N : normq (subq q qs) * normq (subq q qs) = 2 - 2 * t). { rewrite normq2. transitivity (dotq q q + dotq qs qs - 2 * t); [unfold t; vring|rewrite Uq, Us; ring]. }
  rewrite <- n3sq in E. set (nu := norm3 (vec (error_quat qs q))) in *. assert (N0 : 0 <= nu) by apply n3pos. assert (M0 := normq0 (subq q qs)). set (m := normq (subq q qs)) in *. assert (T1 : t <= 1) by nra. split; apply Rsqr_incr_0; unfold Rsqr; try lra; nra.
Qed.
Lemma near_side q qs : dotq q q = 1 -> dotq qs qs = 1 -> normq (subq q qs) <= 1 -> 0 <= dotq q qs.
Proof.
  intros Uq Us H. assert (M0 := normq0 (subq q qs)). assert (N : normq (subq q qs) * normq (subq q qs) = 2 - 2 * dotq q qs). { rewrite normq2. transitivity (dotq q q + dotq qs qs - 2 * dotq q qs); [vring|rewrite Uq, Us; ring]. } nra.
Qed.

(** the body may turn: between the cycles k and k+1 it turns at a constant rate of at most r about some axis; each gyro reading is within d of
    that rate plus the bias bs, each star-tracker reading within d of the attitude at the end of the cycle *)
Definition turning (dt : R) (qs : nat -> quat) (bs : v3) (r d : R) (gyro : nat -> v3) (tracker : nat -> quat) : Prop :=
  forall k, exists n w, unit3 n /\ Rabs w <= r /\ qs (S k) = product (qs k) (about n (w * dt / 2)) /\ norm3 (sub3 (gyro k) (add3 (scale3 w n) bs)) <= d /\ normq (subq (tracker k) (qs (S k))) <= d.

Lemma about_unit n h : unit3 n -> dotq (about n h) (about n h) = 1.
Proof. intros U. transitivity (cos h * cos h + sin h * sin h * dot3 n n); [unfold about; generalize (cos h) (sin h); clear; intros c s; unfold mkqv; vunfoldg; cbn [qw qx qy qz x3 y3 z3]; rnumg; ring|]. rewrite U. assert (X := sin2_cos2 h). unfold Rsqr in X. lra. Qed.
Lemma product_size (p q : quat) : dotq (product p q) (product p q) = dotq p p * dotq q q.
Proof. destruct p as [p0 pa pb pc], q as [q0 qa qb qc]. unfold product. vunfoldg. cbn [qw qx qy qz x3 y3 z3]. rnumg. ring. Qed.
Lemma turned_vec q qs n c s : vec (error_quat (product qs (mkqv c (scale3 s n))) q) = let u := vec (error_quat qs q) in add3 (add3 (scale3 c u) (scale3 (qw (error_quat qs q) * s) n)) (scale3 s (cross3 u n)).
Proof. cbv zeta. destruct q as [q0 qa qb qc], qs as [p0 pa pb pc], n as [na nb nc]. unfold error_quat, product, conjugate, mkqv, vec. vunfoldg. cbn [qw qx qy qz x3 y3 z3]. rnumg. f_equal; ring. Qed.
Lemma turned_w q qs n c s : qw (error_quat (product qs (mkqv c (scale3 s n))) q) = c * qw (error_quat qs q) - s * dot3 (vec (error_quat qs q)) n.
Proof. destruct q as [q0 qa qb qc], qs as [p0 pa pb pc], n as [na nb nc]. unfold error_quat, product, conjugate, mkqv, vec. vunfoldg. cbn [qw qx qy qz x3 y3 z3]. rnumg. ring. Qed.
Lemma turned_split c s h e0 (u n x : v3) : sub3 (sub3 (add3 (add3 (scale3 c u) (scale3 (e0 * s) n)) (scale3 s (cross3 u n))) (add3 x (scale3 h n))) (sub3 u x) =
  add3 (add3 (scale3 (- (1 - c)) u) (scale3 (- (1 - e0) * s + (s - h)) n)) (scale3 s (cross3 u n)).
Proof. vring. Qed.
(** what one turn does to the error *)
Lemma turned q qs n h x : dotq q q = 1 -> dotq qs qs = 1 -> 0 <= qw (error_quat qs q) -> unit3 n -> Rabs h <= 1 / 16 -> let u := vec (error_quat qs q) in norm3 u <= 1 / 16 ->
  let u' := vec (error_quat (product qs (about n h)) q) in
  0 <= qw (error_quat (product qs (about n h)) q) /\ norm3 u' <= 2 * norm3 u + Rabs h /\ norm3 (sub3 (sub3 u' (add3 x (scale3 h n))) (sub3 u x)) <= 2 * ((norm3 u + Rabs h) * (norm3 u + Rabs h)).
Proof.
  intros Uq Us E0 Un Hh u Hu u'. assert (N1 : norm3 n = 1) by (unfold norm3; rnumg; rewrite Un; apply sqrt_1). assert (H1 : Rabs h <= 1) by lra. destruct (cos_x h H1) as [C1 C2]. destruct (sin_x h H1) as [S1 S2]. assert (HH : h * h = Rabs h * Rabs h) by (rewrite <- Rabs_mult, Rabs_pos_eq by apply sq0; reflexivity). rewrite HH in C2, S1.
  unfold u', about. rewrite turned_vec, turned_w. cbv zeta. fold u. set (e0 := qw (error_quat qs q)) in *. set (c := cos h) in *. set (s := sin h) in *. set (a := Rabs h) in *. assert (A0 : 0 <= a) by apply Rabs_pos. assert (U0 := n3pos u).
  assert (EN : e0 * e0 + norm3 u * norm3 u = 1). { assert (X := err_size q qs). rewrite Uq, Us, dotq_parts in X. fold e0 in X. fold u in X. rewrite n3sq. lra. } assert (CU := ncross u n). rewrite N1 in CU. assert (DU := ndot u n). rewrite N1 in DU. set (m := norm3 u) in *. assert (SA := Rabs_pos s). assert (E1 : e0 <= 1) by nra. assert (E2 : 1 - e0 <= m * m) by nra.
  assert (MM : m * m <= 1 / 16 * (1 / 16)) by (apply Rmult_le_compat; lra). assert (AA : a * a <= 1 / 16 * (1 / 16)) by (apply Rmult_le_compat; lra). assert (AM : a * m <= 1 / 16 * (1 / 16)) by (apply Rmult_le_compat; lra). assert (AM0 : 0 <= a * m) by (apply Rmult_le_pos; lra). assert (SC : Rabs s * norm3 (cross3 u n) <= a * m) by (apply Rmult_le_compat; [lra|apply n3pos|lra|lra]).
  split; [|split].
  - assert (X : Rabs (s * dot3 u n) <= a * m) by (rewrite Rabs_mult; apply Rmult_le_compat; [lra|apply Rabs_pos|lra|lra]). assert (Y := Rle_abs (s * dot3 u n)). assert (9 / 10 * (9 / 10) <= c * e0) by (apply Rmult_le_compat; lra). lra.
  - eapply Rle_trans; [apply nadd|]. eapply Rle_trans; [apply Rplus_le_compat_r, nadd|]. rewrite !nscale, N1, Rabs_mult, (Rabs_pos_eq c), (Rabs_pos_eq e0) by lra. fold m. assert (c * m <= 1 * m) by (apply Rmult_le_compat_r; lra). assert (e0 * Rabs s <= 1 * a) by (apply Rmult_le_compat; lra). assert (a * m <= 1 * m) by (apply Rmult_le_compat_r; lra). lra.
  - rewrite turned_split. eapply Rle_trans; [apply nadd|]. eapply Rle_trans; [apply Rplus_le_compat_r, nadd|]. rewrite !nscale, N1, Rabs_Ropp, (Rabs_pos_eq (1 - c)) by lra. fold m. assert (X : Rabs (- (1 - e0) * s + (s - h)) <= m * m * a + a * a). { eapply Rle_trans; [apply Rabs_triang|]. rewrite Rabs_mult, Rabs_Ropp, (Rabs_pos_eq (1 - e0)) by lra. assert ((1 - e0) * Rabs s <= m * m * a) by (apply Rmult_le_compat; lra). lra. }
    assert ((1 - c) * m <= a * a / 2 * m) by (apply Rmult_le_compat_r; lra). assert (a * a * m <= a * a * 1) by (apply Rmult_le_compat_l; [apply sq0|lra]). assert (m * m * a <= m * m * 1) by (apply Rmult_le_compat_l; [apply sq0|lra]). assert (0 <= m * m) by apply sq0. assert (0 <= a * a) by apply sq0. lra.
Qed.
Lemma turning_unit dt qs bs r d gyro tracker : dotq (qs O) (qs O) = 1 -> turning dt qs bs r d gyro tracker -> forall k, dotq (qs k) (qs k) = 1.
Proof. intros U T. induction k as [|k IH]; [exact U|]. destruct (T k) as (n & w & Un & _ & -> & _). rewrite product_size, IH, (about_unit n _ Un). ring. Qed.
Lemma off_move (x' x t v : v3) : sub3 (add3 x' t) (add3 (add3 x t) v) = sub3 x' (add3 x v). Proof. vring. Qed.
Lemma off_gain dt (bs w b : v3) : scale3 (dt / 2) (sub3 (add3 w bs) b) = add3 (scale3 (dt / 2) (sub3 bs b)) (scale3 (dt / 2) w). Proof. vring. Qed.
Lemma scale_sub k (a b : v3) : sub3 (scale3 k a) (scale3 k b) = scale3 k (sub3 a b). Proof. vring. Qed.
Lemma add_sub (x a b : v3) : sub3 (add3 x a) (add3 x b) = sub3 a b. Proof. vring. Qed.

Theorem C115_slow : forall dt lam mu nu, 0 < dt -> (forall x y, 0 <= lam * (x * x) + 2 * mu * (x * y) + nu * (y * y)) -> exists eps K rho, 0 < eps /\ 0 < K /\ 0 < rho < 1 /\
  forall qs bs r d gyro tracker f, dotq (qs O) (qs O) = 1 -> dotq (a_q (f O)) (a_q (f O)) = 1 -> a_dq (f O) = zero3 -> even_cov (a_P (f O)) lam mu nu -> 0 <= r <= eps -> 0 <= d <= eps -> missed (qs O) bs (f O) <= eps ->
  turning dt qs bs r d gyro tracker -> cycles dt gyro tracker f ->
  forall k, missed (qs k) bs (f k) <= K * (rho ^ k * missed (qs O) bs (f O) + d + r ^ 2).
Proof.
  intros dt lam mu nu H PS0. assert (PS : psd lam mu nu). { intros x y. unfold fm. assert (X := PS0 x y). lra. } clear PS0.
  destruct (gains_conv dt lam mu nu H PS) as (M & rho0 & M0 & RH & GC). destruct (gains_inf dt H) as (K1B & K2N & K2B). destruct (covs_bound dt lam mu nu H PS) as (B & B1 & CB). destruct (cycle_est dt H) as (cc & CC0 & CYC).
  set (v := SENSOR_SIGMA ^ 2). assert (V : 0 < v) by apply R_pos. set (Kb := Rabs (k2_inf dt) + M). assert (Kb0 : 0 <= Kb) by (unfold Kb; assert (X := Rabs_pos (k2_inf dt)); lra).
    set (Cs := 757 + 16 * (dt * (1 + Kb))). assert (Cs0 : 0 <= Cs) by (unfold Cs; assert (0 <= dt * (1 + Kb)) by (apply Rmult_le_pos; lra); lra).
  destruct (tri_conv (1 - k1_inf dt / 2) (- k2_inf dt * dt / 2) Cs (M * (1 + dt)) rho0) as (sig & SG & TC); [lra|lra|lra|apply Rmult_le_pos; lra|exact RH|].
  set (c3 := (B / v + 1) * (2 * B / v)). assert (BV : 0 < B / v) by (apply Rdiv_lt_0_compat; lra). assert (C30 : 0 < c3). { unfold c3. apply Rmult_lt_0_compat; [lra|]. apply Rdiv_lt_0_compat; lra. }
  set (sm := Rmin 1 (sig / (2 + 2 * dt))). assert (SM0 : 0 < sm) by (apply Rmin_pos; [lra|apply Rdiv_lt_0_compat; lra]). assert (SM1 : sm <= 1) by apply Rmin_l. assert (SM2 : (2 + 2 * dt) * sm <= sig). { apply Rle_trans with ((2 + 2 * dt) * (sig / (2 + 2 * dt))); [apply Rmult_le_compat_l; [lra|apply Rmin_r]|right; field; lra]. }
  set (eta := Rmin 1 (sm / c3)). assert (ET : 0 < eta <= 1) by (split; [apply Rmin_pos; [lra|apply Rdiv_lt_0_compat; lra]|apply Rmin_l]). assert (ES : (B / v + 1) * (2 * (eta * B) / v) <= sm). { replace ((B / v + 1) * (2 * (eta * B) / v)) with (c3 * eta) by (unfold c3; field; lra). apply Rle_trans with (c3 * (sm / c3)); [apply Rmult_le_compat_l; [lra|apply Rmin_r]|right; field; lra]. }
  set (sE := (B / v + 1) * (2 * (eta * B) / v)) in *. assert (SE0 : 0 <= sE). { unfold sE. apply Rmult_le_pos; [lra|]. apply Rmult_le_pos; [|left; apply Rinv_0_lt_compat, V]. assert (0 <= eta * B) by (apply Rmult_le_pos; lra). lra. }
  set (e1 := Rmin (1 / 32) (cc * eta * dt / (8 * B))). assert (CE : 0 < cc * eta * dt) by (repeat apply Rmult_lt_0_compat; lra). assert (E10 : 0 < e1) by (apply Rmin_pos; [lra|apply Rdiv_lt_0_compat; lra]). assert (E11 : e1 <= 1 / 32) by apply Rmin_l. assert (E12 : B * (8 * e1) <= cc * eta * dt). { apply Rle_trans with (B * (8 * (cc * eta * dt / (8 * B)))); [apply Rmult_le_compat_l; [lra|]; apply Rmult_le_compat_l; [lra|apply Rmin_r]|right; field; lra]. }
  destruct (TC e1 E10) as (eps & K & rho & EP & K0 & RHO & RUN). set (h := 1 + dt). assert (H0 : 1 < h) by (unfold h; lra).
  set (ee := Rmin 1 (Rmin (eps / (2 * h)) (e1 / (2 * h)))). assert (IE1 : 0 < eps / (2 * h)) by (apply Rdiv_lt_0_compat; lra). assert (IE2 : 0 < e1 / (2 * h)) by (apply Rdiv_lt_0_compat; lra). assert (EE0 : 0 < ee) by (repeat apply Rmin_pos; lra).
  assert (EE1 : ee <= 1) by apply Rmin_l. assert (EE2 : 2 * (h * ee) <= eps). { apply Rle_trans with (2 * (h * (eps / (2 * h)))); [apply Rmult_le_compat_l; [lra|]; apply Rmult_le_compat_l; [lra|]; eapply Rle_trans; [apply Rmin_r|apply Rmin_l]|right; field; lra]. } assert (EE3 : 2 * (h * ee) <= e1). { apply Rle_trans with (2 * (h * (e1 / (2 * h)))); [|right; field; lra]. apply Rmult_le_compat_l; [lra|]. apply Rmult_le_compat_l; [lra|]. eapply Rle_trans; [apply Rmin_r|apply Rmin_r]. }
  exists ee, ((2 + 2 / dt) * K * (h * h)), rho. assert (ID : 0 < 2 / dt) by (apply Rdiv_lt_0_compat; lra). split; [exact EE0|]. split; [apply Rmult_lt_0_compat; [apply Rmult_lt_0_compat; lra|apply Rmult_lt_0_compat; lra]|]. split; [exact RHO|].
  intros qs bs r d gyro tracker f Us0 U0 DQ0 EV HR HD HM AR CY. assert (US := turning_unit _ _ _ _ _ _ _ Us0 AR). set (u := fun k => vec (error_quat (qs k) (a_q (f k)))). set (x := fun k => scale3 (dt / 2) (sub3 bs (a_b (f k)))).
  assert (XB : forall k, norm3 (x k) = dt / 2 * norm3 (sub3 (a_b (f k)) bs)). { intros k. unfold x. replace (scale3 (dt / 2) (sub3 bs (a_b (f k)))) with (scale3 (- (dt / 2)) (sub3 (a_b (f k)) bs)) by (generalize (a_b (f k)); clear; vring). rewrite nscale, Rabs_Ropp, Rabs_pos_eq by lra. reflexivity. }
  unfold missed in *. assert (NB0 := n3pos (sub3 (a_b (f O)) bs)). assert (NQ0 := normq0 (subq (a_q (f O)) (qs O))). assert (SD : 0 <= dotq (a_q (f O)) (qs O)) by (apply near_side; [exact U0|exact Us0|lra]).
  set (dd := h * d). assert (HDD : d <= dd /\ dt / 2 * d <= dd) by (unfold dd, h; assert (0 <= dt * d) by (apply Rmult_le_pos; lra); lra). assert (DD1 : 0 <= dd <= h * ee) by (unfold dd; split; [apply Rmult_le_pos; lra|apply Rmult_le_compat_l; lra]).
  set (th := r * dt / 2). assert (TH1 : 0 <= th). { unfold th. assert (0 <= r * dt) by (apply Rmult_le_pos; lra). lra. } assert (TH2 : 2 * th <= h * ee). { unfold th, h. assert (r * dt <= ee * dt) by (apply Rmult_le_compat_r; lra). lra. } assert (TH3 : th * th <= 1 * th) by (apply Rmult_le_compat_r; lra). assert (TH4 := sq0 th). set (D := dd + th * th). assert (HDe : 0 <= D <= eps) by (unfold D; lra).
  set (I := fun k => dotq (a_q (f k)) (a_q (f k)) = 1 /\ 0 <= qw (error_quat (qs k) (a_q (f k))) /\ a_dq (f k) = zero3 /\ within eta (a_P (f k)) (covs dt lam mu nu k)).
  destruct (err_dist _ _ U0 Us0 SD) as [ED1 ED2]. assert (S0 : norm3 (u O) + norm3 (x O) <= h * (normq (subq (a_q (f O)) (qs O)) + norm3 (sub3 (a_b (f O)) bs))). { rewrite XB. unfold u, h. assert (0 <= dt * normq (subq (a_q (f O)) (qs O))) by (apply Rmult_le_pos; lra). assert (0 <= dt * norm3 (sub3 (a_b (f O)) bs)) by (apply Rmult_le_pos; lra). lra. }
  assert (MAIN := RUN I u x D). cbv zeta in MAIN. specialize (MAIN HDe).
  assert (SE1 : norm3 (u O) + norm3 (x O) <= eps). { eapply Rle_trans; [exact S0|]. assert (h * (normq (subq (a_q (f O)) (qs O)) + norm3 (sub3 (a_b (f O)) bs)) <= h * ee) by (apply Rmult_le_compat_l; lra). lra. }
  assert (I0 : I O). { split; [exact U0|]. split; [rewrite err_parts; exact SD|]. split; [exact DQ0|]. cbn [covs]. apply even_within; [lra|exact PS|exact EV]. }
  specialize (MAIN SE1 I0).
  assert (FIN : forall k, I k /\ norm3 (u k) + norm3 (x k) <= e1 /\ norm3 (u k) + norm3 (x k) <= K * (rho ^ k * (norm3 (u O) + norm3 (x O)) + D)).
  { apply MAIN. clear MAIN. intros k (IU & IE & ID0 & IW) SK. destruct (CB k) as (PK & SZ1 & SZ2). destruct (AR k) as (n & w & Un & Hw & EQ & AG & AT). set (s := norm3 (u k) + norm3 (x k)) in *. assert (Nu := n3pos (u k)). assert (Nx := n3pos (x k)). assert (Sp : 0 <= s) by (unfold s; lra). assert (SU : norm3 (u k) <= s) by (unfold s; lra).
    assert (HA : Rabs (w * dt / 2) <= th). { unfold th, Rdiv. rewrite !Rabs_mult, (Rabs_pos_eq dt), (Rabs_pos_eq (/ 2)) by lra. apply Rmult_le_compat_r; [lra|]. apply Rmult_le_compat_r; lra. }
    destruct (turned (a_q (f k)) (qs k) n (w * dt / 2) (x k) IU (US k) IE Un ltac:(lra)) as (T1 & T2 & T3). { fold (u k). lra. } rewrite <- EQ in T1, T2, T3. fold (u k) in T2, T3. assert (HA0 := Rabs_pos (w * dt / 2)). set (hw := w * dt / 2) in *.
    set (bw := add3 (scale3 w n) bs) in *. assert (XW : forall b, scale3 (dt / 2) (sub3 bw b) = add3 (scale3 (dt / 2) (sub3 bs b)) (scale3 hw n)). { intros b. unfold bw. rewrite off_gain, scale_scale. do 2 f_equal. unfold hw. field. }
    assert (GY : norm3 (scale3 (dt / 2) (sub3 (gyro k) bw)) <= dd). { rewrite nscale, Rabs_pos_eq by lra. assert (dt / 2 * norm3 (sub3 (gyro k) bw) <= dt / 2 * d) by (apply Rmult_le_compat_l; lra). lra. }
    assert (ST := CYC eta B (covs dt lam mu nu k) (gyro k) (tracker k) (qs (S k)) bw (f k) (f (S k)) dd). specialize (ST (norm3 (vec (error_quat (qs (S k)) (a_q (f k)))) + norm3 (scale3 (dt / 2) (sub3 bw (a_b (f k))))) ET B1 PK SZ1 SZ2 IU (US (S k)) T1 ID0 IW). cbv zeta in ST. specialize (ST eq_refl). rewrite !XW in ST. fold (x k) in ST. fold (x (S k)) in ST. fold (u (S k)) in ST.
    set (u' := vec (error_quat (qs (S k)) (a_q (f k)))) in *. set (x' := add3 (x k) (scale3 hw n)) in *. assert (N1 : norm3 n = 1) by (unfold norm3; rnumg; rewrite Un; apply sqrt_1). assert (NX' : norm3 x' <= norm3 (x k) + th). { unfold x'. eapply Rle_trans; [apply nadd|]. rewrite nscale, N1. lra. } assert (Nu' := n3pos u'). assert (Nx' := n3pos x').
    set (s' := norm3 u' + norm3 x') in *. assert (Hs' : 0 <= s' <= 2 * s + 2 * th) by (unfold s', s; lra).
    specialize (ST (proj1 DD1) ltac:(lra) GY ltac:(lra)). assert (HBs : B * (2 * (s' + dd)) <= cc * eta * dt). { eapply Rle_trans; [|exact E12]. apply Rmult_le_compat_l; lra. }
    specialize (ST HBs ltac:(fold v; fold sE; lra) (CY k)). fold v in ST. fold sE in ST.
    destruct (GC k) as (GK & G1 & G2). unfold kk1, kk2 in GK, G1, G2. unfold I. cbn [covs]. destruct (covs dt lam mu nu k) as [[p q] r0]. destruct ST as (A1 & A2 & A3 & A4 & A5 & A6 & A7). split; [split; [exact A1|]; split; [exact A2|]; split; [exact A3|exact A4]|].
    set (k1 := gain1 dt p q r0) in *. set (k2 := gain2 dt p q r0) in *. set (W := s' + 2 * dd) in *. assert (NUX : norm3 (sub3 (u k) (x k)) <= s) by apply nsub. set (rk := M * rho0 ^ k) in *. assert (RK : rk <= M). { unfold rk. assert (rho0 ^ k <= 1) by (rewrite <- (pow1 k); apply pow_incr; lra). assert (M * rho0 ^ k <= M * 1) by (apply Rmult_le_compat_l; lra). lra. }
    assert (K2U : Rabs k2 <= Kb) by (apply abs_le_2 in G2; unfold Kb; lra). set (R1 := norm3 (sub3 (sub3 u' x') (sub3 (u k) (x k)))) in *. assert (R10 : 0 <= R1) by apply n3pos.
    assert (BR : R1 <= 4 * (s * s) + 4 * D). { eapply Rle_trans; [exact T3|]. assert (Q := sq_sum s th Sp TH1). assert ((norm3 (u k) + Rabs hw) * (norm3 (u k) + Rabs hw) <= (s + th) * (s + th)) by (apply Rmult_le_compat; lra). unfold D. lra. }
    assert (WW : W * W <= 12 * (s * s) + 12 * D). { assert (W <= 2 * (s + th + dd)) by (unfold W; lra). assert (W0 : 0 <= W) by (unfold W; lra). assert (W * W <= 2 * (s + th + dd) * (2 * (s + th + dd))) by (apply Rmult_le_compat; lra). assert (dd * dd <= 1 * dd) by (apply Rmult_le_compat_r; lra). unfold D. assert (Z1 := sq0 (s - th)). assert (Z2 := sq0 (s - dd)). assert (Z3 := sq0 (th - dd)). lra. }
    assert (YN : norm3 (sub3 u' x') <= s + R1). { rewrite (v_back (sub3 u' x') (sub3 (u k) (x k))). eapply Rle_trans; [apply nadd|]. fold R1. lra. }
    set (Y := norm3 (sub3 u' x') + 2 * (W * W) + 3 * dd) in *. assert (DDD : dd <= D) by (unfold D; lra). assert (S2 := sq0 s). assert (BY : Y <= s + 28 * (s * s) + 31 * D) by (unfold Y; lra).
    assert (SEY : sE * Y <= sE * s + 28 * (s * s) + 31 * D). { apply Rle_trans with (sE * (s + 28 * (s * s) + 31 * D)); [apply Rmult_le_compat_l; assumption|]. assert (sE * (28 * (s * s) + 31 * D) <= 1 * (28 * (s * s) + 31 * D)) by (apply Rmult_le_compat_r; lra). lra. }
    assert (P1 : norm3 (sub3 (u (S k)) (scale3 (1 - k1_inf dt / 2) (sub3 (u k) (x k)))) <= 60 * (W * W) + sE * Y + 2 * dd + R1 + rk * s).
    { rewrite (v_chain _ (scale3 (1 - k1 / 2) (sub3 u' x')) _). eapply Rle_trans; [apply nadd|]. rewrite (v_chain (scale3 (1 - k1 / 2) (sub3 u' x')) (scale3 (1 - k1 / 2) (sub3 (u k) (x k))) _). eapply Rle_trans; [apply Rplus_le_compat_l, nadd|]. rewrite scale_sub, vec_gain, !nscale. fold R1. replace (1 - k1 / 2 - (1 - k1_inf dt / 2)) with (- ((k1 - k1_inf dt) * / 2)) by field. rewrite Rabs_Ropp, Rabs_mult, (Rabs_pos_eq (/ 2)), (Rabs_pos_eq (1 - k1 / 2)) by lra. assert (RA := Rabs_pos (k1 - k1_inf dt)). assert (Rabs (k1 - k1_inf dt) * / 2 * norm3 (sub3 (u k) (x k)) <= rk * s) by (apply Rmult_le_compat; try apply n3pos; lra). assert ((1 - k1 / 2) * R1 <= 1 * R1) by (apply Rmult_le_compat_r; lra). lra. }
    replace (sub3 (add3 (x (S k)) (scale3 hw n)) (add3 x' (scale3 (- k2 * dt / 2) (sub3 u' x')))) with (sub3 (x (S k)) (add3 (x k) (scale3 (- k2 * dt / 2) (sub3 u' x')))) in A7 by (symmetry; unfold x' at 1; apply off_move). assert (P2 : norm3 (sub3 (x (S k)) (add3 (x k) (scale3 (- k2_inf dt * dt / 2) (sub3 (u k) (x k))))) <= dt / 2 * (sE * Y + Kb * (2 * (W * W) + 3 * dd)) + dt / 2 * (Kb * R1) + dt * (rk * s)).
    { rewrite (v_chain _ (add3 (x k) (scale3 (- k2 * dt / 2) (sub3 u' x'))) _). eapply Rle_trans; [apply nadd|]. rewrite Rplus_assoc. apply Rplus_le_compat.
      - eapply Rle_trans; [exact A7|]. apply Rmult_le_compat_l; [lra|]. apply Rplus_le_compat_l, Rmult_le_compat_r; [assert (X := sq0 W); lra|exact K2U].
      - rewrite add_sub. rewrite (v_chain _ (scale3 (- k2 * dt / 2) (sub3 (u k) (x k))) _). eapply Rle_trans; [apply nadd|]. rewrite scale_sub, vec_gain, !nscale. fold R1. replace (- k2 * dt / 2) with (- (dt / 2 * k2)) by field. replace (- (dt / 2 * k2) - - k2_inf dt * dt / 2) with (- (dt / 2 * (k2 - k2_inf dt))) by field. rewrite !Rabs_Ropp, !Rabs_mult, !(Rabs_pos_eq (dt / 2)) by lra. assert (RA := Rabs_pos (k2 - k2_inf dt)). assert (Rabs (k2 - k2_inf dt) * norm3 (sub3 (u k) (x k)) <= rk * s) by (apply Rmult_le_compat; try apply n3pos; lra). assert (dt / 2 * (Rabs (k2 - k2_inf dt) * norm3 (sub3 (u k) (x k))) <= dt / 2 * (rk * s)) by (apply Rmult_le_compat_l; lra). assert (0 <= rk * s) by (eapply Rle_trans; [|eassumption]; apply Rmult_le_pos; [exact RA|apply n3pos]). assert (0 <= dt * (rk * s)) by (apply Rmult_le_pos; lra). assert (Rabs k2 * R1 <= Kb * R1) by (apply Rmult_le_compat_r; lra). assert (dt / 2 * (Rabs k2 * R1) <= dt / 2 * (Kb * R1)) by (apply Rmult_le_compat_l; lra). lra. }
    assert (B1' : Kb * (2 * (W * W) + 3 * dd) + Kb * R1 <= Kb * (28 * (s * s) + 31 * D)). { rewrite <- Rmult_plus_distr_l. apply Rmult_le_compat_l; lra. } assert (KSD : 0 <= Kb * (s * s + D)) by (apply Rmult_le_pos; lra).
    assert (B2' : dt / 2 * (sE * Y + (Kb * (2 * (W * W) + 3 * dd) + Kb * R1)) <= dt / 2 * (sE * s + 31 * ((1 + Kb) * (s * s + D)))). { apply Rmult_le_compat_l; [lra|]. assert (0 <= Kb * (s * s)) by (apply Rmult_le_pos; lra). lra. }
    assert (SES : (1 + dt / 2) * (sE * s) <= sig * s). { rewrite <- Rmult_assoc. apply Rmult_le_compat_r; [exact Sp|]. assert ((1 + dt / 2) * sE <= (2 + 2 * dt) * sm) by (apply Rmult_le_compat; lra). lra. }
    assert (DK : 0 <= dt * ((1 + Kb) * (s * s + D))) by (apply Rmult_le_pos; [lra|]; apply Rmult_le_pos; lra).
    replace ((M * (1 + dt) * rho0 ^ k + sig + Cs * s) * s + Cs * D) with (rk * s + dt * (rk * s) + sig * s + 757 * (s * s + D) + 16 * (dt * ((1 + Kb) * (s * s + D)))) by (unfold rk, Cs; ring). lra. }
  intros k. destruct (FIN k) as ((IU & IE & _) & _ & BND). rewrite err_parts in IE. destruct (err_dist _ _ IU (US k) IE) as [_ ED]. assert (NB := n3pos (sub3 (a_b (f k)) bs)). assert (BX : norm3 (sub3 (a_b (f k)) bs) = 2 / dt * norm3 (x k)) by (rewrite XB; field; lra). rewrite BX. assert (NU := n3pos (u k)). assert (NXk := n3pos (x k)).
  assert (RK : 0 <= rho ^ k) by (apply pow_le; lra). apply Rle_trans with ((2 + 2 / dt) * (norm3 (u k) + norm3 (x k))). { unfold u in *. assert (0 <= 2 / dt * norm3 (vec (error_quat (qs k) (a_q (f k))))) by (apply Rmult_le_pos; lra). lra. }
  rewrite !Rmult_assoc. apply Rmult_le_compat_l; [lra|]. eapply Rle_trans; [exact BND|]. apply Rmult_le_compat_l; [lra|]. rewrite <- Rmult_assoc. set (e0 := normq (subq (a_q (f O)) (qs O)) + norm3 (sub3 (a_b (f O)) bs)) in *. assert (E00 : 0 <= e0) by (unfold e0; lra). assert (HH : h <= h * h) by (assert (h * 1 <= h * h) by (apply Rmult_le_compat_l; lra); lra).
  assert (Z1 : rho ^ k * (norm3 (u O) + norm3 (x O)) <= h * h * (rho ^ k * e0)). { apply Rle_trans with (rho ^ k * (h * e0)); [apply Rmult_le_compat_l; assumption|]. replace (rho ^ k * (h * e0)) with (h * (rho ^ k * e0)) by ring. apply Rmult_le_compat_r; [apply Rmult_le_pos; assumption|exact HH]. }
  assert (Z2 : dd <= h * h * d) by (unfold dd; apply Rmult_le_compat_r; lra). assert (Z3 : th * th <= h * h * r ^ 2). { replace (th * th) with (dt * dt / 4 * r ^ 2) by (unfold th; field). apply Rmult_le_compat_r; [apply pow2_ge_0|]. unfold h. assert (X := sq0 dt). lra. }
  unfold D. lra.
Qed.
Print Assumptions C115_slow.



(** the filter's own starting covariance is the same about every axis *)
Theorem C115_slow_start : forall dt, 0 < dt -> exists eps K rho, 0 < eps /\ 0 < K /\ 0 < rho < 1 /\
  forall qs bs q0 r d gyro tracker, dotq (qs O) (qs O) = 1 -> dotq q0 q0 = 1 -> 0 <= r <= eps -> 0 <= d <= eps -> let e0 := normq (subq q0 (qs O)) + norm3 bs in e0 <= eps -> turning dt qs bs r d gyro tracker ->
  exists f, f O = af_init q0 /\ cycles dt gyro tracker f /\ forall k, normq (subq (a_q (f k)) (qs k)) <= K * (rho ^ k * e0 + d + r ^ 2) /\ norm3 (sub3 (a_b (f k)) bs) <= K * (rho ^ k * e0 + d + r ^ 2).
Proof.
  intros dt H. destruct (C115_slow dt (SENSOR_SIGMA ^ 2) 0 (INITIAL_BIAS ^ 2) H) as (eps & K & rho & E0 & K0 & R0 & T).
  { intros x y. assert (0 <= SENSOR_SIGMA ^ 2 * (x * x)) by (apply Rmult_le_pos; [left; apply R_pos|apply sq0]). assert (0 <= INITIAL_BIAS ^ 2 * (y * y)) by (apply Rmult_le_pos; [apply pow2_ge_0|apply sq0]). lra. }
  exists eps, K, rho. split; [exact E0|]. split; [exact K0|]. split; [exact R0|]. intros qs bs q0 r d gyro tracker Us U0 HR HD e0 HE AR. destruct (cycles_exist dt gyro tracker (af_init q0)) as (f & F0 & RUN); [lra|apply init_cov|].
  exists f. split; [exact F0|]. split; [exact RUN|]. assert (EV : even_cov (a_P (f O)) (SENSOR_SIGMA ^ 2) 0 (INITIAL_BIAS ^ 2)). { rewrite F0. unfold even_cov, af_init. cbn [a_P]. unfold diag6. f_equal; generalize (id3 (T:=R)); clear; vring. }
  assert (EM : missed (qs O) bs (f O) = e0). { rewrite F0. unfold missed, e0, af_init. cbn [a_q a_b]. f_equal. replace (sub3 zero3 bs) with (scale3 (-1) bs) by vring. rewrite nscale, Rabs_left by lra. ring. }
  assert (X := T qs bs r d gyro tracker f Us). rewrite EM in X. specialize (X ltac:(rewrite F0; exact U0) ltac:(rewrite F0; reflexivity) EV HR HD HE AR RUN). intros k. assert (Y := X k). unfold missed in Y. assert (N1 := n3pos (sub3 (a_b (f k)) bs)). assert (N2 := normq0 (subq (a_q (f k)) (qs k))). lra.
Qed.
Print Assumptions C115_slow_start.
(** in particular for a body at rest *)
Lemma rest_turning dt qs bs d gyro tracker : at_rest qs bs d gyro tracker -> turning dt (fun _ => qs) bs 0 d gyro tracker.
Proof.
  intros AR j. exists (mk3 1 0 0), 0. destruct (AR j) as [G1 G2]. split; [unfold unit3; vunfoldg; cbn [x3 y3 z3]; rnumg; ring|]. split; [rewrite Rabs_R0; lra|]. split; [unfold about, mkqv; replace (0 * dt / 2) with 0 by field; rewrite cos_0, sin_0; destruct qs as [q0 qa qb qc]; unfold product; vunfoldg; cbn [qw qx qy qz x3 y3 z3]; rnumg; f_equal; ring|]. split; [|exact G2]. replace (add3 (scale3 0 (mk3 1 0 0)) bs) with bs; [exact G1|]. destruct bs as [ba bb bc]. vunfoldg. cbn [x3 y3 z3]. rnumg. f_equal; ring.
Qed.
Theorem C115_all_axes : forall dt lam mu nu, 0 < dt -> (forall x y, 0 <= lam * (x * x) + 2 * mu * (x * y) + nu * (y * y)) -> exists eps K rho, 0 < eps /\ 0 < K /\ 0 < rho < 1 /\
  forall qs bs d gyro tracker f, dotq qs qs = 1 -> dotq (a_q (f O)) (a_q (f O)) = 1 -> a_dq (f O) = zero3 -> even_cov (a_P (f O)) lam mu nu -> 0 <= d <= eps -> missed qs bs (f O) <= eps ->
  at_rest qs bs d gyro tracker -> cycles dt gyro tracker f ->
  forall k, missed qs bs (f k) <= K * (rho ^ k * missed qs bs (f O) + d).
Proof.
  intros dt lam mu nu H PS. destruct (C115_slow dt lam mu nu H PS) as (eps & K & rho & E0 & K0 & R0 & T). exists eps, K, rho. split; [exact E0|]. split; [exact K0|]. split; [exact R0|]. intros qs bs d gyro tracker f Us U0 DQ EV HD HM AR CY k.
  assert (X := T (fun _ => qs) bs 0 d gyro tracker f Us U0 DQ EV ltac:(lra) HD HM (rest_turning dt qs bs d gyro tracker AR) CY k). cbv beta in X. replace (0 ^ 2) with 0 in X by ring. rewrite Rplus_0_r in X. exact X.
Qed.
Print Assumptions C115_all_axes.
Theorem C115_from_start : forall dt, 0 < dt -> exists eps K rho, 0 < eps /\ 0 < K /\ 0 < rho < 1 /\
  forall qs bs q0 d gyro tracker, dotq qs qs = 1 -> dotq q0 q0 = 1 -> 0 <= d <= eps -> let e0 := normq (subq q0 qs) + norm3 bs in e0 <= eps -> at_rest qs bs d gyro tracker ->
  exists f, f O = af_init q0 /\ cycles dt gyro tracker f /\ forall k, normq (subq (a_q (f k)) qs) <= K * (rho ^ k * e0 + d) /\ norm3 (sub3 (a_b (f k)) bs) <= K * (rho ^ k * e0 + d).
Proof.
  intros dt H. destruct (C115_slow_start dt H) as (eps & K & rho & E0 & K0 & R0 & T). exists eps, K, rho. split; [exact E0|]. split; [exact K0|]. split; [exact R0|]. intros qs bs q0 d gyro tracker Us U0 HD e0 HE AR.
  destruct (T (fun _ => qs) bs q0 0 d gyro tracker Us U0 ltac:(lra) HD HE (rest_turning dt qs bs d gyro tracker AR)) as (f & F0 & CY & BD). exists f. split; [exact F0|]. split; [exact CY|]. intros k. assert (X := BD k). cbv beta in X. replace (0 ^ 2) with 0 in X by ring. rewrite Rplus_0_r in X. exact X.
Qed.
Print Assumptions C115_from_start.
(** the estimate starts turned about one axis, the gyro bias lies along another; sensors exact: both errors die out *)
Example C115_ex : exists t f, 0 < t /\ f O = af_init (about (mk3 0.6 0 0.8) t) /\ cycles 0.05 (fun _ => mk3 0 t 0) (fun _ => mkq 1 0 0 0) f /\
  forall e, 0 < e -> exists k0, forall k, (k0 <= k)%nat -> missed (mkq 1 0 0 0) (mk3 0 t 0) (f k) < e.
Proof.
  destruct (C115_from_start 0.05) as (eps & K & rho & E0 & K0 & R0 & T); [lra|]. set (t := Rmin 1 (eps / 4)). assert (T0 : 0 < t) by (apply Rmin_pos; lra). assert (T1 : t <= 1) by apply Rmin_l. assert (T2 : t <= eps / 4) by apply Rmin_r.
  assert (U0 : dotq (about (mk3 0.6 0 0.8) t) (about (mk3 0.6 0 0.8) t) = 1). { transitivity (cos t * cos t + sin t * sin t); [unfold about, mkqv; vunfoldg; cbn [qw qx qy qz x3 y3 z3]; rnumg; generalize (sin t) (cos t); intros; lra|]. assert (X := sin2_cos2 t). unfold Rsqr in X. lra. }
  assert (AT : Rabs t <= 1) by (rewrite Rabs_pos_eq; lra). destruct (cos_x t AT) as [C1 C2]. assert (DQ : normq (subq (about (mk3 0.6 0 0.8) t) (mkq 1 0 0 0)) <= t).
  { apply Rsqr_incr_0; [|apply normq0|lra]. unfold Rsqr. rewrite normq2. apply Rle_trans with (dotq (about (mk3 0.6 0 0.8) t) (about (mk3 0.6 0 0.8) t) + 1 - 2 * cos t); [right; unfold about, mkqv; vunfoldg; cbn [qw qx qy qz x3 y3 z3]; rnumg; generalize (sin t) (cos t); intros; lra|]. rewrite U0. lra. }
  assert (NB : norm3 (mk3 0 t 0) = t). { unfold norm3. rnumg. replace (dot3 (mk3 0 t 0) (mk3 0 t 0)) with (t * t) by (vunfoldg; cbn [x3 y3 z3]; rnumg; ring). apply sqrt_square. lra. }
  destruct (T (mkq 1 0 0 0) (mk3 0 t 0) (about (mk3 0.6 0 0.8) t) 0 (fun _ => mk3 0 t 0) (fun _ => mkq 1 0 0 0)) as (f & F0 & CY & BD); [vunfoldg; cbn [qw qx qy qz]; rnumg; ring|exact U0|lra|rewrite NB; lra| |].
  { intros k. split; [replace (sub3 (mk3 0 t 0) (mk3 0 t 0)) with (zero3 (T:=R)) by (vunfoldg; cbn [x3 y3 z3]; rnumg; f_equal; ring); rewrite nzero; lra|]. right. unfold normq. rnumg. replace (dotq (subq (mkq 1 0 0 0) (mkq 1 0 0 0)) (subq (mkq 1 0 0 0) (mkq 1 0 0 0))) with 0 by (vunfoldg; cbn [qw qx qy qz]; rnumg; ring). apply sqrt_0. }
  exists t, f. split; [exact T0|]. split; [exact F0|]. split; [exact CY|]. intros e HE. rewrite NB in BD. set (e0 := normq (subq (about (mk3 0.6 0 0.8) t) (mkq 1 0 0 0)) + t) in *. assert (E00 : 0 <= e0) by (unfold e0; assert (X := normq0 (subq (about (mk3 0.6 0 0.8) t) (mkq 1 0 0 0))); lra).
  assert (KE : 0 <= K * e0) by (apply Rmult_le_pos; lra). destruct (pow_lt_1_zero rho) with (y := e / (4 * (K * e0 + 1))) as (k0 & N0). { rewrite Rabs_pos_eq; lra. } { apply Rdiv_lt_0_compat; lra. }
  exists k0. intros k Hk. destruct (BD k) as [A B]. assert (X := N0 k Hk). assert (RK : 0 <= rho ^ k) by (apply pow_le; lra). rewrite Rabs_pos_eq in X by exact RK. assert (rho ^ k * (K * e0 + 1) <= e / (4 * (K * e0 + 1)) * (K * e0 + 1)) by (apply Rmult_le_compat_r; lra). replace (e / (4 * (K * e0 + 1)) * (K * e0 + 1)) with (e / 4) in H by (field; lra). unfold missed. lra.
Qed.
(** the body turns at the rate r about one axis, the gyro bias lies along another: the estimates follow to within twice K r^2 *)
Example C115_slow_ex : exists r K f, 0 < r /\ cycles 0.05 (fun _ => mk3 r r 0) (fun k => about (mk3 0 1 0) (INR (S k) * (r * 0.05 / 2))) f /\
  exists k0, forall k, (k0 <= k)%nat -> missed (about (mk3 0 1 0) (INR k * (r * 0.05 / 2))) (mk3 r 0 0) (f k) <= 4 * K * r ^ 2.
Proof.
  destruct (C115_slow_start 0.05) as (eps & K & rho & E0 & K0 & R0 & T); [lra|]. set (r := eps / 2). assert (r0 : 0 < r) by (unfold r; lra). set (n := mk3 0 1 0). assert (Un : unit3 n) by (unfold unit3, n; vunfoldg; cbn [x3 y3 z3]; rnumg; ring). set (h := r * 0.05 / 2).
  assert (ZQ : forall q : quat, normq (subq q q) = 0). { intros q. unfold normq. rnumg. replace (dotq (subq q q) (subq q q)) with 0 by vring. apply sqrt_0. } assert (AB0 : about n (INR 0 * h) = mkq 1 0 0 0). { unfold about. simpl INR. replace (0 * h) with 0 by ring. rewrite cos_0, sin_0. unfold mkqv, n. vunfoldg. cbn [x3 y3 z3]. rnumg. f_equal; ring. }
  assert (NB : norm3 (mk3 r 0 0) = r). { unfold norm3. rnumg. replace (dot3 (mk3 r 0 0) (mk3 r 0 0)) with (r * r) by (vunfoldg; cbn [x3 y3 z3]; rnumg; ring). apply sqrt_square. lra. }
  destruct (T (fun k => about n (INR k * h)) (mk3 r 0 0) (mkq 1 0 0 0) r 0 (fun _ => mk3 r r 0) (fun k => about n (INR (S k) * h))) as (f & F0 & CY & BD); [apply about_unit, Un|vunfoldg; cbn [qw qx qy qz]; rnumg; ring|unfold r; lra|lra|rewrite AB0, ZQ, NB; unfold r; lra| |].
  { intros k. exists n, r. split; [exact Un|]. split; [rewrite Rabs_pos_eq; lra|]. split; [|split; [|rewrite ZQ; lra]].
    - fold h. replace (INR (S k) * h) with (INR k * h + h) by (rewrite S_INR; ring). unfold about. rewrite cos_plus, sin_plus. generalize (cos (INR k * h)) (sin (INR k * h)) (cos h) (sin h). intros a b c d. unfold mkqv, n, product. vunfoldg. cbn [qw qx qy qz x3 y3 z3]. rnumg. f_equal; ring.
    - unfold n. replace (sub3 (mk3 r r 0) (add3 (scale3 r (mk3 0 1 0)) (mk3 r 0 0))) with (zero3 (T:=R)) by (vunfoldg; cbn [x3 y3 z3]; rnumg; f_equal; ring). rewrite nzero. lra. }
  rewrite AB0, ZQ, NB in BD. exists r, K, f. split; [exact r0|]. split; [exact CY|]. destruct (pow_lt_1_zero rho) with (y := r) as (k0 & N0); [rewrite Rabs_pos_eq; lra|exact r0|]. exists k0. intros k Hk. destruct (BD k) as [A B]. assert (X := N0 k Hk). assert (RK : 0 <= rho ^ k) by (apply pow_le; lra). rewrite Rabs_pos_eq in X by exact RK. assert (rho ^ k * r <= r * r) by (apply Rmult_le_compat_r; lra). assert (K * (rho ^ k * (0 + r) + 0 + r ^ 2) <= K * (2 * r ^ 2)) by (apply Rmult_le_compat_l; [lra|]; lra). unfold missed. fold n. fold h. lra.
Qed.
