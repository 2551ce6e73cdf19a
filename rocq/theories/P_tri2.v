(** * Lemmas: the star-tracker filter's covariance stays close to one that treats all axes alike *)
From Coq Require Import Reals Lra Psatz Lia.
From Verif Require Import Num Vec Mat6 M_vector M_quaternion M_obs S_rot S_obs S_steady P_quat P_wheel P_dyn P_dyn2 P_obs P_obs3 P_steady Props_obs P_farr P_est1 P_est2 P_est3 P_tot3 P_orb3 P_tri1.
Local Open Scope R_scope.

(** ** vectors *)
Lemma nscale s (v : v3) : norm3 (scale3 s v) = Rabs s * norm3 v.
Proof. unfold norm3. rnumg. replace (dot3 (scale3 s v) (scale3 s v)) with (s * s * dot3 v v) by vring. rewrite sqrt_mult; [|apply sq0|apply dot3_nonneg]. f_equal. exact (sqrt_Rsqr_abs s). Qed.
Lemma ncross (a b : v3) : norm3 (cross3 a b) <= norm3 a * norm3 b.
Proof.
  unfold norm3. rnumg. rewrite <- sqrt_mult by apply dot3_nonneg. apply sqrt_le_1_alt. rewrite <- (P_quat.cauchy3 a b). assert (X := pow2_ge_0 (dot3 a b)). lra.
Qed.
Lemma nadd (a b : v3) : norm3 (add3 a b) <= norm3 a + norm3 b. Proof. apply norm3_triangle. Qed.
Lemma nsub (a b : v3) : norm3 (sub3 a b) <= norm3 a + norm3 b.
Proof. replace (sub3 a b) with (add3 a (scale3 (-1) b)) by vring. eapply Rle_trans; [apply nadd|]. rewrite nscale. replace (Rabs (-1)) with 1; [lra|]. rewrite Rabs_left; lra. Qed.
Lemma nzero : norm3 (zero3 (T:=R)) = 0. Proof. unfold norm3. rnumg. replace (dot3 (zero3 (T:=R)) zero3) with 0 by vring. apply sqrt_0. Qed.
Lemma ndot (a b : v3) : Rabs (dot3 a b) <= norm3 a * norm3 b. Proof. apply dot_norm. Qed.

(** ** the transition is close to that of a body at rest *)
Lemma n_zero_w (w : v3) : norm3 w = 0 -> w = zero3.
Proof. intros H. assert (X := n3sq w). rewrite H in X. destruct w as [wa wb wc]. revert X. vunfoldg. cbn [x3 y3 z3]. rnumg. intros X. assert (A := sq0 wa). assert (B := sq0 wb). assert (C := sq0 wc). f_equal; apply Rsqr_0_uniq; unfold Rsqr; lra. Qed.
Lemma phi11_form w dt v : exists k1 k2, sub3 (mv (tr3 (phi_11 w dt)) v) v = add3 (scale3 k1 (cross3 w v)) (scale3 k2 (cross3 w (cross3 w v))) /\
  (norm3 w <> 0 -> k1 = sin (norm3 w * dt) / norm3 w /\ k2 = (1 - cos (norm3 w * dt)) / norm3 w ^ 2).
Proof.
  unfold phi_11. cbv zeta. destruct (Reqb_spec (norm3 w ^ 2) 0) as [Z|Z]; cbn [negb].
  - assert (N : norm3 w = 0) by (destruct (Rmult_integral (norm3 w) (norm3 w)); [lra|assumption|assumption]). destruct (Reqb_spec (norm3 w) 0) as [_|C]; [|contradiction]. cbn [negb]. exists 0, 0. split; [|intros C; contradiction]. generalize v w. clear. vring.
  - eexists _, _. split; [|intros _; split; reflexivity]. generalize (sin (norm3 w * dt) / norm3 w) ((1 - cos (norm3 w * dt)) / norm3 w ^ 2). intros k1 k2. clear. revert v w. qring.
Qed.
Lemma phi12_form w dt v : exists k1 k2, add3 (mv (tr3 (phi_12 w dt)) v) (scale3 dt v) = add3 (scale3 k1 (cross3 w v)) (scale3 k2 (cross3 w (cross3 w v))) /\
  (norm3 w <> 0 -> k1 = - ((1 - cos (norm3 w * dt)) / norm3 w ^ 2) /\ k2 = - ((norm3 w * dt - sin (norm3 w * dt)) / norm3 w ^ 3)).
Proof.
  unfold phi_12. cbv zeta. destruct (Reqb_spec (norm3 w ^ 2) 0) as [Z|Z]; cbn [negb].
  - assert (N : norm3 w = 0) by (destruct (Rmult_integral (norm3 w) (norm3 w)); [lra|assumption|assumption]). exists 0, 0. split; [|intros C; contradiction]. generalize v w. clear. vring.
  - assert (Z3 : norm3 w ^ 3 <> 0). { apply pow_nonzero. intros C. apply Z. rewrite C. ring. } destruct (Reqb_spec (norm3 w ^ 3) 0) as [C|_]; [contradiction|]. cbn [negb]. eexists _, _. split; [|intros _; split; reflexivity].
    generalize ((norm3 w * dt - sin (norm3 w * dt)) / norm3 w ^ 3) ((1 - cos (norm3 w * dt)) / norm3 w ^ 2). intros k2 k1. clear. revert v w. qring.
Qed.
Lemma two_cross k1 k2 (w v : v3) : norm3 (add3 (scale3 k1 (cross3 w v)) (scale3 k2 (cross3 w (cross3 w v)))) <= (Rabs k1 * norm3 w + Rabs k2 * (norm3 w * norm3 w)) * norm3 v.
Proof.
  eapply Rle_trans; [apply nadd|]. rewrite !nscale. assert (A := ncross w v). assert (B := ncross w (cross3 w v)). assert (W := n3pos w). assert (norm3 w * norm3 (cross3 w v) <= norm3 w * (norm3 w * norm3 v)) by (apply Rmult_le_compat_l; assumption).
  assert (Rabs k1 * norm3 (cross3 w v) <= Rabs k1 * (norm3 w * norm3 v)) by (apply Rmult_le_compat_l; [apply Rabs_pos|assumption]). assert (Rabs k2 * norm3 (cross3 w (cross3 w v)) <= Rabs k2 * (norm3 w * (norm3 w * norm3 v))) by (apply Rmult_le_compat_l; [apply Rabs_pos|lra]). lra.
Qed.
Lemma phi_near w dt v : 0 < dt -> norm3 w * dt <= 1 ->
  norm3 (sub3 (mv (tr3 (phi_11 w dt)) v) v) <= 2 * dt * norm3 w * norm3 v /\ norm3 (add3 (mv (tr3 (phi_12 w dt)) v) (scale3 dt v)) <= 2 * dt * dt * norm3 w * norm3 v.
Proof.
  intros D W. destruct (phi11_form w dt v) as (k1 & k2 & -> & E1). destruct (phi12_form w dt v) as (l1 & l2 & -> & E2). assert (N0 := n3pos w). assert (V0 := n3pos v).
  destruct (Req_dec (norm3 w) 0) as [Z|Z].
  - rewrite Z, (n_zero_w w Z). assert (C : forall u : v3, cross3 zero3 u = zero3) by vring. rewrite !C, !P_farr.scale_zero3, !add3_0_r, nzero. lra.
  - destruct (E1 Z) as [-> ->]. destruct (E2 Z) as [-> ->]. clear E1 E2. set (n := norm3 w) in *. assert (NP : 0 < n) by lra. assert (ND : 0 < n * dt) by (apply Rmult_lt_0_compat; assumption). assert (AB : Rabs (n * dt) <= 1) by (rewrite Rabs_pos_eq; lra).
    destruct (cos_x _ AB) as [C1 C2]. destruct (sin_x _ AB) as [S1 S2]. rewrite (Rabs_pos_eq (n * dt)) in S2 by lra.
    assert (I1 : 0 < / n) by (apply Rinv_0_lt_compat, NP). assert (I2 : 0 < / n ^ 2) by (apply Rinv_0_lt_compat, pow_lt, NP). assert (I3 : 0 < / n ^ 3) by (apply Rinv_0_lt_compat, pow_lt, NP).
    assert (A1 : Rabs (sin (n * dt) / n) <= dt). { unfold Rdiv. rewrite Rabs_mult, (Rabs_pos_eq (/ n)) by lra. apply Rle_trans with (n * dt * / n); [apply Rmult_le_compat_r; lra|right; field; lra]. }
    assert (A2 : Rabs ((1 - cos (n * dt)) / n ^ 2) <= dt * dt / 2). { unfold Rdiv. rewrite Rabs_mult, (Rabs_pos_eq (/ n ^ 2)), (Rabs_pos_eq (1 - cos (n * dt))) by lra. apply Rle_trans with (n * dt * (n * dt) / 2 * / n ^ 2); [apply Rmult_le_compat_r; lra|right; field; lra]. }
    assert (A3 : Rabs ((n * dt - sin (n * dt)) / n ^ 3) * n <= dt * dt). { unfold Rdiv. rewrite Rabs_mult, (Rabs_pos_eq (/ n ^ 3)), Rabs_minus_sym by lra. apply Rle_trans with (n * dt * (n * dt) * / n ^ 3 * n); [apply Rmult_le_compat_r; [lra|]; apply Rmult_le_compat_r; lra|right; field; lra]. }
    split; (eapply Rle_trans; [apply two_cross|]); fold n; apply Rmult_le_compat_r; try exact V0; rewrite ?Rabs_Ropp.
    + assert (Rabs (sin (n * dt) / n) * n <= dt * n) by (apply Rmult_le_compat_r; lra). assert (Rabs ((1 - cos (n * dt)) / n ^ 2) * (n * n) <= dt * dt / 2 * (n * n)) by (apply Rmult_le_compat_r; [apply sq0|lra]). assert (dt * n * (n * dt) <= dt * n * 1) by (apply Rmult_le_compat_l; lra). lra.
    + assert (Rabs ((1 - cos (n * dt)) / n ^ 2) * n <= dt * dt / 2 * n) by (apply Rmult_le_compat_r; lra). assert (Rabs ((n * dt - sin (n * dt)) / n ^ 3) * n * n <= dt * dt * n) by (apply Rmult_le_compat_r; lra). assert (0 <= dt * dt * n) by (apply Rmult_le_pos; [apply sq0|lra]). lra.
Qed.

(** ** quadratic forms that treat the three axes alike *)
Definition sz (p q r : R) : R := Rabs p + 2 * Rabs q + Rabs r.
Lemma sz_pos p q r : 0 <= sz p q r. Proof. unfold sz. assert (X := Rabs_pos p). assert (Y := Rabs_pos q). assert (Z := Rabs_pos r). lra. Qed.
Lemma bil_le p q r (u x v y : v3) : Rabs (p * dot3 u v + q * dot3 u y + q * dot3 x v + r * dot3 x y) <= sz p q r * ((norm3 u + norm3 x) * (norm3 v + norm3 y)).
Proof.
  assert (T : forall c (a b : v3), Rabs (c * dot3 a b) <= Rabs c * (norm3 a * norm3 b)) by (intros c a b; rewrite Rabs_mult; apply Rmult_le_compat_l; [apply Rabs_pos|apply ndot]).
  assert (A1 := T p u v). assert (A2 := T q u y). assert (A3 := T q x v). assert (A4 := T r x y). assert (U := n3pos u). assert (X := n3pos x). assert (V := n3pos v). assert (Y := n3pos y).
  eapply Rle_trans; [apply Rabs_triang|]. eapply Rle_trans; [apply Rplus_le_compat_r, Rabs_triang|]. eapply Rle_trans; [apply Rplus_le_compat_r, Rplus_le_compat_r, Rabs_triang|].
  assert (P1 : 0 <= norm3 u * norm3 v) by (apply Rmult_le_pos; assumption). assert (P2 : 0 <= norm3 u * norm3 y) by (apply Rmult_le_pos; assumption). assert (P3 : 0 <= norm3 x * norm3 v) by (apply Rmult_le_pos; assumption). assert (P4 : 0 <= norm3 x * norm3 y) by (apply Rmult_le_pos; assumption).
  set (T0 := norm3 u * norm3 v + norm3 u * norm3 y + norm3 x * norm3 v + norm3 x * norm3 y). assert (ET : (norm3 u + norm3 x) * (norm3 v + norm3 y) = T0) by (unfold T0; ring). rewrite ET. unfold sz.
  assert (Rabs p * (norm3 u * norm3 v) <= Rabs p * T0) by (apply Rmult_le_compat_l; [apply Rabs_pos|unfold T0; lra]). assert (Rabs q * (norm3 u * norm3 y) <= Rabs q * T0) by (apply Rmult_le_compat_l; [apply Rabs_pos|unfold T0; lra]). assert (Rabs q * (norm3 x * norm3 v) <= Rabs q * T0) by (apply Rmult_le_compat_l; [apply Rabs_pos|unfold T0; lra]). assert (Rabs r * (norm3 x * norm3 y) <= Rabs r * T0) by (apply Rmult_le_compat_l; [apply Rabs_pos|unfold T0; lra]). lra.
Qed.
Lemma fm3_up p q r u x : Rabs (fm3 p q r u x) <= sz p q r * ((norm3 u + norm3 x) * (norm3 u + norm3 x)).
Proof. replace (fm3 p q r u x) with (p * dot3 u u + q * dot3 u x + q * dot3 x u + r * dot3 x x) by (unfold fm3; rewrite (dot_comm3 x u); ring). apply bil_le. Qed.
Lemma fm3_diff p q r (u x v y : v3) : Rabs (fm3 p q r (add3 u v) (add3 x y) - fm3 p q r u x) <= sz p q r * ((2 * (norm3 u + norm3 x) + (norm3 v + norm3 y)) * (norm3 v + norm3 y)).
Proof.
  replace (fm3 p q r (add3 u v) (add3 x y) - fm3 p q r u x) with (2 * (p * dot3 u v + q * dot3 u y + q * dot3 x v + r * dot3 x y) + fm3 p q r v y) by (unfold fm3; vunfoldg; rnumg; ring).
  eapply Rle_trans; [apply Rabs_triang|]. rewrite Rabs_mult, (Rabs_pos_eq 2) by lra. assert (A := bil_le p q r u x v y). assert (B := fm3_up p q r v y). lra.
Qed.
Lemma fm3_pos p q r : psd p q r -> forall u x, 0 <= fm3 p q r u x.
Proof. intros H u x. rewrite fm3_sum. assert (A := H (x3 u) (x3 x)). assert (B := H (y3 u) (y3 x)). assert (C := H (z3 u) (z3 x)). lra. Qed.
Lemma fm3_low p q r : 0 < p -> 0 < p * r - q * q -> exists e, 0 < e /\ forall u x, e * ((norm3 u + norm3 x) * (norm3 u + norm3 x)) <= fm3 p q r u x.
Proof.
  intros P D. destruct (fm_low p q r P D) as (e & E & L). exists (e / 2). split; [lra|]. intros u x. rewrite fm3_sum. assert (X1 := L (x3 u) (x3 x)). assert (X2 := L (y3 u) (y3 x)). assert (X3 := L (z3 u) (z3 x)). assert (W := sq0 (norm3 u - norm3 x)).
  assert (EE : (norm3 u + norm3 x) * (norm3 u + norm3 x) <= 2 * (dot3 u u + dot3 x x)) by (rewrite <- !n3sq; lra). assert (DD : dot3 u u + dot3 x x = x3 u * x3 u + y3 u * y3 u + z3 u * z3 u + (x3 x * x3 x + y3 x * y3 x + z3 x * z3 x)) by (vunfoldg; rnumg; ring). rewrite DD in EE.
  apply Rle_trans with (e / 2 * (2 * (x3 u * x3 u + y3 u * y3 u + z3 u * z3 u + (x3 x * x3 x + y3 x * y3 x + z3 x * z3 x)))); [apply Rmult_le_compat_l; lra|]. lra.
Qed.

(** ** between two multiples of such a form *)
Definition between (eta : R) (P : M6) (p q r : R) : Prop := symm6 P /\ forall x, (1 - eta) * fm3 p q r (u1 x) (u2 x) <= dot6 x (mv6 P x) <= (1 + eta) * fm3 p q r (u1 x) (u2 x).
Lemma between_cov eta P p q r : eta <= 1 -> psd p q r -> between eta P p q r -> cov_ok P.
Proof. intros H PS [A B]. split; [exact A|]. intros x. assert (X := fm3_pos p q r PS (u1 x) (u2 x)). destruct (B x) as [B1 _]. assert (0 <= (1 - eta) * fm3 p q r (u1 x) (u2 x)) by (apply Rmult_le_pos; lra). lra. Qed.
Lemma noise_form dt x : dot6 x (mv6 (mm6 af_G (mm6 (af_Q dt) (tr6 af_G))) x) = fm3 (fa dt) (fc dt) (fd dt) (u1 x) (u2 x).
Proof.
  rewrite !mv6_mm. unfold af_G. assert (TG : tr6 (diag6 (-1) 1) = diag6 (-1) 1) by apply diag6_symm. rewrite TG, !diag6_mv. cbn [u1 u2]. unfold af_Q. cbv zeta. unfold mv6. cbn [u1 u2 b11 b12 b21 b22]. rewrite !mv_scalem, !mv_id3. destruct x as [v y]. unfold dot6, fm3, fa, fc, fd. cbn [u1 u2].
  replace (-0.5) with (- (1 / 2)) by lra. replace 0.5 with (1 / 2) by lra. generalize GYRO_VAR DRIFT_VAR 0.3333333. intros g d k. vunfoldg. cbn [x3 y3 z3]. rnumg. field.
Qed.
Lemma pre_form h a c d p q r u x : fm3 (pre_p h a p q r) (pre_q h c p q r) (pre_r d p q r) u x = fm3 p q r u (sub3 x (scale3 h u)) + fm3 a c d u x.
Proof. unfold fm3, pre_p, pre_q, pre_r. vunfoldg. rnumg. ring. Qed.
Lemma between_propagate dt : 0 < dt -> exists c, 0 < c /\ forall eta w f p q r, 0 < eta <= 1 -> psd p q r -> let v := sub3 w (a_b f) in norm3 v * dt <= 1 -> sz p q r * norm3 v <= c * eta ->
  between eta (a_P f) p q r -> between eta (a_P (af_propagate w dt f)) (pre_p dt (fa dt) p q r) (pre_q dt (fc dt) p q r) (pre_r (fd dt) p q r).
Proof.
  intros H. destruct (noise_ok dt H) as (N1 & N2 & N3 & N4). assert (FA : 0 < fa dt). { assert (0 < fd dt * dt * dt) by (apply Rmult_lt_0_compat; [apply Rmult_lt_0_compat; assumption|assumption]). lra. }
  destruct (fm3_low (fa dt) (fc dt) (fd dt) FA N4) as (e & E & LOW). set (k := 2 * dt * (1 + dt)). assert (K0 : 0 < k) by (unfold k; repeat apply Rmult_lt_0_compat; lra). set (kk := k * (4 * (1 + dt))). assert (KK : 0 < kk) by (unfold kk; apply Rmult_lt_0_compat; lra).
  exists (e / (2 * kk)). split; [apply Rdiv_lt_0_compat; lra|]. intros eta w f p q r ET PS v V1 V2 [SY B]. split.
  { unfold af_propagate. cbv zeta. cbn [a_P]. apply symm6_add; apply symm6_conj; [exact SY|apply Q_symm]. }
  intros x. unfold af_propagate. cbv zeta. cbn [a_P]. fold v. rewrite mv6_addm, dot6_add_r, noise_form. set (N := fm3 (fa dt) (fc dt) (fd dt) (u1 x) (u2 x)). rewrite !mv6_mm. assert (TT : forall y, dot6 x (mv6 (af_phi v dt) y) = dot6 (mv6 (tr6 (af_phi v dt)) x) y) by (intros y; rewrite dot6_tr, tr6_invol; reflexivity). rewrite TT.
  rewrite pre_form. fold N. set (y := mv6 (tr6 (af_phi v dt)) x). assert (BY := B y). assert (LN := LOW (u1 x) (u2 x)). fold N in LN. set (n := norm3 (u1 x) + norm3 (u2 x)) in *. assert (P1 := n3pos (u1 x)). assert (P2 := n3pos (u2 x)). assert (V0 := n3pos v).
  assert (Y1 : u1 y = mv (tr3 (phi_11 v dt)) (u1 x)). { unfold y, af_phi, tr6, mv6. cbn [u1 u2 b11 b12 b21 b22]. rewrite P_farr.tr3_zero, mv_zerom, add3_0_r. reflexivity. }
  assert (Y2 : u2 y = add3 (mv (tr3 (phi_12 v dt)) (u1 x)) (u2 x)). { unfold y, af_phi, tr6, mv6. cbn [u1 u2 b11 b12 b21 b22]. rewrite P_farr.tr3_id, mv_id3. reflexivity. }
  destruct (phi_near v dt (u1 x) H V1) as [F1 F2]. set (d1 := sub3 (mv (tr3 (phi_11 v dt)) (u1 x)) (u1 x)) in *. set (d2 := add3 (mv (tr3 (phi_12 v dt)) (u1 x)) (scale3 dt (u1 x))) in *.
  assert (Z1 : u1 y = add3 (u1 x) d1) by (rewrite Y1; unfold d1; generalize (mv (tr3 (phi_11 v dt)) (u1 x)) (u1 x); clear; vring). assert (Z2 : u2 y = add3 (sub3 (u2 x) (scale3 dt (u1 x))) d2) by (rewrite Y2; unfold d2; generalize (mv (tr3 (phi_12 v dt)) (u1 x)) (u1 x) (u2 x) dt; clear; vring).
  assert (DF := fm3_diff p q r (u1 x) (sub3 (u2 x) (scale3 dt (u1 x))) d1 d2). rewrite <- Z1, <- Z2 in DF. set (Fy := fm3 p q r (u1 y) (u2 y)) in *. set (F0 := fm3 p q r (u1 x) (sub3 (u2 x) (scale3 dt (u1 x)))) in *.
  assert (DB : norm3 d1 + norm3 d2 <= k * norm3 v * n). { apply Rle_trans with (k * norm3 v * norm3 (u1 x)); [unfold k; lra|]. apply Rmult_le_compat_l; [apply Rmult_le_pos; lra|unfold n; lra]. }
  assert (SB : norm3 (sub3 (u2 x) (scale3 dt (u1 x))) <= norm3 (u2 x) + dt * norm3 (u1 x)). { eapply Rle_trans; [apply nsub|]. rewrite nscale, Rabs_pos_eq by lra. lra. }
  assert (TB : norm3 (u1 x) + norm3 (sub3 (u2 x) (scale3 dt (u1 x))) <= (1 + dt) * n). { unfold n. assert (0 <= dt * norm3 (u2 x)) by (apply Rmult_le_pos; lra). lra. }
  assert (N0 : 0 <= n) by (unfold n; lra). assert (D1 := n3pos d1). assert (D2 := n3pos d2). assert (T3 := n3pos (sub3 (u2 x) (scale3 dt (u1 x)))).
  assert (KV : k * norm3 v <= 2 * (1 + dt)). { unfold k. assert (2 * (1 + dt) * (norm3 v * dt) <= 2 * (1 + dt) * 1) by (apply Rmult_le_compat_l; lra). lra. } assert (KN : k * norm3 v * n <= 2 * (1 + dt) * n) by (apply Rmult_le_compat_r; assumption).
  assert (DF2 : Rabs (Fy - F0) <= sz p q r * (kk * norm3 v * (n * n))).
  { eapply Rle_trans; [exact DF|]. apply Rmult_le_compat_l; [apply sz_pos|]. apply Rle_trans with (4 * (1 + dt) * n * (k * norm3 v * n)); [apply Rmult_le_compat; lra|]. right. unfold kk. ring. }
  assert (DF3 : 2 * Rabs (Fy - F0) <= eta * N).
  { apply Rle_trans with (eta * (e * (n * n))); [|apply Rmult_le_compat_l; lra]. apply Rle_trans with (2 * kk * (n * n) * (sz p q r * norm3 v)); [lra|]. apply Rle_trans with (2 * kk * (n * n) * (e / (2 * kk) * eta)); [apply Rmult_le_compat_l; [apply Rmult_le_pos; [lra|apply sq0]|exact V2]|]. right. field. lra. }
  assert (AB : - Rabs (Fy - F0) <= Fy - F0 <= Rabs (Fy - F0)) by (unfold Rabs; destruct (Rcase_abs (Fy - F0)); lra). assert (RA := Rabs_pos (Fy - F0)). destruct BY as [BY1 BY2]. assert (EP : forall z, 0 <= z -> 0 <= eta * z <= z) by (intros z Z; split; [apply Rmult_le_pos; lra|assert (eta * z <= 1 * z) by (apply Rmult_le_compat_r; lra); lra]).
  assert (E1 : (1 + eta) * (Fy - F0) <= 2 * Rabs (Fy - F0)). { apply Rle_trans with ((1 + eta) * Rabs (Fy - F0)); [apply Rmult_le_compat_l; lra|]. destruct (EP _ RA). lra. }
  assert (E2 : (1 - eta) * (F0 - Fy) <= 2 * Rabs (Fy - F0)). { apply Rle_trans with ((1 - eta) * Rabs (Fy - F0)); [apply Rmult_le_compat_l; lra|]. destruct (EP _ RA). lra. }
  lra.
Qed.

(** ** the measurement *)
Lemma att_best r P : 0 < r -> symm6 P -> psd6 P ->
  let Si := inv3 (addm (scalem r id3) (b11 P)) in
  let P' := mm6 (subm6 id6 (mkB (mm (b11 P) Si) zerom (mm (b21 P) Si) zerom)) P in
  forall x, let J l := dot6 (mk6 (sub3 (u1 x) l) (u2 x)) (mv6 P (mk6 (sub3 (u1 x) l) (u2 x))) + r * dot3 l l in (forall l, dot6 x (mv6 P' x) <= J l) /\ exists l, dot6 x (mv6 P' x) = J l.
Proof.
  intros Hr SP PP Si P' x J. destruct (att_update r P Hr SP PP) as (_ & EQ & _). assert (E := EQ x). cbv zeta in E. fold Si in E. fold P' in E. set (g := mv Si (u1 (mv6 P x))) in *.
  assert (SB : forall l, sub6 x (mk6 l zero3) = mk6 (sub3 (u1 x) l) (u2 x)) by (intros l; unfold sub6; cbn [u1 u2]; rewrite sub3_0_r; reflexivity). rewrite SB in E. split; [|exists g; exact E]. intros l. rewrite E. fold (J g).
  destruct (innovation_pd r P Hr SP PP) as (SS & PS & D). set (S := addm (scalem r id3) (b11 P)) in *. cbv zeta in D. assert (SG : mv S g = u1 (mv6 P x)) by (unfold g, Si; apply mv_inv3; fold S; lra).
  assert (FJ : forall l, J l = dot6 x (mv6 P x) - 2 * dot3 l (u1 (mv6 P x)) + dot3 l (mv S l)).
  { intros l'. unfold J. rewrite <- SB, mv6_sub, dot6_sub_l, !dot6_sub_r. assert (D1 : forall y, dot6 (mk6 l' zero3) y = dot3 l' (u1 y)). { intros [a b]. unfold dot6. cbn [u1 u2]. replace (dot3 zero3 b) with 0 by vring. ring. }
    assert (X2 : dot6 x (mv6 P (mk6 l' zero3)) = dot6 (mk6 l' zero3) (mv6 P x)) by (rewrite <- (symm6_dot P x _ SP), dot6_comm; reflexivity). rewrite X2, !D1. unfold S. rewrite mv_addm, mv_scalem, mv_id3. replace (dot3 l' (add3 (scale3 r l') (mv (b11 P) l'))) with (r * dot3 l' l' + dot3 l' (mv (b11 P) l')) by (generalize (mv (b11 P) l'); vring).
    replace (u1 (mv6 P (mk6 l' zero3))) with (mv (b11 P) l') by (unfold mv6; cbn [u1 u2]; rewrite mv_zero3, add3_0_r; reflexivity). ring. }
  rewrite !FJ, <- SG. assert (DS : dot3 g (mv S l) = dot3 l (mv S g)) by (rewrite <- (dot_comm3 (mv S l) g), dot_tr, SS; reflexivity).
  assert (Q : 0 <= dot3 (sub3 l g) (mv S (sub3 l g))). { destruct (zero3_dec (sub3 l g)) as [Z|Z]; [rewrite Z, mv_zero3; right; vring|left; apply PS, Z]. }
  replace (dot3 (sub3 l g) (mv S (sub3 l g))) with (dot3 l (mv S l) - dot3 l (mv S g) - dot3 g (mv S l) + dot3 g (mv S g)) in Q. 2:{ rewrite mv_sub3. generalize (mv S l) (mv S g) l g. clear. vring. } lra.
Qed.
