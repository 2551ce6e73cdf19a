(** * Properties of classes/observers.py: C99 (the position estimate between measurements) *)
From Coq Require Import Reals List Bool Lra Psatz Lia.
From Coquelicot Require Import Coquelicot.
From Verif Require Import Num Vec Mat6 M_vector M_env M_dyn M_obs S_rot S_dyn S_orb P_tot2 P_tot3 P_dyn P_obs P_orb3 P_orb5 P_exist3 P_posf Props_dyn Props_obs.
Local Open Scope R_scope.

(** ** The specification: the filter's two constants (1/s^2 and 1/s), and quantities of a position and a velocity *)
Definition rate2 : R := 1.28 / 10 ^ 6.
Definition drag : R := 1.618 / 10 ^ 10.
Definition factor (dt : R) : R := 1 - drag * dt + 0.0834 * rate2 ^ 2 * dt ^ 4.
Definition oscillation (dt : R) (p v : v3) : R := rate2 * dot3 p p + drag * dot3 p v + (1 - drag * dt / 2 - 0.1666 * rate2 * dt ^ 2) * dot3 v v.
Definition size2 (p v : v3) : R := rate2 * dot3 p p + dot3 v v.
Definition calls (dt : R) (n : nat) (f : PosF) : PosF := Nat.iter n (pf_propagate dt) f.
Definition e_pos (f : PosF) : v3 := u1 (p_x f).
Definition e_vel (f : PosF) : v3 := u2 (p_x f).

Lemma factor_shrink dt : factor dt = shrink dt. Proof. unfold factor, shrink. change rate2 with pf_a. change drag with pf_b. lra. Qed.
Lemma osc_form dt f : oscillation dt (e_pos f) (e_vel f) = form dt (p_x f). Proof. unfold oscillation, form, e_pos, e_vel. change rate2 with pf_a. change drag with pf_b. lra. Qed.

(** ** The plane of the orbit is kept; angular momentum and the oscillator's form change by the same factor per call *)
Theorem C99_invariants : forall f dt n, let g := calls dt n f in
  cross3 (e_pos g) (e_vel g) = scale3 (factor dt ^ n) (cross3 (e_pos f) (e_vel f)) /\
  oscillation dt (e_pos g) (e_vel g) = factor dt ^ n * oscillation dt (e_pos f) (e_vel f).
Proof. intros f dt n g. rewrite !osc_form, factor_shrink. unfold g, calls, e_pos, e_vel. rewrite iter_step. split; [apply cross_iter|apply form_iter]. Qed.
Print Assumptions C99_invariants.
Theorem C99_spiral : forall f dt n, 0 < dt <= 1000 -> let g := calls dt n f in
  0.7 * factor dt ^ n * size2 (e_pos f) (e_vel f) <= size2 (e_pos g) (e_vel g) <= 1.3 * factor dt ^ n * size2 (e_pos f) (e_vel f) /\
  (dt <= 10.579 -> 0 < factor dt < 1) /\ (10.58 <= dt -> 1 < factor dt).
Proof.
  intros f dt n H g. rewrite factor_shrink. destruct (shrink_rng dt H) as [P _]. split.
  - assert (E := form_iter dt n (p_x f)). rewrite <- iter_step in E. fold (calls dt n f) in E. fold g in E. assert (A := form_sq dt (p_x g) H). assert (B := form_sq dt (p_x f) H).
    change (size2 (e_pos f) (e_vel f)) with (sq6 (p_x f)). change (size2 (e_pos g) (e_vel g)) with (sq6 (p_x g)).
    assert (D : 0 < shrink dt ^ n) by (apply pow_lt; exact P). assert (S1 := sq6_pos (p_x f)). assert (S2 := sq6_pos (p_x g)). rewrite E in A.
    assert (L : shrink dt ^ n * (0.78 * sq6 (p_x f)) <= shrink dt ^ n * form dt (p_x f)) by (apply Rmult_le_compat_l; lra). assert (U : shrink dt ^ n * form dt (p_x f) <= shrink dt ^ n * (1.01 * sq6 (p_x f))) by (apply Rmult_le_compat_l; lra).
    assert (Z : 0 <= shrink dt ^ n * sq6 (p_x f)) by (apply Rmult_le_pos; lra). split; lra.
  - split; intros K; [split; [exact P|apply shrink_below; lra]|apply shrink_above; exact K].
Qed.
Print Assumptions C99_spiral.
(** without measurements, steps of at most 10.579 s end in the centre of the Earth, steps of at least 10.58 s escape *)
Theorem C99_end : forall f dt, 0 < dt <= 1000 ->
  (dt <= 10.579 -> forall eps, 0 < eps -> exists N, forall n, (N <= n)%nat -> norm3 (e_pos (calls dt n f)) <= eps /\ norm3 (e_vel (calls dt n f)) <= eps) /\
  (10.58 <= dt -> 0 < size2 (e_pos f) (e_vel f) -> forall M, exists N, forall n, (N <= n)%nat -> M <= size2 (e_pos (calls dt n f)) (e_vel (calls dt n f))).
Proof.
  intros f dt H. set (S0 := size2 (e_pos f) (e_vel f)). assert (S0p : 0 <= S0) by (apply (sq6_pos (p_x f))). split.
  - intros K eps He. assert (FC : 0 < factor dt < 1) by (apply (C99_spiral f dt 0 H); exact K).
    assert (E2 : 0 < rate2 * (eps * eps) / (1.3 * (S0 + 1))). { apply Rdiv_lt_0_compat; [|lra]. apply Rmult_lt_0_compat; [unfold rate2; lra|nra]. }
    destruct (pow_lt_1_zero (factor dt) ltac:(rewrite Rabs_pos_eq; lra) _ E2) as (N & HN). exists N. intros n Hn.
    destruct (C99_spiral f dt n H) as ((_ & U) & _). fold S0 in U. specialize (HN n ltac:(lia)). rewrite Rabs_pos_eq in HN by (apply pow_le; lra).
    assert (B : size2 (e_pos (calls dt n f)) (e_vel (calls dt n f)) <= rate2 * (eps * eps)).
    { eapply Rle_trans; [exact U|]. apply Rle_trans with (1.3 * (rate2 * (eps * eps) / (1.3 * (S0 + 1))) * (S0 + 1)); [|right; field; lra].
      apply Rmult_le_compat; [|exact S0p| |lra]; [apply Rmult_le_pos; [lra|apply pow_le; lra]|apply Rmult_le_compat_l; [lra|left; exact HN]]. }
    unfold size2 in B. set (p := e_pos (calls dt n f)) in *. set (v := e_vel (calls dt n f)) in *. assert (P1 := dot3_ge0 p). assert (P2 := dot3_ge0 v).
    assert (RP : 0 < rate2 <= 1) by (unfold rate2; lra). assert (Z : 0 <= rate2 * dot3 p p) by (apply Rmult_le_pos; lra).
    assert (B1 : dot3 p p <= eps * eps) by (apply (Rmult_le_reg_l rate2); lra). assert (B2 : dot3 v v <= eps * eps) by (assert (rate2 * (eps * eps) <= 1 * (eps * eps)) by (apply Rmult_le_compat_r; [nra|lra]); lra).
    rewrite <- (sqrt_Rsqr eps) by lra. split; unfold norm3; change (@nsqrt R RNum) with sqrt; apply sqrt_le_1_alt; unfold Rsqr; assumption.
  - intros K SP M. fold S0 in SP. assert (FC : 1 < factor dt) by (apply (C99_spiral f dt 0 H); exact K).
    destruct (Pow_x_infinity (factor dt) ltac:(rewrite Rabs_pos_eq; lra) (Rabs M / (0.7 * S0))) as (N & HN). exists N. intros n Hn. specialize (HN n ltac:(lia)). rewrite Rabs_pos_eq in HN by (apply pow_le; lra).
    destruct (C99_spiral f dt n H) as ((L & _) & _). fold S0 in L. eapply Rle_trans; [|exact L]. eapply Rle_trans; [apply Rle_abs|].
    replace (Rabs M) with (0.7 * (Rabs M / (0.7 * S0)) * S0) by (field; lra). apply Rmult_le_compat_r; [lra|]. apply Rmult_le_compat_l; lra.
Qed.
Print Assumptions C99_end.

(** ** Accuracy on the orbit the constant is made for: a circle of radius r with rate2 r^3 = earth_mu *)
Lemma harm_deriv p0 v0 t : deriv3 (fun t => u1 (harm p0 v0 t)) t (u2 (harm p0 v0 t)) /\ deriv3 (fun t => u2 (harm p0 v0 t)) t (scale3 (- pf_a) (u1 (harm p0 v0 t))).
Proof.
  assert (W := wa_rng). rewrite <- wa_sq. unfold harm. cbn [u1 u2]. destruct p0 as [x y z], v0 as [a b c]. unfold deriv3, add3, scale3. cbn [x3 y3 z3]. rnumg.
  split; (split; [|split]); apply is_derive_Reals; auto_derive; trivial; field; lra.
Qed.
Lemma harm_orbit p0 v0 r len : 0 < r -> norm3 p0 = r -> dot3 p0 v0 = 0 -> pf_a * r ^ 3 = earth_mu -> dot3 v0 v0 = pf_a * dot3 p0 p0 ->
  orbit_motion (fun t => attraction (u1 (harm p0 v0 t))) len (fun t => u1 (harm p0 v0 t)) (fun t => u2 (harm p0 v0 t)).
Proof.
  intros R0 HP HO HR HV t _. destruct (harm_deriv p0 v0 t) as [A B]. split; [exact A|]. cbv beta. unfold attraction.
  destruct (harm_size p0 v0 t HO HV) as [S1 _]. assert (N : norm3 (u1 (harm p0 v0 t)) = r). { rewrite <- HP. unfold norm3. rewrite S1. reflexivity. }
  rewrite N, <- HR. replace (pf_a * r ^ 3 / r ^ 3) with pf_a by (field; lra). exact B.
Qed.
Lemma drift_bound dt n p0 v0 r (z : V6) : 0 < dt <= 10.579 -> 0 < r -> norm3 p0 = r -> dot3 p0 v0 = 0 -> dot3 v0 v0 = pf_a * dot3 p0 p0 -> z = mk6 p0 v0 ->
  fnorm dt (sub6 (Nat.iter n (step6 dt) z) (harm p0 v0 (INR n * dt))) <= INR n * (wa * r * (0.18 * (wa * dt) ^ 3 + 1.05 * pf_b * dt)).
Proof.
  intros H R0 HP HO HV Hz. assert (W := wa_rng). induction n as [|n IH].
  - cbn [INR Nat.iter nat_rect]. rewrite !Rmult_0_l. right. subst z. unfold harm. rewrite Rmult_0_r, cos_0, sin_0. unfold fnorm, form, sub6. cbn [u1 u2].
    replace (sub3 p0 (add3 (scale3 1 p0) (scale3 (0 / wa) v0))) with (@zero3 R RNum) by (destruct p0 as [x y z], v0 as [a b c]; unfold sub3, add3, scale3, zero3; cbn [x3 y3 z3]; rnumg; apply mk3_c; field; lra).
    replace (sub3 v0 (add3 (scale3 (- (wa * 0)) p0) (scale3 1 v0))) with (@zero3 R RNum) by (destruct p0 as [x y z], v0 as [a b c]; unfold sub3, add3, scale3, zero3; cbn [x3 y3 z3]; rnumg; apply mk3_c; ring).
    replace (dot3 zero3 zero3) with 0 by (unfold dot3, zero3; cbn [x3 y3 z3]; rnumg; ring). rewrite !Rmult_0_r, !Rplus_0_r. apply sqrt_0.
  - change (Nat.iter (S n) (step6 dt) z) with (step6 dt (Nat.iter n (step6 dt) z)). set (y := Nat.iter n (step6 dt) z) in *. rewrite S_INR. replace ((INR n + 1) * dt) with (INR n * dt + dt) by ring. rewrite harm_step. set (h := harm p0 v0 (INR n * dt)) in *.
    replace (sub6 (step6 dt y) (sub6 (step6 dt h) (defect dt h))) with (add6 (step6 dt (sub6 y h)) (defect dt h)).
    + eapply Rle_trans; [apply fnorm_add; lra|]. assert (A := fnorm_step dt (sub6 y h) H).
      destruct (harm_size p0 v0 (INR n * dt) HO HV) as [S1 S2]. fold h in S1, S2.
      assert (N1 : norm3 (u1 h) = r) by (rewrite <- HP; unfold norm3; rewrite S1; reflexivity).
      assert (N2 : norm3 (u2 h) = wa * r). { unfold norm3. change (@nsqrt R RNum) with sqrt. rewrite S2, HV, <- wa_sq, <- norm3_dot, HP. replace (wa * wa * (r * r)) with (Rsqr (wa * r)) by (unfold Rsqr; ring). apply sqrt_Rsqr. apply Rmult_le_pos; lra. }
      assert (D := defect_size dt h (wa * r) H ltac:(apply Rmult_le_pos; lra) ltac:(rewrite N1; lra) ltac:(rewrite N2; lra)). lra.
    + assert (E : forall u w : V6, sub6 u w = add6 u (mk6 (scale3 (-1) (u1 w)) (scale3 (-1) (u2 w)))) by (intros [[a b c] [d e g]] [[i j k] [l m o]]; unfold sub6, add6, sub3, add3, scale3; cbn [u1 u2 x3 y3 z3]; rnumg; f_equal; apply mk3_c; ring).
      rewrite (E y h), step6_add. generalize (step6 dt y) (defect dt h). unfold step6. cbn [u1 u2]. generalize (cA11 dt) (cA12 dt) (cA21 dt) (cA22 dt). intros q1 q2 q3 q4. destruct h as [[a b c] [d e g]]. intros [[a1 b1 c1] [d1 e1 g1]] [[a2 b2 c2] [d2 e2 g2]].
      unfold sub6, add6, sub3, add3, scale3; cbn [u1 u2 x3 y3 z3]; rnumg; f_equal; apply mk3_c; ring.
Qed.
Theorem C99_accuracy : forall f dt n len p v r, 0 < dt <= 10.579 -> INR n * dt <= len ->
  orbit_motion (fun t => attraction (p t)) len p v -> 0 < r -> norm3 (p 0) = r -> dot3 (p 0) (v 0) = 0 -> norm3 (v 0) ^ 2 = earth_mu / r -> rate2 * r ^ 3 = earth_mu ->
  e_pos f = p 0 -> e_vel f = v 0 ->
  let c := INR n * (0.19 * (sqrt rate2 * dt) ^ 3 + 1.1 * drag * dt) in
  norm3 (sub3 (e_pos (calls dt n f)) (p (INR n * dt))) <= c * r /\ norm3 (sub3 (e_vel (calls dt n f)) (v (INR n * dt))) <= c * norm3 (v 0).
Proof.
  intros f dt n len p v r H HL OM R0 HP HO HV HR E1 E2 c. change rate2 with pf_a in *. assert (W := wa_rng). assert (WS := wa_sq). assert (IN := pos_INR n).
  assert (L0 : 0 <= len) by (assert (0 <= INR n * dt) by (apply Rmult_le_pos; lra); lra).
  assert (HV' : dot3 (v 0) (v 0) = pf_a * dot3 (p 0) (p 0)). { rewrite <- !norm3_dot, HP. replace (norm3 (v 0) * norm3 (v 0)) with (norm3 (v 0) ^ 2) by ring. rewrite HV, <- HR. field. lra. }
  assert (NV : norm3 (v 0) = wa * r). { unfold norm3. change (@nsqrt R RNum) with sqrt. rewrite HV', <- WS, <- norm3_dot, HP. replace (wa * wa * (r * r)) with (Rsqr (wa * r)) by (unfold Rsqr; ring). apply sqrt_Rsqr. apply Rmult_le_pos; lra. }
  assert (OH := harm_orbit (p 0) (v 0) r len R0 HP HO HR HV').
  assert (H00 : harm (p 0) (v 0) 0 = mk6 (p 0) (v 0)). { unfold harm. rewrite Rmult_0_r, cos_0, sin_0. destruct (p 0) as [x y z], (v 0) as [a b d]. unfold add3, scale3. cbn [x3 y3 z3]. rnumg. f_equal; apply mk3_c; field; lra. }
  assert (CR : cross3 (p 0) (v 0) <> zero3).
  { intros C. assert (Z : dot3 (cross3 (p 0) (v 0)) (cross3 (p 0) (v 0)) + dot3 (p 0) (v 0) * dot3 (p 0) (v 0) = dot3 (p 0) (p 0) * dot3 (v 0) (v 0)) by (clear; destruct (p 0) as [x y z], (v 0) as [a b d]; unfold dot3, cross3; cbn [x3 y3 z3]; rnumg; ring).
    rewrite C, HO, HV', <- (norm3_dot (p 0)), HP in Z. replace (dot3 zero3 zero3) with 0 in Z by (unfold dot3, zero3; cbn [x3 y3 z3]; rnumg; ring). assert (0 < pf_a) by (rewrite pfa_val; lra). assert (0 < r * r) by nra. assert (0 < r * r * (pf_a * (r * r))) by (apply Rmult_lt_0_compat; [lra|apply Rmult_lt_0_compat; lra]). lra. }
  destruct (orbit_unique _ _ _ _ len L0 OM OH CR ltac:(cbv beta; rewrite H00; reflexivity) ltac:(cbv beta; rewrite H00; reflexivity) (INR n * dt) ltac:(split; [apply Rmult_le_pos; lra|exact HL])) as [U1 U2].
  rewrite U1, U2.
  assert (B := drift_bound dt n (p 0) (v 0) r (p_x f) H R0 HP HO HV' ltac:(rewrite <- E1, <- E2; unfold e_pos, e_vel; destruct (p_x f); reflexivity)).
  rewrite <- iter_step in B. fold (calls dt n f) in B. set (g := calls dt n f) in *. set (d := sub6 (p_x g) (harm (p 0) (v 0) (INR n * dt))) in *.
  change (sub3 (e_pos g) (u1 (harm (p 0) (v 0) (INR n * dt)))) with (u1 d). change (sub3 (e_vel g) (u2 (harm (p 0) (v 0) (INR n * dt)))) with (u2 d).
  assert (F := form_sq_short dt d ltac:(lra)). assert (FP : 0 <= form dt d) by (assert (S := sq6_pos d); lra).
  change (sqrt pf_a) with wa in c. change drag with pf_b in c. set (t3 := (wa * dt) ^ 3) in *. assert (T3 : 0 < t3) by (apply pow_lt; apply Rmult_lt_0_compat; lra). assert (BP : 0 < pf_b * dt) by (apply Rmult_lt_0_compat; [rewrite pfb_val; lra|lra]).
  set (V := wa * r) in *. assert (VP : 0 < V) by (apply Rmult_lt_0_compat; lra).
  assert (KEY : forall x, 0 <= x -> 0.99 * (x * x) <= form dt d -> x <= c * V).
  { intros x X0 Hx. assert (S1 : 0.99 * x <= fnorm dt d). { unfold fnorm. rewrite <- (sqrt_Rsqr (0.99 * x)) by lra. apply sqrt_le_1_alt. unfold Rsqr. assert (0 <= x * x) by nra. lra. }
    assert (S2 : x <= INR n * (V * (0.18 * t3 + 1.05 * pf_b * dt)) / 0.99) by (apply (Rmult_le_reg_l 0.99); [lra|]; field_simplify; lra).
    eapply Rle_trans; [exact S2|]. unfold c. replace (INR n * (V * (0.18 * t3 + 1.05 * pf_b * dt)) / 0.99) with (INR n * V * ((0.18 * t3 + 1.05 * pf_b * dt) / 0.99)) by (field; lra). replace (INR n * (0.19 * t3 + 1.1 * pf_b * dt) * V) with (INR n * V * (0.19 * t3 + 1.1 * pf_b * dt)) by ring.
    apply Rmult_le_compat_l; [apply Rmult_le_pos; lra|]. lra. }
  assert (N1 : 0 <= norm3 (u1 d)) by apply sqrt_pos. assert (N2 : 0 <= norm3 (u2 d)) by apply sqrt_pos.
  unfold sq6 in F. rewrite <- !norm3_dot, <- WS in F. assert (Q1 : 0 <= wa * wa * (norm3 (u1 d) * norm3 (u1 d))) by (apply Rmult_le_pos; nra). assert (Q2 : 0 <= norm3 (u2 d) * norm3 (u2 d)) by nra.
  split.
  - assert (X := KEY (wa * norm3 (u1 d)) ltac:(apply Rmult_le_pos; lra) ltac:(lra)). apply (Rmult_le_reg_l wa); [lra|]. unfold V in X. lra.
  - rewrite NV. apply KEY; [exact N2|lra].
Qed.
Print Assumptions C99_accuracy.

(** a satellite on that orbit: hypotheses of the accuracy theorem; and a nonzero estimate *)
Example C99_ex : exists p v r f, orbit_motion (fun t => attraction (p t)) 100 p v /\ 0 < r /\ norm3 (p 0) = r /\ dot3 (p 0) (v 0) = 0 /\ norm3 (v 0) ^ 2 = earth_mu / r /\ rate2 * r ^ 3 = earth_mu /\
  e_pos f = p 0 /\ e_vel f = v 0 /\ 0 < size2 (e_pos f) (e_vel f) /\ INR 10 * 10 <= 100.
Proof.
  assert (PM : 0 < earth_mu / rate2) by (unfold earth_mu, rate2; lra).
  set (r := Rpower (earth_mu / rate2) (/ 3)). assert (R0 : 0 < r) by apply exp_pos.
  assert (RC : r ^ 3 = earth_mu / rate2). { rewrite <- (Rpower_pow 3 r R0). unfold r. rewrite Rpower_mult. replace (/ 3 * INR 3) with 1 by (cbn [INR]; field). apply Rpower_1. exact PM. }
  assert (HR : rate2 * r ^ 3 = earth_mu) by (rewrite RC; field; unfold rate2; lra). assert (W := wa_rng). assert (WS := wa_sq).
  set (p0 := mk3 r 0 0). set (v0 := mk3 0 (wa * r) 0).
  assert (N0 : norm3 p0 = r) by (unfold norm3, dot3, p0; cbn [x3 y3 z3]; rnumg; replace (r * r + 0 * 0 + 0 * 0) with (Rsqr r) by (unfold Rsqr; ring); apply sqrt_Rsqr; lra).
  assert (N1 : norm3 v0 = wa * r) by (unfold norm3, dot3, v0; cbn [x3 y3 z3]; rnumg; replace (0 * 0 + wa * r * (wa * r) + 0 * 0) with (Rsqr (wa * r)) by (unfold Rsqr; ring); apply sqrt_Rsqr; apply Rmult_le_pos; lra).
  assert (HO : dot3 p0 v0 = 0) by (unfold dot3, p0, v0; cbn [x3 y3 z3]; rnumg; ring).
  assert (HV : dot3 v0 v0 = pf_a * dot3 p0 p0) by (rewrite <- WS; unfold dot3, p0, v0; cbn [x3 y3 z3]; rnumg; ring).
  assert (H00 : harm p0 v0 0 = mk6 p0 v0). { unfold harm. rewrite Rmult_0_r, cos_0, sin_0. unfold p0, v0, add3, scale3. cbn [x3 y3 z3]. rnumg. f_equal; apply mk3_c; field; lra. }
  exists (fun t => u1 (harm p0 v0 t)), (fun t => u2 (harm p0 v0 t)), r, (mkPF (mk6 p0 v0) id6 ex_state). rewrite H00. cbn [u1 u2].
  split; [apply (harm_orbit p0 v0 r 100 R0 N0 HO HR HV)|]. split; [exact R0|]. split; [exact N0|]. split; [exact HO|].
  split; [rewrite N1, <- HR; change rate2 with pf_a; rewrite <- WS; field; lra|]. split; [exact HR|]. split; [reflexivity|]. split; [reflexivity|]. split; [|cbn [INR]; lra].
  unfold size2, e_pos, e_vel. cbn [p_x u1 u2]. change rate2 with pf_a. rewrite HV, <- norm3_dot, N0. assert (0 < pf_a) by (rewrite pfa_val; lra). assert (0 < pf_a * (r * r)) by (apply Rmult_lt_0_compat; [lra|nra]). lra.
Qed.
