(** * Lemmas: the position estimate between measurements *)
From Coq Require Import Reals List Bool Lra Psatz Lia.
From Verif Require Import Num Vec Mat6 M_vector M_obs S_orb S_dyn P_tot2 P_tot3 P_dyn P_obs P_orb3 P_orb5 P_exist3.
Local Open Scope R_scope.

Lemma abs_both x y : Rabs x <= y -> - y <= x <= y. Proof. unfold Rabs. destruct (Rcase_abs x); lra. Qed.
(** Taylor bounds *)
Lemma sin_taylor x : 0 <= x <= 1 -> x - x ^ 3 / 6 <= sin x <= x - x ^ 3 / 6 + x ^ 5 / 120.
Proof.
  intros H. assert (P := PI2_1). destruct (sin_bound x 0) as [A B]; [lra|lra|].
  unfold sin_approx, sin_term, sum_f_R0 in A, B. cbn [Nat.mul Nat.add] in A, B. cbn [fact Nat.mul Nat.add INR pow] in A, B. split; [eapply Rle_trans; [|exact A]|eapply Rle_trans; [exact B|]]; right; field.
Qed.
Lemma cos_taylor x : 0 <= x <= 1 -> 1 - x ^ 2 / 2 <= cos x <= 1 - x ^ 2 / 2 + x ^ 4 / 24.
Proof.
  intros H. assert (P := PI2_1). destruct (cos_bound x 0) as [A B]; [lra|lra|].
  unfold cos_approx, cos_term, sum_f_R0 in A, B. cbn [Nat.mul Nat.add] in A, B. cbn [fact Nat.mul Nat.add INR pow] in A, B. split; [eapply Rle_trans; [|exact A]|eapply Rle_trans; [exact B|]]; right; field.
Qed.

(** One call: with [a], [b] the two constants of the filter *)
Definition cA12 (dt : R) : R := dt - dt ^ 2 * pf_b / 2 - 1666 / 10000 * pf_a * dt ^ 3.
Definition cA11 (dt : R) : R := 1 - pf_a * dt ^ 2 / 2.
Definition cA22 (dt : R) : R := 1 - pf_a * dt ^ 2 / 2 - pf_b * dt.
Definition cA21 (dt : R) : R := - (pf_a * dt).
Lemma mv_scal s (v : v3) : mv (scalem s id3) v = scale3 s v.
Proof. destruct v as [x y z]. unfold mv, scalem, id3, scale3, dot3. cbn [row1 row2 row3 x3 y3 z3]. rnumg. apply mk3_c; ring. Qed.
Definition step6 (dt : R) (z : V6) : V6 := mk6 (add3 (scale3 (cA11 dt) (u1 z)) (scale3 (cA12 dt) (u2 z))) (add3 (scale3 (cA21 dt) (u1 z)) (scale3 (cA22 dt) (u2 z))).
Lemma propagate_step dt f : p_x (pf_propagate dt f) = step6 dt (p_x f).
Proof.
  unfold pf_propagate. cbv zeta. cbn [p_x]. unfold A_discrete, mv6, step6. cbv zeta. cbn [b11 b12 b21 b22]. rewrite !mv_scal.
  replace (1 - 0.5 * pf_a * dt ^ 2) with (cA11 dt) by (unfold cA11; lra). replace (dt - 0.5 * pf_b * dt ^ 2 - 0.1666 * pf_a * dt * dt ^ 2) with (cA12 dt) by (unfold cA12; lra).
  replace (- pf_a * dt) with (cA21 dt) by (unfold cA21; ring). replace (cA11 dt - pf_b * dt) with (cA22 dt) by (unfold cA11, cA22; ring). reflexivity.
Qed.
Lemma iter_step dt n f : p_x (Nat.iter n (pf_propagate dt) f) = Nat.iter n (step6 dt) (p_x f).
Proof. induction n as [|n IH]; [reflexivity|]. cbn [Nat.iter nat_rect]. change (p_x (pf_propagate dt (Nat.iter n (pf_propagate dt) f)) = step6 dt (Nat.iter n (step6 dt) (p_x f))). rewrite propagate_step, IH. reflexivity. Qed.

(** the factor of one call *)
Definition shrink (dt : R) : R := 1 - pf_b * dt + 834 / 10000 * pf_a ^ 2 * dt ^ 4.
Lemma shrink_det dt : cA11 dt * cA22 dt - cA12 dt * cA21 dt = shrink dt.
Proof. unfold cA11, cA22, cA12, cA21, shrink. field. Qed.
(** the conserved form, for a general pair of vectors *)
Definition form (dt : R) (z : V6) : R := pf_a * dot3 (u1 z) (u1 z) + pf_b * dot3 (u1 z) (u2 z) + (1 - dt * pf_b / 2 - 1666 / 10000 * pf_a * dt ^ 2) * dot3 (u2 z) (u2 z).
Lemma form_step dt z : form dt (step6 dt z) = shrink dt * form dt z.
Proof.
  unfold form, step6. cbn [u1 u2]. destruct z as [x v]. cbn [u1 u2].
  set (p := cA11 dt). set (q := cA12 dt). set (r := cA21 dt). set (s := cA22 dt).
  replace (dot3 (add3 (scale3 p x) (scale3 q v)) (add3 (scale3 p x) (scale3 q v))) with (p * p * dot3 x x + 2 * p * q * dot3 x v + q * q * dot3 v v) by (clear; destruct x as [x y z], v as [v1 v2 v4]; unfold dot3, add3, scale3; cbn [x3 y3 z3]; rnumg; ring).
  replace (dot3 (add3 (scale3 p x) (scale3 q v)) (add3 (scale3 r x) (scale3 s v))) with (p * r * dot3 x x + (p * s + q * r) * dot3 x v + q * s * dot3 v v) by (clear; destruct x as [x y z], v as [v1 v2 v4]; unfold dot3, add3, scale3; cbn [x3 y3 z3]; rnumg; ring).
  replace (dot3 (add3 (scale3 r x) (scale3 s v)) (add3 (scale3 r x) (scale3 s v))) with (r * r * dot3 x x + 2 * r * s * dot3 x v + s * s * dot3 v v) by (clear; destruct x as [x y z], v as [v1 v2 v4]; unfold dot3, add3, scale3; cbn [x3 y3 z3]; rnumg; ring).
  unfold p, q, r, s, cA11, cA12, cA21, cA22, shrink. field.
Qed.
Lemma cross_step dt z : cross3 (u1 (step6 dt z)) (u2 (step6 dt z)) = scale3 (shrink dt) (cross3 (u1 z) (u2 z)).
Proof.
  unfold step6. cbn [u1 u2]. rewrite <- shrink_det. generalize (cA11 dt) (cA12 dt) (cA21 dt) (cA22 dt). destruct z as [[x y z] [v1 v2 v4]]. cbn [u1 u2]. intros p q r s. unfold cross3, add3, scale3. cbn [x3 y3 z3]. rnumg. apply mk3_c; ring.
Qed.
Lemma form_iter dt n z : form dt (Nat.iter n (step6 dt) z) = shrink dt ^ n * form dt z.
Proof. induction n as [|n IH]; [cbn; ring|]. change (Nat.iter (S n) (step6 dt) z) with (step6 dt (Nat.iter n (step6 dt) z)). rewrite form_step, IH. cbn [pow]. ring. Qed.
Lemma cross_iter dt n z : cross3 (u1 (Nat.iter n (step6 dt) z)) (u2 (Nat.iter n (step6 dt) z)) = scale3 (shrink dt ^ n) (cross3 (u1 z) (u2 z)).
Proof.
  induction n as [|n IH]; [cbn [pow]; unfold scale3; rnumg; destruct z as [[x y z] [v1 v2 v4]]; cbn [Nat.iter nat_rect u1 u2]; unfold cross3; cbn [x3 y3 z3]; rnumg; apply mk3_c; ring|].
  change (Nat.iter (S n) (step6 dt) z) with (step6 dt (Nat.iter n (step6 dt) z)). rewrite cross_step, IH. cbn [pow]. generalize (cross3 (u1 z) (u2 z)). intros [a b c]. unfold scale3. cbn [x3 y3 z3]. rnumg. apply mk3_c; ring.
Qed.

(** constants *)
Lemma pfa_val : pf_a = 128 / 100000000. Proof. unfold pf_a. lra. Qed.
Lemma pfb_val : pf_b = 1618 / 10000000000000. Proof. unfold pf_b. lra. Qed.
(** weighted square of position and velocity *)
Definition sq6 (z : V6) : R := pf_a * dot3 (u1 z) (u1 z) + dot3 (u2 z) (u2 z).
Lemma dot3_ge0 (v : v3) : 0 <= dot3 v v. Proof. unfold dot3. rnumg. nra. Qed.
Lemma xv_small (x v : v3) : Rabs (pf_b * dot3 x v) <= / 1000000 * (pf_a * dot3 x x + dot3 v v).
Proof.
  assert (A := dot3_ge0 (add3 (scale3 (/ 1000) x) v)). assert (B := dot3_ge0 (sub3 (scale3 (/ 1000) x) v)). assert (C := dot3_ge0 x). assert (D := dot3_ge0 v).
  replace (dot3 (add3 (scale3 (/ 1000) x) v) (add3 (scale3 (/ 1000) x) v)) with (/ 1000000 * dot3 x x + 2 / 1000 * dot3 x v + dot3 v v) in A by (clear; destruct x as [x y z], v as [v1 v2 v4]; unfold dot3, add3, scale3; cbn [x3 y3 z3]; rnumg; field).
  replace (dot3 (sub3 (scale3 (/ 1000) x) v) (sub3 (scale3 (/ 1000) x) v)) with (/ 1000000 * dot3 x x - 2 / 1000 * dot3 x v + dot3 v v) in B by (clear; destruct x as [x y z], v as [v1 v2 v4]; unfold dot3, sub3, scale3; cbn [x3 y3 z3]; rnumg; field).
  rewrite pfa_val, pfb_val. apply Rabs_le. lra.
Qed.
Definition gam (dt : R) : R := 1 - dt * pf_b / 2 - 1666 / 10000 * pf_a * dt ^ 2.
Lemma form_sq dt z : 0 < dt <= 1000 -> 0.78 * sq6 z <= form dt z <= 1.01 * sq6 z.
Proof.
  intros H. assert (X := xv_small (u1 z) (u2 z)). unfold form, sq6. apply abs_both in X. assert (C := dot3_ge0 (u1 z)). assert (D := dot3_ge0 (u2 z)).
  fold (gam dt). assert (G : 0.786 <= gam dt <= 1). { unfold gam. rewrite pfa_val, pfb_val. assert (0 < dt ^ 2 <= 1000000) by (cbn [pow]; nra). lra. }
  assert (P : 0 < pf_a) by (rewrite pfa_val; lra). assert (E : 0 <= pf_a * dot3 (u1 z) (u1 z)) by (apply Rmult_le_pos; lra).
  assert (F : 0.786 * dot3 (u2 z) (u2 z) <= gam dt * dot3 (u2 z) (u2 z)) by (apply Rmult_le_compat_r; lra). assert (F' : gam dt * dot3 (u2 z) (u2 z) <= 1 * dot3 (u2 z) (u2 z)) by (apply Rmult_le_compat_r; lra).
  split; lra.
Qed.
Lemma form_sq_short dt z : 0 < dt <= 11 -> 0.99 * sq6 z <= form dt z <= 1.01 * sq6 z.
Proof.
  intros H. assert (X := xv_small (u1 z) (u2 z)). unfold form, sq6. apply abs_both in X. assert (C := dot3_ge0 (u1 z)). assert (D := dot3_ge0 (u2 z)).
  fold (gam dt). assert (G : 0.999 <= gam dt <= 1). { unfold gam. rewrite pfa_val, pfb_val. assert (0 < dt ^ 2 <= 121) by (cbn [pow]; nra). lra. }
  assert (P : 0 < pf_a) by (rewrite pfa_val; lra). assert (E : 0 <= pf_a * dot3 (u1 z) (u1 z)) by (apply Rmult_le_pos; lra).
  assert (F : 0.999 * dot3 (u2 z) (u2 z) <= gam dt * dot3 (u2 z) (u2 z)) by (apply Rmult_le_compat_r; lra). assert (F' : gam dt * dot3 (u2 z) (u2 z) <= 1 * dot3 (u2 z) (u2 z)) by (apply Rmult_le_compat_r; lra).
  split; lra.
Qed.
Lemma sq6_pos z : 0 <= sq6 z.
Proof. unfold sq6. assert (C := dot3_ge0 (u1 z)). assert (D := dot3_ge0 (u2 z)). assert (P : 0 < pf_a) by (rewrite pfa_val; lra). assert (E : 0 <= pf_a * dot3 (u1 z) (u1 z)) by (apply Rmult_le_pos; lra). lra. Qed.
Lemma shrink_rng dt : 0 < dt <= 1000 -> 0 < shrink dt <= 2.
Proof.
  intros H. unfold shrink. rewrite pfa_val, pfb_val. assert (P2 : 0 < dt ^ 2 <= 1000000) by (cbn [pow]; nra). assert (P4 : 0 < dt ^ 4 <= 1000000000000).
  { replace (dt ^ 4) with (dt ^ 2 * dt ^ 2) by ring. nra. } lra.
Qed.
(** where the factor is below one: a threshold between 10.579 s and 10.58 s *)
Lemma shrink_below dt : 0 < dt <= 10.579 -> shrink dt < 1.
Proof.
  intros H. unfold shrink. rewrite pfa_val, pfb_val. assert (P2 : dt ^ 2 <= 10.579 * 10.579) by (cbn [pow]; nra). assert (P3 : dt ^ 3 <= 10.579 * 10.579 * 10.579).
  { replace (dt ^ 3) with (dt ^ 2 * dt) by ring. apply Rmult_le_compat; [nra|lra|lra|lra]. }
  replace (dt ^ 4) with (dt ^ 3 * dt) by ring. assert (dt ^ 3 * dt <= 10.579 * 10.579 * 10.579 * dt) by (apply Rmult_le_compat_r; lra). lra.
Qed.
Lemma shrink_above dt : 10.58 <= dt -> 1 < shrink dt.
Proof.
  intros H. unfold shrink. rewrite pfa_val, pfb_val. assert (P2 : 10.58 * 10.58 <= dt ^ 2) by (cbn [pow]; nra). assert (P3 : 10.58 * 10.58 * 10.58 <= dt ^ 3).
  { replace (dt ^ 3) with (dt ^ 2 * dt) by ring. apply Rmult_le_compat; lra. }
  replace (dt ^ 4) with (dt ^ 3 * dt) by ring. assert (10.58 * 10.58 * 10.58 * dt <= dt ^ 3 * dt) by (apply Rmult_le_compat_r; lra). lra.
Qed.

(** ** The form is the square of a norm *)
Lemma minkowski2 a b c d : sqrt ((a + c) * (a + c) + (b + d) * (b + d)) <= sqrt (a * a + b * b) + sqrt (c * c + d * d).
Proof.
  assert (H := norm3_triangle (mk3 a b 0) (mk3 c d 0)). unfold norm3, dot3, add3 in H. cbn [x3 y3 z3] in H. rnum.
  replace ((a + c) * (a + c) + (b + d) * (b + d) + (0 + 0) * (0 + 0)) with ((a + c) * (a + c) + (b + d) * (b + d)) in H by ring.
  replace (a * a + b * b + 0 * 0) with (a * a + b * b) in H by ring. replace (c * c + d * d + 0 * 0) with (c * c + d * d) in H by ring. exact H.
Qed.
Lemma norm3_scal s (v : v3) : norm3 (scale3 s v) = Rabs s * norm3 v.
Proof.
  rewrite <- (sqrt_Rsqr_abs s). unfold norm3. change (@nsqrt R RNum) with sqrt. rewrite <- sqrt_mult; [|apply Rle_0_sqr|apply dot3_ge0]. f_equal. unfold dot3, scale3, Rsqr. cbn [x3 y3 z3]. rnumg. ring.
Qed.
Lemma norm3_dot (v : v3) : norm3 v * norm3 v = dot3 v v.
Proof. unfold norm3. change (@nsqrt R RNum) with sqrt. apply sqrt_sqrt. apply dot3_ge0. Qed.
Definition fnorm (dt : R) (z : V6) : R := sqrt (form dt z).
Lemma form_squares dt : 0 < dt <= 11 -> exists k l, 0 < k /\ 0 < l /\ forall z, form dt z = (k * norm3 (add3 (u1 z) (scale3 (pf_b / (2 * pf_a)) (u2 z)))) ^ 2 + (l * norm3 (u2 z)) ^ 2.
Proof.
  intros H. assert (P : 0 < pf_a) by (rewrite pfa_val; lra). assert (G : 0 < gam dt - pf_b * pf_b / (4 * pf_a)).
  { unfold gam. rewrite pfa_val, pfb_val. assert (0 < dt ^ 2 <= 121) by (cbn [pow]; nra). lra. }
  exists (sqrt pf_a), (sqrt (gam dt - pf_b * pf_b / (4 * pf_a))). split; [apply sqrt_lt_R0; exact P|]. split; [apply sqrt_lt_R0; exact G|]. intros [x v].
  rewrite !Rpow_mult_distr. assert (E1 : sqrt pf_a ^ 2 = pf_a) by (cbn [pow]; rewrite Rmult_1_r; apply sqrt_sqrt; lra). assert (E2 : sqrt (gam dt - pf_b * pf_b / (4 * pf_a)) ^ 2 = gam dt - pf_b * pf_b / (4 * pf_a)) by (cbn [pow]; rewrite Rmult_1_r; apply sqrt_sqrt; lra).
  rewrite E1, E2. cbn [pow u1 u2]. rewrite !Rmult_1_r, !norm3_dot. unfold form. cbn [u1 u2]. fold (gam dt).
  replace (dot3 (add3 x (scale3 (pf_b / (2 * pf_a)) v)) (add3 x (scale3 (pf_b / (2 * pf_a)) v))) with (dot3 x x + 2 * (pf_b / (2 * pf_a)) * dot3 x v + (pf_b / (2 * pf_a)) ^ 2 * dot3 v v) by (generalize (pf_b / (2 * pf_a)); clear; destruct x as [x y z], v as [v1 v2 v4]; intros s; unfold dot3, add3, scale3; cbn [x3 y3 z3]; rnumg; ring).
  field. lra.
Qed.
Lemma fnorm_add dt y z : 0 < dt <= 11 -> fnorm dt (add6 y z) <= fnorm dt y + fnorm dt z.
Proof.
  intros H. destruct (form_squares dt H) as (k & l & K & L & E). unfold fnorm. rewrite !E. destruct y as [x v], z as [x' v']. unfold add6. cbn [u1 u2]. set (c := pf_b / (2 * pf_a)).
  replace (add3 (add3 x x') (scale3 c (add3 v v'))) with (add3 (add3 x (scale3 c v)) (add3 x' (scale3 c v'))) by (clear; destruct x as [x1 x2 x4], v as [v1 v2 v4], x' as [y1 y2 y4], v' as [w1 w2 w4]; unfold add3, scale3; cbn [x3 y3 z3]; rnumg; apply mk3_c; ring).
  set (p := add3 x (scale3 c v)). set (q := add3 x' (scale3 c v')). assert (T1 := norm3_triangle p q). assert (T2 := norm3_triangle v v').
  eapply Rle_trans; [|eapply Rle_trans; [apply (minkowski2 (k * norm3 p) (l * norm3 v) (k * norm3 q) (l * norm3 v'))|]].
  - apply sqrt_le_1_alt. assert (N1 : 0 <= norm3 (add3 p q)) by apply sqrt_pos. assert (N2 : 0 <= norm3 (add3 v v')) by apply sqrt_pos.
    assert (A : k * norm3 (add3 p q) <= k * norm3 p + k * norm3 q) by nra. assert (B : l * norm3 (add3 v v') <= l * norm3 v + l * norm3 v') by nra.
    assert (A0 : 0 <= k * norm3 (add3 p q)) by nra. assert (B0 : 0 <= l * norm3 (add3 v v')) by nra. cbn [pow]. rewrite !Rmult_1_r. apply Rplus_le_compat; apply Rmult_le_compat; assumption.
  - right. f_equal; f_equal; ring.
Qed.
Lemma step6_add dt y z : step6 dt (add6 y z) = add6 (step6 dt y) (step6 dt z).
Proof.
  unfold step6, add6. cbn [u1 u2]. generalize (cA11 dt) (cA12 dt) (cA21 dt) (cA22 dt). destruct y as [[x y z1] [v1 v2 v4]], z as [[a b c] [w1 w2 w4]]. cbn [u1 u2]. intros p q r s. unfold add3, scale3. cbn [x3 y3 z3]. rnumg. f_equal; apply mk3_c; ring.
Qed.
Lemma fnorm_step dt z : 0 < dt <= 10.579 -> fnorm dt (step6 dt z) <= fnorm dt z.
Proof.
  intros H. unfold fnorm. rewrite form_step. apply sqrt_le_1_alt. assert (A := shrink_below dt H). assert (F := form_sq_short dt z ltac:(lra)). assert (S := sq6_pos z). nra.
Qed.

(** ** Comparison with the harmonic motion of the filter's own rate *)
Definition wa : R := sqrt pf_a.
Lemma wa_sq : wa * wa = pf_a. Proof. apply sqrt_sqrt. rewrite pfa_val. lra. Qed.
Lemma wa_rng : 0.001131 <= wa <= 0.001132.
Proof.
  assert (P : 0 <= wa) by apply sqrt_pos. assert (S := wa_sq). rewrite pfa_val in S. split; nra.
Qed.
Definition harm (p0 v0 : v3) (t : R) : V6 := mk6 (add3 (scale3 (cos (wa * t)) p0) (scale3 (sin (wa * t) / wa) v0)) (add3 (scale3 (- (wa * sin (wa * t))) p0) (scale3 (cos (wa * t)) v0)).
(** one call from a state of the motion: the defect *)
Definition defect (dt : R) (z : V6) : V6 :=
  mk6 (add3 (scale3 (cA11 dt - cos (wa * dt)) (u1 z)) (scale3 (cA12 dt - sin (wa * dt) / wa) (u2 z))) (add3 (scale3 (cA21 dt + wa * sin (wa * dt)) (u1 z)) (scale3 (cA22 dt - cos (wa * dt)) (u2 z))).
Lemma harm_step p0 v0 t dt : harm p0 v0 (t + dt) = sub6 (step6 dt (harm p0 v0 t)) (defect dt (harm p0 v0 t)).
Proof.
  assert (W := wa_rng). unfold harm. rewrite Rmult_plus_distr_l, cos_plus, sin_plus. unfold sub6, step6, defect. cbn [u1 u2].
  generalize (cA11 dt) (cA12 dt) (cA21 dt) (cA22 dt). intros A B C D. set (c := cos (wa * dt)). set (s := sin (wa * dt)). set (c' := cos (wa * t)). set (s' := sin (wa * t)). clearbody c s c' s'.
  destruct p0 as [x y z], v0 as [a b d]. unfold add3, sub3, scale3. cbn [x3 y3 z3]. rnumg. f_equal; apply mk3_c; field; lra.
Qed.
Lemma harm_size p0 v0 t : dot3 p0 v0 = 0 -> dot3 v0 v0 = pf_a * dot3 p0 p0 -> dot3 (u1 (harm p0 v0 t)) (u1 (harm p0 v0 t)) = dot3 p0 p0 /\ dot3 (u2 (harm p0 v0 t)) (u2 (harm p0 v0 t)) = dot3 v0 v0.
Proof.
  intros H1 H2. unfold harm. cbn [u1 u2]. assert (W := wa_rng). assert (WS := wa_sq). assert (T := sin2_cos2 (wa * t)). unfold Rsqr in T. set (c := cos (wa * t)) in *. set (s := sin (wa * t)) in *.
  assert (G : forall m n, dot3 (add3 (scale3 m p0) (scale3 n v0)) (add3 (scale3 m p0) (scale3 n v0)) = m * m * dot3 p0 p0 + 2 * m * n * dot3 p0 v0 + n * n * dot3 v0 v0) by (intros m n; clear; destruct p0 as [x y z], v0 as [v1 v2 v4]; unfold dot3, add3, scale3; cbn [x3 y3 z3]; rnumg; ring).
  rewrite !G, H1, H2, <- WS. split.
  - replace (c * c * dot3 p0 p0 + 2 * c * (s / wa) * 0 + s / wa * (s / wa) * (wa * wa * dot3 p0 p0)) with ((s * s + c * c) * dot3 p0 p0) by (field; lra). rewrite T. ring.
  - replace (- (wa * s) * - (wa * s) * dot3 p0 p0 + 2 * - (wa * s) * c * 0 + c * c * (wa * wa * dot3 p0 p0)) with ((s * s + c * c) * (wa * wa * dot3 p0 p0)) by ring. rewrite T. ring.
Qed.
Lemma defect_size dt z V : 0 < dt <= 10.579 -> 0 <= V -> wa * norm3 (u1 z) <= V -> norm3 (u2 z) <= V ->
  fnorm dt (defect dt z) <= V * (0.18 * (wa * dt) ^ 3 + 1.05 * pf_b * dt).
Proof.
  intros H HV H1 H2. assert (W := wa_rng). assert (WS := wa_sq). set (th := wa * dt). assert (TH : 0 < th <= 0.012) by (unfold th; split; [apply Rmult_lt_0_compat; lra|nra]).
  destruct (sin_taylor th ltac:(lra)) as [S1 S2]. destruct (cos_taylor th ltac:(lra)) as [C1 C2].
  assert (T2 : 0 < th ^ 2 <= 0.000144) by (cbn [pow]; nra).
  assert (T3 : 0 < th ^ 3) by (apply pow_lt; lra). assert (T4 : 0 < th ^ 4 <= 0.012 * th ^ 3) by (replace (th ^ 4) with (th * th ^ 3) by ring; split; [apply Rmult_lt_0_compat; lra|apply Rmult_le_compat_r; lra]).
  assert (T5 : 0 < th ^ 5 <= 0.000144 * th ^ 3) by (replace (th ^ 5) with (th ^ 2 * th ^ 3) by ring; split; [apply Rmult_lt_0_compat; lra|apply Rmult_le_compat_r; lra]).
  assert (BP : 0 < pf_b * dt) by (apply Rmult_lt_0_compat; [rewrite pfb_val; lra|lra]).
  assert (BT : 0 <= th * (pf_b * dt) <= 0.012 * (pf_b * dt)) by (split; [apply Rmult_le_pos; lra|apply Rmult_le_compat_r; lra]).
  assert (E11 : cA11 dt = 1 - th ^ 2 / 2) by (unfold cA11, th; rewrite <- WS; field).
  assert (E12 : wa * cA12 dt = th - th * (pf_b * dt) / 2 - 1666 / 10000 * th ^ 3) by (unfold cA12, th; rewrite <- WS; field).
  assert (E21 : cA21 dt = - (wa * th)) by (unfold cA21, th; rewrite <- WS; ring).
  assert (E22 : cA22 dt = 1 - th ^ 2 / 2 - pf_b * dt) by (unfold cA22, th; rewrite <- WS; field).
  assert (A11 : Rabs (cA11 dt - cos th) <= th ^ 4 / 24) by (rewrite E11; apply Rabs_le; lra).
  assert (A12 : Rabs (wa * cA12 dt - sin th) <= 0.0001 * th ^ 3 + 0.006 * (pf_b * dt) + th ^ 5 / 120) by (rewrite E12; apply Rabs_le; lra).
  assert (A21 : Rabs (- th + sin th) <= th ^ 3 / 6) by (apply Rabs_le; lra).
  assert (A22 : Rabs (cA22 dt - cos th) <= th ^ 4 / 24 + pf_b * dt) by (rewrite E22; apply Rabs_le; lra).
  set (d := defect dt z). set (e1 := th ^ 4 / 24 + (0.0001 * th ^ 3 + 0.006 * (pf_b * dt) + th ^ 5 / 120)). set (e2 := th ^ 3 / 6 + (th ^ 4 / 24 + pf_b * dt)).
  assert (D1 : wa * norm3 (u1 d) <= V * e1).
  { unfold d, defect. cbn [u1]. fold th. eapply Rle_trans; [apply Rmult_le_compat_l; [lra|apply norm3_triangle]|]. rewrite !norm3_scal.
    assert (Q1 : Rabs (cA11 dt - cos th) * (wa * norm3 (u1 z)) <= th ^ 4 / 24 * V) by (apply Rmult_le_compat; [apply Rabs_pos|apply Rmult_le_pos; [lra|apply sqrt_pos]|exact A11|exact H1]).
    assert (Q2 : Rabs (wa * cA12 dt - sin th) * norm3 (u2 z) <= (0.0001 * th ^ 3 + 0.006 * (pf_b * dt) + th ^ 5 / 120) * V) by (apply Rmult_le_compat; [apply Rabs_pos|apply sqrt_pos|exact A12|exact H2]).
    replace (wa * cA12 dt - sin th) with (wa * (cA12 dt - sin th / wa)) in Q2 by (field; lra). rewrite Rabs_mult, (Rabs_pos_eq wa) in Q2 by lra. unfold e1. lra. }
  assert (D2 : norm3 (u2 d) <= V * e2).
  { unfold d, defect. cbn [u2]. fold th. eapply Rle_trans; [apply norm3_triangle|]. rewrite !norm3_scal.
    assert (Q1 : Rabs (- th + sin th) * (wa * norm3 (u1 z)) <= th ^ 3 / 6 * V) by (apply Rmult_le_compat; [apply Rabs_pos|apply Rmult_le_pos; [lra|apply sqrt_pos]|exact A21|exact H1]).
    assert (Q2 : Rabs (cA22 dt - cos th) * norm3 (u2 z) <= (th ^ 4 / 24 + pf_b * dt) * V) by (apply Rmult_le_compat; [apply Rabs_pos|apply sqrt_pos|exact A22|exact H2]).
    replace (cA21 dt + wa * sin th) with (wa * (- th + sin th)) by (rewrite E21; ring). rewrite Rabs_mult, (Rabs_pos_eq wa) by lra. unfold e2. lra. }
  assert (N1 : 0 <= norm3 (u1 d)) by apply sqrt_pos. assert (N2 : 0 <= norm3 (u2 d)) by apply sqrt_pos. assert (P1 : 0 <= e1) by (unfold e1; lra). assert (P2 : 0 <= e2) by (unfold e2; lra).
  assert (SQ : sq6 d <= (V * (e1 + e2)) * (V * (e1 + e2))).
  { unfold sq6. rewrite <- WS, <- !norm3_dot. assert (Q1 : wa * norm3 (u1 d) * (wa * norm3 (u1 d)) <= V * e1 * (V * e1)) by (apply Rmult_le_compat; try assumption; apply Rmult_le_pos; lra).
    assert (Q2 : norm3 (u2 d) * norm3 (u2 d) <= V * e2 * (V * e2)) by (apply Rmult_le_compat; assumption). assert (0 <= V * e1) by (apply Rmult_le_pos; assumption). assert (0 <= V * e2) by (apply Rmult_le_pos; assumption). nra. }
  assert (VE : 0 <= V * (e1 + e2)) by (apply Rmult_le_pos; lra).
  assert (FB : form dt d <= (1.01 * (V * (e1 + e2))) * (1.01 * (V * (e1 + e2)))) by (assert (F := form_sq_short dt d ltac:(lra)); assert (0 <= V * (e1 + e2) * (V * (e1 + e2))) by (apply Rmult_le_pos; assumption); lra).
  apply Rle_trans with (1.01 * (V * (e1 + e2))).
  - unfold fnorm. rewrite <- (sqrt_Rsqr (1.01 * (V * (e1 + e2)))) by lra. apply sqrt_le_1_alt. exact FB.
  - replace (1.01 * (V * (e1 + e2))) with (V * (1.01 * (e1 + e2))) by ring. apply Rmult_le_compat_l; [exact HV|]. unfold e1, e2. lra.
Qed.
