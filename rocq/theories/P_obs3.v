(** * Lemmas for the attitude filter *)
From Coq Require Import Reals List Bool Lra Psatz Lia.
From Verif Require Import Num Vec Mat6 M_vector M_quaternion M_jday M_frame M_env M_dyn M_obs S_rot S_env S_dyn S_obs P_quat P_wheel P_dyn P_dyn2 P_obs.
Local Open Scope R_scope.

(** ** the measurement update of the covariance *)
Lemma symm_blocks P : symm6 P -> tr3 (b11 P) = b11 P /\ tr3 (b21 P) = b12 P /\ tr3 (b12 P) = b21 P /\ tr3 (b22 P) = b22 P.
Proof. intros S. unfold symm6, tr6 in S. destruct P as [A B C D]. cbn [b11 b12 b21 b22] in *. injection S; auto. Qed.
Lemma psd_block1 P : psd6 P -> forall x, 0 <= dot3 x (mv (b11 P) x).
Proof.
  intros H x. assert (K := H (mk6 x zero3)). unfold dot6, mv6 in K. cbn [u1 u2] in K. rewrite mv_zero3, add3_0_r in K.
  replace (dot3 zero3 _) with 0 in K by (generalize (add3 (mv (b21 P) x) (mv (b22 P) zero3)); vring). lra.
Qed.
Lemma innovation_pd r P : 0 < r -> symm6 P -> psd6 P -> let S := addm (scalem r id3) (b11 P) in
  symm S /\ pdm S /\ 0 < det3 S.
Proof.
  intros Hr SP PP S. assert (SS : symm S).
  { unfold symm, S. destruct (symm_blocks P SP) as (A & _). rewrite <- A at 2. generalize (b11 P). clear. vring. }
  assert (PS : pdm S).
  { intros x N. unfold S. rewrite mv_addm, mv_scalem, mv_id3. assert (H1 := psd_block1 P PP x). assert (H2 := dot3_pos x N).
    replace (dot3 x (add3 (scale3 r x) (mv (b11 P) x))) with (r * dot3 x x + dot3 x (mv (b11 P) x)) by (generalize (mv (b11 P) x); vring). nra. }
  split; [exact SS|]. split; [exact PS|]. apply pd_det; assumption.
Qed.
Lemma att_update r P : 0 < r -> symm6 P -> psd6 P ->
  let Si := inv3 (addm (scalem r id3) (b11 P)) in
  let P' := mm6 (subm6 id6 (mkB (mm (b11 P) Si) zerom (mm (b21 P) Si) zerom)) P in
  symm6 P' /\
  (forall x, let g := mv Si (u1 (mv6 P x)) in dot6 x (mv6 P' x) = dot6 (sub6 x (mk6 g zero3)) (mv6 P (sub6 x (mk6 g zero3))) + r * dot3 g g) /\
  (forall x, dot6 x (mv6 P' x) <= dot6 x (mv6 P x)).
Proof.
  intros Hr SP PP Si P'. destruct (innovation_pd r P Hr SP PP) as (SS & PS & D). set (S := addm (scalem r id3) (b11 P)) in *. cbv zeta in D.
  assert (E1 : forall x, mv S (mv Si x) = x) by (intros; apply mv_inv3; lra).
  assert (DS : forall x y, dot3 (mv S x) y = dot3 x (mv S y)) by (intros; rewrite dot_tr, SS; reflexivity).
  assert (SI : forall x y, dot3 (mv Si x) y = dot3 x (mv Si y)) by (intros x y; rewrite <- (E1 y) at 1; rewrite <- DS, E1; reflexivity).
  assert (MP : forall x, mv6 P' x = mv6 P (sub6 x (mk6 (mv Si (u1 (mv6 P x))) zero3))).
  { intros x. unfold P'. rewrite mv6_mm, mv6_subm, mv6_id, mv6_sub. f_equal. set (y := mv6 P x). unfold mv6. cbn [b11 b12 b21 b22 u1 u2].
    f_equal; rewrite mv_zerom, mv_zero3, !mv_mm; reflexivity. }
  assert (DP : forall x y, dot6 (mv6 P x) y = dot6 x (mv6 P y)) by (intros; apply symm6_dot, SP).
  assert (D1 : forall g x, dot6 (mk6 g zero3) x = dot3 g (u1 x)).
  { intros g [a b]. unfold dot6. cbn [u1 u2]. replace (dot3 zero3 b) with 0 by vring. ring. }
  assert (GS : forall x, let g := mv Si (u1 (mv6 P x)) in dot3 g (u1 (mv6 P x)) = r * dot3 g g + dot6 (mk6 g zero3) (mv6 P (mk6 g zero3))).
  { intros x g. rewrite <- (E1 (u1 (mv6 P x))) at 1. fold g. rewrite D1. unfold mv6. cbn [u1 u2]. rewrite mv_zero3, add3_0_r. unfold S. rewrite mv_addm, mv_scalem, mv_id3.
    generalize (mv (b11 P) g) g. clear. vring. }
  split; [|split].
  - apply symm6_intro. intros x y. rewrite !MP, !mv6_sub, dot6_sub_l, dot6_sub_r, DP. f_equal. rewrite DP, D1. rewrite <- (DP x), (dot6_comm (mv6 P x)), D1.
    rewrite SI. apply dot_comm3.
  - intros x. cbv zeta. assert (G := GS x). cbv zeta in G. set (g := mv Si (u1 (mv6 P x))) in *. rewrite MP. fold g. rewrite mv6_sub, dot6_sub_l, !dot6_sub_r.
    assert (X1 : dot6 (mk6 g zero3) (mv6 P x) = dot3 g (u1 (mv6 P x))) by apply D1.
    assert (X2 : dot6 x (mv6 P (mk6 g zero3)) = dot6 (mk6 g zero3) (mv6 P x)) by (rewrite <- (DP x), dot6_comm; reflexivity). lra.
  - intros x. assert (G := GS x). cbv zeta in G. set (g := mv Si (u1 (mv6 P x))) in *. rewrite MP. fold g. rewrite mv6_sub, dot6_sub_r.
    assert (X1 : dot6 (mk6 g zero3) (mv6 P x) = dot3 g (u1 (mv6 P x))) by apply D1.
    assert (X2 : dot6 x (mv6 P (mk6 g zero3)) = dot6 (mk6 g zero3) (mv6 P x)) by (rewrite <- (DP x), dot6_comm; reflexivity).
    assert (N1 := dot3_nonneg g). assert (N2 := PP (mk6 g zero3)). nra.
Qed.
Lemma R_pos : 0 < SENSOR_SIGMA ^ 2. Proof. unfold SENSOR_SIGMA. assert (0 < 0.75 / 10 ^ 7) by (apply Rdiv_lt_0_compat; [lra|apply pow_lt; lra]). nra. Qed.
Lemma gyro_pos : 0 < GYRO_VAR. Proof. unfold GYRO_VAR. assert (0 < 2.79 / 10 ^ 4) by (apply Rdiv_lt_0_compat; [lra|apply pow_lt; lra]). nra. Qed.
Lemma drift_pos : 0 < DRIFT_VAR. Proof. unfold DRIFT_VAR. assert (0 < 8.73 / 10 ^ 7) by (apply Rdiv_lt_0_compat; [lra|apply pow_lt; lra]). nra. Qed.
Lemma bias_pos : 0 < INITIAL_BIAS ^ 2. Proof. unfold INITIAL_BIAS. assert (0 < 3.15 / 10 ^ 5) by (apply Rdiv_lt_0_compat; [lra|apply pow_lt; lra]). nra. Qed.

(** ** process noise *)
Lemma Q_form dt x : dot6 x (mv6 (af_Q dt) x) =
  GYRO_VAR * dt * dot3 (u1 x) (u1 x) +
  DRIFT_VAR * dt * (dot3 (sub3 (u2 x) (scale3 (dt / 2) (u1 x))) (sub3 (u2 x) (scale3 (dt / 2) (u1 x))) + 0.0833333 * dt ^ 2 * dot3 (u1 x) (u1 x)).
Proof.
  destruct x as [[x y z] [x' y' z']]. unfold af_Q. cbv zeta. generalize GYRO_VAR DRIFT_VAR. intros gv dv. unfold dot6, mv6. cbn [u1 u2 b11 b12 b21 b22].
  vunfoldg. cbn [x3 y3 z3 row1 row2 row3]. rnumg. replace 0.3333333 with (3333333 / 10000000) by lra. replace 0.0833333 with (833333 / 10000000) by lra. replace (-0.5) with (-1 / 2) by lra. field.
Qed.
Lemma Q_psd dt : 0 <= dt -> psd6 (af_Q dt).
Proof.
  intros H x. rewrite Q_form. assert (G := gyro_pos). assert (D := drift_pos). set (a := dot3 (u1 x) (u1 x)). set (b := dot3 (sub3 _ _) _).
  assert (A : 0 <= a) by apply dot3_nonneg. assert (B : 0 <= b) by apply dot3_nonneg. assert (0 <= dt ^ 2) by nra.
  apply Rplus_le_le_0_compat; [apply Rmult_le_pos; [nra|exact A]|]. apply Rmult_le_pos; [nra|]. assert (0 <= dt ^ 2 * a) by (apply Rmult_le_pos; assumption). lra.
Qed.
Lemma Q_symm dt : symm6 (af_Q dt).
Proof.
  unfold symm6, af_Q, tr6. cbv zeta. cbn [b11 b12 b21 b22]. generalize (GYRO_VAR * dt + 0.3333333 * DRIFT_VAR * dt ^ 3) (-0.5 * DRIFT_VAR * dt ^ 2) (DRIFT_VAR * dt). intros a b c.
  f_equal; vring.
Qed.
(** Q11 Q22 < Q12^2 for negative steps: the noise matrix is then not a covariance *)

(** ** reset *)
Lemma reset_norm (q : quat) (d : v3) : let p := addq q (scaleq 0.5 (xi_mul (xi q) d)) in dotq p p = dotq q q * (1 + dot3 d d / 4).
Proof. cbv zeta. replace 0.5 with (1 / 2) by lra. destruct q as [a b c e], d as [x y z]. unfold xi_mul, xi. qunfoldg. vunfoldg. cbn [x3 y3 z3 qw qx qy qz fst snd row1 row2 row3]. rnumg. field. Qed.
Lemma reset_product (q : quat) (d : v3) : addq q (scaleq 0.5 (xi_mul (xi q) d)) = product q (mkqv 1 (scale3 0.5 d)).
Proof. replace 0.5 with (1 / 2) by lra. destruct q as [a b c e], d as [x y z]. unfold xi_mul, xi. qunfoldg. vunfoldg. cbn [x3 y3 z3 qw qx qy qz fst snd row1 row2 row3]. rnumg. apply mkq_c; field. Qed.
Lemma reset_nonzero (q : quat) (d : v3) : q <> zeroq -> addq q (scaleq 0.5 (xi_mul (xi q) d)) <> zeroq.
Proof.
  intros N E. assert (H := reset_norm q d). cbv zeta in H. rewrite E in H. replace (dotq zeroq zeroq) with 0 in H by (unfold zeroq, dotq; cbn [qw qx qy qz]; rnumg; ring).
  assert (D := dot3_nonneg d). assert (Q := dotq_nonneg q). assert (Z : dotq q q = 0) by nra. apply N, dotq_zero, Z.
Qed.

(** ** how far a measurement moves the estimate *)
Lemma gain_bounds r P (e : v3) : 0 < r -> symm6 P -> psd6 P -> let k := mv (mm (b11 P) (inv3 (addm (scalem r id3) (b11 P)))) e in
  0 <= dot3 e k /\ dot3 e k <= dot3 e e.
Proof.
  intros Hr SP PP k. destruct (innovation_pd r P Hr SP PP) as (SS & PS & D). set (S := addm (scalem r id3) (b11 P)) in *. cbv zeta in D.
  set (g := mv (inv3 S) e). assert (K : k = mv (b11 P) g) by (unfold k; rewrite mv_mm; reflexivity).
  assert (E : e = add3 (scale3 r g) (mv (b11 P) g)).
  { transitivity (mv S g); [symmetry; apply mv_inv3; lra|]. unfold S. rewrite mv_addm, mv_scalem, mv_id3. reflexivity. }
  assert (N := psd_block1 P PP g). rewrite K. rewrite E. set (h := mv (b11 P) g) in *. assert (N1 := dot3_nonneg g). assert (N2 := dot3_nonneg h).
  replace (dot3 (add3 (scale3 r g) h) h) with (r * dot3 g h + dot3 h h) by (clearbody h g; clear; revert r g h; vring).
  replace (dot3 (add3 (scale3 r g) h) (add3 (scale3 r g) h)) with (r * r * dot3 g g + 2 * (r * dot3 g h) + dot3 h h) by (clearbody h g; clear; revert r g h; vring).
  assert (0 <= r * dot3 g h) by (apply Rmult_le_pos; lra). assert (0 <= r * r * dot3 g g) by (apply Rmult_le_pos; [nra|lra]). lra.
Qed.
Lemma residual_bound c (e k : v3) : c * c + dot3 e e = 1 -> 0 <= dot3 e k -> dot3 e k <= dot3 e e ->
  let v := sub3 (sub3 e (scale3 (c / 2) k)) (scale3 (1 / 2) (cross3 k e)) in
  dot3 e e * (1 + dot3 k k / 4) <= 4 * dot3 v v.
Proof.
  intros U A B v.
  assert (L : dot3 (cross3 k e) (cross3 k e) = dot3 k k * dot3 e e - dot3 e k ^ 2) by vring.
  assert (V : dot3 v v = dot3 e e - c * dot3 e k + c * c / 4 * dot3 k k + / 4 * dot3 (cross3 k e) (cross3 k e)).
  { unfold v. assert (O1 : dot3 e (cross3 k e) = 0) by vring. assert (O2 : dot3 k (cross3 k e) = 0) by vring. set (p := cross3 k e) in *.
    replace (dot3 (sub3 (sub3 e (scale3 (c / 2) k)) (scale3 (1 / 2) p)) (sub3 (sub3 e (scale3 (c / 2) k)) (scale3 (1 / 2) p)))
      with (dot3 e e - c * dot3 e k + c * c / 4 * dot3 k k + / 4 * dot3 p p - dot3 e p + c / 2 * dot3 k p).
    - rewrite O1, O2. ring.
    - clearbody p. clear. destruct e as [x y z], k as [a b d], p as [f g h]. vunfoldg. rnumg. field. }
  rewrite V, L. assert (CS : dot3 e k ^ 2 <= dot3 e e * dot3 k k) by (assert (H := dot3_nonneg (cross3 k e)); rewrite L in H; lra).
  set (n := dot3 e e) in *. set (m := dot3 k k) in *. set (a := dot3 e k) in *. assert (M : 0 <= m) by apply dot3_nonneg. assert (N : 0 <= n) by apply dot3_nonneg.
  clearbody n m a. clear V L v e k.
  replace (c * c) with (1 - n) by lra. assert (C : c * c = 1 - n) by lra.
  (* 4n - 4ca + m - a^2 >= n (1 + m/4), with a <= n, a^2 <= n m, c^2 = 1 - n *)
  destruct (Req_dec n 0) as [Z|Z]; [subst n; assert (a = 0) by lra; subst a; lra|].
  assert (Np : 0 < n) by lra. assert (N1 : n <= 1) by nra. assert (Ce : -1 <= c <= 1) by nra.
  assert (T : 4 * (n - c * a) + m * (1 - n) + (m * n - a ^ 2) - n * (1 + m / 4) = 3 * n - 4 * c * a + m * (1 - n / 4) - a ^ 2) by (field).
  assert (a ^ 2 <= n * m) by lra.
  (* multiply by n > 0 *)
  assert (G : 0 <= n * (3 * n - 4 * c * a + m * (1 - n / 4) - a ^ 2)).
  { assert (0 <= (1 - n / 4) * (n * m - a ^ 2)) by (apply Rmult_le_pos; lra).
    cut (0 <= 3 * n ^ 2 - 4 * c * a * n + a ^ 2 * (1 - n / 4) - n * a ^ 2); [lra|].
    (* with b = a/n in [0,1]: 3 - 4cb + b^2(1 - 5n/4), n = 1 - c^2 *)
    set (b := a / n). assert (Ab : a = b * n) by (unfold b; field; lra). assert (B0 : 0 <= b) by (unfold b, Rdiv; apply Rmult_le_pos; [exact A|left; apply Rinv_0_lt_compat; lra]).
    assert (B1 : b <= 1) by (unfold b; apply (Rmult_le_reg_r n); [lra|]; unfold Rdiv; rewrite Rmult_assoc, Rinv_l; lra).
    rewrite Ab. replace (3 * n ^ 2 - 4 * c * (b * n) * n + (b * n) ^ 2 * (1 - n / 4) - n * (b * n) ^ 2) with (n ^ 2 * (3 - 4 * (c * b) + b ^ 2 * (1 - 5 / 4 * n))) by field.
    apply Rmult_le_pos; [nra|]. replace n with (1 - c * c) by lra.
    assert (b ^ 2 <= 1) by nra. assert (U1 : c * b <= 1) by nra. assert (U2 : -1 <= c * b) by nra.
    replace (3 - 4 * (c * b) + b ^ 2 * (1 - 5 / 4 * (1 - c * c))) with ((1 - c * b) * (11 / 4 - 5 / 4 * (c * b)) + (1 - b ^ 2) / 4) by field.
    assert (0 <= (1 - c * b) * (11 / 4 - 5 / 4 * (c * b))) by (apply Rmult_le_pos; lra). lra. }
  assert (0 <= 3 * n - 4 * c * a + m * (1 - n / 4) - a ^ 2) by nra. lra.
Qed.
Lemma scale_vec (k : R) (q : quat) : vec (scaleq k q) = scale3 k (vec q). Proof. vring. Qed.
Lemma error_scale (q r : quat) k : error_quat q (scaleq k r) = scaleq k (error_quat q r). Proof. qring. Qed.
Lemma error_corrected (q r : quat) (k : v3) : vec (error_quat r (product q (mkqv 1 (scale3 0.5 k)))) =
  let e := error_quat r q in sub3 (sub3 (vec e) (scale3 (qw e / 2) k)) (scale3 (1 / 2) (cross3 k (vec e))).
Proof.
  cbv zeta. replace 0.5 with (1 / 2) by lra. unfold error_quat. rewrite conj_product, product_assoc. set (e := product (conjugate q) r). clearbody e.
  destruct e as [a b c d], k as [x y z]. qunfoldg. vunfoldg. cbn [x3 y3 z3 qw qx qy qz]. rnumg. apply mk3_c; field.
Qed.

(** ** transition matrices *)
Lemma norm0 (w : v3) : norm3 w = 0 -> w = zero3.
Proof. intros E. destruct (zero3_dec w) as [|N]; [assumption|]. assert (X := norm3_gt0 w N). lra. Qed.
Lemma norm3_zero : norm3 (zero3 (T:=R)) = 0. Proof. unfold norm3. rnumg. replace (dot3 zero3 zero3) with 0 by vring. apply sqrt_0. Qed.
Lemma crossm_mv (w v : v3) : mv (crossm w) v = cross3 w v. Proof. qring. Qed.
Lemma phi11_nz (w v : v3) dt : w <> zero3 -> let n := norm3 w in
  mv (phi_11 w dt) v = add3 (sub3 v (scale3 (sin (n * dt) / n) (cross3 w v))) (scale3 ((1 - cos (n * dt)) / n ^ 2) (cross3 w (cross3 w v))).
Proof.
  intros N n. assert (P := norm3_gt0 w N). fold n in P. unfold phi_11. cbv zeta. fold n. destruct (Reqb_spec (n ^ 2) 0) as [E|_]; [nra|]. cbn [negb].
  rewrite mv_addm, mv_subm, !mv_scalem, mv_id3, mv_mm, !crossm_mv. reflexivity.
Qed.
Lemma phi11_zero dt : phi_11 zero3 dt = id3.
Proof. unfold phi_11. cbv zeta. rewrite norm3_zero. destruct (Reqb_spec (0 ^ 2) 0) as [_|E]; [|exfalso; apply E; ring]. destruct (Reqb_spec 0 0) as [_|E]; [reflexivity|exfalso; apply E; ring]. Qed.
Lemma phi12_nz (w v : v3) dt : w <> zero3 -> let n := norm3 w in
  mv (phi_12 w dt) v = sub3 (add3 (scale3 (- dt) v) (scale3 ((1 - cos (n * dt)) / n ^ 2) (cross3 w v))) (scale3 ((n * dt - sin (n * dt)) / n ^ 3) (cross3 w (cross3 w v))).
Proof.
  intros N n. assert (P := norm3_gt0 w N). fold n in P. unfold phi_12. cbv zeta. fold n. destruct (Reqb_spec (n ^ 2) 0) as [E|_]; [nra|]. cbn [negb].
  destruct (Reqb_spec (n ^ 3) 0) as [E|_]; [assert (X := pow_lt n 3 P); lra|]. cbn [negb].
  rewrite mv_subm, mv_addm, !mv_scalem, mv_id3, mv_mm, !crossm_mv. reflexivity.
Qed.
Lemma phi12_zero dt : phi_12 zero3 dt = scalem (- dt) id3.
Proof. unfold phi_12. cbv zeta. rewrite norm3_zero. destruct (Reqb_spec (0 ^ 2) 0) as [_|E]; [reflexivity|exfalso; apply E; ring]. Qed.
Lemma cross_cross (w v : v3) : cross3 w (cross3 w v) = sub3 (scale3 (dot3 w v) w) (scale3 (dot3 w w) v). Proof. vring. Qed.
Lemma phi11_rodrigues (w v : v3) dt : w <> zero3 -> mv (phi_11 w dt) v = rodrigues (div3 w (norm3 w)) (- (norm3 w * dt)) v.
Proof.
  intros N. rewrite (phi11_nz w v dt N). cbv zeta. unfold rodrigues. rewrite cos_neg, sin_neg, cross_cross. assert (P := norm3_gt0 w N). assert (Q := norm3_sq w). rewrite <- Q.
  set (n := norm3 w) in *. clearbody n. generalize (cos (n * dt)) (sin (n * dt)). intros c s. clear Q N. destruct w as [x y z], v as [a b d].
  vunfoldg. cbn [x3 y3 z3]. rnumg. apply mk3_c; field; lra.
Qed.
Lemma unit_div (w : v3) : w <> zero3 -> unit3 (div3 w (norm3 w)).
Proof.
  intros N. assert (P := norm3_gt0 w N). assert (Q := norm3_sq w). unfold unit3. transitivity (dot3 w w / (norm3 w * norm3 w)).
  - clear Q. set (n := norm3 w) in *. clearbody n. destruct w as [x y z]. vunfoldg. rnumg. field. lra.
  - rewrite Q. field. rewrite <- Q. nra.
Qed.
(** w x (w x (w x v)) = -|w|^2 w x v *)
Lemma cross3_cubed (w v : v3) : cross3 w (cross3 w (cross3 w v)) = scale3 (- dot3 w w) (cross3 w v). Proof. vring. Qed.
Lemma d3_mul (k : R -> R) t k' (v : v3) : derivable_pt_lim k t k' -> deriv3 (fun u => scale3 (k u) v) t (scale3 k' v).
Proof. intros H. destruct v as [a b c]. unfold deriv3, scale3. cbn [x3 y3 z3]. rnumg. repeat split; apply (fun d => d_eq _ _ _ _ (d_mult k (fun _ => _) t k' 0 H d)); try apply d_const; ring. Qed.
Lemma d3_plus f g t a b : deriv3 f t a -> deriv3 g t b -> deriv3 (fun u => add3 (f u) (g u)) t (add3 a b).
Proof. intros (A1 & A2 & A3) (B1 & B2 & B3). unfold deriv3, add3. cbn [x3 y3 z3]. rnumg. split; [|split]; apply d_plus; assumption. Qed.
Lemma d3_minus f g t a b : deriv3 f t a -> deriv3 g t b -> deriv3 (fun u => sub3 (f u) (g u)) t (sub3 a b).
Proof. intros (A1 & A2 & A3) (B1 & B2 & B3). unfold deriv3, sub3. cbn [x3 y3 z3]. rnumg. split; [|split]; apply d_minus; assumption. Qed.
Lemma d3_ext f g t a b : (forall u, g u = f u) -> deriv3 f t a -> a = b -> deriv3 g t b.
Proof.
  intros E (A1 & A2 & A3) <-. unfold deriv3. split; [|split]; (eapply derivable_pt_lim_ext; [|eassumption]); intros u; cbv beta; rewrite E; reflexivity.
Qed.
Lemma phi11_derive (w v : v3) t : deriv3 (fun u => mv (phi_11 w u) v) t (opp3 (cross3 w (mv (phi_11 w t) v))).
Proof.
  destruct (zero3_dec w) as [->|N].
  - apply (d3_ext (fun _ => v) _ t zero3); [intros u; rewrite phi11_zero; apply mv_id3|exact (d3_const v t)|]. rewrite phi11_zero, mv_id3. vring.
  - assert (P := norm3_gt0 w N). assert (Q := norm3_sq w). set (n := norm3 w) in *.
    apply (d3_ext (fun u => add3 (sub3 v (scale3 (sin (n * u) / n) (cross3 w v))) (scale3 ((1 - cos (n * u)) / n ^ 2) (cross3 w (cross3 w v)))) _ t
      (add3 (sub3 zero3 (scale3 (cos (n * t)) (cross3 w v))) (scale3 (sin (n * t) / n) (cross3 w (cross3 w v))))).
    + intros u. apply (phi11_nz w v u N).
    + apply d3_plus; [apply d3_minus; [exact (d3_const v t)|]|].
      * apply d3_mul. eapply d_eq; [apply (d_mult (fun u => sin (n * u)) (fun _ => / n) t (n * cos (n * t)) 0); [apply d_sin|apply d_const]|field; lra].
      * apply d3_mul. eapply d_eq; [apply (d_mult (fun u => 1 - cos (n * u)) (fun _ => / n ^ 2) t (0 - - n * sin (n * t)) 0); [apply d_minus; [apply d_const|apply d_cos]|apply d_const]|field; lra].
    + rewrite (phi11_nz w v t N). cbv zeta. fold n. set (c := cos (n * t)). set (s := sin (n * t)).
      transitivity (opp3 (add3 (sub3 (cross3 w v) (scale3 (s / n) (cross3 w (cross3 w v)))) (scale3 ((1 - c) / n ^ 2) (cross3 w (cross3 w (cross3 w v)))))).
      * rewrite cross3_cubed, <- Q. fold n. generalize (cross3 w v) (cross3 w (cross3 w v)). intros [a b d] [e f g]. vunfoldg. cbn [x3 y3 z3]. rnumg. apply mk3_c; field; lra.
      * generalize (s / n) ((1 - c) / n ^ 2). clear. intros k l. revert w v. vring.
Qed.
Lemma phi12_derive (w v : v3) t : deriv3 (fun u => mv (phi_12 w u) v) t (opp3 (mv (phi_11 w t) v)).
Proof.
  destruct (zero3_dec w) as [->|N].
  - apply (d3_ext (fun u => scale3 (- u) v) _ t (scale3 (-1) v)); [intros u; rewrite phi12_zero, mv_scalem, mv_id3; reflexivity| |rewrite phi11_zero, mv_id3; vring].
    apply d3_mul. apply (d_eq _ _ (- 1)); [apply d_opp, derivable_pt_lim_id|reflexivity].
  - assert (P := norm3_gt0 w N). set (n := norm3 w) in *.
    apply (d3_ext (fun u => sub3 (add3 (scale3 (- u) v) (scale3 ((1 - cos (n * u)) / n ^ 2) (cross3 w v))) (scale3 ((n * u - sin (n * u)) / n ^ 3) (cross3 w (cross3 w v)))) _ t
      (sub3 (add3 (scale3 (-1) v) (scale3 (sin (n * t) / n) (cross3 w v))) (scale3 ((1 - cos (n * t)) / n ^ 2) (cross3 w (cross3 w v))))).
    + intros u. apply (phi12_nz w v u N).
    + apply d3_minus; [apply d3_plus|].
      * apply d3_mul. apply (d_eq _ _ (- 1)); [apply d_opp, derivable_pt_lim_id|reflexivity].
      * apply d3_mul. eapply d_eq; [apply (d_mult (fun u => 1 - cos (n * u)) (fun _ => / n ^ 2) t (0 - - n * sin (n * t)) 0); [apply d_minus; [apply d_const|apply d_cos]|apply d_const]|field; lra].
      * apply d3_mul. eapply d_eq; [apply (d_mult (fun u => n * u - sin (n * u)) (fun _ => / n ^ 3) t (n * 1 - n * cos (n * t)) 0); [apply d_minus; [apply d_scal, derivable_pt_lim_id|apply d_sin]|apply d_const]|field; lra].
    + rewrite (phi11_nz w v t N). cbv zeta. fold n. generalize (sin (n * t) / n) ((1 - cos (n * t)) / n ^ 2) (cross3 w (cross3 w v)) (cross3 w v). clear. intros k l. revert v. vring.
Qed.
Lemma phi_start (w : v3) : phi_11 w 0 = id3 /\ phi_12 w 0 = zerom.
Proof.
  split; apply m3_ext; intros v; destruct (zero3_dec w) as [->|N].
  - rewrite phi11_zero. reflexivity.
  - rewrite (phi11_nz w v 0 N). cbv zeta. rewrite Rmult_0_r, sin_0, cos_0, mv_id3. generalize (cross3 w (cross3 w v)) (cross3 w v). unfold Rdiv. rewrite (Rminus_diag_eq _ _ eq_refl), !Rmult_0_l. revert v. vring.
  - rewrite phi12_zero, mv_scalem, mv_id3, mv_zerom. rewrite Ropp_0. vring.
  - rewrite (phi12_nz w v 0 N). cbv zeta. rewrite Rmult_0_r, sin_0, cos_0, mv_zerom. generalize (cross3 w (cross3 w v)) (cross3 w v). unfold Rdiv. rewrite !(Rminus_diag_eq _ _ eq_refl), !Rmult_0_l, Ropp_0. revert v. vring.
Qed.

(** ** attitude propagation *)
Lemma omega_eq (w : v3) dt q : let c := cos (norm3 w * dt * 0.5) in
  af_omega_mul w dt q = addq (product q (mkqv c (af_psi w dt))) (mkqv 0 (scale3 (1 - c) (vec q))).
Proof.
  cbv zeta. unfold af_omega_mul. cbv zeta. generalize (cos (norm3 w * dt * 0.5)) (af_psi w dt). intros c [a b d]. destruct q as [e f g h].
  qunfoldg. vunfoldg. cbn [x3 y3 z3 qw qx qy qz row1 row2 row3]. rnumg. apply mkq_c; ring.
Qed.
Lemma psi_sq (w : v3) dt : let c := cos (norm3 w * dt * 0.5) in dot3 (af_psi w dt) (af_psi w dt) = 1 - c * c.
Proof.
  cbv zeta. unfold af_psi. cbv zeta. destruct (Reqb_spec (norm3 w) 0) as [E|E]; cbn [negb].
  - rewrite E. rewrite !Rmult_0_l, cos_0. replace (dot3 zero3 zero3) with 0 by vring. ring.
  - assert (Q := norm3_sq w). assert (S := sin2_cos2 (norm3 w * dt * 0.5)). unfold Rsqr in S. set (s := sin (norm3 w * dt * 0.5)) in *. set (c := cos (norm3 w * dt * 0.5)) in *.
    transitivity (s * s * (dot3 w w / (norm3 w * norm3 w))).
    + clear Q. clearbody s. set (n := norm3 w) in *. clearbody n. destruct w as [x y z]. vunfoldg. rnumg. field. exact E.
    + rewrite <- Q. replace (norm3 w * norm3 w / (norm3 w * norm3 w)) with 1 by (field; exact E). lra.
Qed.
Lemma omega_norm (w : v3) dt q : let c := cos (norm3 w * dt * 0.5) in let q' := af_omega_mul w dt q in
  dotq q' q' = dotq q q + (1 - c) * (2 * qw q * dot3 (vec q) (af_psi w dt) + (1 + c) * dot3 (vec q) (vec q)).
Proof.
  cbv zeta. rewrite omega_eq. cbv zeta. assert (P := psi_sq w dt). cbv zeta in P. set (c := cos (norm3 w * dt * 0.5)) in *. clearbody c. set (p := af_psi w dt) in *. clearbody p.
  transitivity (dotq q q * (c * c + dot3 p p) + (1 - c) * (2 * qw q * dot3 (vec q) p + (1 + c) * dot3 (vec q) (vec q))).
  - destruct q as [e f g h], p as [a b d]. qunfoldg. vunfoldg. cbn [x3 y3 z3 qw qx qy qz]. rnumg. ring.
  - rewrite P. ring.
Qed.
Lemma phi_relation (w v : v3) t : mv (phi_11 w t) v = add3 v (cross3 w (mv (phi_12 w t) v)).
Proof.
  destruct (zero3_dec w) as [->|N].
  - rewrite phi11_zero, mv_id3. generalize (mv (phi_12 zero3 t) v). revert v. vring.
  - assert (P := norm3_gt0 w N). assert (Q := norm3_sq w). rewrite (phi11_nz w v t N), (phi12_nz w v t N). cbv zeta. set (n := norm3 w) in *. set (c := cos (n * t)). set (s := sin (n * t)).
    transitivity (add3 v (sub3 (add3 (scale3 (- t) (cross3 w v)) (scale3 ((1 - c) / n ^ 2) (cross3 w (cross3 w v)))) (scale3 ((n * t - s) / n ^ 3) (cross3 w (cross3 w (cross3 w v)))))).
    + rewrite cross3_cubed, <- Q. fold n. generalize (cross3 w v) (cross3 w (cross3 w v)). intros [a b d] [e f g]. destruct v as [x y z]. vunfoldg. cbn [x3 y3 z3]. rnumg. apply mk3_c; field; lra.
    + generalize ((1 - c) / n ^ 2) ((n * t - s) / n ^ 3). clear. intros k l. revert w v t. vring.
Qed.
