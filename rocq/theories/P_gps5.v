(** * Lemmas: the position filter fed with fixes (5): how far a circular orbit is from the filter's model; upper bound of the gain *)
From Coq Require Import Reals List Bool Lra Psatz Lia.
From Coquelicot Require Import Coquelicot.
From Verif Require Import Num Vec Mat6 M_vector M_env M_dyn M_obs S_rot S_dyn S_orb S_obs P_quat P_wheel P_tot2 P_tot3 P_dyn P_orb3 P_obs P_obs2 P_posf Props_obs P_gps1 P_gps2 P_gps3 P_gps4.
Local Open Scope R_scope.

Lemma nabs k (v : v3) : norm3 (scale3 k v) = Rabs k * norm3 v. Proof. apply norm3_scal. Qed.
(** sine and cosine against the coefficients of the filter *)
Lemma coeffs w t D : 0 < w <= 0.00118 -> 0.5 <= t <= 1 -> Rabs (pf_a - w * w) <= D ->
  Rabs (cos (w * t) - cA11 t) <= D / 2 + 9 / 10 ^ 14 /\ Rabs (sin (w * t) / w - cA12 t) <= D / 6 + 1.8 / 10 ^ 10 /\
  Rabs (- (w * sin (w * t)) - cA21 t) <= D + 3.3 / 10 ^ 13 /\ Rabs (cos (w * t) - cA22 t) <= D / 2 + 1.63 / 10 ^ 10.
Proof.
  intros HW HT HD. apply abs_both in HD. set (z := w * t). assert (Z : 0 < z <= 0.00118) by (unfold z; split; [apply Rmult_lt_0_compat; lra|nra]).
  destruct (sin_taylor z ltac:(lra)) as [S1 S2]. destruct (cos_taylor z ltac:(lra)) as [C1 C2]. assert (PA := pfa_val). assert (PB := pfb_val).
  set (e := w * w) in *. assert (E : 0 < e <= 1.3924 / 1000000) by (unfold e; split; nra).
  assert (E2 : 0 <= e * e <= 1.94 / 10 ^ 12) by (split; nra).
  assert (T2 : 0.25 <= t ^ 2 <= 1) by (cbn [pow]; nra). assert (T3 : 0 <= t ^ 3 <= 1) by (replace (t ^ 3) with (t * t ^ 2) by ring; nra). assert (T4 : 0 <= t ^ 4 <= 1) by (replace (t ^ 4) with (t ^ 2 * t ^ 2) by ring; nra). assert (T5 : 0 <= t ^ 5 <= 1) by (replace (t ^ 5) with (t ^ 2 * t ^ 3) by ring; nra).
  assert (Z2 : z ^ 2 = e * t ^ 2) by (unfold z, e; ring). assert (Z4 : z ^ 4 = e * e * t ^ 4) by (unfold z, e; ring). rewrite Z2, Z4 in C1, C2 || rewrite Z2 in C1; rewrite ?Z2, ?Z4 in C2.
  assert (D0 : 0 <= D) by lra.
  assert (K4 : 0 <= e * e * t ^ 4 <= 1.94 / 10 ^ 12) by (split; [apply Rmult_le_pos; lra|apply Rle_trans with (e * e * 1); [apply Rmult_le_compat_l; lra|lra]]).
  assert (K3 : 0 <= e * e * t ^ 3 <= 1.94 / 10 ^ 12) by (split; [apply Rmult_le_pos; lra|apply Rle_trans with (e * e * 1); [apply Rmult_le_compat_l; lra|lra]]).
  assert (K5 : 0 <= e * e * t ^ 5 <= 1.94 / 10 ^ 12) by (split; [apply Rmult_le_pos; lra|apply Rle_trans with (e * e * 1); [apply Rmult_le_compat_l; lra|lra]]).
  assert (M : forall k q, 0 <= k <= 1 -> - D <= q <= D -> - D <= q * k <= D) by (intros k q Hk Hq; split; nra).
  assert (M2 := M (t ^ 2) (pf_a - e) ltac:(lra) ltac:(lra)). assert (M3 := M (t ^ 3) (pf_a - e) ltac:(lra) ltac:(lra)). assert (M1 := M t (pf_a - e) ltac:(lra) ltac:(lra)).
  assert (B1 : 0 <= pf_b * t <= 1.618 / 10 ^ 10) by (rewrite PB; lra). assert (B2 : 0 <= t ^ 2 * pf_b <= 1.618 / 10 ^ 10) by (rewrite PB; lra).
  assert (A3 : 0 <= pf_a * t ^ 3 <= 1.28 / 10 ^ 6) by (rewrite PA; lra).
  split; [|split; [|split]].
  - unfold cA11. apply Rabs_le. lra.
  - assert (Q1 : t - e * t ^ 3 / 6 <= sin z / w <= t - e * t ^ 3 / 6 + e * e * t ^ 5 / 120).
    { split; [apply (Rmult_le_reg_r w); [lra|]; replace (sin z / w * w) with (sin z) by (field; lra)|apply (Rmult_le_reg_r w); [lra|]; replace (sin z / w * w) with (sin z) by (field; lra)].
      - eapply Rle_trans; [|exact S1]. right. unfold z, e. field.
      - eapply Rle_trans; [exact S2|]. right. unfold z, e. field. }
    unfold cA12. apply Rabs_le. lra.
  - assert (Q2 : e * t - e * e * t ^ 3 / 6 <= w * sin z <= e * t).
    { assert (SL : sin z <= z) by (left; apply sin_lt_x; lra). split.
      - apply Rle_trans with (w * (z - z ^ 3 / 6)); [right; unfold z, e; field|apply Rmult_le_compat_l; lra].
      - apply Rle_trans with (w * z); [apply Rmult_le_compat_l; lra|right; unfold z, e; ring]. }
    unfold cA21. apply Rabs_le. lra.
  - unfold cA22. apply Rabs_le. lra.
Qed.
Lemma off_size w p0 v0 r t dt D : 0 < w <= 0.00118 -> 0.5 <= dt <= 1 -> Rabs (pf_a - w * w) <= D -> 0 <= r -> dot3 p0 v0 = 0 -> dot3 v0 v0 = w * w * dot3 p0 p0 -> norm3 p0 = r ->
  let d := sub6 (circ w p0 v0 (t + dt)) (step6 dt (circ w p0 v0 t)) in
  norm3 (u1 d) <= r * (0.501 * D + 3.1 / 10 ^ 13) /\ norm3 (u2 d) <= r * (1.001 * D + 5.3 / 10 ^ 13).
Proof.
  intros HW HT HD R0 HO HV HP. cbv zeta. rewrite circ_off by lra. cbv zeta. destruct (circ_size w p0 v0 t ltac:(lra) HO HV) as (S1 & S2 & _). set (z := circ w p0 v0 t) in *. cbn [u1 u2].
  assert (N1 : norm3 (u1 z) = r) by (rewrite <- HP; unfold norm3; rewrite S1; reflexivity).
  assert (N2 : norm3 (u2 z) = w * r). { unfold norm3. change (@nsqrt R RNum) with sqrt. rewrite S2, HV, <- norm3_dot, HP. replace (w * w * (r * r)) with (Rsqr (w * r)) by (unfold Rsqr; ring). apply sqrt_Rsqr. apply Rmult_le_pos; lra. }
  destruct (coeffs w dt D HW HT HD) as (A & B & C & E). assert (D0 : 0 <= D) by (eapply Rle_trans; [apply Rabs_pos|exact HD]).
  assert (WR : 0 <= w * r <= 0.00118 * r) by (split; [apply Rmult_le_pos; lra|apply Rmult_le_compat_r; lra]).
  assert (RD : 0 <= r * D) by (apply Rmult_le_pos; lra).
  split; (eapply Rle_trans; [apply norm3_triangle|]; rewrite !norm3_scal, N1, N2).
  - assert (Q1 : Rabs (cos (w * dt) - cA11 dt) * r <= (D / 2 + 9 / 10 ^ 14) * r) by (apply Rmult_le_compat_r; lra).
    assert (Q2 : Rabs (sin (w * dt) / w - cA12 dt) * (w * r) <= (D / 6 + 1.8 / 10 ^ 10) * (0.00118 * r)) by (apply Rmult_le_compat; [apply Rabs_pos|lra|lra|lra]). lra.
  - assert (Q1 : Rabs (- (w * sin (w * dt)) - cA21 dt) * r <= (D + 3.3 / 10 ^ 13) * r) by (apply Rmult_le_compat_r; lra).
    assert (Q2 : Rabs (cos (w * dt) - cA22 dt) * (w * r) <= (D / 2 + 1.63 / 10 ^ 10) * (0.00118 * r)) by (apply Rmult_le_compat; [apply Rabs_pos|lra|lra|lra]). lra.
Qed.

(** ** upper bound of the velocity variance: a constant gain would do at least as well *)
Definition vbound (P : M6) (k : R) : Prop := forall y, qf P (mk6 zero3 y) <= k * dot3 y y.
Lemma psd_cross P a b k : symm6 P -> psd6 P -> 0 < k -> 2 * dot6 a (mv6 P b) <= k * qf P a + qf P b / k.
Proof.
  intros S Q K. assert (W := Q (sub6 (scale6 k a) b)). assert (SC : forall x, mv6 P (scale6 k x) = scale6 k (mv6 P x)) by (intros x; unfold mv6, scale6; cbn [u1 u2]; rewrite !mv_scale3; f_equal; clear; vring).
  assert (SD : forall x y, dot6 (scale6 k x) y = k * dot6 x y) by (intros x y; unfold dot6, scale6; cbn [u1 u2]; clear; vring).
  assert (SE : forall x y, dot6 y (scale6 k x) = k * dot6 y x) by (intros x y; rewrite dot6_comm, SD, dot6_comm; reflexivity).
  rewrite mv6_sub, dot6_sub_l, !dot6_sub_r, SC, !SD, !SE in W. assert (E : dot6 b (mv6 P a) = dot6 a (mv6 P b)) by (rewrite <- (symm6_dot P) by exact S; apply dot6_comm). rewrite E in W. fold (qf P a) (qf P b) in W.
  apply (Rmult_le_reg_l k); [exact K|]. replace (k * (k * qf P a + qf P b / k)) with (k * (k * qf P a) + qf P b) by (field; lra). lra.
Qed.
Lemma psd_cauchy P a b : symm6 P -> psd6 P -> Rabs (dot6 a (mv6 P b)) <= sqrt (qf P a) * sqrt (qf P b).
Proof.
  intros S Q. assert (A0 : 0 <= qf P a) by apply Q. assert (B0 : 0 <= qf P b) by apply Q.
  assert (ONE : forall c, 0 <= qf P c -> dot6 c (mv6 P b) <= sqrt (qf P c) * sqrt (qf P b)).
  { intros c C0. assert (H : forall k, 0 < k -> 2 * dot6 c (mv6 P b) <= k * qf P c + qf P b / k) by (intros k K; apply psd_cross; assumption). set (m := dot6 c (mv6 P b)) in *. clearbody m.
    set (s := sqrt (qf P c)). set (u := sqrt (qf P b)). assert (S0 : 0 <= s) by apply sqrt_pos. assert (U0 : 0 <= u) by apply sqrt_pos. assert (SS : s * s = qf P c) by (apply sqrt_sqrt; exact C0). assert (UU : u * u = qf P b) by (apply sqrt_sqrt; exact B0). rewrite <- SS, <- UU in H.
    apply Rnot_lt_le. intros L. set (g := m - s * u). assert (G : 0 < g) by (unfold g; lra).
    (* k = (u + x) / (s + x) for small x *)
    assert (EX : exists x, 0 < x <= 1 /\ x * (s + u + 1) * 2 <= g). { exists (Rmin 1 (g / (2 * (s + u + 1)))). assert (0 < g / (2 * (s + u + 1))) by (apply Rdiv_lt_0_compat; lra). split; [split; [apply Rmin_glb_lt; lra|apply Rmin_l]|]. apply Rle_trans with (g / (2 * (s + u + 1)) * (s + u + 1) * 2); [apply Rmult_le_compat_r; [lra|]; apply Rmult_le_compat_r; [lra|apply Rmin_r]|]. right. field. lra. }
    destruct EX as (x & X1 & X2). assert (HK := H ((u + x) / (s + x)) ltac:(apply Rdiv_lt_0_compat; lra)).
    assert (K1 : (u + x) / (s + x) * (s * s) <= (u + x) * (s + x)). { replace ((u + x) / (s + x) * (s * s)) with ((u + x) * (s * s / (s + x))) by (field; lra). apply Rmult_le_compat_l; [lra|]. apply (Rmult_le_reg_r (s + x)); [lra|]. replace (s * s / (s + x) * (s + x)) with (s * s) by (field; lra). nra. }
    assert (K2 : u * u / ((u + x) / (s + x)) <= (u + x) * (s + x)). { replace (u * u / ((u + x) / (s + x))) with ((s + x) * (u * u / (u + x))) by (field; lra). rewrite Rmult_comm. apply Rmult_le_compat_r; [lra|]. apply (Rmult_le_reg_r (u + x)); [lra|]. replace (u * u / (u + x) * (u + x)) with (u * u) by (field; lra). nra. }
    assert (x * x <= x) by nra. unfold g in X2. nra. }
  apply Rabs_le. split; [|apply ONE; exact A0].
  assert (NG : qf P (scale6 (-1) a) = qf P a). { unfold qf. replace (mv6 P (scale6 (-1) a)) with (scale6 (-1) (mv6 P a)) by (unfold mv6, scale6; cbn [u1 u2]; rewrite !mv_scale3; f_equal; clear; vring). unfold dot6, scale6. cbn [u1 u2]. clear. vring. }
  assert (N := ONE (scale6 (-1) a) ltac:(rewrite NG; exact A0)). rewrite NG in N. replace (dot6 (scale6 (-1) a) (mv6 P b)) with (- dot6 a (mv6 P b)) in N by (unfold dot6, scale6; cbn [u1 u2]; clear; vring). lra.
Qed.
Lemma qf_add P a b : symm6 P -> psd6 P -> qf P (add6 a b) <= 1.001 * qf P a + 1001 * qf P b.
Proof.
  intros S Q. assert (C := psd_cross P a b 0.001 S Q ltac:(lra)). unfold qf in *. rewrite mv6_add, dot6_add_l, !dot6_add_r. assert (E : dot6 b (mv6 P a) = dot6 a (mv6 P b)) by (rewrite <- (symm6_dot P) by exact S; apply dot6_comm). rewrite E. lra.
Qed.
Lemma vb_propagate t f k : cov_fine (p_P f) -> 6500000 <= norm3 (u1 (p_x f)) -> 0.5 <= t <= 1 -> vbound (p_P f) k -> vbound (p_P (pf_propagate t f)) (1.001 * k + 0.000332).
Proof.
  intros CF HP HT VB y. destruct CF as (S & Q & _ & UP). destruct (C47_propagate t f (mk6 zero3 y)) as [_ E]. cbv zeta in E. unfold qf. rewrite E. cbn [u2]. set (p := u1 (p_x f)) in *. destruct (far_k p HP) as [Z _]. rewrite (F_tr p t _ Z). cbn [u1 u2].
  destruct (t_rng t HT) as (T1 & T2 & T3). rewrite mv_zero3. set (gy := mv (grad_block p) y). destruct (grad_far p y HP) as [GY _]. fold gy in GY. set (h := t ^ 2 / 2) in *. set (w := tau t) in *. set (g := gam2 t) in *.
  match goal with |- dot6 ?z _ + _ <= _ => replace z with (add6 (mk6 zero3 y) (mk6 (scale3 w gy) (add3 (scale3 (g - 1) y) (scale3 h gy)))) by (unfold add6; cbn [u1 u2]; generalize gy; clear; intros; f_equal; vring) end.
  set (a := mk6 zero3 y). set (b := mk6 (scale3 w gy) (add3 (scale3 (g - 1) y) (scale3 h gy))). fold (qf (p_P f) (add6 a b)). assert (QA := qf_add (p_P f) a b S Q). assert (A := VB y). fold a in A.
  assert (B : qf (p_P f) b <= 8.8 / 10 ^ 10 * dot3 y y).
  { eapply Rle_trans; [apply UP|]. unfold b. cbn [u1 u2]. rewrite <- !norm3_dot. assert (Y0 := norm3_pos y). assert (G0 := norm3_pos gy).
    assert (N1 : norm3 (scale3 w gy) <= 2.92 / 1000000 * norm3 y) by (rewrite nscal by lra; assert (w * norm3 gy <= 1.0001 * norm3 gy) by (apply Rmult_le_compat_r; lra); lra).
    assert (N2 : norm3 (add3 (scale3 (g - 1) y) (scale3 h gy)) <= 1.46 / 1000000 * norm3 y).
    { eapply Rle_trans; [apply norm3_triangle|]. rewrite !nscal by lra. assert (h * norm3 gy <= 0.5 * norm3 gy) by (apply Rmult_le_compat_r; lra). assert ((g - 1) * norm3 y <= 1 / 1000000000 * norm3 y) by (apply Rmult_le_compat_r; lra). lra. }
    assert (M1 := norm3_pos (scale3 w gy)). assert (M2 := norm3_pos (add3 (scale3 (g - 1) y) (scale3 h gy))).
    assert (Q1 := Rmult_le_compat _ _ _ _ M1 M1 N1 N1). assert (Q2 := Rmult_le_compat _ _ _ _ M2 M2 N2 N2). unfold x_sigma. assert (YY : 0 <= norm3 y * norm3 y) by nra. lra. }
  assert (YY := dot3_nonneg y). unfold a_sigma. lra.
Qed.
Lemma vb_update h x v f k : symm6 (p_P f) -> psd6 (p_P f) -> 0 <= k -> vbound (p_P f) k -> vbound (p_P (fst (pf_update h x v f))) (0.931225 * k + 0.000332).
Proof.
  intros S Q K VB y. destruct (C46_minimum_variance h x v f S Q) as (_ & _ & _ & _ & _ & _ & MV). unfold qf. eapply Rle_trans; [apply (MV (diag6 0 0.035))|]. unfold combined. rewrite mv6_addm, dot6_add_r, !mv6_mm.
  assert (TT : forall a u w, dot6 u (mv6 a w) = dot6 (mv6 (tr6 a) u) w) by (intros; rewrite dot6_tr, tr6_invol; reflexivity).
  rewrite (TT (subm6 id6 (diag6 0 0.035))), (TT (diag6 0 0.035)).
  replace (mv6 (tr6 (subm6 id6 (diag6 0 0.035))) (mk6 zero3 y)) with (mk6 zero3 (scale3 0.965 y)).
  2:{ destruct y as [a b c]. unf6. f_equal; vunfoldg; rnumg; apply mk3_c; lra. }
  replace (mv6 (tr6 (diag6 0 0.035)) (mk6 zero3 y)) with (mk6 zero3 (scale3 0.035 y)).
  2:{ destruct y as [a b c]. unf6. f_equal; vunfoldg; rnumg; apply mk3_c; lra. }
  fold (qf (p_P f) (mk6 zero3 (scale3 0.965 y))). assert (A := VB (scale3 0.965 y)). unfold pf_R. rewrite diag6_form. cbn [u1 u2].
  assert (SS : forall k, dot3 (scale3 k y) (scale3 k y) = k * k * dot3 y y) by (intros k'; clear; vring). rewrite !SS in *. replace (dot3 (zero3 (T := R)) zero3) with 0 by (unfold dot3, zero3; cbn [x3 y3 z3]; rnumg; ring).
  assert (YY := dot3_nonneg y). unfold v_sigma, x_sigma. assert (0 <= k * dot3 y y) by (apply Rmult_le_pos; lra). lra.
Qed.
Lemma vb_cycle h t Y f k : cov_fine (p_P f) -> 6500000 <= norm3 (u1 (p_x f)) -> 0.5 <= t <= 1 -> 0 <= k -> vbound (p_P f) k -> vbound (p_P (fixed h t Y f)) (0.9322 * k + 0.000642).
Proof.
  intros CF HP HT K VB. assert (A := vb_propagate t f k CF HP HT VB). destruct CF as (S & Q & _). destruct (prop_cov t f S Q) as [S1 Q1]. assert (B := vb_update h (u1 Y) (u2 Y) (pf_propagate t f) (1.001 * k + 0.000332) S1 Q1 ltac:(lra) A).
  intros y. eapply Rle_trans; [apply B|]. apply Rmult_le_compat_r; [apply dot3_nonneg|]. lra.
Qed.
(** ** how much an update can change the velocity: gain at most k / R *)
Lemma update_gain h y v f : symm6 (p_P f) -> psd6 (p_P f) -> let f' := fst (pf_update h y v f) in
  forall x, exists g, mv6 (p_P f') x = mv6 pf_R g /\ dot6 x (p_x f') = dot6 x (p_x f) + dot6 g (sub6 (mk6 y v) (p_x f)).
Proof.
  intros S Q. cbv zeta. unfold pf_update. destruct (pf_inv _ S Q) as (N & E & I). rewrite E. destruct (refresh h (p_st f) _ _) as [st e]. cbn [fst p_P p_x]. intros x.
  exists (mv6 N (mv6 (p_P f) x)). split.
  - assert (I' : add6 (mv6 (p_P f) (mv6 N (mv6 (p_P f) x))) (mv6 pf_R (mv6 N (mv6 (p_P f) x))) = mv6 (p_P f) x) by (rewrite <- mv6_addm, <- (mv6_mm _ N); destruct I as [I1 _]; rewrite I1; apply mv6_id).
    rewrite mv6_mm, mv6_subm, mv6_id, mv6_mm. rewrite <- I' at 1. generalize (mv6 (p_P f) (mv6 N (mv6 (p_P f) x))) (mv6 pf_R (mv6 N (mv6 (p_P f) x))). clear. intros [a b] [c d]. unfold sub6, add6. cbn [u1 u2]. f_equal; vring.
  - rewrite dot6_add_r. f_equal. rewrite mv6_mm. rewrite <- (symm6_dot (p_P f)) by exact S.
    set (X := addm6 (p_P f) pf_R) in *. assert (SX : symm6 X) by (apply symm6_add; [exact S|apply pf_R_symm]). destruct I as [I1 _].
    assert (E1 : forall a, mv6 X (mv6 N a) = a) by (intros; rewrite <- mv6_mm, I1; apply mv6_id).
    rewrite <- (E1 (mv6 (p_P f) x)) at 1. rewrite (symm6_dot X) by exact SX. rewrite E1. reflexivity.
Qed.
Lemma gain_sizes P g y k : symm6 P -> psd6 P -> loewner P pf_R -> vbound P k -> 0 <= k <= 0.0095 -> mv6 P (mk6 zero3 y) = mv6 pf_R g ->
  norm3 (u1 g) <= 0.0097 * norm3 y /\ norm3 (u2 g) <= 0.0351 * norm3 y.
Proof.
  intros S Q LR VB K E. assert (Y0 := norm3_pos y). assert (N1 := norm3_pos (u1 g)). assert (N2 := norm3_pos (u2 g)).
  assert (QX : sqrt (qf P (mk6 zero3 y)) <= 0.0975 * norm3 y).
  { rewrite <- (sqrt_square (0.0975 * norm3 y)) by lra. apply sqrt_le_1_alt. eapply Rle_trans; [apply VB|]. rewrite <- norm3_dot. assert (0 <= norm3 y * norm3 y) by nra. assert (k * (norm3 y * norm3 y) <= 0.0095 * (norm3 y * norm3 y)) by (apply Rmult_le_compat_r; lra). lra. }
  assert (Z0 : dot3 (zero3 (T := R)) zero3 = 0) by (unfold dot3, zero3; cbn [x3 y3 z3]; rnumg; ring). assert (Z1 : forall v : v3, dot3 zero3 v = 0) by (intros v; unfold dot3, zero3; cbn [x3 y3 z3]; rnumg; ring).
  split.
  - assert (C := psd_cauchy P (mk6 (u1 g) zero3) (mk6 zero3 y) S Q). rewrite E in C. unfold pf_R in C. rewrite diag6_mv in C. unfold dot6 in C. cbn [u1 u2] in C. rewrite Z1, Rplus_0_r in C.
    assert (SD : dot3 (u1 g) (scale3 (x_sigma ^ 2) (u1 g)) = x_sigma ^ 2 * (norm3 (u1 g) * norm3 (u1 g))) by (rewrite norm3_dot; clear; vring). rewrite SD in C.
    assert (QZ : sqrt (qf P (mk6 (u1 g) zero3)) <= 10.0598 * norm3 (u1 g)).
    { rewrite <- (sqrt_square (10.0598 * norm3 (u1 g))) by lra. apply sqrt_le_1_alt. unfold qf. eapply Rle_trans; [apply LR|]. unfold pf_R. rewrite diag6_form. cbn [u1 u2]. rewrite Z0, <- norm3_dot. unfold x_sigma. lra. }
    assert (M := Rmult_le_compat _ _ _ _ (sqrt_pos _) (sqrt_pos _) QZ QX). apply abs_both in C. unfold x_sigma in C. set (a := norm3 (u1 g)) in *. set (b := norm3 y) in *.
    destruct (Req_dec a 0) as [A0|A0]; [rewrite A0; lra|]. apply (Rmult_le_reg_l (10.0598 ^ 2 * a)); [apply Rmult_lt_0_compat; lra|]. assert (0 <= a * b) by (apply Rmult_le_pos; lra). lra.
  - assert (C := psd_cauchy P (mk6 zero3 (u2 g)) (mk6 zero3 y) S Q). rewrite E in C. unfold pf_R in C. rewrite diag6_mv in C. unfold dot6 in C. cbn [u1 u2] in C. rewrite Z1, Rplus_0_l in C.
    assert (SD : dot3 (u2 g) (scale3 (v_sigma ^ 2) (u2 g)) = v_sigma ^ 2 * (norm3 (u2 g) * norm3 (u2 g))) by (rewrite norm3_dot; clear; vring). rewrite SD in C.
    assert (QZ : sqrt (qf P (mk6 zero3 (u2 g))) <= sqrt k * norm3 (u2 g)).
    { replace (sqrt k * norm3 (u2 g)) with (sqrt (k * (norm3 (u2 g) * norm3 (u2 g)))) by (rewrite sqrt_mult by nra; f_equal; apply sqrt_square; lra). apply sqrt_le_1_alt. rewrite norm3_dot. apply VB. }
    assert (QY : sqrt (qf P (mk6 zero3 y)) <= sqrt k * norm3 y).
    { replace (sqrt k * norm3 y) with (sqrt (k * (norm3 y * norm3 y))) by (rewrite sqrt_mult by nra; f_equal; apply sqrt_square; lra). apply sqrt_le_1_alt. rewrite norm3_dot. apply VB. }
    assert (M := Rmult_le_compat _ _ _ _ (sqrt_pos _) (sqrt_pos _) QZ QY). apply abs_both in C. unfold v_sigma in C. set (a := norm3 (u2 g)) in *. set (b := norm3 y) in *. assert (SK : sqrt k * sqrt k = k) by (apply sqrt_sqrt; lra). replace (sqrt k * a * (sqrt k * b)) with (k * (a * b)) in M by (rewrite <- SK at 1; ring).
    destruct (Req_dec a 0) as [A0|A0]; [rewrite A0; lra|]. apply (Rmult_le_reg_l (0.52038 ^ 2 * a)); [apply Rmult_lt_0_compat; lra|]. assert (0 <= a * b) by (apply Rmult_le_pos; lra). assert (k * (a * b) <= 0.0095 * (a * b)) by (apply Rmult_le_compat_r; lra). lra.
Qed.
