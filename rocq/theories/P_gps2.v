(** * Lemmas: the position filter fed with fixes (2): the bounds along propagations and updates *)
From Coq Require Import Reals List Bool Lra Psatz Lia.
From Verif Require Import Num Vec Mat6 M_vector M_env M_dyn M_obs S_obs P_quat P_wheel P_tot3 P_dyn P_orb3 P_obs P_obs2 P_posf Props_obs P_gps1.
Local Open Scope R_scope.

Lemma iso_split a b c t (x y w z : v3) : iso a b c (mk6 (add3 x w) (add3 (scale3 t x) (add3 y z))) =
  (a + 2 * b * t + c * t ^ 2) * dot3 x x + 2 * (b + c * t) * dot3 x y + c * dot3 y y + 2 * (a + b * t) * dot3 x w + 2 * b * dot3 y w + 2 * (b + c * t) * dot3 x z + 2 * c * dot3 y z + iso a b c (mk6 w z).
Proof. unfold iso. cbn [u1 u2]. destruct x as [p1 p2 p4], y as [q1 q2 q4], w as [r1 s2 r4], z as [s1 s3 s4]. unfold add3, scale3, dot3. cbn [x3 y3 z3]. rnumg. ring. Qed.
Lemma Mform_nonneg x : 0 <= Mform x.
Proof.
  destruct x as [[x y z] [a b c]]. unfold Mform, iso. cbn [u1 u2]. unfold dot3. cbn [x3 y3 z3]. rnumg.
  assert (Q : forall a b : R, 0 <= 8895 / 10000 * (a * a) + 2 * (2446 / 100000) * (a * b) + 3445 / 1000000 * (b * b)) by (intros p q; nra).
  assert (A := Q x a). assert (B := Q y b). assert (C := Q z c). lra.
Qed.
Lemma t_rng t : 0.5 <= t <= 1 -> 0.5 <= tau t <= 1.0001 /\ 0 <= t ^ 2 / 2 <= 0.5 /\ 1 <= gam2 t <= 1 + 1 / 1000000000.
Proof.
  intros H. unfold tau, gam2. rewrite pfb_val. assert (0.25 <= t ^ 2 <= 1) by (cbn [pow]; nra). repeat split; lra.
Qed.
Lemma nscal k (v : v3) : 0 <= k -> norm3 (scale3 k v) = k * norm3 v.
Proof. intros H. rewrite norm3_scal, Rabs_pos_eq by exact H. reflexivity. Qed.
Lemma dots (a b : v3) : - (norm3 a * norm3 b) <= dot3 a b <= norm3 a * norm3 b. Proof. apply abs_both, dot_norm. Qed.
Lemma iso_step p t x : 6500000 <= norm3 p -> 0.5 <= t <= 1 ->
  Lform x <= Mform (mv6 (tr6 (F_discrete p t)) x) + a_sigma ^ 2 * dot3 (u2 x) (u2 x).
Proof.
  intros HP HT. destruct (far_k p HP) as [Z _]. rewrite (F_tr p t x Z). destruct x as [x y]. cbn [u1 u2]. destruct (t_rng t HT) as (T1 & T2 & T3).
  set (gx := mv (grad_block p) x). set (gy := mv (grad_block p) y). set (h := t ^ 2 / 2) in *. set (w := tau t) in *. set (g := gam2 t) in *.
  destruct (grad_far p x HP) as [GX _]. destruct (grad_far p y HP) as [GY _]. fold gx in GX. fold gy in GY.
  replace (add3 (add3 x (scale3 h gx)) (scale3 w gy)) with (add3 x (add3 (scale3 h gx) (scale3 w gy))) by (generalize x gx gy; clear; vring).
  replace (add3 (scale3 g y) (scale3 h gy)) with (add3 y (add3 (scale3 (g - 1) y) (scale3 h gy))) by (generalize y gy; clear; vring).
  unfold Mform. rewrite iso_split. set (e := add3 (scale3 h gx) (scale3 w gy)). set (f := add3 (scale3 (g - 1) y) (scale3 h gy)).
  assert (MN := Mform_nonneg (mk6 e f)). unfold Mform in MN. set (I := iso (8895 / 10000) (2446 / 100000) (3445 / 1000000) (mk6 e f)) in *. clearbody I. assert (X0 := norm3_pos x). assert (Y0 := norm3_pos y). assert (A0 := norm3_pos gx). assert (B0 := norm3_pos gy).
  assert (E1 : norm3 e <= 1.46 / 1000000 * norm3 x + 2.92 / 1000000 * norm3 y).
  { unfold e. eapply Rle_trans; [apply norm3_triangle|]. rewrite !nscal by lra. assert (h * norm3 gx <= 0.5 * norm3 gx) by (apply Rmult_le_compat_r; lra). assert (w * norm3 gy <= 1.0001 * norm3 gy) by (apply Rmult_le_compat_r; lra). lra. }
  assert (E2 : norm3 f <= 1.46 / 1000000 * norm3 y).
  { unfold f. eapply Rle_trans; [apply norm3_triangle|]. rewrite !nscal by lra. assert (h * norm3 gy <= 0.5 * norm3 gy) by (apply Rmult_le_compat_r; lra). assert ((g - 1) * norm3 y <= 1 / 1000000000 * norm3 y) by (apply Rmult_le_compat_r; lra). lra. }
  assert (Ne := norm3_pos e). assert (Nf := norm3_pos f).
  assert (D1 := dots x e). assert (D2 := dots y e). assert (D3 := dots x f). assert (D4 := dots y f). assert (D5 := dots x y).
  clearbody e f. rewrite <- (norm3_dot x), <- (norm3_dot y) in *. unfold Lform, iso. cbn [u1 u2]. rewrite <- (norm3_dot x), <- (norm3_dot y).
  set (s := norm3 x) in *. set (u := norm3 y) in *. unfold a_sigma.
  assert (S1 : s * norm3 e <= 1.46 / 1000000 * (s * s) + 2.92 / 1000000 * (s * u)) by (apply Rle_trans with (s * (1.46 / 1000000 * s + 2.92 / 1000000 * u)); [apply Rmult_le_compat_l; lra|lra]).
  assert (S2 : u * norm3 e <= 1.46 / 1000000 * (s * u) + 2.92 / 1000000 * (u * u)) by (apply Rle_trans with (u * (1.46 / 1000000 * s + 2.92 / 1000000 * u)); [apply Rmult_le_compat_l; lra|lra]).
  assert (S3 : s * norm3 f <= 1.46 / 1000000 * (s * u)) by (apply Rle_trans with (s * (1.46 / 1000000 * u)); [apply Rmult_le_compat_l; lra|lra]).
  assert (S4 : u * norm3 f <= 1.46 / 1000000 * (u * u)) by (apply Rle_trans with (u * (1.46 / 1000000 * u)); [apply Rmult_le_compat_l; lra|lra]).
  assert (SC := step_scalar s u w X0 Y0 T1).
  assert (SU : 0 <= s * u) by (apply Rmult_le_pos; lra). assert (SS : 0 <= s * s) by (apply Rmult_le_pos; lra). assert (UU : 0 <= u * u) by (apply Rmult_le_pos; lra).
  (* products with the factor w *)
  assert (K1 : - (0.92 * (s * norm3 e)) <= (8895 / 10000 + 2446 / 100000 * w) * dot3 x e).
  { assert (0 <= s * norm3 e) by (apply Rmult_le_pos; lra). set (c := 8895 / 10000 + 2446 / 100000 * w). assert (0 <= c <= 0.92) by (unfold c; lra). assert (c * - (s * norm3 e) <= c * dot3 x e) by (apply Rmult_le_compat_l; lra). assert (c * (s * norm3 e) <= 0.92 * (s * norm3 e)) by (apply Rmult_le_compat_r; lra). lra. }
  assert (K3 : - (0.03 * (s * norm3 f)) <= (2446 / 100000 + 3445 / 1000000 * w) * dot3 x f).
  { assert (0 <= s * norm3 f) by (apply Rmult_le_pos; lra). set (c := 2446 / 100000 + 3445 / 1000000 * w). assert (0 <= c <= 0.03) by (unfold c; lra). assert (c * - (s * norm3 f) <= c * dot3 x f) by (apply Rmult_le_compat_l; lra). assert (c * (s * norm3 f) <= 0.03 * (s * norm3 f)) by (apply Rmult_le_compat_r; lra). lra. }
  assert (K5 : - ((2446 / 100000 + 3445 / 1000000 * w - 25 / 1000) * (s * u)) <= (2446 / 100000 + 3445 / 1000000 * w - 25 / 1000) * dot3 x y).
  { set (c := 2446 / 100000 + 3445 / 1000000 * w - 25 / 1000). assert (0 <= c) by (unfold c; lra). assert (c * - (s * u) <= c * dot3 x y) by (apply Rmult_le_compat_l; lra). lra. }
  lra.
Qed.
Lemma above_propagate t f : above (p_P f) Mform -> 6500000 <= norm3 (u1 (p_x f)) -> 0.5 <= t <= 1 -> above (p_P (pf_propagate t f)) Lform.
Proof.
  intros A HP HT x. destruct (C47_propagate t f x) as [_ E]. cbv zeta in E. rewrite E. assert (B := iso_step (u1 (p_x f)) t x HP HT). assert (C := A (mv6 (tr6 (F_discrete (u1 (p_x f)) t)) x)). lra.
Qed.
(** what one update does, as seen by a test vector: g = K'x *)
Lemma update_view h y v f : symm6 (p_P f) -> psd6 (p_P f) -> let f' := fst (pf_update h y v f) in
  forall x, exists g, add6 (mv6 (p_P f) g) (mv6 pf_R g) = mv6 (p_P f) x /\
    dot6 x (mv6 (p_P f') x) = dot6 (sub6 x g) (mv6 (p_P f) (sub6 x g)) + dot6 g (mv6 pf_R g) /\
    dot6 x (p_x f') = dot6 x (p_x f) + dot6 g (sub6 (mk6 y v) (p_x f)).
Proof.
  intros S Q. cbv zeta. unfold pf_update. destruct (pf_inv _ S Q) as (N & E & I). rewrite E. destruct (refresh h (p_st f) _ _) as [st e]. cbn [fst p_P p_x]. intros x.
  destruct (update_forms _ pf_R N S pf_R_symm I) as (_ & B & _). exists (mv6 N (mv6 (p_P f) x)). split; [|split].
  - rewrite <- mv6_addm, <- mv6_mm. destruct I as [I1 _]. rewrite I1. apply mv6_id.
  - apply B.
  - rewrite dot6_add_r. f_equal. rewrite mv6_mm. rewrite <- (symm6_dot (p_P f)) by exact S.
    set (X := addm6 (p_P f) pf_R) in *. assert (SX : symm6 X) by (apply symm6_add; [exact S|apply pf_R_symm]). destruct I as [I1 _].
    assert (E1 : forall a, mv6 X (mv6 N a) = a) by (intros; rewrite <- mv6_mm, I1; apply mv6_id).
    rewrite <- (E1 (mv6 (p_P f) x)) at 1. rewrite (symm6_dot X) by exact SX. rewrite E1. reflexivity.
Qed.
Lemma above_update h y v f : symm6 (p_P f) -> psd6 (p_P f) -> above (p_P f) Lform -> above (p_P (fst (pf_update h y v f))) Mform.
Proof.
  intros S Q A x. destruct (update_view h y v f S Q x) as (g & _ & E & _). rewrite E. assert (B := iso_update x g). assert (C := A (sub6 x g)). unfold pf_R. rewrite diag6_form. lra.
Qed.
(** ** L is a definite fraction of R, and has an isotropic diagonal bound *)
Lemma L_diag x : 0.45 * dot3 (u1 x) (u1 x) + 0.0021 * dot3 (u2 x) (u2 x) <= Lform x.
Proof.
  destruct x as [[x y z] [a b c]]. unfold Lform, iso. cbn [u1 u2]. unfold dot3. cbn [x3 y3 z3]. rnumg.
  assert (Q : forall a b : R, 0.45 * (a * a) + 0.0021 * (b * b) <= 9 / 10 * (a * a) + 2 * (25 / 1000) * (a * b) + 35 / 10000 * (b * b)) by (intros p q; assert (Z := Rle_0_sqr (p + q / 18)); assert (Z2 := Rle_0_sqr q); unfold Rsqr in Z, Z2; lra).
  assert (A := Q x a). assert (B := Q y b). assert (C := Q z c). lra.
Qed.
Definition kap : R := 0.0055.
Lemma L_R x : kap * (x_sigma ^ 2 * dot3 (u1 x) (u1 x) + v_sigma ^ 2 * dot3 (u2 x) (u2 x)) <= Lform x.
Proof.
  destruct x as [[x y z] [a b c]]. unfold Lform, iso, kap, x_sigma, v_sigma. cbn [u1 u2]. unfold dot3. cbn [x3 y3 z3]. rnumg.
  assert (Q : forall a b : R, 0.5567 * (a * a) + 0.00149 * (b * b) <= 9 / 10 * (a * a) + 2 * (25 / 1000) * (a * b) + 35 / 10000 * (b * b)) by (intros p q; assert (Z := Rle_0_sqr (0.34 * p + 0.025 * q)); assert (Z1 := Rle_0_sqr p); assert (Z2 := Rle_0_sqr q); unfold Rsqr in Z, Z1, Z2; lra).
  assert (A := Q x a). assert (B := Q y b). assert (C := Q z c). assert (N : forall r, 0 <= r * r) by (intros r; nra). assert (N1 := N x). assert (N2 := N y). assert (N3 := N z). assert (N4 := N a). assert (N5 := N b). assert (N6 := N c). lra.
Qed.
