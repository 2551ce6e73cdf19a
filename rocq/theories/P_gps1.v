(** * Lemmas: the position filter fed with fixes (1): lower bounds that its covariance keeps *)
From Coq Require Import Reals List Bool Lra Psatz Lia.
From Verif Require Import Num Vec Mat6 M_vector M_env M_obs S_obs P_quat P_wheel P_tot3 P_dyn P_orb3 P_obs P_obs2 P_posf.
Local Open Scope R_scope.

(** ** the gravity gradient: size and symmetry *)
Lemma grad_symm p : p <> zero3 -> tr3 (grad_block p) = grad_block p.
Proof. intros H. rewrite (grad_block_inv p H). cbv zeta. generalize (/ norm3 p) MU. intros w m. destruct p as [x y z]. unfold tr3. cbn [x3 y3 z3 row1 row2 row3]. apply mkm_c; apply mk3_c; ring. Qed.
Lemma grad_form p v : p <> zero3 -> let k := MU * (/ norm3 p) ^ 3 in mv (grad_block p) v = sub3 (scale3 k v) (scale3 (3 * k * (/ norm3 p) ^ 2 * dot3 p v) p).
Proof.
  intros H k. rewrite (grad_block_inv p H). cbv zeta. unfold k. generalize (/ norm3 p) MU. intros w m. destruct p as [x y z], v as [a b c].
  unfold mv, sub3, scale3, dot3. cbn [x3 y3 z3 row1 row2 row3]. rnumg. apply mk3_c; ring.
Qed.
Lemma sandw_sq (k s : R) (p v : v3) : let u := sub3 (scale3 k v) (scale3 s p) in dot3 u u = k * k * dot3 v v - 2 * k * s * dot3 p v + s * s * dot3 p p.
Proof. destruct p as [x y z], v as [a b c]. unfold sub3, scale3, dot3. cbn [x3 y3 z3]. rnumg. ring. Qed.
(** c I + gradient *)
Lemma grad_size c p v : p <> zero3 -> 0 <= c -> let k := MU * (/ norm3 p) ^ 3 in
  let u := add3 (scale3 c v) (mv (grad_block p) v) in dot3 u u <= (c + 2 * k) ^ 2 * dot3 v v /\ (k <= 2 * c -> dot3 u u <= (c + k) ^ 2 * dot3 v v).
Proof.
  intros H HC k u. assert (N := norm3_gt0 p H). assert (I0 : 0 < / norm3 p) by (apply Rinv_0_lt_compat; exact N).
  assert (K0 : 0 < k). { unfold k. apply Rmult_lt_0_compat; [unfold MU, G_NEWTON, EARTH_MASS; apply Rmult_lt_0_compat; lra|apply pow_lt; exact I0]. }
  assert (E : u = sub3 (scale3 (c + k) v) (scale3 (3 * k * (/ norm3 p) ^ 2 * dot3 p v) p)).
  { unfold u. rewrite (grad_form p v H). fold k. generalize (3 * k * (/ norm3 p) ^ 2 * dot3 p v). intros s. destruct p as [x y z], v as [a b d]. unfold add3, sub3, scale3. cbn [x3 y3 z3]. rnumg. apply mk3_c; ring. }
  rewrite E, sandw_sq. set (w := / norm3 p) in *. set (d := dot3 p v).
  assert (PP : w * w * dot3 p p = 1) by (rewrite <- norm3_dot; unfold w; field; lra).
  assert (CS : w * w * (d * d) <= dot3 v v).
  { assert (Q := dot_norm p v). fold d in Q. assert (Q0 := norm3_pos v). apply abs_both in Q. rewrite <- (norm3_dot v).
    assert (QQ : d * d <= (norm3 p * norm3 v) * (norm3 p * norm3 v)) by nra.
    apply Rle_trans with (w * w * ((norm3 p * norm3 v) * (norm3 p * norm3 v))); [apply Rmult_le_compat_l; [nra|exact QQ]|]. right. unfold w. field. lra. }
  set (t := w * w * (d * d)) in *. assert (T0 : 0 <= t) by (unfold t; apply Rmult_le_pos; nra).
  replace ((c + k) * (c + k) * dot3 v v - 2 * (c + k) * (3 * k * w ^ 2 * d) * d + 3 * k * w ^ 2 * d * (3 * k * w ^ 2 * d) * dot3 p p) with ((c + k) * (c + k) * dot3 v v - 6 * k * (c + k) * t + 9 * k * k * t * (w * w * dot3 p p)) by (unfold t; ring).
  rewrite PP. replace ((c + k) * (c + k) * dot3 v v - 6 * k * (c + k) * t + 9 * k * k * t * 1) with ((c + k) * (c + k) * dot3 v v + 3 * k * (k - 2 * c) * t) by ring.
  set (D := dot3 v v) in *. assert (D0 : 0 <= D) by lra. split.
  - replace ((c + 2 * k) ^ 2 * D) with ((c + k) * (c + k) * D + (2 * c * k + 3 * k * k) * D) by ring. apply Rplus_le_compat_l.
    apply Rle_trans with (3 * k * k * t); [assert (0 <= c * k * t) by (apply Rmult_le_pos; [nra|exact T0]); lra|].
    apply Rle_trans with (3 * k * k * D); [apply Rmult_le_compat_l; nra|]. apply Rmult_le_compat_r; nra.
  - intros HK. assert (0 <= k * (2 * c - k) * t) by (apply Rmult_le_pos; nra). lra.
Qed.
Lemma sq_norm (u v : v3) k : 0 <= k -> dot3 u u <= k ^ 2 * dot3 v v -> norm3 u <= k * norm3 v.
Proof.
  intros K H. rewrite <- !norm3_dot in H. assert (A := norm3_pos u). assert (B := norm3_pos v). apply Rsqr_incr_0_var; [unfold Rsqr; nra|apply Rmult_le_pos; lra].
Qed.
Lemma far_k p : 6500000 <= norm3 p -> p <> zero3 /\ 0 < MU * (/ norm3 p) ^ 3 <= 1.452 / 1000000.
Proof.
  intros H. split.
  - intros E. subst p. replace (norm3 zero3) with 0 in H by (unfold norm3, dot3, zero3; cbn [x3 y3 z3]; rnumg; replace (0 * 0 + 0 * 0 + 0 * 0) with 0 by ring; rewrite sqrt_0; reflexivity). lra.
  - assert (I0 : 0 < / norm3 p) by (apply Rinv_0_lt_compat; lra). assert (I1 : / norm3 p <= / 6500000) by (apply Rinv_le_contravar; lra).
    assert (C : 0 < (/ norm3 p) ^ 3 <= (/ 6500000) ^ 3) by (split; [apply pow_lt; exact I0|apply pow_incr; lra]).
    unfold MU, G_NEWTON, EARTH_MASS. split; [apply Rmult_lt_0_compat; lra|]. match goal with |- ?a * _ <= _ => apply Rle_trans with (a * (/ 6500000) ^ 3); [apply Rmult_le_compat_l; lra|lra] end.
Qed.
Lemma grad_far p v : 6500000 <= norm3 p -> norm3 (mv (grad_block p) v) <= 2.91 / 1000000 * norm3 v /\ norm3 (add3 (scale3 pf_a v) (mv (grad_block p) v)) <= 2.74 / 1000000 * norm3 v.
Proof.
  intros H. destruct (far_k p H) as [Z K]. set (k := MU * (/ norm3 p) ^ 3) in *. assert (V := dot3_nonneg v). split.
  - apply sq_norm; [lra|]. destruct (grad_size 0 p v Z ltac:(lra)) as [A _]. fold k in A. replace (add3 (scale3 0 v) (mv (grad_block p) v)) with (mv (grad_block p) v) in A by (generalize (mv (grad_block p) v); intros [a b c]; destruct v as [d e g]; unfold add3, scale3; cbn [x3 y3 z3]; rnumg; apply mk3_c; ring).
    eapply Rle_trans; [exact A|]. apply Rmult_le_compat_r; [exact V|]. apply pow_incr. lra.
  - apply sq_norm; [lra|]. assert (PA := pfa_val). destruct (grad_size pf_a p v Z ltac:(lra)) as [_ A]. fold k in A. eapply Rle_trans; [apply A; lra|]. apply Rmult_le_compat_r; [exact V|]. apply pow_incr. lra.
Qed.

(** ** the transition matrix and its transpose on a vector *)
Definition tau (t : R) : R := t + pf_b * t ^ 2 / 2.
Definition gam2 (t : R) : R := 1 + pf_b * t + pf_b ^ 2 * t ^ 2 / 2.
Lemma F_block (G : m3) b t : let F := mkB zerom id3 G (scalem b id3) in addm6 (addm6 id6 (scalem6 t F)) (scalem6 (t ^ 2) (scalem6 0.5 (mm6 F F))) =
  mkB (addm id3 (scalem (t ^ 2 / 2) G)) (scalem (t + b * t ^ 2 / 2) id3) (scalem (t + b * t ^ 2 / 2) G) (addm (scalem (1 + b * t + b ^ 2 * t ^ 2 / 2) id3) (scalem (t ^ 2 / 2) G)).
Proof.
  cbv zeta. replace 0.5 with (/ 2) by lra. destruct G as [[a1 a2 a3] [b1 b2 b3] [c1 c2 c3]]. unf6. f_equal; vunfoldg; rnumg; apply mkm_c; apply mk3_c; field.
Qed.
Lemma F_mv p t e : mv6 (F_discrete p t) e =
  mk6 (add3 (add3 (u1 e) (scale3 (t ^ 2 / 2) (mv (grad_block p) (u1 e)))) (scale3 (tau t) (u2 e)))
      (add3 (scale3 (tau t) (mv (grad_block p) (u1 e))) (add3 (scale3 (gam2 t) (u2 e)) (scale3 (t ^ 2 / 2) (mv (grad_block p) (u2 e))))).
Proof.
  unfold F_discrete. cbv zeta. unfold F_continuous. rewrite F_block. fold (tau t) (gam2 t). unfold mv6. cbn [b11 b12 b21 b22]. rewrite !mv_addm, !mv_scalem, !mv_id3. reflexivity.
Qed.
Lemma F_tr p t e : p <> zero3 -> mv6 (tr6 (F_discrete p t)) e =
  mk6 (add3 (add3 (u1 e) (scale3 (t ^ 2 / 2) (mv (grad_block p) (u1 e)))) (scale3 (tau t) (mv (grad_block p) (u2 e))))
      (add3 (scale3 (tau t) (u1 e)) (add3 (scale3 (gam2 t) (u2 e)) (scale3 (t ^ 2 / 2) (mv (grad_block p) (u2 e))))).
Proof.
  intros H. assert (SY := grad_symm p H). unfold F_discrete. cbv zeta. unfold F_continuous. rewrite F_block. fold (tau t) (gam2 t). unfold tr6, mv6. cbn [b11 b12 b21 b22].
  assert (T1 : forall a b : m3, tr3 (addm a b) = addm (tr3 a) (tr3 b)) by (intros; vring).
  assert (T2 : forall k (a : m3), tr3 (scalem k a) = scalem k (tr3 a)) by (intros; vring).
  assert (T3 : tr3 (id3 : m3) = id3) by vring.
  rewrite !T1, !T2, SY, T3, !mv_addm, !mv_scalem, !mv_id3. reflexivity.
Qed.

(** ** isotropic forms *)
Definition iso (a b c : R) (x : V6) : R := a * dot3 (u1 x) (u1 x) + 2 * b * dot3 (u1 x) (u2 x) + c * dot3 (u2 x) (u2 x).
Definition Lform : V6 -> R := iso (9 / 10) (25 / 1000) (35 / 10000).
Definition Mform : V6 -> R := iso (8895 / 10000) (2446 / 100000) (3445 / 1000000).
Definition above (P : M6) (f : V6 -> R) : Prop := forall x, f x <= dot6 x (mv6 P x).
Lemma four a b c d : 8895 / 10000 * a ^ 2 + 2 * (2446 / 100000) * (a * b) + 3445 / 1000000 * b ^ 2 <=
  9 / 10 * (a - c) ^ 2 + 2 * (25 / 1000) * ((a - c) * (b - d)) + 35 / 10000 * (b - d) ^ 2 + (100598 / 10000) ^ 2 * c ^ 2 + (52038 / 100000) ^ 2 * d ^ 2.
Proof.
  assert (E : 9 / 10 * (a - c) ^ 2 + 2 * (25 / 1000) * ((a - c) * (b - d)) + 35 / 10000 * (b - d) ^ 2 + (100598 / 10000) ^ 2 * c ^ 2 + (52038 / 100000) ^ 2 * d ^ 2 -
    (8895 / 10000 * a ^ 2 + 2 * (2446 / 100000) * (a * b) + 3445 / 1000000 * b ^ 2) = (2552489401 / 25000000) * (c + (625000 / 2552489401) * d + (-22500000 / 2552489401) * a + (-625000 / 2552489401) * b) ^ 2 + (1750300835811611761 / 6381223502500000000) * (d + (-158124337562500000 / 1750300835811611761) * a + (-22295219758750000 / 1750300835811611761) * b) ^ 2 + (1148009553418846981 / 3500601671623223522000) * (a + (348800215351017547 / 28700238835471174525) * b) ^ 2 + (24827351794773024699 / 5740047767094234905000000) * (b) ^ 2) by field.
  match type of E with _ = ?s => assert (Z : 0 <= s) end; [|apply Rminus_le; rewrite <- E in Z; lra].
  repeat apply Rplus_le_le_0_compat; (apply Rmult_le_pos; [lra|apply pow2_ge_0]).
Qed.
(** the update keeps the bound *)
Lemma iso_update (x g : V6) : Mform x <= Lform (sub6 x g) + (x_sigma ^ 2 * dot3 (u1 g) (u1 g) + v_sigma ^ 2 * dot3 (u2 g) (u2 g)).
Proof.
  destruct x as [[x y z] [a b c]], g as [[x' y' z'] [a' b' c']]. unfold Mform, Lform, iso, sub6, x_sigma, v_sigma. cbn [u1 u2]. unfold sub3, dot3. cbn [x3 y3 z3]. rnumg.
  assert (A := four x a x' a'). assert (B := four y b y' b'). assert (C := four z c z' c'). lra.
Qed.
Lemma id_above : above id6 Mform.
Proof.
  intros [[x y z] [a b c]]. rewrite mv6_id. unfold Mform, iso, dot6. cbn [u1 u2]. unfold dot3. cbn [x3 y3 z3]. rnumg.
  assert (Q : forall a b : R, 8895 / 10000 * (a * a) + 2 * (2446 / 100000) * (a * b) + 3445 / 1000000 * (b * b) <= a * a + b * b) by (intros p q; nra).
  assert (A := Q x a). assert (B := Q y b). assert (C := Q z c). lra.
Qed.
Lemma add3_swap3 (a b c d e : v3) : add3 (add3 a b) c = add3 a (add3 b c). Proof. vring. Qed.
(** the scalar inequality of a propagation; s, u sizes of the two parts *)
Lemma step_scalar s u t : 0 <= s -> 0 <= u -> 0.5 <= t <= 1.0001 ->
  0 <= (8895 / 10000 + 2 * (2446 / 100000) * t + 3445 / 1000000 * t ^ 2 - 9 / 10 - 3.1 / 1000000) * (s * s) - 2 * (2446 / 100000 + 3445 / 1000000 * t - 25 / 1000 + 3.1 / 1000000) * (s * u) + (3445 / 1000000 + 0.018166 ^ 2 - 35 / 10000 - 2 / 10000000) * (u * u).
Proof.
  intros S0 U0 T. set (E1 := 8895 / 10000 + 2 * (2446 / 100000) * t + 3445 / 1000000 * t ^ 2 - 9 / 10 - 3.1 / 1000000). set (E2 := 2446 / 100000 + 3445 / 1000000 * t - 25 / 1000 + 3.1 / 1000000).
  set (E3 := 3445 / 1000000 + 0.018166 ^ 2 - 35 / 10000 - 2 / 10000000). assert (P3 : 0.000274 <= E3) by (unfold E3; lra).
  assert (P2 : E2 * E2 <= E1 * 0.000274) by (unfold E1, E2; nra).
  apply Rle_trans with (E1 * (s * s) - 2 * E2 * (s * u) + 0.000274 * (u * u)); [|assert (0 <= (E3 - 0.000274) * (u * u)) by (apply Rmult_le_pos; nra); lra].
  apply (Rmult_le_reg_l 0.000274); [lra|]. rewrite Rmult_0_r. assert (Q := Rle_0_sqr (0.000274 * u - E2 * s)). unfold Rsqr in Q. assert (0 <= (E1 * 0.000274 - E2 * E2) * (s * s)) by (apply Rmult_le_pos; nra). lra.
Qed.
