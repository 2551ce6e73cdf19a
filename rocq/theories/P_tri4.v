(** * Lemmas: one cycle of the star-tracker filter near the truth *)
From Coq Require Import Reals Lra Psatz Lia.
From Verif Require Import Num Vec Mat6 M_vector M_quaternion M_obs S_rot S_obs S_steady P_quat P_wheel P_dyn P_dyn2 P_obs P_obs3 P_steady Props_obs P_farr P_est1 P_est2 P_est3 P_tot3 P_orb3 P_tri1 P_tri2 P_tri3.
Local Open Scope R_scope.

(** ** quaternion identities *)
Definition moved_q (c : R) (psi : v3) (q : quat) : quat := mkqv (c * qw q + dot3 (opp3 psi) (vec q)) (add3 (scale3 (qw q) psi) (mv (subm id3 (crossm psi)) (vec q))).
Lemma moved_err c psi q z : let e := error_quat z q in let a := error_quat z (moved_q c psi q) in
  vec a = add3 (sub3 (sub3 (scale3 c (vec e)) (scale3 (qw e) psi)) (cross3 psi (vec e))) (scale3 (1 - c) (vec (product (mkqv 0 (opp3 (vec q))) z))) /\
  qw a = c * qw e + dot3 psi (vec e) + (1 - c) * dot3 (vec q) (vec z).
Proof. cbv zeta. destruct q as [q0 qa qb qc], z as [z0 za zb zc], psi as [pa pb pc]. unfold error_quat, moved_q, crossm, product, conjugate, mkqv, vec. cbn [qw qx qy qz]. split; [|vunfoldg; cbn [qw qx qy qz x3 y3 z3]; rnumg; ring]. vunfoldg. cbn [qw qx qy qz x3 y3 z3]. rnumg. f_equal; ring. Qed.
Lemma moved_size c psi q : dotq q q = 1 -> dot3 psi psi = 1 - c * c -> dotq (moved_q c psi q) (moved_q c psi q) = 1 + (1 - c * c) * dot3 (vec q) (vec q) + 2 * (1 - c) * (qw q * dot3 psi (vec q)).
Proof.
  intros U P. assert (E : dotq (moved_q c psi q) (moved_q c psi q) = (c * c + dot3 psi psi) * (qw q * qw q) + (1 + dot3 psi psi) * dot3 (vec q) (vec q) + 2 * (1 - c) * (qw q * dot3 psi (vec q))).
  { clear U P. destruct q as [q0 qa qb qc], psi as [pa pb pc]. unfold moved_q, crossm, mkqv, vec. vunfoldg. cbn [qw qx qy qz x3 y3 z3]. rnumg. ring. }
  rewrite E, P. assert (V : qw q * qw q = 1 - dot3 (vec q) (vec q)). { rewrite <- U. destruct q as [q0 qa qb qc]. unfold vec. vunfoldg. cbn [qw qx qy qz x3 y3 z3]. rnumg. ring. } rewrite V. ring.
Qed.
Definition fixed_q (q : quat) (d : v3) : quat := addq q (scaleq 0.5 (xi_mul (xi q) d)).
Lemma fixed_err q d z : let a := error_quat z q in let b := error_quat z (fixed_q q d) in
  vec b = sub3 (sub3 (vec a) (scale3 (qw a / 2) d)) (scale3 (/ 2) (cross3 d (vec a))) /\ qw b = qw a + dot3 d (vec a) / 2.
Proof. cbv zeta. replace (fixed_q q d) with (addq q (scaleq (/ 2) (xi_mul (xi q) d))) by (unfold fixed_q; f_equal; f_equal; lra). destruct q as [q0 qa qb qc], z as [z0 za zb zc], d as [da db dc]. unfold error_quat, xi_mul, xi, crossm, product, conjugate, mkqv, vec, addq, scaleq. cbn [qw qx qy qz fst snd]. split; [|vunfoldg; cbn [qw qx qy qz x3 y3 z3]; rnumg; field]. vunfoldg. cbn [qw qx qy qz x3 y3 z3]. rnumg. f_equal; field. Qed.
Lemma fixed_size q d : dotq (fixed_q q d) (fixed_q q d) = dotq q q * (1 + dot3 d d / 4).
Proof. replace (fixed_q q d) with (addq q (scaleq (/ 2) (xi_mul (xi q) d))) by (unfold fixed_q; f_equal; f_equal; lra). destruct q as [q0 qa qb qc], d as [da db dc]. unfold xi_mul, xi, crossm, mkqv, vec, addq, scaleq. vunfoldg. cbn [qw qx qy qz fst snd x3 y3 z3]. rnumg. field. Qed.
Lemma err_scale s q z : error_quat z (scaleq s q) = scaleq s (error_quat z q).
Proof. destruct q as [q0 qa qb qc], z as [z0 za zb zc]. unfold error_quat, product, conjugate, scaleq, vec. vunfoldg. cbn [qw qx qy qz x3 y3 z3]. rnumg. f_equal; ring. Qed.
Lemma err_size q z : dotq (error_quat z q) (error_quat z q) = dotq q q * dotq z z.
Proof. destruct q as [q0 qa qb qc], z as [z0 za zb zc]. unfold error_quat, product, conjugate, vec. vunfoldg. cbn [qw qx qy qz x3 y3 z3]. rnumg. ring. Qed.
Lemma err_parts q z : qw (error_quat z q) = dotq q z.
Proof. destruct q as [q0 qa qb qc], z as [z0 za zb zc]. unfold error_quat, product, conjugate, vec. vunfoldg. cbn [qw qx qy qz x3 y3 z3]. rnumg. ring. Qed.
Lemma err_sub q z z' : sub3 (vec (error_quat z q)) (vec (error_quat z' q)) = vec (error_quat (subq z z') q).
Proof. destruct q as [q0 qa qb qc], z as [z0 za zb zc], z' as [y0 ya yb yc]. unfold error_quat, product, conjugate, vec. vunfoldg. cbn [qw qx qy qz x3 y3 z3]. rnumg. f_equal; ring. Qed.
Lemma dotq_parts (q : quat) : dotq q q = qw q * qw q + dot3 (vec q) (vec q).
Proof. destruct q as [q0 qa qb qc]. unfold vec. vunfoldg. cbn [qw qx qy qz x3 y3 z3]. rnumg. ring. Qed.
Lemma vec_le (q : quat) : norm3 (vec q) <= normq q.
Proof. unfold norm3, normq. rnumg. apply sqrt_le_1_alt. rewrite dotq_parts. assert (X := sq0 (qw q)). lra. Qed.
Lemma normq2 (q : quat) : normq q * normq q = dotq q q.
Proof. unfold normq. rnumg. apply sqrt_sqrt. rewrite dotq_parts. assert (X := sq0 (qw q)). assert (Y := dot3_nonneg (vec q)). lra. Qed.
Lemma normq0 (q : quat) : 0 <= normq q. Proof. apply sqrt_pos. Qed.
Lemma norm_prod q z : normq (error_quat z q) = normq q * normq z.
Proof. unfold normq at 1. rnumg. rewrite err_size, <- !normq2. replace (normq q * normq q * (normq z * normq z)) with ((normq q * normq z) * (normq q * normq z)) by ring. apply sqrt_square. apply Rmult_le_pos; apply normq0. Qed.

(** ** the estimate is turned by the bias error *)
Lemma psi_facts w dt : 0 < dt -> let X := scale3 (dt / 2) w in norm3 X <= 1 -> let c := cos (norm3 w * dt * 0.5) in let psi := af_psi w dt in
  dot3 psi psi = 1 - c * c /\ 0 <= 1 - c <= norm3 X * norm3 X / 2 /\ norm3 psi <= norm3 X /\ norm3 (sub3 psi X) <= norm3 X * norm3 X.
Proof.
  intros H X X1 c psi. assert (NX : norm3 X = norm3 w * dt * 0.5) by (unfold X; rewrite nscale, Rabs_pos_eq by lra; lra). unfold c, psi, af_psi. cbv zeta. rewrite <- NX. set (n := norm3 X) in *. assert (N0 : 0 <= n) by apply n3pos. assert (AN : Rabs n <= 1) by (rewrite Rabs_pos_eq; lra). destruct (cos_x n AN) as [C1 C2]. destruct (sin_x n AN) as [S1 S2]. rewrite (Rabs_pos_eq n) in S2 by lra.
  assert (SC := sin2_cos2 n). unfold Rsqr in SC. destruct (Reqb_spec (norm3 w) 0) as [Z|Z]; cbn [negb].
  - assert (NZ : n = 0) by (rewrite NX, Z; lra). assert (XZ : X = zero3) by (apply n_zero_w; exact NZ). rewrite XZ, NZ, cos_0. replace (dot3 (zero3 (T:=R)) zero3) with 0 by vring. replace (sub3 (zero3 (T:=R)) zero3) with (zero3 (T:=R)) by vring. rewrite nzero. repeat split; lra.
  - assert (WP : 0 < norm3 w) by (assert (Q := n3pos w); lra). assert (NP : 0 < n) by (rewrite NX; apply Rmult_lt_0_compat; [apply Rmult_lt_0_compat; assumption|lra]). set (s := sin n) in *. clearbody s.
    assert (EX : scale3 (s / norm3 w) w = scale3 (s / n) X). { unfold X. rewrite scale_scale. f_equal. rewrite NX. replace 0.5 with (/ 2) by lra. field. lra. } rewrite EX.
    split; [|split; [lra|split]].
    + transitivity (s / n * (s / n) * (n * n)); [|transitivity (s * s); [field; lra|lra]]. unfold n. rewrite n3sq. generalize (s / norm3 X). intros k. vring.
    + rewrite nscale. fold n. unfold Rdiv. rewrite Rabs_mult, (Rabs_pos_eq (/ n)) by (left; apply Rinv_0_lt_compat; lra). replace (Rabs s * / n * n) with (Rabs s) by (field; lra). exact S2.
    + replace (sub3 (scale3 (s / n) X) X) with (scale3 ((s - n) * / n) X). 2:{ transitivity (scale3 (s / n - 1) X); [f_equal; field; lra|]. generalize (s / n). intros k. vring. } rewrite nscale. fold n. rewrite Rabs_mult, (Rabs_pos_eq (/ n)) by (left; apply Rinv_0_lt_compat; lra). replace (Rabs (s - n) * / n * n) with (Rabs (s - n)) by (field; lra). exact S1.
Qed.
Lemma unit_parts (q : quat) : dotq q q = 1 -> norm3 (vec q) <= 1 /\ Rabs (qw q) <= 1.
Proof.
  intros U. rewrite dotq_parts in U. assert (A := sq0 (qw q)). assert (B := dot3_nonneg (vec q)). split; [|apply Rabs_le; split; nra]. rewrite <- sqrt_1. unfold norm3. rnumg. apply sqrt_le_1_alt. lra.
Qed.
Lemma v_split c e0 (U psi T X : v3) : sub3 (add3 (sub3 (sub3 (scale3 c U) (scale3 e0 psi)) (cross3 psi U)) (scale3 (1 - c) T)) (sub3 U X) = add3 (add3 (scale3 (- (1 - c)) U) (scale3 (1 - e0) psi)) (add3 (scale3 (1 - c) T) (scale3 (-1) (add3 (sub3 psi X) (cross3 psi U)))).
Proof. vring. Qed.
Lemma v_chain (a b c : v3) : sub3 a c = add3 (sub3 a b) (sub3 b c). Proof. vring. Qed.
Lemma v_back (a b : v3) : a = add3 (sub3 a b) b. Proof. vring. Qed.
Lemma v_scal k t (B c : v3) : sub3 (scale3 k B) (scale3 t c) = add3 (scale3 (k - 1) B) (sub3 B (scale3 t c)). Proof. vring. Qed.
Lemma v_dot k (q : quat) : dotq (scaleq k q) (scaleq k q) = k * k * dotq q q. Proof. vring. Qed.
Lemma v_fix a0 k1 (av del U X Y : v3) : sub3 (sub3 (sub3 av (scale3 (a0 / 2) del)) (scale3 (/ 2) (cross3 del av))) (scale3 (1 - k1 / 2) (sub3 U X)) =
  add3 (add3 (sub3 av (sub3 U X)) (scale3 (- ((a0 - 1) / 2)) del)) (scale3 (- / 2) (add3 (add3 (sub3 del (scale3 k1 Y)) (scale3 k1 (sub3 Y (sub3 U X)))) (cross3 del av))).
Proof. destruct av as [aa ab ac], del as [da db dc], U as [ua ub uc], X as [xa xb xc], Y as [ya yb yc]. vunfoldg. cbn [x3 y3 z3]. rnumg. f_equal; field. Qed.
Lemma v_conj (q : quat) : mkqv 0 (opp3 (vec q)) = conjugate (mkqv 0 (vec q)).
Proof. destruct q as [q0 qa qb qc]; unfold conjugate, mkqv, vec; vunfoldg; cbn [qw qx qy qz x3 y3 z3]; rnumg; f_equal; ring. Qed.
Lemma v_norm (q : quat) : normq (mkqv 0 (vec q)) = norm3 (vec q).
Proof. unfold normq, norm3. f_equal. destruct q as [q0 qa qb qc]. unfold mkqv, vec. vunfoldg. cbn [qw qx qy qz x3 y3 z3]. rnumg. ring. Qed.
Section Cycle.
Context (q qs z : quat) (psi X : v3) (c d : R).
Context (Uq : dotq q q = 1) (Us : dotq qs qs = 1) (E0 : 0 <= qw (error_quat qs q)).
Context (Hpsi : dot3 psi psi = 1 - c * c) (Hc : 0 <= 1 - c <= norm3 X * norm3 X / 2) (Hp : norm3 psi <= norm3 X) (HpX : norm3 (sub3 psi X) <= norm3 X * norm3 X).
Context (D0 : 0 <= d) (Hz : normq (subq z qs) <= d).
Local Notation u := (vec (error_quat qs q)).
Local Notation W := (norm3 u + norm3 X + d).
Context (HW : W <= 1 / 8).
Local Notation q1 := (moved_q c psi q).
Local Notation a := (error_quat qs q1).
Local Notation y := (vec (error_quat z q1)).
Lemma cyc_prop : norm3 (sub3 (vec a) (sub3 u X)) <= 2 * (W * W) /\ Rabs (qw a - 1) <= 2 * (W * W) /\ Rabs (dotq q1 q1 - 1) <= 2 * (W * W).
Proof.
  assert (EU : qw (error_quat qs q) * qw (error_quat qs q) + dot3 u u = 1) by (rewrite <- dotq_parts, err_size, Uq, Us; ring). destruct (moved_err c psi q qs) as [MV MW]. cbv zeta in MV, MW. rewrite MV, MW. rewrite (moved_size c psi q Uq Hpsi).
  destruct (unit_parts q Uq) as [Q1 Q2]. destruct (unit_parts qs Us) as [R1 R2]. set (T := vec (product (mkqv 0 (opp3 (vec q))) qs)). assert (TB : norm3 T <= 1).
  { unfold T. eapply Rle_trans; [apply vec_le|]. rewrite v_conj. fold (error_quat qs (mkqv 0 (vec q))). rewrite norm_prod. assert (NS : normq qs = 1) by (unfold normq; rnumg; rewrite Us; apply sqrt_1). rewrite NS.
    rewrite v_norm. lra. }
  clearbody T. clear MV MW R2. set (e0 := qw (error_quat qs q)) in *. set (U := u) in *. clearbody e0 U. assert (U0 := n3pos U). assert (X0 := n3pos X). assert (P0 := n3pos psi). rewrite <- n3sq in EU. set (nu := norm3 U) in *. set (nx := norm3 X) in *. set (WW := nu + nx + d) in *.
  assert (NU2 : 0 <= nu * nu) by apply sq0. assert (NX2 : 0 <= nx * nx) by apply sq0. assert (NUX : 0 <= nu * nx) by (apply Rmult_le_pos; assumption). assert (NUD : 0 <= nu * d) by (apply Rmult_le_pos; assumption). assert (NXD : 0 <= nx * d) by (apply Rmult_le_pos; assumption). assert (DD2 : 0 <= d * d) by apply sq0.
  assert (EW : WW * WW = nu * nu + nx * nx + 2 * (nu * nx) + 2 * (nu * d) + 2 * (nx * d) + d * d) by (unfold WW; ring). assert (W18 : nu <= 1 / 8 /\ nx <= 1 / 8) by (unfold WW in HW; lra).
  assert (E1 : 0 <= 1 - e0 <= nu * nu). { assert (e0 <= 1) by nra. split; [lra|]. assert (0 <= e0 * (1 - e0)) by (apply Rmult_le_pos; lra). lra. }
  assert (X3 : nx * nx / 2 * nu <= nx * nx / 16). { assert (nx * nx / 2 * nu <= nx * nx / 2 * (1 / 8)) by (apply Rmult_le_compat_l; lra). lra. } assert (X4 : nu * nu * nx <= nu * nu / 8). { assert (nu * nu * nx <= nu * nu * (1 / 8)) by (apply Rmult_le_compat_l; lra). lra. }
  split; [|split].
  - rewrite v_split.
    eapply Rle_trans; [apply nadd|]. assert (A1 := nadd (scale3 (- (1 - c)) U) (scale3 (1 - e0) psi)). assert (A2 := nadd (scale3 (1 - c) T) (scale3 (-1) (add3 (sub3 psi X) (cross3 psi U)))). assert (A3 := nadd (sub3 psi X) (cross3 psi U)). assert (A4 := ncross psi U). rewrite !nscale, ?Rabs_Ropp in A1. rewrite !nscale in A2. rewrite (Rabs_pos_eq (1 - c)) in A1, A2 by lra. rewrite (Rabs_pos_eq (1 - e0)) in A1 by lra. replace (Rabs (-1)) with 1 in A2 by (rewrite Rabs_left; lra). fold nu in A1, A4.
    assert (B1 : (1 - c) * nu <= nx * nx / 2 * nu) by (apply Rmult_le_compat_r; lra). assert (B2 : (1 - e0) * norm3 psi <= nu * nu * nx) by (apply Rmult_le_compat; lra). assert (B3 : (1 - c) * norm3 T <= nx * nx / 2 * 1) by (apply Rmult_le_compat; try lra; apply n3pos). assert (B4 : norm3 psi * nu <= nx * nu) by (apply Rmult_le_compat_r; assumption). lra.
  - assert (A1 := ndot psi U). fold nu in A1. assert (B4 : norm3 psi * nu <= nx * nu) by (apply Rmult_le_compat_r; assumption). assert (A2 := ndot (vec q) (vec qs)). assert (B5 : norm3 (vec q) * norm3 (vec qs) <= 1 * 1) by (apply Rmult_le_compat; try assumption; apply n3pos). set (k := dot3 (vec q) (vec qs)) in *. assert (KA : -1 <= k <= 1) by (revert A2; unfold Rabs; destruct (Rcase_abs k); intros; lra). set (m := dot3 psi U) in *. assert (MA : - (nx * nu) <= m <= nx * nu) by (revert A1; unfold Rabs; destruct (Rcase_abs m); intros; lra).
    assert (K1 : (1 - c) * k <= (1 - c) * 1) by (apply Rmult_le_compat_l; lra). assert (K2 : (1 - c) * -1 <= (1 - c) * k) by (apply Rmult_le_compat_l; lra). assert (CE : 0 <= (1 - c) * (1 - e0)) by (apply Rmult_le_pos; lra). assert (CE2 : (1 - c) * e0 <= (1 - c) * 1) by (apply Rmult_le_compat_l; lra). assert (CE3 : 0 <= (1 - c) * e0) by (apply Rmult_le_pos; lra).
    apply Rabs_le. split; lra.
  - assert (A1 := ndot psi (vec q)). set (m := dot3 psi (vec q)) in *. assert (B4 : norm3 psi * norm3 (vec q) <= nx * 1) by (apply Rmult_le_compat; try assumption; apply n3pos). assert (QM : Rabs (qw q * m) <= 1 * nx) by (rewrite Rabs_mult; apply Rmult_le_compat; try apply Rabs_pos; lra). set (k := qw q * m) in *. assert (KA : - nx <= k <= nx) by (revert QM; unfold Rabs; destruct (Rcase_abs k); intros; lra). assert (V0 := dot3_nonneg (vec q)). assert (V1 : dot3 (vec q) (vec q) <= 1). { rewrite dotq_parts in Uq. assert (Q := sq0 (qw q)). lra. }
    assert (CK : (1 - c) * k <= (1 - c) * nx) by (apply Rmult_le_compat_l; lra). assert (CK2 : (1 - c) * - nx <= (1 - c) * k) by (apply Rmult_le_compat_l; lra). assert (CN : (1 - c) * nx <= (1 - c) * (1 / 8)) by (apply Rmult_le_compat_l; lra). assert (C2 : (1 - c) * (1 - c) >= 0) by (apply Rle_ge, sq0). assert (CC : 0 <= 1 - c * c <= 2 * (1 - c)). { split; [|lra]. rewrite <- Hpsi. apply dot3_nonneg. } set (v := dot3 (vec q) (vec q)) in *. assert (VV : 0 <= (1 - c * c) * v <= (1 - c * c) * 1) by (split; [apply Rmult_le_pos; lra|apply Rmult_le_compat_l; lra]).
    apply Rabs_le. split; lra.
Qed.
Lemma cyc_y : norm3 (sub3 y (sub3 u X)) <= 2 * (W * W) + 2 * d /\ norm3 (sub3 y (vec a)) <= 2 * d /\ norm3 y <= 4 * W /\ norm3 (vec a) <= 2 * W.
Proof.
  destruct cyc_prop as (A & _ & G). rewrite err_sub. assert (ND : norm3 (vec (error_quat (subq z qs) q1)) <= 2 * d).
  { eapply Rle_trans; [apply vec_le|]. rewrite norm_prod. apply Rmult_le_compat; try apply normq0; [|exact Hz]. rewrite <- (sqrt_square 2) by lra. unfold normq. rnumg. apply sqrt_le_1_alt. assert (W0 : 0 <= W) by (assert (X1 := n3pos u); assert (X2 := n3pos X); lra). assert (W * W <= 1 / 8 * (1 / 8)) by (apply Rmult_le_compat; lra). revert G. unfold Rabs. destruct (Rcase_abs (dotq q1 q1 - 1)); intros; lra. }
  assert (X1 := n3pos u). assert (X2 := n3pos X). set (WW := W) in *. assert (W0 : 0 <= WW) by (unfold WW; lra). assert (W2 : WW * WW <= 1 / 8 * WW) by (apply Rmult_le_compat_r; lra).
  assert (Y1 : norm3 (sub3 y (sub3 u X)) <= 2 * (WW * WW) + 2 * d). { rewrite (v_chain y (vec a) (sub3 u X)). eapply Rle_trans; [apply nadd|]. rewrite err_sub. lra. }
  split; [exact Y1|]. split; [exact ND|]. assert (S1 := nsub u X). split.
  - rewrite (v_back y (sub3 u X)). eapply Rle_trans; [apply nadd|]. unfold WW in *. lra.
  - rewrite (v_back (vec a) (sub3 u X)). eapply Rle_trans; [apply nadd|]. unfold WW in *. lra.
Qed.
Lemma cyc_fix (k1 sE : R) (del : v3) : 0 <= k1 <= 1 -> 0 <= sE <= 1 -> norm3 (sub3 del (scale3 k1 y)) <= sE * norm3 y ->
  let q' := normalizeq (fixed_q q1 del) in dotq q' q' = 1 /\ 0 <= qw (error_quat qs q') /\ norm3 (sub3 (vec (error_quat qs q')) (scale3 (1 - k1 / 2) (sub3 u X))) <= 60 * (W * W) + sE * norm3 y + d.
Proof.
  intros K1 SE HD q'. destruct cyc_prop as (A1 & A2 & A3). destruct cyc_y as (Y1 & Y2 & Y3 & Y4). destruct (fixed_err q1 del qs) as [F1 F2]. cbv zeta in F1, F2. assert (FS := fixed_size q1 del). assert (X1 := n3pos u). assert (X2 := n3pos X). assert (NP := err_scale (/ normq (fixed_q q1 del)) (fixed_q q1 del) qs).
  assert (ND : norm3 del <= 8 * W). { rewrite (v_back del (scale3 k1 y)). eapply Rle_trans; [apply nadd|]. rewrite nscale, Rabs_pos_eq by lra. assert (N := n3pos y). assert (sE * norm3 y <= 1 * norm3 y) by (apply Rmult_le_compat_r; lra). assert (k1 * norm3 y <= 1 * norm3 y) by (apply Rmult_le_compat_r; lra). lra. }
  set (qn := fixed_q q1 del) in *. set (G := dotq q1 q1) in *. set (Y := y) in *. set (a0 := qw a) in *. set (av := vec a) in *. set (U := u) in *. set (WW := norm3 U + norm3 X + d) in *. clearbody G Y a0 av U. assert (W0 : 0 <= WW) by (unfold WW; lra). assert (W2 : WW * WW <= 1 / 8 * WW) by (apply Rmult_le_compat_r; lra). assert (W3 : 0 <= WW * WW) by apply sq0.
  assert (DD : 0 <= dot3 del del <= 64 * (WW * WW)). { split; [apply dot3_nonneg|]. rewrite <- n3sq. assert (N := n3pos del). replace (64 * (WW * WW)) with (8 * WW * (8 * WW)) by ring. apply Rmult_le_compat; lra. }
  assert (GB : 1 - 2 * (WW * WW) <= G <= 1 + 2 * (WW * WW)) by (revert A3; unfold Rabs; destruct (Rcase_abs (G - 1)); intros; lra). assert (MB : 1 - 2 * (WW * WW) <= dotq qn qn <= 1 + 20 * (WW * WW)).
  { rewrite FS. set (t := dot3 del del / 4). assert (T : 0 <= t <= 16 * (WW * WW)) by (unfold t; lra). assert (0 <= G * t) by (apply Rmult_le_pos; lra). assert (G * t <= (1 + 1 / 8) * (16 * (WW * WW))) by (apply Rmult_le_compat; lra). lra. }
  set (m := normq qn) in *. assert (M0 : 0 <= m) by apply normq0. assert (MM : m * m = dotq qn qn) by apply normq2. rewrite <- MM in MB. assert (MP : 1 / 2 < m) by nra. assert (MD : Rabs (m - 1) <= 20 * (WW * WW)) by (apply Rabs_le; split; nra).
  assert (NZ : qn <> zeroq). { intros Z. assert (ZZ : m = 0) by (apply normq_zero, Z). lra. } assert (Q' : q' = scaleq (/ m) qn) by (apply normalizeq_nz, NZ). assert (IM : 0 < / m < 2). { split; [apply Rinv_0_lt_compat; lra|]. apply Rmult_lt_reg_l with m; [lra|]. rewrite Rinv_r by lra. lra. }
  assert (EQ : error_quat qs q' = scaleq (/ m) (error_quat qs qn)) by (rewrite Q'; exact NP). set (B := sub3 (sub3 av (scale3 (a0 / 2) del)) (scale3 (/ 2) (cross3 del av))) in *.
  assert (AB : 1 - 2 * (WW * WW) <= a0 <= 1 + 2 * (WW * WW)) by (revert A2; unfold Rabs; destruct (Rcase_abs (a0 - 1)); intros; lra).
  split; [|split].
  - rewrite Q'. rewrite v_dot. rewrite <- MM. field. lra.
  - rewrite EQ. replace (qw (scaleq (/ m) (error_quat qs qn))) with (/ m * qw (error_quat qs qn)) by reflexivity. rewrite F2. apply Rmult_le_pos; [lra|]. assert (X3 := ndot del av). assert (norm3 del * norm3 av <= 8 * WW * (2 * WW)) by (apply Rmult_le_compat; try apply n3pos; lra). revert X3. unfold Rabs. destruct (Rcase_abs (dot3 del av)); intros; lra.
  - rewrite EQ. replace (vec (scaleq (/ m) (error_quat qs qn))) with (scale3 (/ m) (vec (error_quat qs qn))) by reflexivity. rewrite F1. fold B.
    assert (CB : norm3 (cross3 del av) <= 16 * (WW * WW)). { eapply Rle_trans; [apply ncross|]. apply Rle_trans with (8 * WW * (2 * WW)); [apply Rmult_le_compat; try apply n3pos; lra|lra]. }
    assert (AD : norm3 (scale3 (a0 / 2) del) <= 5 * WW). { rewrite nscale, Rabs_pos_eq by lra. apply Rle_trans with (5 / 8 * (8 * WW)); [apply Rmult_le_compat; try apply n3pos; lra|lra]. }
    assert (NB : norm3 B <= 8 * WW). { unfold B. eapply Rle_trans; [apply nsub|]. assert (Z := nsub av (scale3 (a0 / 2) del)). rewrite (nscale (/ 2)), (Rabs_pos_eq (/ 2)) by lra. lra. }
    rewrite v_scal. eapply Rle_trans; [apply nadd|].
    assert (P1 : norm3 (scale3 (/ m - 1) B) <= 40 * (WW * WW)). { rewrite nscale. replace (/ m - 1) with (- ((m - 1) * / m)) by (field; lra). rewrite Rabs_Ropp, Rabs_mult, (Rabs_pos_eq (/ m)) by lra. assert (N := n3pos B). assert (Rabs (m - 1) * / m <= 20 * (WW * WW) * 2) by (apply Rmult_le_compat; try apply Rabs_pos; lra). apply Rle_trans with (20 * (WW * WW) * 2 * 1); [apply Rmult_le_compat; try lra; apply Rmult_le_pos; [apply Rabs_pos|lra]|lra]. }
    assert (P2 : norm3 (sub3 B (scale3 (1 - k1 / 2) (sub3 U X))) <= 20 * (WW * WW) + sE * norm3 Y + d).
    { unfold B. rewrite (v_fix a0 k1 av del U X Y).
      eapply Rle_trans; [apply nadd|]. rewrite (nscale (- / 2)), Rabs_Ropp, (Rabs_pos_eq (/ 2)) by lra. assert (Z1 := nadd (sub3 av (sub3 U X)) (scale3 (- ((a0 - 1) / 2)) del)). assert (Z2 := nadd (add3 (sub3 del (scale3 k1 Y)) (scale3 k1 (sub3 Y (sub3 U X)))) (cross3 del av)). assert (Z3 := nadd (sub3 del (scale3 k1 Y)) (scale3 k1 (sub3 Y (sub3 U X)))). rewrite (nscale k1), (Rabs_pos_eq k1) in Z3 by lra. rewrite nscale, Rabs_Ropp in Z1.
      assert (Z4 : Rabs ((a0 - 1) / 2) * norm3 del <= WW * WW * 1). { unfold Rdiv. rewrite Rabs_mult, (Rabs_pos_eq (/ 2)) by lra. apply Rmult_le_compat; try apply n3pos; try lra. apply Rmult_le_pos; [apply Rabs_pos|lra]. }
      assert (Z5 : 0 <= sE * norm3 Y) by (apply Rmult_le_pos; [lra|apply n3pos]). assert (Z6 : k1 * norm3 (sub3 Y (sub3 U X)) <= 1 * (2 * (WW * WW) + 2 * d)) by (apply Rmult_le_compat; try apply n3pos; lra). lra. }
    lra.
Qed.
End Cycle.
