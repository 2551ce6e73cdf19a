(** * Lemmas: the sampled design with integrators, and its modes *)
From Coq Require Import Reals List Bool Lra Psatz Lia Classical.
From Verif Require Import Num Vec Mat6 M_struct M_sim M_lqr M_lqi S_rot S_obs S_lqr S_lqi P_quat P_wheel P_obs P_lqr P_lqr2 P_dare P_lqi P_lqi2.
Local Open Scope R_scope.

(** ** the exponential series *)
Definition aug_A : M9 := mkE lqr_A zero63 (scalem36 (-1) lqi_C) zerom.
Definition aug_B (Jinv : m3) : M93 := mkF (lqr_B Jinv) zerom.
Lemma aug_A_mv x : mv9 aug_A x = mk9 (mk6 (scale3 (1 / 2) (u2 (v6 x))) zero3) (opp3 (u1 (v6 x))).
Proof.
  destruct x as [[e w] z]. unfold aug_A. unf9. rewrite lqr_A_mv, mv_zero63, add6_0_r, mv_zerom, add3_0_r, mv_scalem36. cbn [u1 u2]. f_equal.
  unfold lqi_C, mv36. cbn [k1 k2 u1 u2]. rewrite mv_id3, mv_zerom, add3_0_r. vring.
Qed.
Lemma aug_A_2 x : mv9 aug_A (mv9 aug_A x) = mk9 zero6 (opp3 (scale3 (1 / 2) (u2 (v6 x)))).
Proof. rewrite !aug_A_mv. cbn [v6 u1 u2]. rewrite scale3_zero. reflexivity. Qed.
Lemma aug_A_3 x : mv9 aug_A (mv9 aug_A (mv9 aug_A x)) = zero9.
Proof. rewrite aug_A_2, aug_A_mv. cbn [v6 u1 u2]. replace (opp3 (scale3 (1 / 2) zero3)) with (zero3 : v3) by vring. reflexivity. Qed.
Lemma pow9_A n x : (3 <= n)%nat -> mv9 (pow9 aug_A n) x = zero9.
Proof. intros H. destruct n as [|[|[|n]]]; [lia|lia|lia|]. cbn [pow9]. rewrite !mv9_mm, aug_A_3. apply mv9_zero. Qed.
Lemma expm9_A_mv Ts n x : (2 <= n)%nat -> mv9 (expm9_A aug_A Ts n) x = add9 (add9 x (scale9 Ts (mv9 aug_A x))) (scale9 (Ts ^ 2 / 2) (mv9 aug_A (mv9 aug_A x))).
Proof.
  intros H. induction n as [|n IH]; [lia|]. destruct n as [|[|n]]; [lia| |].
  - cbn [expm9_A]. rewrite !mv9_addm, !mv9_scalem, mv9_id. cbn [pow9]. rewrite !mv9_mm, !mv9_id. cbn [fact]. replace (Ts ^ 1 / INR (1 * 1)) with Ts by (cbn; field). replace (Ts ^ 2 / INR (2 * (1 * 1))) with (Ts ^ 2 / 2) by (cbn; field). reflexivity.
  - change (expm9_A aug_A Ts (S (S (S n)))) with (addm9 (expm9_A aug_A Ts (S (S n))) (scalem9 (Ts ^ (S (S (S n))) / INR (fact (S (S (S n))))) (pow9 aug_A (S (S (S n)))))).
    rewrite mv9_addm, mv9_scalem, pow9_A, scale9_zero, add9_0_r by lia. apply IH. lia.
Qed.
Lemma expm9_B_mv B Ts n u : (3 <= n)%nat -> mv93 (expm9_B aug_A B Ts n) u =
  add9 (add9 (scale9 Ts (mv93 B u)) (scale9 (Ts ^ 2 / 2) (mv9 aug_A (mv93 B u)))) (scale9 (Ts ^ 3 / 6) (mv9 aug_A (mv9 aug_A (mv93 B u)))).
Proof.
  intros H. induction n as [|n IH]; [lia|]. destruct n as [|[|[|n]]]; [lia|lia| |].
  - cbn [expm9_B]. rewrite !mv_addm93, !mv_scalem93, !mv_9_93. cbn [pow9]. rewrite !mv9_mm, !mv9_id. cbn [fact].
    assert (Z : mv93 (mkF zero63 zerom) u = zero9) by (unf9; rewrite mv_zero63, mv_zerom; reflexivity). rewrite Z, add9_0_l.
    replace (Ts ^ 1 / INR (1 * 1)) with Ts by (cbn; field). replace (Ts ^ 2 / INR (2 * (1 * 1))) with (Ts ^ 2 / 2) by (cbn; field). replace (Ts ^ 3 / INR (3 * (2 * (1 * 1)))) with (Ts ^ 3 / 6) by (cbn; field). reflexivity.
  - change (expm9_B aug_A B Ts (S (S (S (S n))))) with (addm93 (expm9_B aug_A B Ts (S (S (S n)))) (scalem93 (Ts ^ (S (S (S (S n)))) / INR (fact (S (S (S (S n)))))) (mm_9_93 (pow9 aug_A (S (S (S n)))) B))).
    rewrite mv_addm93, mv_scalem93, mv_9_93, pow9_A, scale9_zero, add9_0_r by lia. apply IH. lia.
Qed.
Lemma held_A_mv s Ts x : mv9 (held_A s Ts) x =
  mk9 (mk6 (add3 (u1 (v6 x)) (scale3 (s * (Ts / 2)) (u2 (v6 x)))) (u2 (v6 x))) (sub3 (sub3 (vz x) (scale3 Ts (u1 (v6 x)))) (scale3 (s * (Ts ^ 2 / 4)) (u2 (v6 x)))).
Proof.
  destruct x as [[[e1 e2 e3] [w1 w2 w3]] [z1 z2 z3']]. unfold held_A, zero63. unf9. unf6. unf63. f_equal; [f_equal|]; vunfoldg; rnumg; apply mk3_c; ring.
Qed.
Lemma held_B_mv s Ts Ji u : mv93 (held_B s Ts Ji) u = mk9 (mk6 (scale3 (s * (Ts ^ 2 / 4)) (mv Ji u)) (scale3 Ts (mv Ji u))) (scale3 (- (s * (Ts ^ 3 / 12))) (mv Ji u)).
Proof. unfold held_B. unf9. unf63. rewrite !mv_scalem. reflexivity. Qed.
Lemma expm9_A_eq Ts n : (2 <= n)%nat -> expm9_A aug_A Ts n = held_A 1 Ts.
Proof.
  intros Hn. apply m9_ext. intros x. rewrite expm9_A_mv by exact Hn. rewrite aug_A_2, aug_A_mv, held_A_mv. destruct x as [[[e1 e2 e3] [w1 w2 w3]] [z1 z2 z3']]. cbn [v6 vz u1 u2]. unf9. unf6.
  f_equal; [f_equal|]; vunfoldg; rnumg; apply mk3_c; field.
Qed.
Lemma expm9_B_eq Ts n Ji : (3 <= n)%nat -> expm9_B aug_A (aug_B Ji) Ts n = held_B 1 Ts Ji.
Proof.
  intros Hn. apply m93_ext. intros u. rewrite expm9_B_mv by exact Hn. rewrite aug_A_2, aug_A_mv, held_B_mv. unfold aug_B, lqr_B. unf9. unf63. rewrite mv_zerom. generalize (mv Ji u). intros [g1 g2 g3]. unf6.
  f_equal; [f_equal|]; vunfoldg; rnumg; apply mk3_c; field.
Qed.
(** ** the exact flow *)
Lemma integrate_quad f a b c : (forall t, derivable_pt_lim f t (a + b * t + c * t ^ 2)) -> forall t, f t = f 0 + a * t + b * t ^ 2 / 2 + c * t ^ 3 / 3.
Proof.
  intros H t. assert (D3 : forall t, derivable_pt_lim (fun t => c * t ^ 3 / 3) t (c * t ^ 2)).
  { intros r. assert (X := derivable_pt_lim_scal (fun t => t ^ 3) (c / 3) r (3 * r ^ 2)). unfold mult_real_fct in X.
    assert (E : derivable_pt_lim (fun x => c / 3 * x ^ 3) r (c / 3 * (3 * r ^ 2))). { apply X. replace (3 * r ^ 2) with (INR 3 * r ^ pred 3) by (cbn; ring). apply derivable_pt_lim_pow. }
    replace (c * r ^ 2) with (c / 3 * (3 * r ^ 2)) by field. intros e He. destruct (E e He) as (d & Hd). exists d. intros h Hh Hl. specialize (Hd h Hh Hl).
    replace (c * (r + h) ^ 3 / 3 - c * r ^ 3 / 3) with (c / 3 * (r + h) ^ 3 - c / 3 * r ^ 3) by field. exact Hd. }
  assert (A := integrate_affine (fun t => f t - c * t ^ 3 / 3) a b).
  assert (D : forall t, derivable_pt_lim (fun t => f t - c * t ^ 3 / 3) t (a + b * t)).
  { intros r. replace (a + b * r) with (a + b * r + c * r ^ 2 - c * r ^ 2) by ring. apply (derivable_pt_lim_minus f (fun t => c * t ^ 3 / 3)); [apply H|apply D3]. }
  specialize (A D t). cbv beta in A. lra.
Qed.
Lemma flow_scalar s a (e w z : R -> R) : (forall t, derivable_pt_lim w t a) -> (forall t, derivable_pt_lim e t (s / 2 * w t)) -> (forall t, derivable_pt_lim z t (- e t)) ->
  forall t, w t = w 0 + a * t /\ e t = e 0 + s * (t / 2) * w 0 + s * (t ^ 2 / 4) * a /\ z t = z 0 - t * e 0 - s * (t ^ 2 / 4) * w 0 - s * (t ^ 3 / 12) * a.
Proof.
  intros Hw He Hz. assert (Ew := integrate_const w a Hw).
  assert (Ee : forall t, e t = e 0 + s / 2 * w 0 * t + s / 2 * a * t ^ 2 / 2).
  { apply integrate_affine. intros t. replace (s / 2 * w 0 + s / 2 * a * t) with (s / 2 * w t) by (rewrite Ew; ring). apply He. }
  assert (Ez : forall t, z t = z 0 + - e 0 * t + - (s / 2 * w 0) * t ^ 2 / 2 + - (s / 4 * a) * t ^ 3 / 3).
  { apply integrate_quad. intros t. replace (- e 0 + - (s / 2 * w 0) * t + - (s / 4 * a) * t ^ 2) with (- e t) by (rewrite Ee; field). apply Hz. }
  intros t. split; [apply Ew|]. split; [rewrite Ee; field|rewrite Ez; field].
Qed.
Lemma flow9 s Jinv u (e w z : R -> v3) : (forall t, deriv3 e t (scale3 (s / 2) (w t))) -> (forall t, deriv3 w t (mv Jinv u)) -> (forall t, deriv3 z t (opp3 (e t))) ->
  forall t, mk9 (mk6 (e t) (w t)) (z t) = add9 (mv9 (held_A s t) (mk9 (mk6 (e 0) (w 0)) (z 0))) (mv93 (held_B s t Jinv) u).
Proof.
  intros He Hw Hz t. rewrite held_A_mv, held_B_mv. cbn [v6 vz u1 u2]. set (a := mv Jinv u) in *. clearbody a.
  destruct (flow_scalar s (x3 a) (fun t => x3 (e t)) (fun t => x3 (w t)) (fun t => x3 (z t)) (fun t => proj1 (Hw t)) (fun t => proj1 (He t)) (fun t => proj1 (Hz t)) t) as (A1 & A2 & A3).
  destruct (flow_scalar s (y3 a) (fun t => y3 (e t)) (fun t => y3 (w t)) (fun t => y3 (z t)) (fun t => proj1 (proj2 (Hw t))) (fun t => proj1 (proj2 (He t))) (fun t => proj1 (proj2 (Hz t))) t) as (B1 & B2 & B3).
  destruct (flow_scalar s (z3 a) (fun t => z3 (e t)) (fun t => z3 (w t)) (fun t => z3 (z t)) (fun t => proj2 (proj2 (Hw t))) (fun t => proj2 (proj2 (He t))) (fun t => proj2 (proj2 (Hz t))) t) as (C1 & C2 & C3).
  destruct (e t) as [e1 e2 e3], (w t) as [w1 w2 w3], (z t) as [z1 z2 z3'], (e 0) as [p1 p2 p3], (w 0) as [r1 r2' r3], (z 0) as [t1 t2 t3], a as [a1 a2 a3]. cbn [x3 y3 z3] in *. subst.
  unf9. unf6. f_equal; [f_equal|]; vunfoldg; rnumg; apply mk3_c; field.
Qed.
(** ** at rest in three steps *)
Lemma three_steps J Ts x : det3 J <> 0 -> Ts <> 0 -> let A := held_A 1 Ts in let B := held_B 1 Ts (inv3 J) in
  exists a b c, add9 (mv9 A (add9 (mv9 A (add9 (mv9 A x) (mv93 B a))) (mv93 B b))) (mv93 B c) = zero9.
Proof.
  intros DJ HT A B. destruct x as [[e w] z]. destruct (mm_inv3 J DJ) as [_ I].
  assert (E : forall v, mv (inv3 J) (mv J v) = v) by (intros v; rewrite <- mv_mm, I; apply mv_id3).
  set (f := fun k l m => add3 (scale3 (k / Ts ^ 2) e) (add3 (scale3 (l / Ts) w) (scale3 (m / Ts ^ 3) z))).
  exists (mv J (f (-4) (- (11 / 6)) 2)), (mv J (f 6 (7 / 6) (-4))), (mv J (f (-2) (- (1 / 3)) 2)).
  unfold A, B. rewrite !held_A_mv, !held_B_mv, !E. unfold f. clear - HT. destruct e as [e1 e2 e3], w as [w1 w2 w3], z as [z1 z2 z3']. unf9. unf6.
  f_equal; [f_equal|]; vunfoldg; rnumg; apply mk3_c; field; exact HT.
Qed.
(** ** modes *)
Definition one_step9 (A : M9) (B : M93) (K : M39) (x : V9) : V9 := add9 (mv9 A x) (mv93 B (opp3 (mv39 K x))).
Lemma scale9_add k a b : scale9 k (add9 a b) = add9 (scale9 k a) (scale9 k b).
Proof. destruct a as [a1 a2], b as [d1 d2]. unf9. rewrite scale6_add. f_equal. vring. Qed.
Lemma one_step9_scale A B K k x : one_step9 A B K (scale9 k x) = scale9 k (one_step9 A B K x).
Proof.
  unfold one_step9. rewrite mv9_scale, mv39_scale. replace (opp3 (scale3 k (mv39 K x))) with (scale3 k (opp3 (mv39 K x))) by (generalize (mv39 K x); vring). rewrite mv93_scale, scale9_add. reflexivity.
Qed.
Lemma scale9_1 x : scale9 1 x = x. Proof. destruct x as [[[? ? ?] [? ? ?]] [? ? ?]]. unf9. unf6. f_equal; [f_equal|]; vring. Qed.
Lemma mode_run9 A B K l x : one_step9 A B K x = scale9 l x -> forall n, looped9 A B K x n = scale9 (l ^ n) x.
Proof.
  intros H n. induction n as [|n IH]; [cbn [looped9 pow]; rewrite scale9_1; reflexivity|].
  cbn [looped9]. cbv zeta. rewrite IH. change (one_step9 A B K (scale9 (l ^ n) x) = scale9 (l ^ S n) x). rewrite one_step9_scale, H, scale9_scale9. f_equal. cbn [pow]. ring.
Qed.
Lemma no_mode9 A B K l x : dies_out9 (looped9 A B K) -> 1 <= l -> x <> zero9 -> one_step9 A B K x = scale9 l x -> False.
Proof.
  intros D L N H. assert (P := dot9_pos x N). destruct (D x (dot9 x x) P) as (n & Hn). specialize (Hn n (Nat.le_refl n)).
  rewrite (mode_run9 A B K l x H), scale9_dot in Hn. unfold R_dist in Hn. rewrite Rminus_0_r in Hn.
  assert (Q : 1 <= l ^ n) by (apply pow_R1_Rle; exact L). assert (1 <= (l ^ n) ^ 2) by nra. rewrite Rabs_right in Hn by nra. nra.
Qed.
(** the modes of the loop: the multiplier is 1 + mu *)
Definition pencil9 (J Kq Kw Kz : m3) (Ts s mu : R) : m3 :=
  addm (addm (scalem (mu ^ 3) J) (scalem (Ts * mu ^ 2) Kw)) (addm (scalem (s * (Ts ^ 2 / 4) * (mu * (mu + 2))) Kq) (scalem (- (s * (Ts ^ 3 / 12)) * (mu ^ 2 + 6 * mu + 6)) Kz)).
Definition lcnp9 (J Kq Kw Kz : m3) (Ts s sg : R) : m3 :=
  addm (addm J (scalem (Ts * sg) Kw)) (addm (scalem (s * (Ts ^ 2 / 4) * (sg + 2 * sg ^ 2)) Kq) (scalem (- (s * (Ts ^ 3 / 12)) * (sg + 6 * sg ^ 2 + 6 * sg ^ 3)) Kz)).
Lemma comb4_cont (J K Q Z : m3) (a b c d : R -> R) : continuity a -> continuity b -> continuity c -> continuity d ->
  continuity (fun t => det3 (addm (addm (scalem (a t) J) (scalem (b t) K)) (addm (scalem (c t) Q) (scalem (d t) Z)))).
Proof.
  intros CA CB CC CD. destruct J as [[j1 j2 j3] [j4 j5 j6] [j7 j8 j9]], K as [[e1 e2 e3] [e4 e5 e6] [e7 e8 e9]], Q as [[q1 q2 q3] [q4 q5 q6] [q7 q8 q9]], Z as [[s1 s2 s3] [s4 s5 s6] [s7 s8 s9]].
  unfold addm, scalem, add3, scale3. cbn [x3 y3 z3 row1 row2 row3]. rnumg.
  assert (C : forall j e q s, continuity (fun t => a t * j + b t * e + (c t * q + d t * s))).
  { intros j e q s. assert (M : forall f k, continuity f -> continuity (fun t => f t * k)) by (intros f k Hf; apply (continuity_mult f (fct_cte k)); [exact Hf|apply continuity_const; intros x y; reflexivity]).
    apply (continuity_plus (fun t => a t * j + b t * e) (fun t => c t * q + d t * s)); [apply (continuity_plus (fun t => a t * j) (fun t => b t * e))|apply (continuity_plus (fun t => c t * q) (fun t => d t * s))]; apply M; assumption. }
  apply det_cont; apply C.
Qed.
Lemma pencil9_cont J Kq Kw Kz Ts s : continuity (fun mu => det3 (pencil9 J Kq Kw Kz Ts s mu)).
Proof. unfold pencil9. apply comb4_cont; reg. Qed.
Lemma lcnp9_cont J Kq Kw Kz Ts s : continuity (fun mu => det3 (lcnp9 J Kq Kw Kz Ts s mu)).
Proof.
  assert (C : continuity (fun t => det3 (addm (addm (scalem ((fun _ => 1) t) J) (scalem (Ts * t) Kw)) (addm (scalem (s * (Ts ^ 2 / 4) * (t + 2 * t ^ 2)) Kq) (scalem (- (s * (Ts ^ 3 / 12)) * (t + 6 * t ^ 2 + 6 * t ^ 3)) Kz))))) by (apply comb4_cont; reg).
  intros t e He. destruct (C t e He) as (d & Hd & H). exists d. split; [exact Hd|]. intros y Hy. specialize (H y Hy). rewrite !scalem_1 in H. exact H.
Qed.
Lemma pencil9_lcnp J Kq Kw Kz Ts s mu : mu <> 0 -> det3 (pencil9 J Kq Kw Kz Ts s mu) = mu ^ 9 * det3 (lcnp9 J Kq Kw Kz Ts s (/ mu)).
Proof.
  intros N. replace (mu ^ 9) with ((mu ^ 3) ^ 3) by ring. rewrite <- det_scalem. f_equal. unfold pencil9, lcnp9.
  destruct J as [[j1 j2 j3] [j4 j5 j6] [j7 j8 j9]], Kw as [[e1 e2 e3] [e4 e5 e6] [e7 e8 e9]], Kq as [[q1 q2 q3] [q4 q5 q6] [q7 q8 q9]], Kz as [[s1 s2 s3] [s4 s5 s6] [s7 s8 s9]].
  unfold addm, scalem, add3, scale3. cbn [x3 y3 z3 row1 row2 row3]. rnumg. apply mkm_c; apply mk3_c; field; exact N.
Qed.
Lemma lcnp9_0 J Kq Kw Kz Ts s : lcnp9 J Kq Kw Kz Ts s 0 = J. Proof. unfold lcnp9. vring. Qed.
Lemma pencil9_sign J Kq Kw Kz Ts s : det3 J <> 0 -> (forall mu, 0 <= mu -> det3 (pencil9 J Kq Kw Kz Ts s mu) <> 0) -> 0 < det3 J * det3 (pencil9 J Kq Kw Kz Ts s 0).
Proof.
  intros DJ N. assert (A := same_sign (fun mu => det3 (pencil9 J Kq Kw Kz Ts s mu)) 0 1 ltac:(lra) (pencil9_cont J Kq Kw Kz Ts s) N). cbv beta in A.
  assert (B : 0 < det3 (lcnp9 J Kq Kw Kz Ts s 0) * det3 (lcnp9 J Kq Kw Kz Ts s 1)).
  { apply (same_sign (fun t => det3 (lcnp9 J Kq Kw Kz Ts s t))); [lra|apply lcnp9_cont|]. intros t Ht. destruct (Req_EM_T t 0) as [->|Nt].
    - rewrite lcnp9_0. exact DJ.
    - intros Z. apply (N (/ t)); [left; apply Rinv_0_lt_compat; lra|]. rewrite pencil9_lcnp by (apply Rinv_neq_0_compat; exact Nt). rewrite Rinv_inv. rewrite Z. ring. }
  rewrite lcnp9_0 in B. rewrite (pencil9_lcnp J Kq Kw Kz Ts s 1) in A by lra. rewrite Rinv_1 in A. rewrite pow1, Rmult_1_l in A.
  set (l := det3 (lcnp9 J Kq Kw Kz Ts s 1)) in *. set (p := det3 (pencil9 J Kq Kw Kz Ts s 0)) in *. set (j := det3 J) in *. clearbody l p j.
  assert (0 < (p * l) * (j * l)) by (apply Rmult_lt_0_compat; lra). assert (Hl : 0 < l * l) by nra. apply (Rmult_lt_reg_l (l * l)); [exact Hl|]. nra.
Qed.
Lemma pencil9_zero J Kq Kw Kz Ts s : det3 (pencil9 J Kq Kw Kz Ts s 0) = (- (s * (Ts ^ 3 / 2))) ^ 3 * det3 Kz.
Proof.
  rewrite <- det_scalem. f_equal. unfold pencil9. destruct J as [[j1 j2 j3] [j4 j5 j6] [j7 j8 j9]], Kw as [[e1 e2 e3] [e4 e5 e6] [e7 e8 e9]], Kq as [[q1 q2 q3] [q4 q5 q6] [q7 q8 q9]], Kz as [[s1 s2 s3] [s4 s5 s6] [s7 s8 s9]].
  unfold addm, scalem, add3, scale3. cbn [x3 y3 z3 row1 row2 row3]. rnumg. apply mkm_c; apply mk3_c; field.
Qed.
Definition mode9 (s Ts mu : R) (w : v3) : V9 := mk9 (mk6 (scale3 (s * Ts * (mu + 2) / (4 * mu)) w) w) (scale3 (- (s * Ts ^ 2 * (mu ^ 2 + 6 * mu + 6) / (12 * mu ^ 2))) w).
Lemma mode_from_pencil9 J Kq Kw Kz Ts s mu w : det3 J <> 0 -> Ts <> 0 -> mu <> 0 -> mv (pencil9 J Kq Kw Kz Ts s mu) w = zero3 ->
  one_step9 (held_A s Ts) (held_B s Ts (inv3 J)) (mkL (mkK Kq Kw) Kz) (mode9 s Ts mu w) = scale9 (1 + mu) (mode9 s Ts mu w).
Proof.
  intros DJ NT NM H. unfold pencil9 in H. rewrite !mv_addm, !mv_scalem in H. unfold one_step9. rewrite held_A_mv, held_B_mv. unfold mode9.
  set (r := s * Ts * (mu + 2) / (4 * mu)). set (v := - (s * Ts ^ 2 * (mu ^ 2 + 6 * mu + 6) / (12 * mu ^ 2))). unfold mv39, mv36. cbn [lk lz k1 k2 v6 vz u1 u2]. rewrite !mv_scale3.
  set (u := opp3 (add3 (add3 (scale3 r (mv Kq w)) (mv Kw w)) (scale3 v (mv Kz w)))).
  assert (U : u = scale3 (mu / Ts) (mv J w)).
  { unfold u, r, v. set (a := mv Kq w) in *. set (b := mv Kw w) in *. set (c := mv J w) in *. set (d := mv Kz w) in *. clearbody a b c d.
    destruct a as [a1 a2 a3], b as [e1 e2 e3], c as [g1 g2 g3], d as [d1 d2 d3]. revert H. vunfoldg; rnumg. intros H. apply mk3_inj in H. destruct H as (H1 & H2 & H3).
    assert (G : forall a e g d, mu ^ 3 * g + Ts * mu ^ 2 * e + (s * (Ts ^ 2 / 4) * (mu * (mu + 2)) * a + - (s * (Ts ^ 3 / 12)) * (mu ^ 2 + 6 * mu + 6) * d) = 0 ->
       - (s * Ts * (mu + 2) / (4 * mu) * a + e + - (s * Ts ^ 2 * (mu ^ 2 + 6 * mu + 6) / (12 * mu ^ 2)) * d) = mu / Ts * g).
    { intros a e g d X. assert (N2 : mu ^ 2 * Ts <> 0) by (apply Rmult_integral_contrapositive_currified; [apply pow_nonzero; exact NM|exact NT]). apply (Rmult_eq_reg_l (mu ^ 2 * Ts)); [|exact N2]. replace (mu ^ 2 * Ts * (mu / Ts * g)) with (mu ^ 3 * g) by (field; exact NT).
      replace (mu ^ 2 * Ts * - (s * Ts * (mu + 2) / (4 * mu) * a + e + - (s * Ts ^ 2 * (mu ^ 2 + 6 * mu + 6) / (12 * mu ^ 2)) * d))
        with (- (s * (Ts ^ 2 / 4) * (mu * (mu + 2)) * a + - (s * (Ts ^ 3 / 12)) * (mu ^ 2 + 6 * mu + 6) * d) - Ts * mu ^ 2 * e) by (field; exact NM). lra. }
    apply mk3_c; apply G; assumption. }
  rewrite U, !mv_scale3, !inv3_mv by exact DJ. unf9. unf6. unfold r, v. clear - NT NM.
  f_equal; [f_equal|]; destruct w as [w1 w2 w3]; vunfoldg; rnumg; apply mk3_c; field; auto.
Qed.
Lemma mode_fixed9 Kq Kw Kz Ts s Ji z : mv Kz z = zero3 -> one_step9 (held_A s Ts) (held_B s Ts Ji) (mkL (mkK Kq Kw) Kz) (mk9 zero6 z) = scale9 1 (mk9 zero6 z).
Proof.
  intros H. rewrite scale9_1. unfold one_step9. rewrite held_A_mv, held_B_mv. unfold mv39. cbn [lk lz v6 vz]. rewrite H, mv36_zero. replace (opp3 (add3 zero3 zero3)) with (zero3 : v3) by vring.
  rewrite mv_zero3. unfold zero6. cbn [u1 u2]. destruct z as [z1 z2 z3']. unf9. unf6. f_equal; [f_equal|]; vunfoldg; rnumg; apply mk3_c; ring.
Qed.
Lemma stable_Kz J Kq Kw Kz Ts s : dies_out9 (looped9 (held_A s Ts) (held_B s Ts (inv3 J)) (mkL (mkK Kq Kw) Kz)) -> det3 Kz <> 0.
Proof.
  intros D ZK. destruct (kernel3 _ ZK) as (z & N & E). apply (no_mode9 _ _ _ 1 (mk9 zero6 z) D); [lra| |apply mode_fixed9, E].
  intros X. apply N. exact (f_equal vz X).
Qed.
Lemma stable_pencil9 J Kq Kw Kz Ts s : det3 J <> 0 -> 0 < Ts -> s <> 0 -> dies_out9 (looped9 (held_A s Ts) (held_B s Ts (inv3 J)) (mkL (mkK Kq Kw) Kz)) ->
  forall mu, 0 <= mu -> det3 (pencil9 J Kq Kw Kz Ts s mu) <> 0.
Proof.
  intros DJ HT Hs D mu [Hm|<-] Z.
  - destruct (kernel3 _ Z) as (w & N & E). apply (no_mode9 _ _ _ (1 + mu) (mode9 s Ts mu w) D); [lra| |apply mode_from_pencil9; try assumption; lra].
    intros X. apply N. exact (f_equal (fun x => u2 (v6 x)) X).
  - rewrite pencil9_zero in Z. apply Rmult_integral in Z. destruct Z as [Z|Z]; [|exact (stable_Kz J Kq Kw Kz Ts s D Z)].
    revert Z. apply pow_nonzero, Ropp_neq_0_compat, Rmult_integral_contrapositive_currified; [exact Hs|]. assert (0 < Ts ^ 3) by (apply pow_lt; exact HT). lra.
Qed.
Lemma wrong_sign_unstable9 J Kq Kw Kz Ts s : det3 J <> 0 -> 0 < Ts -> s <> 0 -> dies_out9 (looped9 (held_A s Ts) (held_B s Ts (inv3 J)) (mkL (mkK Kq Kw) Kz)) ->
  exists l x, 1 < l /\ x <> zero9 /\ forall n, looped9 (held_A (- s) Ts) (held_B (- s) Ts (inv3 J)) (mkL (mkK Kq Kw) Kz) x n = scale9 (l ^ n) x.
Proof.
  intros DJ HT Hs D. assert (N := stable_pencil9 J Kq Kw Kz Ts s DJ HT Hs D). assert (P := pencil9_sign J Kq Kw Kz Ts s DJ N).
  destruct (classic (exists mu, 0 < mu /\ det3 (pencil9 J Kq Kw Kz Ts (- s) mu) = 0)) as [(mu & Hm & Z)|NE].
  - destruct (kernel3 _ Z) as (w & NW & E). exists (1 + mu), (mode9 (- s) Ts mu w). split; [lra|]. split; [intros X; apply NW; exact (f_equal (fun x => u2 (v6 x)) X)|].
    apply mode_run9, mode_from_pencil9; try assumption; lra.
  - exfalso. assert (F : det3 (pencil9 J Kq Kw Kz Ts (- s) 0) = - det3 (pencil9 J Kq Kw Kz Ts s 0)) by (rewrite !pencil9_zero; ring).
    assert (N2 : forall mu, 0 <= mu -> det3 (pencil9 J Kq Kw Kz Ts (- s) mu) <> 0).
    { intros mu [Hm|<-] Z; [apply NE; exists mu; split; assumption|]. rewrite F in Z. apply (N 0); lra. }
    assert (P2 := pencil9_sign J Kq Kw Kz Ts (- s) DJ N2). rewrite F in P2. lra.
Qed.
(** ** a constant torque *)
Lemma pushed_shift A B K d x xs : add6 (mv6 A xs) (mv63 B (sub3 d (mv36 K xs))) = xs -> forall n, sub6 (pushed A B K d x n) xs = looped A B K (sub6 x xs) n.
Proof.
  intros F n. induction n as [|n IH]; [reflexivity|]. cbn [pushed looped]. cbv zeta. rewrite <- IH. set (y := pushed A B K d x n).
  rewrite <- F at 1. rewrite mv6_sub, mv36_sub.
  replace (opp3 (sub3 (mv36 K y) (mv36 K xs))) with (sub3 (sub3 d (mv36 K y)) (sub3 d (mv36 K xs))) by (generalize (mv36 K y) (mv36 K xs); vring).
  rewrite (mv63_sub B (sub3 d (mv36 K y))). generalize (mv6 A y) (mv63 B (sub3 d (mv36 K y))) (mv6 A xs) (mv63 B (sub3 d (mv36 K xs))).
  intros [a1 a2] [b1 b2] [d1 d2] [f1 f2]. unf6. f_equal; vring.
Qed.
Lemma pushed_shift9 A B K d x xs : add9 (mv9 A xs) (mv93 B (sub3 d (mv39 K xs))) = xs -> forall n, sub9 (pushed9 A B K d x n) xs = looped9 A B K (sub9 x xs) n.
Proof.
  intros F n. induction n as [|n IH]; [reflexivity|]. cbn [pushed9 looped9]. cbv zeta. rewrite <- IH. set (y := pushed9 A B K d x n).
  rewrite <- F at 1. rewrite mv9_sub, mv39_sub.
  replace (opp3 (sub3 (mv39 K y) (mv39 K xs))) with (sub3 (sub3 d (mv39 K y)) (sub3 d (mv39 K xs))) by (generalize (mv39 K y) (mv39 K xs); vring).
  rewrite (mv93_sub B (sub3 d (mv39 K y))). generalize (mv9 A y) (mv93 B (sub3 d (mv39 K y))) (mv9 A xs) (mv93 B (sub3 d (mv39 K xs))).
  intros [[a1 a2] a3] [[b1 b2] b3] [[d1 d2] d3] [[f1 f2] f3]. unf9. unf6. f_equal; [f_equal|]; vring.
Qed.
