(** * Lemmas: a loop that is stable for e' = w / 2 is unstable for e' = - w / 2 *)
From Coq Require Import Reals List Bool Lra Psatz Lia Classical.
From Verif Require Import Num Vec Mat6 M_struct M_sim M_lqr S_obs S_lqr P_quat P_wheel P_obs P_lqr.
Local Open Scope R_scope.

Definition pencil (J Kq Kw : m3) (Ts s mu : R) : m3 := addm (addm (scalem (mu ^ 2) J) (scalem (Ts * mu) Kw)) (scalem (s * (Ts ^ 2 / 4) * (mu + 2)) Kq).
Definition lcnp (J Kq Kw : m3) (Ts s sg : R) : m3 := addm (addm J (scalem (Ts * sg) Kw)) (scalem (s * (Ts ^ 2 / 4) * (sg + 2 * sg ^ 2)) Kq).
(** one sample of e' = s w / 2 *)
Definition smp_A (Ts s : R) : M6 := mkB id3 (scalem (s * (Ts / 2)) id3) zerom id3.
Definition smp_B (Ts s : R) (Ji : m3) : M63 := mkC (scalem (s * (Ts ^ 2 / 4)) Ji) (scalem Ts Ji).

Lemma det_cont (f1 f2 f3 f4 f5 f6 f7 f8 f9 : R -> R) : continuity f1 -> continuity f2 -> continuity f3 -> continuity f4 -> continuity f5 -> continuity f6 ->
  continuity f7 -> continuity f8 -> continuity f9 ->
  continuity (fun t => det3 (mkm (mk3 (f1 t) (f2 t) (f3 t)) (mk3 (f4 t) (f5 t) (f6 t)) (mk3 (f7 t) (f8 t) (f9 t)))).
Proof.
  intros C1 C2 C3 C4 C5 C6 C7 C8 C9. assert (M : forall f g, continuity f -> continuity g -> continuity (fun t => f t * g t)) by (intros; apply (continuity_mult f g); assumption).
  assert (A : forall f g, continuity f -> continuity g -> continuity (fun t => f t + g t)) by (intros; apply (continuity_plus f g); assumption).
  assert (S : forall f g, continuity f -> continuity g -> continuity (fun t => f t - g t)) by (intros; apply (continuity_minus f g); assumption).
  vunfoldg. rnumg. repeat first [assumption|apply S|apply A|apply M].
Qed.
Lemma comb_cont (J K Q : m3) (a b c : R -> R) : continuity a -> continuity b -> continuity c ->
  continuity (fun t => det3 (addm (addm (scalem (a t) J) (scalem (b t) K)) (scalem (c t) Q))).
Proof.
  intros CA CB CC. destruct J as [[j1 j2 j3] [j4 j5 j6] [j7 j8 j9]], K as [[e1 e2 e3] [e4 e5 e6] [e7 e8 e9]], Q as [[q1 q2 q3] [q4 q5 q6] [q7 q8 q9]].
  unfold addm, scalem, add3, scale3. cbn [x3 y3 z3 row1 row2 row3]. rnumg.
  assert (C : forall j e q, continuity (fun t => a t * j + b t * e + c t * q)).
  { intros j e q. assert (M : forall f k, continuity f -> continuity (fun t => f t * k)) by (intros f k Hf; apply (continuity_mult f (fct_cte k)); [exact Hf|apply continuity_const; intros x y; reflexivity]).
    apply (continuity_plus (fun t => a t * j + b t * e) (fun t => c t * q)); [apply (continuity_plus (fun t => a t * j) (fun t => b t * e))|]; apply M; assumption. }
  apply det_cont; apply C.
Qed.
Lemma scalem_1 (J : m3) : scalem 1 J = J. Proof. vring. Qed.
Lemma pencil_cont J Kq Kw Ts s : continuity (fun mu => det3 (pencil J Kq Kw Ts s mu)).
Proof. unfold pencil. apply comb_cont; reg. Qed.
Lemma lcnp_cont J Kq Kw Ts s : continuity (fun mu => det3 (lcnp J Kq Kw Ts s mu)).
Proof.
  assert (E : forall t, det3 (addm (addm (scalem ((fun _ => 1) t) J) (scalem (Ts * t) Kw)) (scalem (s * (Ts ^ 2 / 4) * (t + 2 * t ^ 2)) Kq)) = det3 (lcnp J Kq Kw Ts s t)) by (intros t; unfold lcnp; rewrite scalem_1; reflexivity).
  assert (C : continuity (fun t => det3 (addm (addm (scalem ((fun _ => 1) t) J) (scalem (Ts * t) Kw)) (scalem (s * (Ts ^ 2 / 4) * (t + 2 * t ^ 2)) Kq)))) by (apply comb_cont; reg).
  intros t e He. destruct (C t e He) as (d & Hd & H). exists d. split; [exact Hd|]. intros y Hy. specialize (H y Hy). rewrite !E in H. exact H.
Qed.
Lemma det_scalem k (m : m3) : det3 (scalem k m) = k ^ 3 * det3 m. Proof. vring. Qed.
Lemma pencil_lcnp J Kq Kw Ts s mu : mu <> 0 -> det3 (pencil J Kq Kw Ts s mu) = mu ^ 6 * det3 (lcnp J Kq Kw Ts s (/ mu)).
Proof.
  intros N. replace (mu ^ 6) with ((mu ^ 2) ^ 3) by ring. rewrite <- det_scalem. f_equal. unfold pencil, lcnp.
  destruct J as [[j1 j2 j3] [j4 j5 j6] [j7 j8 j9]], Kw as [[e1 e2 e3] [e4 e5 e6] [e7 e8 e9]], Kq as [[q1 q2 q3] [q4 q5 q6] [q7 q8 q9]].
  unfold addm, scalem, add3, scale3. cbn [x3 y3 z3 row1 row2 row3]. rnumg. apply mkm_c; apply mk3_c; field; exact N.
Qed.
Lemma same_sign (f : R -> R) a b : a < b -> continuity f -> (forall x, a <= x -> f x <> 0) -> 0 < f a * f b.
Proof.
  intros L C N. destruct (Rlt_dec 0 (f a * f b)) as [|G]; [assumption|exfalso]. destruct (IVT_cor f a b C) as (z & Hz & E); [lra|lra|]. apply (N z); [lra|exact E].
Qed.
(** both ends of the pencil have the same sign when there is no mode with mu >= 0 *)
Lemma pencil_sign J Kq Kw Ts s : det3 J <> 0 -> (forall mu, 0 <= mu -> det3 (pencil J Kq Kw Ts s mu) <> 0) -> 0 < det3 J * det3 (pencil J Kq Kw Ts s 0).
Proof.
  intros DJ N. assert (A := same_sign (fun mu => det3 (pencil J Kq Kw Ts s mu)) 0 1 ltac:(lra) (pencil_cont J Kq Kw Ts s) N). cbv beta in A.
  assert (B : 0 < det3 (lcnp J Kq Kw Ts s 0) * det3 (lcnp J Kq Kw Ts s 1)).
  { apply (same_sign (fun t => det3 (lcnp J Kq Kw Ts s t))); [lra|apply lcnp_cont|]. intros t Ht. destruct (Req_EM_T t 0) as [->|Nt].
    - replace (lcnp J Kq Kw Ts s 0) with J; [exact DJ|]. unfold lcnp. vring.
    - intros Z. apply (N (/ t)); [left; apply Rinv_0_lt_compat; lra|]. rewrite pencil_lcnp by (apply Rinv_neq_0_compat; exact Nt). rewrite Rinv_inv. rewrite Z. ring. }
  replace (lcnp J Kq Kw Ts s 0) with J in B by (unfold lcnp; vring).
  rewrite (pencil_lcnp J Kq Kw Ts s 1) in A by lra. rewrite Rinv_1 in A. rewrite pow1, Rmult_1_l in A.
  set (l := det3 (lcnp J Kq Kw Ts s 1)) in *. set (p := det3 (pencil J Kq Kw Ts s 0)) in *. set (j := det3 J) in *. clearbody l p j.
  assert (0 < (p * l) * (j * l)) by (apply Rmult_lt_0_compat; lra). assert (Hl : 0 < l * l) by nra. apply (Rmult_lt_reg_l (l * l)); [exact Hl|]. nra.
Qed.
Lemma pencil_zero J Kq Kw Ts s : det3 (pencil J Kq Kw Ts s 0) = (s * (Ts ^ 2 / 2)) ^ 3 * det3 Kq.
Proof. rewrite <- det_scalem. f_equal. unfold pencil. destruct J as [[j1 j2 j3] [j4 j5 j6] [j7 j8 j9]], Kw as [[e1 e2 e3] [e4 e5 e6] [e7 e8 e9]], Kq as [[q1 q2 q3] [q4 q5 q6] [q7 q8 q9]].
  unfold addm, scalem, add3, scale3. cbn [x3 y3 z3 row1 row2 row3]. rnumg. apply mkm_c; apply mk3_c; field. Qed.

(** ** modes *)
Definition one_step (A : M6) (B : M63) (K : M36) (x : V6) : V6 := add6 (mv6 A x) (mv63 B (opp3 (mv36 K x))).
Lemma scale6_scale6 a b x : scale6 a (scale6 b x) = scale6 (a * b) x.
Proof. destruct x as [[? ? ?] [? ? ?]]. unf6. f_equal; vring. Qed.
Lemma mv6_scale A k x : mv6 A (scale6 k x) = scale6 k (mv6 A x).
Proof. destruct A as [A1 A2 A3 A4], x as [x1 x2]. unf6. rewrite !mv_scale3. f_equal; vring. Qed.
Lemma mv36_scale K k x : mv36 K (scale6 k x) = scale3 k (mv36 K x).
Proof. destruct K as [K1 K2], x as [x1 x2]. unfold scale6. unf63. rewrite !mv_scale3. vring. Qed.
Lemma mv63_scale B k u : mv63 B (scale3 k u) = scale6 k (mv63 B u).
Proof. destruct B as [B1 B2]. unfold scale6. unf63. rewrite !mv_scale3. reflexivity. Qed.
Lemma one_step_scale A B K k x : one_step A B K (scale6 k x) = scale6 k (one_step A B K x).
Proof.
  unfold one_step. rewrite mv6_scale, mv36_scale. replace (opp3 (scale3 k (mv36 K x))) with (scale3 k (opp3 (mv36 K x))) by vring. rewrite mv63_scale.
  destruct (mv6 A x) as [p q], (mv63 B (opp3 (mv36 K x))) as [r t]. unf6. f_equal; vring.
Qed.
Lemma mode_run A B K l x : one_step A B K x = scale6 l x -> forall n, looped A B K x n = scale6 (l ^ n) x.
Proof.
  intros H n. induction n as [|n IH]; [destruct x as [[? ? ?] [? ? ?]]; cbn [looped pow]; unf6; f_equal; vring|].
  cbn [looped]. cbv zeta. rewrite IH. change (one_step A B K (scale6 (l ^ n) x) = scale6 (l ^ S n) x). rewrite one_step_scale, H, scale6_scale6. f_equal. cbn [pow]. ring.
Qed.
Lemma mode_from_pencil J Kq Kw Ts s mu w : det3 J <> 0 -> Ts <> 0 -> mu <> 0 -> mv (pencil J Kq Kw Ts s mu) w = zero3 ->
  one_step (smp_A Ts s) (smp_B Ts s (inv3 J)) (mkK Kq Kw) (mk6 (scale3 (s * Ts * (mu + 2) / (4 * mu)) w) w) = scale6 (1 + mu) (mk6 (scale3 (s * Ts * (mu + 2) / (4 * mu)) w) w).
Proof.
  intros DJ NT NM H. set (r := s * Ts * (mu + 2) / (4 * mu)). unfold pencil in H. rewrite !mv_addm, !mv_scalem in H.
  unfold one_step, smp_A, smp_B. unf63. rewrite !mv_scale3.
  set (u := opp3 (add3 (scale3 r (mv Kq w)) (mv Kw w))).
  assert (U : u = scale3 (mu / Ts) (mv J w)).
  { unfold u, r. set (a := mv Kq w) in *. set (b := mv Kw w) in *. set (c := mv J w) in *. clearbody a b c.
    destruct a as [a1 a2 a3], b as [e1 e2 e3], c as [g1 g2 g3]. revert H. vunfoldg; rnumg. intros H. apply mk3_inj in H. destruct H as (H1 & H2 & H3).
    assert (G : forall a e g, mu ^ 2 * g + Ts * mu * e + s * (Ts ^ 2 / 4) * (mu + 2) * a = 0 -> - (s * Ts * (mu + 2) / (4 * mu) * a + e) = mu / Ts * g).
    { intros a e g X. apply (Rmult_eq_reg_l (mu * Ts)); [|nra]. replace (mu * Ts * (mu / Ts * g)) with (mu ^ 2 * g) by (field; exact NT).
      replace (mu * Ts * - (s * Ts * (mu + 2) / (4 * mu) * a + e)) with (- (s * (Ts ^ 2 / 4) * (mu + 2) * a) - Ts * mu * e) by (field; exact NM). lra. }
    apply mk3_c; apply G; assumption. }
  rewrite U, !mv_scale3, !mv_scalem, !inv3_mv by exact DJ. unf6. rewrite !mv_scalem, !mv_scale3, !mv_id3, mv_zerom. unfold r.
  f_equal; destruct w as [w1 w2 w3]; vunfoldg; rnumg; apply mk3_c; field; auto.
Qed.
Lemma mode_fixed Kq Kw Ts s Ji e : mv Kq e = zero3 -> one_step (smp_A Ts s) (smp_B Ts s Ji) (mkK Kq Kw) (mk6 e zero3) = mk6 e zero3.
Proof.
  intros H. unfold one_step, smp_A, smp_B. unf63. rewrite H, mv_zero3. replace (opp3 (add3 zero3 zero3)) with (zero3 : v3) by vring.
  unf63. rewrite !mv_zero3. unf6. rewrite !mv_zero3, !mv_id3, mv_zerom. rewrite !add3_0_r. reflexivity.
Qed.
Lemma scale6_dot k x : dot6 (scale6 k x) (scale6 k x) = k ^ 2 * dot6 x x.
Proof. destruct x as [[? ? ?] [? ? ?]]. unf6. vring. Qed.
Lemma dot6_pos x : x <> zero6 -> 0 < dot6 x x.
Proof.
  intros N. destruct x as [a b]. unfold dot6. cbn [u1 u2]. assert (A := dot3_nonneg a). assert (B := dot3_nonneg b).
  destruct (zero3_dec a) as [->|Na]; [|assert (H := dot3_pos a Na); lra]. destruct (zero3_dec b) as [->|Nb]; [exfalso; apply N; reflexivity|]. assert (H := dot3_pos b Nb). lra.
Qed.
Lemma no_mode A B K l x : dies_out (looped A B K) -> 1 <= l -> x <> zero6 -> one_step A B K x = scale6 l x -> False.
Proof.
  intros D L N H. assert (P := dot6_pos x N). destruct (D x (dot6 x x) P) as (n & Hn). specialize (Hn n (Nat.le_refl n)).
  rewrite (mode_run A B K l x H), scale6_dot in Hn. unfold R_dist in Hn. rewrite Rminus_0_r in Hn.
  assert (Q : 1 <= l ^ n) by (apply pow_R1_Rle; exact L). assert (1 <= (l ^ n) ^ 2) by nra. rewrite Rabs_right in Hn by nra. nra.
Qed.
Lemma stable_pencil J Kq Kw Ts s : det3 J <> 0 -> 0 < Ts -> s <> 0 -> dies_out (looped (smp_A Ts s) (smp_B Ts s (inv3 J)) (mkK Kq Kw)) ->
  forall mu, 0 <= mu -> det3 (pencil J Kq Kw Ts s mu) <> 0.
Proof.
  intros DJ HT Hs D mu [Hm|<-] Z.
  - destruct (kernel3 _ Z) as (w & N & E). apply (no_mode _ _ _ (1 + mu) (mk6 (scale3 (s * Ts * (mu + 2) / (4 * mu)) w) w) D); [lra| |apply mode_from_pencil; try assumption; lra].
    intros X. apply N. exact (f_equal u2 X).
  - rewrite pencil_zero in Z. assert (ZK : det3 Kq = 0).
    { apply Rmult_integral in Z. destruct Z as [Z|Z]; [exfalso; revert Z; apply pow_nonzero, Rmult_integral_contrapositive_currified; [exact Hs|nra]|exact Z]. }
    destruct (kernel3 _ ZK) as (e & N & E). apply (no_mode _ _ _ 1 (mk6 e zero3) D); [lra| |].
    + intros X. apply N. exact (f_equal u1 X).
    + rewrite mode_fixed by exact E. destruct e as [e1 e2 e3]. unf6. f_equal; vring.
Qed.
(** the sign of the error rate decides stability *)
Lemma wrong_sign_unstable J Kq Kw Ts s : det3 J <> 0 -> 0 < Ts -> s <> 0 -> dies_out (looped (smp_A Ts s) (smp_B Ts s (inv3 J)) (mkK Kq Kw)) ->
  exists l x, 1 < l /\ x <> zero6 /\ forall n, looped (smp_A Ts (- s)) (smp_B Ts (- s) (inv3 J)) (mkK Kq Kw) x n = scale6 (l ^ n) x.
Proof.
  intros DJ HT Hs D. assert (N := stable_pencil J Kq Kw Ts s DJ HT Hs D). assert (P := pencil_sign J Kq Kw Ts s DJ N).
  destruct (classic (exists mu, 0 < mu /\ det3 (pencil J Kq Kw Ts (- s) mu) = 0)) as [(mu & Hm & Z)|NE].
  - destruct (kernel3 _ Z) as (w & NW & E). exists (1 + mu), (mk6 (scale3 (- s * Ts * (mu + 2) / (4 * mu)) w) w). split; [lra|]. split; [intros X; apply NW; exact (f_equal u2 X)|].
    apply mode_run, mode_from_pencil; try assumption; lra.
  - exfalso. assert (N2 : forall mu, 0 <= mu -> det3 (pencil J Kq Kw Ts (- s) mu) <> 0).
    { intros mu [Hm|<-] Z; [apply NE; exists mu; split; assumption|]. apply (N 0); [lra|]. rewrite pencil_zero in *. replace ((s * (Ts ^ 2 / 2)) ^ 3 * det3 Kq) with (- ((- s * (Ts ^ 2 / 2)) ^ 3 * det3 Kq)) by ring. rewrite Z. ring. }
    assert (P2 := pencil_sign J Kq Kw Ts (- s) DJ N2). rewrite !pencil_zero in *. nra.
Qed.
