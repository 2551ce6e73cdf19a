(** * Lemmas: quaternion products in binary64 *)
From Coq Require Import Reals ZArith List Bool Lra Psatz Lia.
From Flocq Require Import Core BinarySingleNaN.
From Verif Require Import Num Flt Vec M_vector M_quaternion P_sat P_integ P_quat P_normf.
Local Open Scope R_scope.

(** [x] approximates the real [r], |r| <= m, within K units 2^-53 of m and J half smallest subnormals *)
Definition apx (K J m : R) (x : b64) (r : R) : Prop := fin x = true /\ Rabs r <= m /\ Rabs (fR x - r) <= K * ulp1 * m + J * eta.
Definition BIG : R := bpow radix2 1000.
Lemma BIG_big : 1 <= BIG. Proof. change 1 with (bpow radix2 0). apply bpow_le. lia. Qed.
Lemma eta_tiny : eta <= / 1000000000000000. Proof. eapply Rle_trans; [apply eta_small|]. assert (H : bpow radix2 (-1000) <= bpow radix2 (-20)) by (apply bpow_le; lia). change (bpow radix2 (-20)) with (/ 1048576) in H. lra. Qed.
Lemma rnd_err x : Rabs (rnd x - x) <= ulp1 * Rabs x + eta.
Proof.
  destruct (rnd_mixed x) as (e & h & He & Hh & ->). replace (x * (1 + e) + h - x) with (x * e + h) by ring.
  eapply Rle_trans; [apply Rabs_triang|]. rewrite Rabs_mult. assert (A := Rabs_pos x). nra.
Qed.
Lemma rnd_err_add x y : fmt x -> fmt y -> Rabs (rnd (x + y) - (x + y)) <= ulp1 * Rabs (x + y).
Proof.
  intros Fx Fy. destruct (rnd_add x y Fx Fy) as (e & He & ->). replace ((x + y) * (1 + e) - (x + y)) with ((x + y) * e) by ring. rewrite Rabs_mult. assert (A := Rabs_pos (x + y)). nra.
Qed.
Lemma rnd_fin x : Rabs x <= 8 * BIG -> Rabs (rnd x) < bpow radix2 1024.
Proof.
  intros H. apply Rle_lt_trans with (bpow radix2 1003); [|apply bpow_lt; lia]. apply rnd_le_bpow; [lia|].
  replace 1003%Z with (1000 + 3)%Z by lia. rewrite bpow_plus. change (bpow radix2 3) with 8. unfold BIG in H. lra.
Qed.
Lemma apx_mul (x y : b64) : fin x = true -> fin y = true -> Rabs (fR x) * Rabs (fR y) <= BIG -> apx 1 1 (Rabs (fR x) * Rabs (fR y)) (fmul x y) (fR x * fR y).
Proof.
  intros Fx Fy H. destruct (fmul_ok x y Fx Fy) as [E F]. { apply rnd_fin. rewrite Rabs_mult. assert (A := BIG_big). lra. }
  split; [exact F|]. split; [rewrite Rabs_mult; lra|]. rewrite E. eapply Rle_trans; [apply rnd_err|]. rewrite Rabs_mult. lra.
Qed.
Lemma apx_add K J m x r K' J' m' y r' K2 J2 : apx K J m x r -> apx K' J' m' y r' -> 0 <= K <= 100 -> 0 <= K' <= 100 -> 0 <= J <= 100 -> 0 <= J' <= 100 ->
  m + m' <= BIG -> K + 1.001 <= K2 -> K' + 1.001 <= K2 -> 1.001 * (J + J') <= J2 -> apx K2 J2 (m + m') (fadd x y) (r + r').
Proof.
  intros (Fx & Mx & Ex) (Fy & My & Ey) HK HK' HJ HJ' HB H1 H2 H3.
  assert (U := ulp1_rng). assert (ET := eta_tiny). assert (EP := eta_pos). assert (BB := BIG_big).
  assert (m0 : 0 <= m) by (assert (A := Rabs_pos r); lra). assert (m0' : 0 <= m') by (assert (A := Rabs_pos r'); lra).
  assert (D : Rabs (fR x + fR y - (r + r')) <= K * ulp1 * m + K' * ulp1 * m' + (J + J') * eta).
  { replace (fR x + fR y - (r + r')) with ((fR x - r) + (fR y - r')) by ring. eapply Rle_trans; [apply Rabs_triang|]. lra. }
  assert (KU : K * ulp1 <= 1 / 10000) by nra. assert (KU' : K' * ulp1 <= 1 / 10000) by nra.
  assert (S1 : Rabs (fR x + fR y) <= (m + m') * (1 + 1 / 10000) + (J + J') * eta).
  { replace (fR x + fR y) with ((fR x + fR y - (r + r')) + (r + r')) by ring. eapply Rle_trans; [apply Rabs_triang|]. assert (T := Rabs_triang r r'). nra. }
  assert (JE : (J + J') * eta <= 1) by nra.
  destruct (fadd_ok x y Fx Fy) as [E F]. { apply rnd_fin. lra. }
  split; [exact F|]. split; [eapply Rle_trans; [apply Rabs_triang|lra]|].
  rewrite E. replace (rnd (fR x + fR y) - (r + r')) with ((rnd (fR x + fR y) - (fR x + fR y)) + (fR x + fR y - (r + r'))) by ring.
  eapply Rle_trans; [apply Rabs_triang|]. assert (RE := rnd_err_add (fR x) (fR y) (fmt_R x) (fmt_R y)).
  assert (X1 : ulp1 * Rabs (fR x + fR y) <= ulp1 * ((m + m') * (1 + 1 / 10000) + (J + J') * eta)) by (apply Rmult_le_compat_l; lra).
  assert (X2 : ulp1 * ((J + J') * eta) <= 0.001 * ((J + J') * eta)) by (apply Rmult_le_compat_r; [apply Rmult_le_pos; lra|lra]).
  assert (X3 : K * (ulp1 * m) <= (K2 - 1.001) * (ulp1 * m)) by (apply Rmult_le_compat_r; [apply Rmult_le_pos; lra|lra]).
  assert (X4 : K' * (ulp1 * m') <= (K2 - 1.001) * (ulp1 * m')) by (apply Rmult_le_compat_r; [apply Rmult_le_pos; lra|lra]).
  assert (X5 : 1.001 * (J + J') * eta <= J2 * eta) by (apply Rmult_le_compat_r; lra).
  assert (X6 : 0 <= ulp1 * m) by (apply Rmult_le_pos; lra). assert (X7 : 0 <= ulp1 * m') by (apply Rmult_le_pos; lra).
  nra.
Qed.
Lemma fopp_R x : fR (fopp x) = - fR x. Proof. unfold fR, fopp. apply B2R_Bopp. Qed.
Lemma fopp_fin x : fin (fopp x) = fin x. Proof. unfold fin, fopp. apply is_finite_Bopp. Qed.
Lemma apx_sub K J m x r K' J' m' y r' K2 J2 : apx K J m x r -> apx K' J' m' y r' -> 0 <= K <= 100 -> 0 <= K' <= 100 -> 0 <= J <= 100 -> 0 <= J' <= 100 ->
  m + m' <= BIG -> K + 1.001 <= K2 -> K' + 1.001 <= K2 -> 1.001 * (J + J') <= J2 -> apx K2 J2 (m + m') (fsub x y) (r - r').
Proof.
  intros Ax (Fy & My & Ey) HK HK' HJ HJ' HB H1 H2 H3.
  assert (Ay : apx K' J' m' (fopp y) (- r')). { split; [rewrite fopp_fin; exact Fy|]. split; [rewrite Rabs_Ropp; exact My|]. rewrite fopp_R. replace (- fR y - - r') with (- (fR y - r')) by ring. rewrite Rabs_Ropp. exact Ey. }
  destruct (apx_add K J m x r K' J' m' (fopp y) (- r') K2 J2 Ax Ay HK HK' HJ HJ' HB H1 H2 H3) as (F & M & E).
  destruct Ax as (Fx & Mx & Ex).
  assert (U := ulp1_rng). assert (ET := eta_tiny). assert (EP := eta_pos). assert (BB := BIG_big).
  assert (m0 : 0 <= m) by (assert (A := Rabs_pos r); lra). assert (m0' : 0 <= m') by (assert (A := Rabs_pos r'); lra).
  assert (SB : Rabs (fR x - fR y) <= 8 * BIG).
  { replace (fR x - fR y) with ((fR x - r) - (fR y - r') + (r - r')) by ring. assert (K * ulp1 <= 1 / 10000) by nra. assert (K' * ulp1 <= 1 / 10000) by nra.
    assert (J * eta <= 1) by nra. assert (J' * eta <= 1) by nra. assert (Y1 : K * ulp1 * m <= 1 / 10000 * m) by nra. assert (Y2 : K' * ulp1 * m' <= 1 / 10000 * m') by nra.
    eapply Rle_trans; [apply Rabs_triang|]. unfold Rminus at 1. assert (T1 := Rabs_triang (fR x - r) (- (fR y - r'))). rewrite Rabs_Ropp in T1.
    assert (T2 := Rabs_triang r (- r')). rewrite Rabs_Ropp in T2. unfold Rminus in *. lra. }
  destruct (fsub_ok x y Fx Fy (rnd_fin _ SB)) as [E1 F1].
  destruct (fadd_ok x (fopp y) Fx) as [E2 F2]; [rewrite fopp_fin; exact Fy| |].
  { rewrite fopp_R. apply rnd_fin. exact SB. }
  split; [exact F1|]. split; [exact M|]. rewrite E1. rewrite E2, fopp_R in E. exact E.
Qed.

(** ** Products *)
Definition qR (q : Q4 b64) : quat := mkq (fR (qw q)) (fR (qx q)) (fR (qy q)) (fR (qz q)).
Definition vR (v : V3 b64) : v3 := mk3 (fR (x3 v)) (fR (y3 v)) (fR (z3 v)).
Definition finq (q : Q4 b64) : Prop := fin (qw q) = true /\ fin (qx q) = true /\ fin (qy q) = true /\ fin (qz q) = true.
Definition finv (v : V3 b64) : Prop := fin (x3 v) = true /\ fin (y3 v) = true /\ fin (z3 v) = true.
(** componentwise distance *)
Definition offq (a b : quat) (e : R) : Prop := Rabs (qw a - qw b) <= e /\ Rabs (qx a - qx b) <= e /\ Rabs (qy a - qy b) <= e /\ Rabs (qz a - qz b) <= e.
Definition offv (a b : v3) (e : R) : Prop := Rabs (x3 a - x3 b) <= e /\ Rabs (y3 a - y3 b) <= e /\ Rabs (z3 a - z3 b) <= e.

Lemma cauchy4 a b c d p q r s : Rabs a * Rabs p + Rabs b * Rabs q + Rabs c * Rabs r + Rabs d * Rabs s <= sqrt (a * a + b * b + c * c + d * d) * sqrt (p * p + q * q + r * r + s * s).
Proof.
  assert (G : forall x : R, x * x = Rabs x * Rabs x) by (intros x; rewrite <- Rabs_mult; symmetry; apply Rabs_pos_eq; nra).
  rewrite (G a), (G b), (G c), (G d), (G p), (G q), (G r), (G s).
  generalize (Rabs_pos a) (Rabs_pos b) (Rabs_pos c) (Rabs_pos d) (Rabs_pos p) (Rabs_pos q) (Rabs_pos r) (Rabs_pos s).
  generalize (Rabs a) (Rabs b) (Rabs c) (Rabs d) (Rabs p) (Rabs q) (Rabs r) (Rabs s). clear. intros a b c d p q r s Ha Hb Hc Hd Hp Hq Hr Hs.
  rewrite <- sqrt_mult by nra. rewrite <- (sqrt_Rsqr (a * p + b * q + c * r + d * s)) by nra. apply sqrt_le_1_alt. unfold Rsqr.
  assert (Z1 := Rle_0_sqr (a * q - b * p)). assert (Z2 := Rle_0_sqr (a * r - c * p)). assert (Z3 := Rle_0_sqr (a * s - d * p)).
  assert (Z4 := Rle_0_sqr (b * r - c * q)). assert (Z5 := Rle_0_sqr (b * s - d * q)). assert (Z6 := Rle_0_sqr (c * s - d * r)). unfold Rsqr in *. nra.
Qed.
Lemma apx_grow K J m m' x r : apx K J m x r -> 0 <= K -> m <= m' -> Rabs (fR x - r) <= K * ulp1 * m' + J * eta.
Proof. intros (_ & _ & E) HK H. assert (U := ulp1_rng). assert (K * ulp1 * m <= K * ulp1 * m') by (apply Rmult_le_compat_l; [apply Rmult_le_pos; lra|exact H]). lra. Qed.
Lemma abs_le_of a b m : 0 <= a -> 0 <= b -> a + b <= m -> a <= m. Proof. lra. Qed.

Lemma product_f a b : finq a -> finq b -> normq (qR a) * normq (qR b) <= BIG ->
  finq (product a b) /\ offq (qR (product a b)) (product (qR a) (qR b)) (4.01 * ulp1 * (normq (qR a) * normq (qR b)) + 5 * eta).
Proof.
  destruct a as [a0 a1 a2 a3], b as [b0 b1 b2 b3]. unfold finq, offq, qR. cbn [qw qx qy qz]. intros (FA0 & FA1 & FA2 & FA3) (FB0 & FB1 & FB2 & FB3).
  unfold normq, dotq. cbn [qw qx qy qz]. rnumg. set (NN := sqrt _ * sqrt _). intros HB.
  assert (P : forall x y, 0 <= Rabs x * Rabs y) by (intros; apply Rmult_le_pos; apply Rabs_pos).
  assert (Cw := cauchy4 (fR a0) (fR a1) (fR a2) (fR a3) (fR b0) (fR b1) (fR b2) (fR b3)). fold NN in Cw.
  assert (Cx := cauchy4 (fR a1) (fR a0) (fR a2) (fR a3) (fR b0) (fR b1) (fR b3) (fR b2)).
  assert (Cy := cauchy4 (fR a2) (fR a0) (fR a3) (fR a1) (fR b0) (fR b2) (fR b1) (fR b3)).
  assert (Cz := cauchy4 (fR a3) (fR a0) (fR a1) (fR a2) (fR b0) (fR b3) (fR b2) (fR b1)).
  assert (PA : forall i j k l : R, i = fR a0 * fR a0 + fR a1 * fR a1 + fR a2 * fR a2 + fR a3 * fR a3 -> j = i -> k = fR b0 * fR b0 + fR b1 * fR b1 + fR b2 * fR b2 + fR b3 * fR b3 -> l = k -> sqrt j * sqrt l = NN) by (intros; subst; reflexivity).
  rewrite (PA _ (fR a1 * fR a1 + fR a0 * fR a0 + fR a2 * fR a2 + fR a3 * fR a3) _ (fR b0 * fR b0 + fR b1 * fR b1 + fR b3 * fR b3 + fR b2 * fR b2) eq_refl ltac:(ring) eq_refl ltac:(ring)) in Cx.
  rewrite (PA _ (fR a2 * fR a2 + fR a0 * fR a0 + fR a3 * fR a3 + fR a1 * fR a1) _ (fR b0 * fR b0 + fR b2 * fR b2 + fR b1 * fR b1 + fR b3 * fR b3) eq_refl ltac:(ring) eq_refl ltac:(ring)) in Cy.
  rewrite (PA _ (fR a3 * fR a3 + fR a0 * fR a0 + fR a1 * fR a1 + fR a2 * fR a2) _ (fR b0 * fR b0 + fR b3 * fR b3 + fR b2 * fR b2 + fR b1 * fR b1) eq_refl ltac:(ring) eq_refl ltac:(ring)) in Cz.
  clear PA. clearbody NN.
  assert (U := ulp1_rng). assert (EP := eta_pos). assert (N0 : 0 <= NN) by (assert (Q := P (fR a0) (fR b0)); assert (Q1 := P (fR a1) (fR b1)); assert (Q2 := P (fR a2) (fR b2)); assert (Q3 := P (fR a3) (fR b3)); lra).
  assert (FIN : forall K J m x r, apx K J m x r -> 0 <= K -> K <= 4.01 -> J <= 5 -> m <= NN -> fin x = true /\ Rabs (fR x - r) <= 4.01 * ulp1 * NN + 5 * eta).
  { intros K J m x r A HK HK' HJ Hm. split; [apply A|]. eapply Rle_trans; [apply (apx_grow _ _ _ NN _ _ A HK Hm)|].
    assert (X1 : K * (ulp1 * NN) <= 4.01 * (ulp1 * NN)) by (apply Rmult_le_compat_r; [apply Rmult_le_pos; lra|lra]). assert (X2 : J * eta <= 5 * eta) by (apply Rmult_le_compat_r; lra). lra. }
  assert (M : forall x y, fin x = true -> fin y = true -> Rabs (fR x) * Rabs (fR y) <= NN -> apx 1 1 (Rabs (fR x) * Rabs (fR y)) (fmul x y) (fR x * fR y)) by (intros; apply apx_mul; try assumption; lra).
  unfold product. cbv zeta. unfold dot3, add3, scale3, cross3, vec. cbn [qw qx qy qz x3 y3 z3]. cbn [nadd nsub nmul FNum]. rnumg.
  assert (W : fin (fsub (fmul a0 b0) (fadd (fadd (fmul a1 b1) (fmul a2 b2)) (fmul a3 b3))) = true /\
    Rabs (fR (fsub (fmul a0 b0) (fadd (fadd (fmul a1 b1) (fmul a2 b2)) (fmul a3 b3))) - (fR a0 * fR b0 - (fR a1 * fR b1 + fR a2 * fR b2 + fR a3 * fR b3))) <= 4.01 * ulp1 * NN + 5 * eta).
  { assert (Q := P (fR a0) (fR b0)). assert (Q1 := P (fR a1) (fR b1)). assert (Q2 := P (fR a2) (fR b2)). assert (Q3 := P (fR a3) (fR b3)).
    assert (M0 := M a0 b0 FA0 FB0 ltac:(lra)). assert (M1 := M a1 b1 FA1 FB1 ltac:(lra)). assert (M2 := M a2 b2 FA2 FB2 ltac:(lra)). assert (M3 := M a3 b3 FA3 FB3 ltac:(lra)).
    assert (S1 := apx_add _ _ _ _ _ _ _ _ _ _ 2.001 2.01 M1 M2 ltac:(lra) ltac:(lra) ltac:(lra) ltac:(lra) ltac:(lra) ltac:(lra) ltac:(lra) ltac:(lra)).
    assert (S2 := apx_add _ _ _ _ _ _ _ _ _ _ 3.002 3.02 S1 M3 ltac:(lra) ltac:(lra) ltac:(lra) ltac:(lra) ltac:(lra) ltac:(lra) ltac:(lra) ltac:(lra)).
    assert (S3 := apx_sub _ _ _ _ _ _ _ _ _ _ 4.003 4.03 M0 S2 ltac:(lra) ltac:(lra) ltac:(lra) ltac:(lra) ltac:(lra) ltac:(lra) ltac:(lra) ltac:(lra)).
    apply (FIN _ _ _ _ _ S3); lra. }
  assert (V : forall p q r s t u w z, fin p = true -> fin q = true -> fin r = true -> fin s = true -> fin t = true -> fin u = true -> fin w = true -> fin z = true ->
    Rabs (fR p) * Rabs (fR q) + Rabs (fR r) * Rabs (fR s) + Rabs (fR t) * Rabs (fR u) + Rabs (fR w) * Rabs (fR z) <= NN ->
    fin (fadd (fadd (fmul p q) (fmul r s)) (fsub (fmul t u) (fmul w z))) = true /\
    Rabs (fR (fadd (fadd (fmul p q) (fmul r s)) (fsub (fmul t u) (fmul w z))) - (fR p * fR q + fR r * fR s + (fR t * fR u - fR w * fR z))) <= 4.01 * ulp1 * NN + 5 * eta).
  { intros p q r s t u w z Fp Fq Fr Fs Ft Fu Fw Fz HN.
    assert (Q := P (fR p) (fR q)). assert (Q1 := P (fR r) (fR s)). assert (Q2 := P (fR t) (fR u)). assert (Q3 := P (fR w) (fR z)).
    assert (M0 := M p q Fp Fq ltac:(lra)). assert (M1 := M r s Fr Fs ltac:(lra)). assert (M2 := M t u Ft Fu ltac:(lra)). assert (M3 := M w z Fw Fz ltac:(lra)).
    assert (S1 := apx_add _ _ _ _ _ _ _ _ _ _ 2.001 2.01 M0 M1 ltac:(lra) ltac:(lra) ltac:(lra) ltac:(lra) ltac:(lra) ltac:(lra) ltac:(lra) ltac:(lra)).
    assert (S2 := apx_sub _ _ _ _ _ _ _ _ _ _ 2.001 2.01 M2 M3 ltac:(lra) ltac:(lra) ltac:(lra) ltac:(lra) ltac:(lra) ltac:(lra) ltac:(lra) ltac:(lra)).
    assert (S3 := apx_add _ _ _ _ _ _ _ _ _ _ 3.002 4.03 S1 S2 ltac:(lra) ltac:(lra) ltac:(lra) ltac:(lra) ltac:(lra) ltac:(lra) ltac:(lra) ltac:(lra)).
    apply (FIN _ _ _ _ _ S3); lra. }
  assert (X := V b0 a1 a0 b1 a2 b3 a3 b2 FB0 FA1 FA0 FB1 FA2 FB3 FA3 FB2 ltac:(lra)).
  assert (Y := V b0 a2 a0 b2 a3 b1 a1 b3 FB0 FA2 FA0 FB2 FA3 FB1 FA1 FB3 ltac:(lra)).
  assert (Z := V b0 a3 a0 b3 a1 b2 a2 b1 FB0 FA3 FA0 FB3 FA1 FB2 FA2 FB1 ltac:(lra)).
  split; [split; [apply W|split; [apply X|split; [apply Y|apply Z]]]|split; [apply W|split; [apply X|split; [apply Y|apply Z]]]].
Qed.

(** ** Coordinate changes *)
Lemma comp_norm q : Rabs (qw q) <= normq q /\ Rabs (qx q) <= normq q /\ Rabs (qy q) <= normq q /\ Rabs (qz q) <= normq q.
Proof.
  assert (G : forall x y, x * x <= y -> Rabs x <= sqrt y). { intros x y H. rewrite <- sqrt_Rsqr_abs. apply sqrt_le_1_alt. exact H. }
  unfold normq, dotq. rnumg. assert (A := Rle_0_sqr (qw q)). assert (B := Rle_0_sqr (qx q)). assert (C := Rle_0_sqr (qy q)). assert (D := Rle_0_sqr (qz q)). unfold Rsqr in *.
  split; [|split; [|split]]; apply G; lra.
Qed.
Lemma normq_pos q : 0 <= normq q. Proof. apply sqrt_pos. Qed.
Lemma norm_comp q e : 0 <= e -> Rabs (qw q) <= e -> Rabs (qx q) <= e -> Rabs (qy q) <= e -> Rabs (qz q) <= e -> normq q <= 2 * e.
Proof.
  intros He A B C D. assert (G : forall x, Rabs x <= e -> x * x <= e * e). { intros x H. apply Rabs_le_inv in H. nra. }
  rewrite <- (sqrt_Rsqr (2 * e)) by lra. unfold normq, dotq. rnumg. apply sqrt_le_1_alt. unfold Rsqr. apply G in A, B, C, D. lra.
Qed.
Lemma normq_mult (a b : quat) : normq (product a b) = normq a * normq b.
Proof.
  unfold normq. change (@nsqrt R RNum) with sqrt. rewrite <- sqrt_mult; [|unfold dotq; rnumg; nra|unfold dotq; rnumg; nra]. f_equal. destruct a as [a0 a1 a2 a3], b as [b0 b1 b2 b3]. unfold dotq, product, dot3, add3, scale3, cross3, vec. cbn [qw qx qy qz x3 y3 z3]. rnumg. ring.
Qed.
Lemma normq_conj (q : quat) : normq (conjugate q) = normq q.
Proof. destruct q as [a0 a1 a2 a3]. unfold normq, dotq, conjugate. cbn [qw qx qy qz]. rnumg. f_equal. ring. Qed.
Lemma normq_triangle (a b : quat) : normq (addq a b) <= normq a + normq b.
Proof.
  assert (A := normq_pos a). assert (B := normq_pos b). rewrite <- (sqrt_Rsqr (normq a + normq b)) by lra. unfold normq at 1. change (@nsqrt R RNum) with sqrt. apply sqrt_le_1_alt. unfold Rsqr.
  assert (SA := normq_sq a). assert (SB := normq_sq b).
  assert (C : dotq a b <= normq a * normq b).
  { eapply Rle_trans; [|apply cauchy4]. unfold dotq. rnumg. rewrite <- !Rabs_mult. assert (Z1 := Rle_abs (qw a * qw b)). assert (Z2 := Rle_abs (qx a * qx b)). assert (Z3 := Rle_abs (qy a * qy b)). assert (Z4 := Rle_abs (qz a * qz b)). lra. }
  replace (dotq (addq a b) (addq a b)) with (dotq a a + 2 * dotq a b + dotq b b) by (destruct a as [a0 a1 a2 a3], b as [b0 b1 b2 b3]; unfold dotq, addq; cbn [qw qx qy qz]; rnumg; ring). nra.
Qed.
Lemma offq_norm a b e : 0 <= e -> offq a b e -> normq (subq a b) <= 2 * e.
Proof. intros He (A & B & C & D). apply norm_comp; [exact He| | | |]; destruct a as [a0 a1 a2 a3], b as [b0 b1 b2 b3]; unfold subq; cbn [qw qx qy qz] in *; rnumg; assumption. Qed.
Lemma norm_off a b e : normq (subq a b) <= e -> offq a b e.
Proof. intros H. destruct (comp_norm (subq a b)) as (A & B & C & D). destruct a as [a0 a1 a2 a3], b as [b0 b1 b2 b3]. unfold subq, offq in *. cbn [qw qx qy qz] in *. rnum. repeat split; lra. Qed.
Lemma offq_trans a b c e f : offq a b e -> offq b c f -> offq a c (e + f).
Proof.
  assert (G : forall x y z e f, Rabs (x - y) <= e -> Rabs (y - z) <= f -> Rabs (x - z) <= e + f). { intros x y z e0 f0 A B. replace (x - z) with ((x - y) + (y - z)) by ring. eapply Rle_trans; [apply Rabs_triang|]. lra. }
  intros (A1 & A2 & A3 & A4) (B1 & B2 & B3 & B4). repeat split; eapply G; eassumption.
Qed.
Lemma offq_le a b e f : offq a b e -> e <= f -> offq a b f.
Proof. intros (A & B & C & D) H. repeat split; lra. Qed.
Lemma product_off (p a b : quat) e : 0 <= e -> offq a b e -> offq (product p a) (product p b) (normq p * (2 * e)).
Proof.
  intros He H. apply norm_off. replace (subq (product p a) (product p b)) with (product p (subq a b)) by (destruct p as [p0 p1 p2 p3], a as [a0 a1 a2 a3], b as [b0 b1 b2 b3]; unfold product, subq, dot3, add3, scale3, cross3, vec; cbn [qw qx qy qz x3 y3 z3]; rnumg; apply mkq_c; ring).
  rewrite normq_mult. apply Rmult_le_compat_l; [apply normq_pos|]. apply offq_norm; assumption.
Qed.
Lemma product_off_l (p a b : quat) e : 0 <= e -> offq a b e -> offq (product a p) (product b p) (2 * e * normq p).
Proof.
  intros He H. apply norm_off. replace (subq (product a p) (product b p)) with (product (subq a b) p) by (destruct p as [p0 p1 p2 p3], a as [a0 a1 a2 a3], b as [b0 b1 b2 b3]; unfold product, subq, dot3, add3, scale3, cross3, vec; cbn [qw qx qy qz x3 y3 z3]; rnumg; apply mkq_c; ring).
  rewrite normq_mult. apply Rmult_le_compat_r; [apply normq_pos|]. apply offq_norm; assumption.
Qed.
Lemma offq_norm_le a b e : 0 <= e -> offq a b e -> normq a <= normq b + 2 * e.
Proof.
  intros He H. replace a with (addq b (subq a b)) by (destruct a as [a0 a1 a2 a3], b as [b0 b1 b2 b3]; unfold addq, subq; cbn [qw qx qy qz]; rnumg; apply mkq_c; ring).
  eapply Rle_trans; [apply normq_triangle|]. assert (X := offq_norm a b e He H). lra.
Qed.
Lemma qR_conj q : qR (conjugate q) = conjugate (qR q).
Proof. destruct q as [a b c d]. unfold qR, conjugate. cbn [qw qx qy qz]. cbn [nopp FNum]. rnumg. rewrite !fopp_R. reflexivity. Qed.
Lemma finq_conj q : finq q -> finq (conjugate q).
Proof. destruct q as [a b c d]. unfold finq, conjugate. cbn [qw qx qy qz nopp FNum]. rewrite !fopp_fin. auto. Qed.

(** three factors: a (b c) *)
Lemma product3_f a b c : finq a -> finq b -> finq c -> normq (qR b) * normq (qR c) <= bpow radix2 900 -> normq (qR a) <= bpow radix2 90 ->
  let N := normq (qR a) * normq (qR b) * normq (qR c) in
  finq (product a (product b c)) /\ offq (qR (product a (product b c))) (product (qR a) (product (qR b) (qR c))) (12.1 * ulp1 * N + (6 + 11 * normq (qR a)) * eta).
Proof.
  intros Fa Fb Fc H1 H2 N. assert (U := ulp1_rng). assert (ET := eta_tiny). assert (EP := eta_pos). assert (BB := BIG_big).
  assert (NA := normq_pos (qR a)). assert (NB := normq_pos (qR b)). assert (NC := normq_pos (qR c)). set (bc := normq (qR b) * normq (qR c)) in *. assert (BC : 0 <= bc) by (apply Rmult_le_pos; assumption).
  assert (B1 : bpow radix2 900 <= BIG) by (apply bpow_le; lia).
  destruct (product_f b c Fb Fc) as [F1 O1]. { fold bc. lra. } fold bc in O1.
  set (e1 := 4.01 * ulp1 * bc + 5 * eta) in *. assert (E1 : 0 <= e1) by (unfold e1; assert (0 <= ulp1 * bc) by (apply Rmult_le_pos; lra); lra).
  assert (M1 := offq_norm_le _ _ _ E1 O1). rewrite normq_mult in M1. fold bc in M1. set (p := product b c) in *.
  assert (E2 : e1 <= 1 / 1000000 * bc + 1 / 1000000) by (unfold e1; nra).
  assert (B2 : normq (qR a) * normq (qR p) <= BIG).
  { apply Rle_trans with (bpow radix2 90 * (2 * bpow radix2 900)).
    - apply Rmult_le_compat; [exact NA|apply normq_pos|exact H2|]. assert (1 <= bpow radix2 900) by (change 1 with (bpow radix2 0); apply bpow_le; lia). lra.
    - change 2 with (bpow radix2 1). rewrite <- !bpow_plus. apply bpow_le. lia. }
  destruct (product_f a p Fa F1 B2) as [F2 O2]. split; [exact F2|].
  eapply offq_le; [eapply offq_trans; [exact O2|apply (product_off (qR a) _ _ e1 E1 O1)]|].
  assert (NE : N = normq (qR a) * bc) by (unfold N, bc; ring). rewrite NE. set (A := normq (qR a)) in *.
  assert (G1 : A * normq (qR p) <= A * (bc + 2 * e1)) by (apply Rmult_le_compat_l; lra).
  assert (G2 : 4.01 * ulp1 * (A * normq (qR p)) <= 4.01 * ulp1 * (A * (bc + 2 * e1))) by (apply Rmult_le_compat_l; lra).
  assert (AB : 0 <= A * bc) by (apply Rmult_le_pos; assumption). assert (UAB : 0 <= ulp1 * (A * bc)) by (apply Rmult_le_pos; lra). assert (AE : 0 <= A * eta) by (apply Rmult_le_pos; lra).
  assert (X1 : ulp1 * (ulp1 * (A * bc)) <= 1 / 10000 * (ulp1 * (A * bc))) by (apply Rmult_le_compat_r; lra).
  assert (X2 : ulp1 * (A * eta) <= 1 / 10000 * (A * eta)) by (apply Rmult_le_compat_r; lra).
  assert (Y1 : 4.01 * ulp1 * (A * (bc + 2 * e1)) = 4.01 * (ulp1 * (A * bc)) + 32.1602 * (ulp1 * (ulp1 * (A * bc))) + 40.1 * (ulp1 * (A * eta))) by (unfold e1; lra).
  assert (Y2 : A * (2 * e1) = 8.02 * (ulp1 * (A * bc)) + 10 * (A * eta)) by (unfold e1; lra).
  rewrite Y1 in G2. rewrite Y2. lra.
Qed.

(** the other grouping: (a b) c *)
Lemma product3_l a b c : finq a -> finq b -> finq c -> normq (qR a) * normq (qR b) <= bpow radix2 900 -> normq (qR c) <= bpow radix2 90 ->
  let N := normq (qR a) * normq (qR b) * normq (qR c) in
  finq (product (product a b) c) /\ offq (qR (product (product a b) c)) (product (product (qR a) (qR b)) (qR c)) (12.1 * ulp1 * N + (6 + 11 * normq (qR c)) * eta).
Proof.
  intros Fa Fb Fc H1 H2 N. assert (U := ulp1_rng). assert (ET := eta_tiny). assert (EP := eta_pos). assert (BB := BIG_big).
  assert (NA := normq_pos (qR a)). assert (NB := normq_pos (qR b)). assert (NC := normq_pos (qR c)). set (bc := normq (qR a) * normq (qR b)) in *. assert (BC : 0 <= bc) by (apply Rmult_le_pos; assumption).
  assert (B1 : bpow radix2 900 <= BIG) by (apply bpow_le; lia).
  destruct (product_f a b Fa Fb) as [F1 O1]. { fold bc. lra. } fold bc in O1.
  set (e1 := 4.01 * ulp1 * bc + 5 * eta) in *. assert (E1 : 0 <= e1) by (unfold e1; assert (0 <= ulp1 * bc) by (apply Rmult_le_pos; lra); lra).
  assert (M1 := offq_norm_le _ _ _ E1 O1). rewrite normq_mult in M1. fold bc in M1. set (p := product a b) in *.
  assert (E2 : e1 <= 1 / 1000000 * bc + 1 / 1000000) by (unfold e1; nra).
  assert (B2 : normq (qR p) * normq (qR c) <= BIG).
  { apply Rle_trans with (2 * bpow radix2 900 * bpow radix2 90).
    - apply Rmult_le_compat; [apply normq_pos|exact NC| |exact H2]. assert (1 <= bpow radix2 900) by (change 1 with (bpow radix2 0); apply bpow_le; lia). lra.
    - change 2 with (bpow radix2 1). rewrite <- !bpow_plus. apply bpow_le. lia. }
  destruct (product_f p c F1 Fc B2) as [F2 O2]. split; [exact F2|].
  eapply offq_le; [eapply offq_trans; [exact O2|apply (product_off_l (qR c) _ _ e1 E1 O1)]|].
  assert (NE : N = bc * normq (qR c)) by (unfold N, bc; ring). rewrite NE. set (A := normq (qR c)) in *.
  assert (G1 : normq (qR p) * A <= (bc + 2 * e1) * A) by (apply Rmult_le_compat_r; lra).
  assert (G2 : 4.01 * ulp1 * (normq (qR p) * A) <= 4.01 * ulp1 * ((bc + 2 * e1) * A)) by (apply Rmult_le_compat_l; lra).
  assert (AB : 0 <= bc * A) by (apply Rmult_le_pos; assumption). assert (UAB : 0 <= ulp1 * (bc * A)) by (apply Rmult_le_pos; lra). assert (AE : 0 <= A * eta) by (apply Rmult_le_pos; lra).
  assert (X1 : ulp1 * (ulp1 * (bc * A)) <= 1 / 10000 * (ulp1 * (bc * A))) by (apply Rmult_le_compat_r; lra).
  assert (X2 : ulp1 * (A * eta) <= 1 / 10000 * (A * eta)) by (apply Rmult_le_compat_r; lra).
  assert (Y1 : 4.01 * ulp1 * ((bc + 2 * e1) * A) = 4.01 * (ulp1 * (bc * A)) + 32.1602 * (ulp1 * (ulp1 * (bc * A))) + 40.1 * (ulp1 * (A * eta))) by (unfold e1; lra).
  assert (Y2 : 2 * e1 * A = 8.02 * (ulp1 * (bc * A)) + 10 * (A * eta)) by (unfold e1; lra).
  rewrite Y1 in G2. rewrite Y2. lra.
Qed.
