(** * The residual of ecef_to_lla's initial guess: third order in the squared eccentricity (both branches) *)
From Coq Require Import Reals QArith Qreals List Bool Lra Lia Psatz.
From Verif Require Import P_poly P_lla1.
Import ListNotations.
Local Open Scope R_scope.

Definition env6 (E r S n z b : R) (i : nat) : R := nth i [E; r; S; n; z; b] 0.
Lemma pnorm_bound (F : pe) (low : poly) E r S n z b :
  (let p := pnorm F in (plow 3 p, mlen 6 (phigh 3 p), Qle_bool (pbound box (phigh 3 p)) (45 # 100))) = (low, true, true) ->
  0 < E <= 67 / 10000 -> 0 <= r <= 1006 / 1000 -> 0 <= S <= 1 -> Rabs n <= 9 / 10 -> Rabs z <= 4 / 10 -> Rabs b <= 16 / 10 ->
  Rabs (peeval (env6 E r S n z b) F - pval (env6 E r S n z b) low) <= E ^ 3 * (45 / 100).
Proof.
  intros H HE Hr HS Hn Hz Hb. cbv zeta in H. remember (pnorm F) as p. injection H as H1 H2 H3. subst low.
  rewrite pnorm_ok, <- Heqp, (psplit _ 3 p). set (e := env6 E r S n z b).
  replace (pval e (plow 3 p) + e 0%nat ^ 3 * pval e (phigh 3 p) - pval e (plow 3 p)) with (E ^ 3 * pval e (phigh 3 p)) by (unfold e, env6; cbn [nth]; ring).
  rewrite Rabs_mult, (Rabs_pos_eq (E ^ 3)) by (apply pow_le; lra). apply Rmult_le_compat_l; [apply pow_le; lra|].
  apply Qle_bool_imp_le, Qle_Rle in H3. replace (Q2R (45 # 100)) with (45 / 100) in H3 by (unfold Q2R; cbn; lra).
  eapply Rle_trans; [|exact H3]. apply pbound_ok; [exact H2|].
  intros j Hj. cbn in Hj. unfold e, env6, box. do 6 (destruct j as [|j]; [cbn [nth]; unfold Q2R; cbn [Qnum Qden]; first [lra|rewrite Rabs_pos_eq; lra]|]). lia.
Qed.

(** second-order terms of the guess, as in the code: (u + s2*v)/r and (a3 - u - c2*v)/r over e^4 *)
Definition b1 (r S : R) : R := r * r + S * (r / 2 - 5 / 2 * (r * r)).
Definition b2 (r S : R) : R := r / 2 - r * r - (1 - S) * (r / 2 - 5 / 2 * (r * r)).
Definition gT (E r b : R) : R := E * (r + E * b).
Lemma b1_range r S : 0 <= r <= 1006 / 1000 -> 0 <= S <= 1 -> -16 / 10 <= b1 r S <= 11 / 10.
Proof. intros Hr HS. unfold b1. assert (0 <= r * r <= 1.0121) by nra. split; nra. Qed.
Lemma b2_range r S : 0 <= r <= 1006 / 1000 -> 0 <= S <= 1 -> -16 / 10 <= b2 r S <= 16 / 10.
Proof. intros Hr HS. unfold b2. assert (0 <= r * r <= 1.0121) by nra. split; nra. Qed.
Lemma gT_range E r S b : 0 < E <= 67 / 10000 -> 0 <= r <= 1006 / 1000 -> 0 <= S <= 1 -> b = b1 r S \/ b = b2 r S -> 0 <= gT E r b <= E * (102 / 100).
Proof.
  intros HE Hr HS Hb. assert (Hq : 0 <= r * r <= 1.0121) by nra.
  assert (B : - 2 * r <= b). { destruct Hb; subst b; unfold b1, b2; nra. }
  assert (B' : b <= 16 / 10). { destruct Hb; subst b; [assert (X := b1_range r S Hr HS)|assert (X := b2_range r S Hr HS)]; lra. }
  unfold gT. assert (0 <= r + E * b <= 102 / 100); [|nra]. split; nra.
Qed.

Lemma low1_val E r S n z b : pval (env6 E r S n z b) low1 =
  E ^ 2 * (r * r + S * (r / 2 - 5 / 2 * (r * r)) - b) + E ^ 3 * (3 / 8 * (r * (S * S)) + 3 / 2 * (r * r * S) - 2 * (r * r * (S * S)) - 3 * (r * S * b) - 3 / 2 * (r * r * r * S) + 1 / 2 * (r * r * r * (S * S)) + r * b).
Proof. unfold low1, env6. cbn [pval meval nth]. unfold Q2R. cbn [Qnum Qden]. field. Qed.
Lemma low2_val E r S n z b : pval (env6 E r S n z b) low2 =
  E ^ 2 * (3 / 2 * (r * r) + S * (r / 2 - 5 / 2 * (r * r)) - b) + E ^ 3 * (3 / 8 * (r * (S * S)) + 3 / 2 * (r * r * S) - 2 * (r * r * (S * S)) - 3 * (r * S * b) + 2 * (r * b) - r * r * r + 1 / 2 * (r * r * r * (S * S)) + 1 / 2 * (r * r * r * S)).
Proof. unfold low2, env6. cbn [pval meval nth]. unfold Q2R. cbn [Qnum Qden]. field. Qed.
Lemma lead1 r S : 0 <= r <= 1006 / 1000 -> 0 <= S <= 7 / 10 ->
  Rabs (r * r * r * (1 - 7 * S + 8 * (S * S)) + r * r * (2 * S - 7 / 2 * (S * S)) + 3 / 8 * (r * (S * S))) <= 105 / 100.
Proof.
  intros Hr HS. assert (Q : 0 <= r * r <= 1012036 / 1000000) by nra. assert (C : 0 <= r * r * r <= 1.0182) by nra.
  assert (S2 : 0 <= S * S <= 49 / 100) by nra. set (q := r * r) in *. set (c := q * r) in *. set (d := S * S) in *.
  assert (D : d <= 7 / 10 * S) by (unfold d; nra). assert (D2 : 0 <= r * d) by nra.
  assert (SQ := pow2_ge_0 (S - 7 / 16)).
  assert (K1 : - (54 / 100) <= 1 - 7 * S + 8 * d <= 1 - 14 / 10 * S) by (split; [unfold d in *; clear - SQ; lra|clear - D; lra]).
  assert (K2 : -0.32 <= 2 * S - 7 / 2 * d) by (unfold d; nra).
  set (k1 := 1 - 7 * S + 8 * d) in *. set (k2 := 2 * S - 7 / 2 * d) in *.
  apply Rabs_le. split.
  - assert (-0.55 <= c * k1) by nra. assert (-0.33 <= q * k2) by nra. lra.
  - assert (R1 : r * d <= 1006 / 1000 * d) by nra.
    destruct (Rle_dec 0 k2) as [L|L].
    + assert (c * k1 <= 1.0182 * (1 - 14 / 10 * S)). { apply Rle_trans with (c * (1 - 14 / 10 * S)); [nra|]. nra. }
      assert (q * k2 <= 1.0121 * k2) by nra. assert (SR := pow2_ge_0 (S - 0.0946)). unfold k2, d in *. lra.
    + assert (4 / 7 <= S) by (unfold k2, d in *; nra). assert (c * k1 <= 1.0182 * 0.2). { apply Rle_trans with (c * (1 - 14 / 10 * S)); nra. }
      assert (q * k2 <= 0) by nra. nra.
Qed.
Lemma lead2 r S : 0 <= r <= 1006 / 1000 -> 7 / 10 <= S <= 1 ->
  Rabs (r * r * r * (2 - 9 * S + 8 * (S * S)) + r * r * (5 / 2 * S - 7 / 2 * (S * S)) + 3 / 8 * (r * (S * S))) <= 105 / 100.
Proof.
  intros Hr HS. set (d := S * S). assert (D : 49 / 100 <= d <= 1) by (unfold d; nra).
  assert (D1 : 0 <= (S - 7 / 10) * (8 * S - 34 / 10)) by (apply Rmult_le_pos; lra). assert (D2 : 0 <= (1 - S) * (S - 7 / 10)) by (apply Rmult_le_pos; lra).
  assert (K1 : - (38 / 100) <= 2 - 9 * S + 8 * d <= 1) by (unfold d in *; lra).
  assert (K2 : 5 / 2 * S - 7 / 2 * d <= 4 / 100) by (unfold d in *; lra).
  assert (K3 : 1006 / 1000 * (2 - 9 * S + 8 * d) + (5 / 2 * S - 7 / 2 * d) <= 6 / 100) by (unfold d in *; lra).
  assert (K4 : - (64 / 100) <= 1006 / 1000 * (5 / 2 * S - 7 / 2 * d) + 3 / 8 * d) by (unfold d in *; lra).
  set (k1 := 2 - 9 * S + 8 * d) in *. set (k2 := 5 / 2 * S - 7 / 2 * d) in *. clearbody d k1 k2.
  replace (r * r * r * k1 + r * r * k2 + 3 / 8 * (r * d)) with (r * (r * r * k1 + r * k2 + 3 / 8 * d)) by field.
  assert (L : - (64 / 100) <= r * k2 + 3 / 8 * d) by (destruct (Rle_dec 0 k2); nra).
  assert (Q : 0 <= r * r <= 1012036 / 1000000) by nra.
  assert (B : - (103 / 100) <= r * r * k1 + r * k2 + 3 / 8 * d <= 1 / 2).
  { split; [nra|]. destruct (Rle_dec 0 k1) as [P|P].
    - assert (0 <= r * ((1006 / 1000 - r) * k1)) by (apply Rmult_le_pos; [lra|apply Rmult_le_pos; lra]).
      assert (r * (1006 / 1000 * k1 + k2) <= 7 / 100) by (destruct (Rle_dec 0 (1006 / 1000 * k1 + k2)); nra). lra.
    - assert (r * r * k1 <= 0) by nra. assert (r * k2 <= 5 / 100) by nra. lra. }
  set (i := r * r * k1 + r * k2 + 3 / 8 * d) in *. clearbody i. apply Rabs_le. split; nra.
Qed.

(** branch 1 of the guess: sine = sigma*A *)
Lemma residual1 E r S : 0 < E <= 67 / 10000 -> 0 <= r <= 1006 / 1000 -> 0 <= S <= 7 / 10 ->
  let T := gT E r (b1 r S) in let A := 1 + (1 - S) * T in let q := sqrt (1 - S * (2 * T + (1 - S) * (T * T))) in
  0 <= S * (2 * T + (1 - S) * (T * T)) <= 2 / 100 /\ 1 <= A <= 101 / 100 /\ 98 / 100 <= q <= 1 /\
  Rabs (- A + q + E * r * A * q * / sqrt (1 - E * (S * (A * A)))) <= 3 / 2 * E ^ 3.
Proof.
  intros HE Hr HS T A q. assert (HS' : 0 <= S <= 1) by lra.
  assert (HT := gT_range E r S _ HE Hr HS' (or_introl eq_refl)). fold T in HT. assert (HB := b1_range r S Hr HS').
  assert (HT2 : 0 <= T * T <= E * (8 / 1000)) by nra.
  set (x := S * (2 * T + (1 - S) * (T * T))) in *.
  assert (HX : 0 <= x <= E * (2045 / 1000)). { assert (S1 : 0 <= S * (1 - S) <= 1 / 4) by (assert (X := pow2_ge_0 (S - 1 / 2)); split; [apply Rmult_le_pos; lra|lra]).
    assert (S2 : 0 <= S * T <= T) by nra. replace x with (2 * (S * T) + S * (1 - S) * (T * T)) by (unfold x; ring).
    set (t2 := T * T) in *. set (k := S * (1 - S)) in *. set (st := S * T) in *. clearbody t2 k st. clear x q A. assert (0 <= k * t2 <= 1 / 4 * t2) by nra. lra. }
  assert (HA : 1 <= A <= 1 + E * (102 / 100)) by (unfold A; nra).
  assert (HQ := sqrt_minus x ltac:(lra)). fold q in HQ.
  assert (E4 : 0 < E * (E * (E * E))) by (assert (0 < E * E) by nra; assert (0 < E * (E * E)) by nra; nra).
  assert (X4 : 1 / 20 * (x * x * (x * x)) <= 9 / 10 * (E * (E * (E * E)))).
  { assert (x * x <= 4.183 * (E * E)) by nra. assert (0 <= x * x) by nra. assert (x * x * (x * x) <= 17.5 * (E * E * (E * E))) by nra. nra. }
  destruct (scaled (1 - x / 2 - x * x / 8 - x * x * x / 16) _ q E4) as (n & Eq & Hn); [lra|].
  set (y := E * (S * (A * A))) in *.
  assert (HA2 : 1 <= A * A <= 10138 / 10000) by nra.
  assert (HY : 0 <= y <= E * (10138 / 10000)) by (unfold y; assert (0 <= S * (A * A) <= 10138 / 10000) by nra; nra).
  assert (HI := isqrt_minus y ltac:(lra)).
  assert (E3 : 0 < E * (E * E)) by (assert (0 < E * E) by nra; nra).
  assert (Y3 : 7 / 20 * (y * y * y) <= 4 / 10 * (E * (E * E))).
  { assert (y * y <= 1.028 * (E * E)) by nra. assert (0 <= y * y) by nra. nra. }
  destruct (scaled_up (1 + y / 2 + 3 / 8 * (y * y)) _ (/ sqrt (1 - y)) E3) as (z & Ez & Hz); [lra|].
  assert (X2 : 0 <= x * x <= 3 / 1000) by nra. assert (X3 : 0 <= x * x * x <= 1 / 1000) by nra.
  split; [lra|]. split; [lra|]. split; [split; nra|].
  assert (P := pnorm_bound p1F low1 E r S n z (b1 r S) norm1 HE Hr HS' ltac:(lra) ltac:(lra) ltac:(apply Rabs_le; lra)).
  rewrite low1_val in P. unfold b1 in P at 2.
  assert (V : peeval (env6 E r S n z (b1 r S)) p1F = - A + q + E * r * A * q * / sqrt (1 - y)).
  { rewrite Ez, Eq. unfold y, A, x, T, gT. unfold p1F, pisg, p1y, p1A, p1q, p1x, pE3, pk, pT, PS, one, vE, vr, vS, vn, vz, vb, env6.
    cbn [peeval nth]. unfold Q2R. cbn [Qnum Qden]. field. }
  rewrite V in P. set (F := - A + q + E * r * A * q * / sqrt (1 - y)) in *. clearbody F. assert (L := lead1 r S Hr HS).
  replace (F - _) with (F - E ^ 3 * (r * r * r * (1 - 7 * S + 8 * (S * S)) + r * r * (2 * S - 7 / 2 * (S * S)) + 3 / 8 * (r * (S * S)))) in P by (unfold b1; field).
  set (G := r * r * r * (1 - 7 * S + 8 * (S * S)) + r * r * (2 * S - 7 / 2 * (S * S)) + 3 / 8 * (r * (S * S))) in *. clearbody G.
  clear - P L E3. replace F with ((F - E ^ 3 * G) + E ^ 3 * G) by ring. eapply Rle_trans; [apply Rabs_triang|].
  assert (E3' : 0 < E ^ 3) by (replace (E ^ 3) with (E * (E * E)) by ring; exact E3). rewrite (Rabs_mult (E ^ 3)), (Rabs_pos_eq (E ^ 3)) by lra. nra.
Qed.

(** branch 2 of the guess: cosine = kappa*(1 - S*T) *)
Lemma residual2 E r S : 0 < E <= 67 / 10000 -> 0 <= r <= 1006 / 1000 -> 7 / 10 <= S <= 1 ->
  let T := gT E r (b2 r S) in let q := sqrt (1 + (1 - S) * (2 * T - S * (T * T))) in
  0 <= (1 - S) * (2 * T - S * (T * T)) <= 2 / 100 /\ 0 <= T <= 1 / 100 /\ 1 <= q <= 102 / 100 /\
  Rabs (- q + (1 - S * T) * (1 + E * r * q * / sqrt (1 - E * (S * (1 + (1 - S) * (2 * T - S * (T * T))))))) <= 3 / 2 * E ^ 3.
Proof.
  intros HE Hr HS T q. assert (HS' : 0 <= S <= 1) by lra.
  assert (HT := gT_range E r S _ HE Hr HS' (or_intror eq_refl)). fold T in HT. assert (HB := b2_range r S Hr HS').
  assert (HT2 : 0 <= T * T <= T * (1 / 100)) by nra.
  set (x := (1 - S) * (2 * T - S * (T * T))) in *.
  assert (HX : 0 <= x <= E * (2045 / 1000)).
  { assert (S2 : 0 <= S * (T * T) <= T) by nra. unfold x. set (t2 := S * (T * T)) in *. clearbody t2. clear x q.
    assert (0 <= (1 - S) * (2 * T - t2)) by (apply Rmult_le_pos; lra). assert ((1 - S) * (2 * T - t2) <= 1 * (2 * T - t2)) by (apply Rmult_le_compat_r; lra). lra. }
  assert (HQ := sqrt_plus x ltac:(lra)). fold q in HQ.
  assert (E4 : 0 < E * (E * (E * E))) by (assert (0 < E * E) by nra; assert (0 < E * (E * E)) by nra; nra).
  assert (X4 : 1 / 20 * (x * x * (x * x)) <= 9 / 10 * (E * (E * (E * E)))).
  { assert (x * x <= 4.183 * (E * E)) by nra. assert (0 <= x * x) by nra. assert (x * x * (x * x) <= 17.5 * (E * E * (E * E))) by nra. nra. }
  destruct (scaled (1 + x / 2 - x * x / 8 + x * x * x / 16) _ q E4) as (n & Eq & Hn); [lra|].
  set (y := E * (S * (1 + x))) in *.
  assert (HY : 0 <= y <= E * (102 / 100)) by (unfold y; assert (0 <= S * (1 + x) <= 102 / 100) by nra; nra).
  assert (HI := isqrt_minus y ltac:(lra)).
  assert (E3 : 0 < E * (E * E)) by (assert (0 < E * E) by nra; nra).
  assert (Y3 : 7 / 20 * (y * y * y) <= 4 / 10 * (E * (E * E))).
  { assert (y * y <= 1.0405 * (E * E)) by nra. assert (0 <= y * y) by nra. nra. }
  destruct (scaled_up (1 + y / 2 + 3 / 8 * (y * y)) _ (/ sqrt (1 - y)) E3) as (z & Ez & Hz); [lra|].
  assert (X2 : 0 <= x * x <= x * (2 / 100)) by nra. assert (X3 : 0 <= x * x * x <= 1 / 1000) by nra.
  split; [lra|]. split; [lra|]. split.
  { split; [|lra]. unfold q. rewrite <- sqrt_1 at 1. apply sqrt_le_1_alt. lra. }
  assert (P := pnorm_bound p2F low2 E r S n z (b2 r S) norm2 HE Hr HS' ltac:(lra) ltac:(lra) ltac:(apply Rabs_le; lra)).
  rewrite low2_val in P.
  assert (V : peeval (env6 E r S n z (b2 r S)) p2F = - q + (1 - S * T) * (1 + E * r * q * / sqrt (1 - y))).
  { rewrite Ez, Eq. unfold y, x, T, gT. unfold p2F, pisg, p2y, p2S, p2x, pE3, pk, pT, PS, one, vE, vr, vS, vn, vz, vb, env6.
    cbn [peeval nth]. unfold Q2R. cbn [Qnum Qden]. field. }
  rewrite V in P. set (F := - q + (1 - S * T) * (1 + E * r * q * / sqrt (1 - y))) in *. clearbody F. assert (L := lead2 r S Hr HS).
  replace (F - _) with (F - E ^ 3 * (r * r * r * (2 - 9 * S + 8 * (S * S)) + r * r * (5 / 2 * S - 7 / 2 * (S * S)) + 3 / 8 * (r * (S * S)))) in P by (unfold b2; field).
  set (G := r * r * r * (2 - 9 * S + 8 * (S * S)) + r * r * (5 / 2 * S - 7 / 2 * (S * S)) + 3 / 8 * (r * (S * S))) in *. clearbody G.
  clear - P L E3. replace F with ((F - E ^ 3 * G) + E ^ 3 * G) by ring. eapply Rle_trans; [apply Rabs_triang|].
  assert (E3' : 0 < E ^ 3) by (replace (E ^ 3) with (E * (E * E)) by ring; exact E3). rewrite (Rabs_mult (E ^ 3)), (Rabs_pos_eq (E ^ 3)) by lra. nra.
Qed.
