(** * The two-state covariance recursion and its steady state *)
From Coq Require Import Reals ZArith Lra Psatz.
From Verif Require Import Num Vec Mat6 M_vector M_obs S_rot S_steady P_obs P_obs3.
Local Open Scope R_scope.

(** ** symmetric 2x2 matrices (p q; q r) as forms *)
Definition fm (p q r a b : R) : R := p * a * a + 2 * q * a * b + r * b * b.
Lemma fm_low p q r : 0 < p -> 0 < p * r - q * q -> exists e, 0 < e /\ forall a b, e * (a * a + b * b) <= fm p q r a b.
Proof.
  intros P D. assert (Rp : 0 < r) by (apply (Rmult_lt_reg_l p); [exact P|nra]). exists ((p * r - q * q) / (p + r)). assert (E0 : 0 < (p * r - q * q) / (p + r)) by (apply Rdiv_lt_0_compat; lra). split; [exact E0|].
  intros a b. set (e := (p * r - q * q) / (p + r)) in *. assert (EE : e * (p + r) = p * r - q * q) by (unfold e; field; lra). assert (EP : 0 < p - e). { apply (Rmult_lt_reg_r (p + r)); [lra|]. rewrite Rmult_minus_distr_r, EE. nra. }
  apply Rminus_le. assert (K : (p - e) * (fm p q r a b - e * (a * a + b * b)) = ((p - e) * a + q * b) ^ 2 + e * e * b * b). { unfold fm. replace (((p - e) * a + q * b) ^ 2 + e * e * b * b) with ((p - e) * ((p - e) * a * a + 2 * q * a * b) + (q * q + e * e) * b * b) by ring. replace (q * q) with (p * r - e * (p + r)) by lra. ring. }
  assert (0 <= ((p - e) * a + q * b) ^ 2) by apply pow2_ge_0. assert (0 <= e * e * b * b) by (replace (e * e * b * b) with ((e * b) * (e * b)) by ring; apply Rle_0_sqr).
  assert (0 <= fm p q r a b - e * (a * a + b * b)); [|lra]. apply (Rmult_le_reg_l (p - e)); [exact EP|]. rewrite K. lra.
Qed.
Lemma fm_dom p q r p' q' r' : 0 < p -> 0 < p * r - q * q -> exists g, 1 <= g /\ forall a b, fm p' q' r' a b <= g * fm p q r a b.
Proof.
  intros P D. destruct (fm_low p q r P D) as (e & E & L). set (M := Rabs p' + Rabs q' + Rabs r'). assert (M0 : 0 <= M) by (unfold M; assert (A := Rabs_pos p'); assert (B := Rabs_pos q'); assert (C := Rabs_pos r'); lra).
  exists (1 + M / e). assert (ME : 0 <= M / e) by (apply Rmult_le_pos; [exact M0|left; apply Rinv_0_lt_compat, E]). split; [lra|]. intros a b. assert (F0 : 0 <= fm p q r a b). { assert (Q := L a b). nra. }
  apply Rle_trans with (M * (a * a + b * b)).
  - unfold fm, M. assert (A := Rle_abs p'). assert (B := Rle_abs q'). assert (B' := Rle_abs (- q')). rewrite Rabs_Ropp in B'. assert (C := Rle_abs r'). assert (A0 := Rabs_pos p'). assert (B0 := Rabs_pos q'). assert (C0 := Rabs_pos r').
    assert (p' * a * a <= Rabs p' * (a * a)) by nra. assert (r' * b * b <= Rabs r' * (b * b)) by nra. assert (2 * q' * a * b <= Rabs q' * (a * a + b * b)). { assert (0 <= (a - b) ^ 2) by apply pow2_ge_0. assert (0 <= (a + b) ^ 2) by apply pow2_ge_0. destruct (Rle_lt_dec 0 (a * b)); nra. }
    assert (0 <= a * a) by apply Rle_0_sqr. assert (0 <= b * b) by apply Rle_0_sqr. nra.
  - assert (Q := L a b). apply Rle_trans with (M / e * fm p q r a b); [|nra]. apply Rle_trans with (M / e * (e * (a * a + b * b))); [right; field; lra|]. apply Rmult_le_compat_l; assumption.
Qed.
Lemma fm_entries p q r p' q' r' M : (forall a b, Rabs (fm p q r a b - fm p' q' r' a b) <= M * fm p' q' r' a b) ->
  Rabs (p - p') <= M * p' /\ Rabs (r - r') <= M * r' /\ Rabs (q - q') <= M * (p' + r' + q').
Proof.
  intros H. assert (A := H 1 0). assert (B := H 0 1). assert (C := H 1 1). unfold fm in A, B, C.
  replace (p * 1 * 1 + 2 * q * 1 * 0 + r * 0 * 0 - (p' * 1 * 1 + 2 * q' * 1 * 0 + r' * 0 * 0)) with (p - p') in A by ring. replace (p' * 1 * 1 + 2 * q' * 1 * 0 + r' * 0 * 0) with p' in A by ring.
  replace (p * 0 * 0 + 2 * q * 0 * 1 + r * 1 * 1 - (p' * 0 * 0 + 2 * q' * 0 * 1 + r' * 1 * 1)) with (r - r') in B by ring. replace (p' * 0 * 0 + 2 * q' * 0 * 1 + r' * 1 * 1) with r' in B by ring.
  replace (p * 1 * 1 + 2 * q * 1 * 1 + r * 1 * 1 - (p' * 1 * 1 + 2 * q' * 1 * 1 + r' * 1 * 1)) with ((p - p') + 2 * (q - q') + (r - r')) in C by ring. replace (p' * 1 * 1 + 2 * q' * 1 * 1 + r' * 1 * 1) with (p' + 2 * q' + r') in C by ring.
  split; [exact A|]. split; [exact B|]. revert A B C. unfold Rabs. repeat destruct (Rcase_abs _); intros; nra.
Qed.

Section Recursion.
Context (h a c d Rv : R) (Hh : 0 < h) (Ha : d * h * h / 4 < a) (Hc : - (d * h) / 2 <= c) (Hd : 0 < d) (HR : 0 < Rv) (HN : 0 < a * d - c * c).
(** propagation over h, then a measurement of the first component with variance Rv *)
Definition pre_p (p q r : R) := p - 2 * h * q + h * h * r + a.
Definition pre_q (p q r : R) := q - h * r + c.
Definition pre_r (p q r : R) := r + d.
Definition nx_p (p q r : R) := pre_p p q r - pre_p p q r * pre_p p q r / (pre_p p q r + Rv).
Definition nx_q (p q r : R) := pre_q p q r - pre_p p q r * pre_q p q r / (pre_p p q r + Rv).
Definition nx_r (p q r : R) := pre_r p q r - pre_q p q r * pre_q p q r / (pre_p p q r + Rv).
Definition psd (p q r : R) := forall x y, 0 <= fm p q r x y.
Definition cost (p q r x y l : R) := fm p q r (x - l) (y - h * (x - l)) + fm a c d (x - l) y + Rv * l * l.
Lemma a_pos : 0 < a. Proof. assert (0 < d * h * h) by (repeat apply Rmult_lt_0_compat; assumption). lra. Qed.
Lemma pre_pos p q r : psd p q r -> 0 < pre_p p q r.
Proof. intros H. assert (A0 := a_pos). assert (Q := H 1 (- h)). unfold fm, pre_p in *. lra. Qed.
Lemma nx_cost p q r x y l : psd p q r -> fm (nx_p p q r) (nx_q p q r) (nx_r p q r) x y <= cost p q r x y l.
Proof.
  intros H. assert (P := pre_pos p q r H). set (P0 := pre_p p q r) in *. set (S := P0 + Rv). assert (S0 : 0 < S) by (unfold S; lra).
  assert (E : cost p q r x y l - fm (nx_p p q r) (nx_q p q r) (nx_r p q r) x y = (S * l - (P0 * x + pre_q p q r * y)) ^ 2 / S).
  { unfold cost, nx_p, nx_q, nx_r, fm. fold P0. fold S. unfold S. field_simplify_eq; [|unfold S in S0; lra]. unfold P0, pre_p, pre_q, pre_r. ring. }
  assert (0 <= (S * l - (P0 * x + pre_q p q r * y)) ^ 2 / S); [|lra]. apply Rmult_le_pos; [apply pow2_ge_0|left; apply Rinv_0_lt_compat, S0].
Qed.
Lemma nx_best p q r x y : psd p q r -> exists l, fm (nx_p p q r) (nx_q p q r) (nx_r p q r) x y = cost p q r x y l.
Proof.
  intros H. assert (P := pre_pos p q r H). set (P0 := pre_p p q r) in *. exists ((P0 * x + pre_q p q r * y) / (P0 + Rv)). unfold cost, nx_p, nx_q, nx_r, fm. fold P0. field_simplify_eq; [|lra]. unfold P0, pre_p, pre_q, pre_r. ring.
Qed.
Lemma N_psd x y : 0 <= fm a c d x y. Proof. destruct (fm_low a c d a_pos HN) as (e & E & L). assert (Q := L x y). nra. Qed.
Lemma nx_psd p q r : psd p q r -> psd (nx_p p q r) (nx_q p q r) (nx_r p q r).
Proof.
  intros H x y. destruct (nx_best p q r x y H) as [l ->]. unfold cost. assert (A := H (x - l) (y - h * (x - l))). assert (B := N_psd (x - l) y). nra.
Qed.
Lemma zero_psd : psd 0 0 0. Proof. intros x y. unfold fm. lra. Qed.
Lemma nx_zero_pd : 0 < nx_p 0 0 0 /\ 0 < nx_p 0 0 0 * nx_r 0 0 0 - nx_q 0 0 0 * nx_q 0 0 0.
Proof.
  assert (A0 := a_pos). assert (P : nx_p 0 0 0 = a * Rv / (a + Rv)) by (unfold nx_p, pre_p; field_simplify_eq; [ring|lra]).
  assert (Q : nx_q 0 0 0 = c * Rv / (a + Rv)) by (unfold nx_q, pre_p, pre_q; field_simplify_eq; [ring|lra]).
  assert (R0 : nx_r 0 0 0 = (a * d - c * c + d * Rv) / (a + Rv)) by (unfold nx_r, pre_p, pre_q, pre_r; field_simplify_eq; [ring|lra]).
  rewrite P, Q, R0. split; [apply Rdiv_lt_0_compat; nra|]. replace (a * Rv / (a + Rv) * ((a * d - c * c + d * Rv) / (a + Rv)) - c * Rv / (a + Rv) * (c * Rv / (a + Rv))) with (Rv * (a * d - c * c) / (a + Rv)) by (field; lra).
  apply Rdiv_lt_0_compat; [apply Rmult_lt_0_compat; assumption|lra].
Qed.
(** ** the steady state *)
Local Notation stm0 := (st_m h a c d Rv).
Local Notation stu0 := (st_u h a c d Rv).
Local Notation stp0 := (st_p h a c d Rv).
Local Notation stq0 := (st_q h a c d Rv).
Local Notation str0 := (st_r h a c d Rv).
Lemma st_facts : 0 < sqrt d /\ 0 < stu0 /\ Rv < stu0 * stu0 /\
  (stu0 * stu0 - Rv) ^ 2 = h * sqrt d * stu0 * (stu0 * stu0 + Rv) + (h * c + a) * (stu0 * stu0) /\
  exists s, 0 < s /\ stu0 * stu0 - Rv = s * stu0 /\ h * sqrt d / 2 < stm0 /\ stu0 = (stm0 + s) / 2.
Proof.
  assert (E0 := sqrt_lt_R0 d Hd). set (e := sqrt d) in *. assert (EE : e * e = d) by (apply sqrt_sqrt; lra). assert (HC : - (d * h * h) / 2 <= h * c) by nra. assert (A0 := a_pos).
  assert (DD : 0 < h * h * d + 4 * (4 * Rv + a + h * c)) by lra.
  assert (M0 : h * e / 2 < stm0). { unfold st_m. fold e. assert (A := sqrt_lt_R0 _ DD). lra. }
  assert (M2 : stm0 * stm0 = h * e * stm0 + (4 * Rv + a + h * c)).
  { unfold st_m. fold e. set (s := sqrt (h * h * d + 4 * (4 * Rv + a + h * c))). assert (SS : s * s = h * h * d + 4 * (4 * Rv + a + h * c)) by (apply sqrt_sqrt; lra). rewrite <- EE in SS. nra. }
  assert (M1 : 0 < stm0) by (assert (0 < h * e) by (apply Rmult_lt_0_compat; assumption); lra).
  unfold st_u. set (m := stm0) in *. clearbody m. assert (K0 : 0 < m * m - 4 * Rv). { rewrite M2. assert (HE : 0 < h * e) by (apply Rmult_lt_0_compat; assumption). assert (h * e * (h * e / 2) < h * e * m) by (apply Rmult_lt_compat_l; assumption). replace (h * e * (h * e / 2)) with (d * h * h / 2) in H by (rewrite <- EE; field). lra. }
  assert (T0 := sqrt_lt_R0 _ K0). set (s := sqrt (m * m - 4 * Rv)) in *. assert (TT : s * s = m * m - 4 * Rv) by (apply sqrt_sqrt; lra). clearbody s e.
  set (u := (m + s) / 2) in *. assert (U0 : 0 < u) by (unfold u; lra). assert (UM : u * u + Rv = m * u) by (unfold u; nra).
  assert (US : u * u - Rv = s * u) by (unfold u; nra). split; [exact E0|]. split; [exact U0|]. split; [assert (0 < s * u) by (apply Rmult_lt_0_compat; assumption); lra|]. split.
  - rewrite UM, US. replace ((s * u) ^ 2) with (s * s * (u * u)) by ring. rewrite TT, M2. ring.
  - exists s. split; [exact T0|]. split; [exact US|]. split; [exact M0|reflexivity].
Qed.
Lemma st_fixed : nx_p stp0 stq0 str0 = stp0 /\ nx_q stp0 stq0 str0 = stq0 /\ nx_r stp0 stq0 str0 = str0.
Proof.
  destruct st_facts as (E0 & U0 & UR & EQ & _). set (e := sqrt d) in *. set (u := stu0) in *. assert (EE : e * e = d) by (apply sqrt_sqrt; lra).
  assert (PP : pre_p stp0 stq0 str0 = u * u - Rv).
  { unfold pre_p, stp0, stq0, str0. fold e. fold u. apply (Rmult_eq_reg_r (u * u)); [|nra]. transitivity ((u * u - Rv) ^ 2 + Rv * (u * u - Rv)); [|ring]. rewrite EQ. field. split; lra. }
  assert (PQ : pre_q stp0 stq0 str0 = - e * u) by (unfold pre_q, stq0, str0; fold e; fold u; field; lra).
  unfold nx_p, nx_q, nx_r. rewrite PP, PQ. replace (u * u - Rv + Rv) with (u * u) by ring. split; [|split].
  - unfold stp0. fold u. field. lra.
  - unfold stq0. fold e. fold u. field. lra.
  - unfold pre_r. rewrite <- EE. field. lra.
Qed.
Lemma st_pd : 0 < stp0 /\ 0 < stp0 * str0 - stq0 * stq0.
Proof.
  destruct st_facts as (E0 & U0 & UR & EQ & s & S0 & US & M0 & UE). assert (A0 := a_pos). assert (EE : sqrt d * sqrt d = d) by (apply sqrt_sqrt; lra). unfold st_p, st_q, st_r. set (e := sqrt d) in *. set (u := stu0) in *. set (m := stm0) in *. clearbody e u m. assert (UU : 0 < u * u) by nra. split.
  - replace (Rv * (1 - Rv / (u * u))) with (Rv * (u * u - Rv) / (u * u)) by (field; lra). apply Rdiv_lt_0_compat; [apply Rmult_lt_0_compat; lra|exact UU].
  - replace (Rv * (1 - Rv / (u * u)) * ((c + e * (u - Rv / u)) / h) - - e * Rv / u * (- e * Rv / u)) with (Rv * ((u * u - Rv) * c * u + (e * (u * u - Rv) ^ 2 - e * e * Rv * h * u)) / (h * u * (u * u))) by (field; lra).
    apply Rdiv_lt_0_compat; [|apply Rmult_lt_0_compat; nra]. apply Rmult_lt_0_compat; [exact HR|]. rewrite EQ, US. replace (s * u * c * u + (e * (h * e * u * (u * u + Rv) + (h * c + a) * (u * u)) - e * e * Rv * h * u)) with (u * u * (c * (s + e * h) + e * a + h * (e * e) * u)) by ring.
    apply Rmult_lt_0_compat; [exact UU|]. rewrite EE. assert (EH : 0 < e * h) by (apply Rmult_lt_0_compat; assumption). assert (C1 : - (d * h) / 2 * (s + e * h) <= c * (s + e * h)) by (apply Rmult_le_compat_r; lra).
    assert (C2 : h * d * (h * e / 2) < h * d * m) by (apply Rmult_lt_compat_l; [apply Rmult_lt_0_compat; assumption|exact M0]). assert (C3 : e * (d * h * h / 4) < e * a) by (apply Rmult_lt_compat_l; assumption). rewrite UE. nra.
Qed.
Lemma st_psd : psd stp0 stq0 str0. Proof. destruct st_pd as [A B]. destruct (fm_low _ _ _ A B) as (e & E & L). intros x y. assert (Q := L x y). nra. Qed.

(** ** convergence *)
Theorem recursion_converges : exists rho, 0 <= rho < 1 /\ forall p q r : nat -> R, psd (p O) (q O) (r O) ->
  (forall k, p (S k) = nx_p (p k) (q k) (r k) /\ q (S k) = nx_q (p k) (q k) (r k) /\ r (S k) = nx_r (p k) (q k) (r k)) ->
  exists M, forall k, Rabs (p k - stp0) <= M * rho ^ k /\ Rabs (q k - stq0) <= M * rho ^ k /\ Rabs (r k - str0) <= M * rho ^ k.
Proof.
  destruct nx_zero_pd as [Z1 Z2]. destruct (fm_dom _ _ _ stp0 stq0 str0 Z1 Z2) as (g & G1 & G). set (eta := / g). assert (ET : 0 < eta <= 1). { unfold eta. split; [apply Rinv_0_lt_compat; lra|]. rewrite <- Rinv_1. apply Rinv_le_contravar; lra. }
  assert (G0 : forall x y, eta * fm stp0 stq0 str0 x y <= fm (nx_p 0 0 0) (nx_q 0 0 0) (nx_r 0 0 0) x y). { intros x y. apply (Rmult_le_reg_l g); [lra|]. replace (g * (eta * fm stp0 stq0 str0 x y)) with (fm stp0 stq0 str0 x y) by (unfold eta; field; lra). apply G. }
  exists (1 - eta). split; [lra|]. intros p q r H0 HS. assert (PS : forall k, psd (p k) (q k) (r k)). { induction k as [|k IH]; [exact H0|]. destruct (HS k) as (-> & -> & ->). apply nx_psd, IH. }
  destruct st_pd as [S1 S2]. destruct (fm_dom _ _ _ (p O) (q O) (r O) S1 S2) as (g0 & G01 & GX).
  destruct st_fixed as (F1 & F2 & F3). assert (ZC : forall x y l, fm (nx_p 0 0 0) (nx_q 0 0 0) (nx_r 0 0 0) x y <= fm a c d (x - l) y + Rv * l * l). { intros x y l. assert (Q := nx_cost 0 0 0 x y l zero_psd). unfold cost in Q. unfold fm in Q at 2. lra. }
  assert (LOW : forall k x y, (1 - (1 - eta) ^ k) * fm stp0 stq0 str0 x y <= fm (p k) (q k) (r k) x y).
  { induction k as [|k IH]; intros x y; [cbn [pow]; assert (Q := H0 x y); lra|]. set (th := 1 - (1 - eta) ^ k) in *. assert (TH : 0 <= 1 - th) by (unfold th; assert (0 <= (1 - eta) ^ k) by (apply pow_le; lra); lra).
    destruct (HS k) as (-> & -> & ->). destruct (nx_best _ _ _ x y (PS k)) as [l ->]. assert (A := IH (x - l) (y - h * (x - l))). assert (B := ZC x y l). assert (C := nx_cost stp0 stq0 str0 x y l st_psd). rewrite F1, F2, F3 in C. assert (D := G0 x y).
    unfold cost in *. set (X := fm stp0 stq0 str0 x y) in *. set (Y := fm stp0 stq0 str0 (x - l) (y - h * (x - l))) in *. set (N := fm a c d (x - l) y + Rv * l * l) in *. assert (TH1 : 0 <= th). { unfold th. assert (PW : (1 - eta) ^ k <= 1 ^ k) by (apply pow_incr; lra). rewrite pow1 in PW. lra. }
    replace (1 - (1 - eta) ^ S k) with (th + (1 - th) * eta) by (unfold th; cbn [pow]; ring). assert (th * X <= th * (Y + N)) by (apply Rmult_le_compat_l; [exact TH1|unfold N; lra]). assert ((1 - th) * (eta * X) <= (1 - th) * N) by (apply Rmult_le_compat_l; [exact TH|lra]). unfold N in *. lra. }
  assert (UPP : forall k x y, fm (p k) (q k) (r k) x y <= (1 + (g0 - 1) * (1 - eta) ^ k) * fm stp0 stq0 str0 x y).
  { induction k as [|k IH]; intros x y; [cbn [pow]; replace (1 + (g0 - 1) * 1) with g0 by ring; apply GX|]. set (ga := (g0 - 1) * (1 - eta) ^ k) in *. assert (GA : 0 <= ga) by (unfold ga; apply Rmult_le_pos; [lra|apply pow_le; lra]).
    destruct (HS k) as (-> & -> & ->). destruct (nx_best _ _ _ x y st_psd) as [l El]. rewrite F1, F2, F3 in El. assert (C := nx_cost _ _ _ x y l (PS k)). assert (A := IH (x - l) (y - h * (x - l))). assert (B := ZC x y l). assert (D := G0 x y).
    unfold cost in *. set (X := fm stp0 stq0 str0 x y) in *. set (Y := fm stp0 stq0 str0 (x - l) (y - h * (x - l))) in *. set (N := fm a c d (x - l) y + Rv * l * l) in *.
    replace (1 + (g0 - 1) * (1 - eta) ^ S k) with (1 + ga - ga * eta) by (unfold ga; cbn [pow]; ring). assert (ga * (eta * X) <= ga * N) by (apply Rmult_le_compat_l; [exact GA|lra]). assert (XE : X = Y + N) by (unfold N; lra). unfold N in *. nra. }
  set (M0 := 1 + g0). exists (M0 * (Rabs stp0 + Rabs stq0 + Rabs str0)). intros k. assert (RK : 0 <= (1 - eta) ^ k) by (apply pow_le; lra).
  destruct (fm_entries (p k) (q k) (r k) stp0 stq0 str0 (M0 * (1 - eta) ^ k)) as (A & B & C).
  { intros x y. assert (L := LOW k x y). assert (U := UPP k x y). assert (P := st_psd x y). set (X := fm stp0 stq0 str0 x y) in *. set (rk := (1 - eta) ^ k) in *. assert (0 <= rk * X) by (apply Rmult_le_pos; assumption). apply Rabs_le. unfold M0. split; nra. }
  assert (A0 := Rle_abs stp0). assert (B0 := Rle_abs stq0). assert (C0 := Rle_abs str0). assert (B1 := Rabs_pos stq0). assert (A1 := Rabs_pos stp0). assert (C1 := Rabs_pos str0). set (mk := M0 * (1 - eta) ^ k) in *. assert (MK : 0 <= mk) by (unfold mk, M0; apply Rmult_le_pos; lra).
  replace (M0 * (Rabs stp0 + Rabs stq0 + Rabs str0) * (1 - eta) ^ k) with (mk * (Rabs stp0 + Rabs stq0 + Rabs str0)) by (unfold mk; ring).
  split; [|split]; (eapply Rle_trans; [eassumption|apply Rmult_le_compat_l; [exact MK|lra]]).
Qed.
End Recursion.
(** more noise, larger steady variances *)
Lemma st_mono h d v a c a' c' : 0 < h -> 0 < d -> 0 < v -> d * h * h / 4 < a -> - (d * h) / 2 <= c -> 0 < a * d - c * c ->
  d * h * h / 4 < a' -> - (d * h) / 2 <= c' -> 0 < a' * d - c' * c' -> a + h * c < a' + h * c' -> c <= c' ->
  st_p h a c d v < st_p h a' c' d v /\ st_r h a c d v < st_r h a' c' d v.
Proof.
  intros Hh Hd Hv A C N A' C' N' L LC. destruct (st_facts h a c d v Hh A C Hd Hv) as (E0 & U0 & UR & _ & s & S0 & US & M0 & UE). destruct (st_facts h a' c' d v Hh A' C' Hd Hv) as (_ & U0' & UR' & _ & s' & S0' & US' & M0' & UE').
  assert (MM : st_m h a c d v < st_m h a' c' d v). { unfold st_m. apply Rmult_lt_compat_r; [lra|]. apply Rplus_lt_compat_l, sqrt_lt_1_alt. split; [|lra]. nra. }
  assert (MP : 0 < st_m h a c d v) by (assert (0 < h * sqrt d) by (apply Rmult_lt_0_compat; assumption); lra).
  assert (UU : st_u h a c d v < st_u h a' c' d v).
  { unfold st_u in *. set (m := st_m h a c d v) in *. set (m' := st_m h a' c' d v) in *. clearbody m m'. apply Rmult_lt_compat_r; [lra|]. apply Rplus_lt_compat; [exact MM|]. assert (M2 : m * m < m' * m') by (apply Rmult_le_0_lt_compat; lra). apply sqrt_lt_1_alt. split; [|lra].
    assert (S1 : s = sqrt (m * m - 4 * v)) by lra. destruct (Rle_lt_dec 0 (m * m - 4 * v)) as [K|K]; [exact K|]. rewrite sqrt_neg_0 in S1 by lra. lra. }
  unfold st_p, st_r. set (u := st_u h a c d v) in *. set (u' := st_u h a' c' d v) in *. clearbody u u'. assert (VU : v / u' < v / u) by (apply Rmult_lt_compat_l; [exact Hv|apply Rinv_lt_contravar; [apply Rmult_lt_0_compat; assumption|exact UU]]).
  assert (V2 : v / (u' * u') < v / (u * u)) by (apply Rmult_lt_compat_l; [exact Hv|apply Rinv_lt_contravar; [repeat apply Rmult_lt_0_compat; assumption|apply Rmult_le_0_lt_compat; lra]]).
  split; [apply Rmult_lt_compat_l; lra|]. apply Rmult_lt_compat_r; [apply Rinv_0_lt_compat, Hh|]. apply Rplus_le_lt_compat; [exact LC|]. apply Rmult_lt_compat_l; lra.
Qed.
