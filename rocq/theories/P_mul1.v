(** * Lemmas: the two-state covariance recursion under weaker conditions on its noise, as several gyro steps per measurement need *)
From Coq Require Import Reals ZArith Lra Psatz.
From Verif Require Import Num Vec Mat6 M_vector M_obs S_rot S_steady P_obs P_obs3 P_steady.
Local Open Scope R_scope.

Section Weak.
Context (h a c d Rv : R) (Hh : 0 < h) (Ha : 0 < a) (Hc : - (d * h) / 2 <= c) (Hd : 0 < d) (HR : 0 < Rv) (HN : 0 < a * d - c * c).
Local Notation pre_p := (P_steady.pre_p h a).
Local Notation pre_q := (P_steady.pre_q h c).
Local Notation pre_r := (P_steady.pre_r d).
Local Notation nx_p := (P_steady.nx_p h a Rv).
Local Notation nx_q := (P_steady.nx_q h a c Rv).
Local Notation nx_r := (P_steady.nx_r h a c d Rv).
Local Notation cost := (P_steady.cost h a c d Rv).
Lemma pre_pos_w p q r : psd p q r -> 0 < pre_p p q r.
Proof. intros H. assert (A0 := Ha). assert (Q := H 1 (- h)). unfold fm, P_steady.pre_p in *. lra. Qed.
Lemma nx_cost_w p q r x y l : psd p q r -> fm (nx_p p q r) (nx_q p q r) (nx_r p q r) x y <= cost p q r x y l.
Proof.
  intros H. assert (P := pre_pos_w p q r H). set (P0 := pre_p p q r) in *. set (S := P0 + Rv). assert (S0 : 0 < S) by (unfold S; lra).
  assert (E : cost p q r x y l - fm (nx_p p q r) (nx_q p q r) (nx_r p q r) x y = (S * l - (P0 * x + pre_q p q r * y)) ^ 2 / S).
  { unfold P_steady.cost, P_steady.nx_p, P_steady.nx_q, P_steady.nx_r, fm. fold P0. fold S. unfold S. field_simplify_eq; [|unfold S in S0; lra]. unfold P0, P_steady.pre_p, P_steady.pre_q, P_steady.pre_r. ring. }
  assert (0 <= (S * l - (P0 * x + pre_q p q r * y)) ^ 2 / S); [|lra]. apply Rmult_le_pos; [apply pow2_ge_0|left; apply Rinv_0_lt_compat, S0].
Qed.
Lemma nx_best_w p q r x y : psd p q r -> exists l, fm (nx_p p q r) (nx_q p q r) (nx_r p q r) x y = cost p q r x y l.
Proof.
  intros H. assert (P := pre_pos_w p q r H). set (P0 := pre_p p q r) in *. exists ((P0 * x + pre_q p q r * y) / (P0 + Rv)). unfold P_steady.cost, P_steady.nx_p, P_steady.nx_q, P_steady.nx_r, fm. fold P0. field_simplify_eq; [|lra]. unfold P0, P_steady.pre_p, P_steady.pre_q, P_steady.pre_r. ring.
Qed.
Lemma N_psd_w x y : 0 <= fm a c d x y. Proof. destruct (fm_low a c d Ha HN) as (e & E & L). assert (Q := L x y). nra. Qed.
Lemma nx_psd_w p q r : psd p q r -> psd (nx_p p q r) (nx_q p q r) (nx_r p q r).
Proof.
  intros H x y. destruct (nx_best_w p q r x y H) as [l ->]. unfold P_steady.cost. assert (A := H (x - l) (y - h * (x - l))). assert (B := N_psd_w (x - l) y). nra.
Qed.
Lemma nx_zero_pd_w : 0 < nx_p 0 0 0 /\ 0 < nx_p 0 0 0 * nx_r 0 0 0 - nx_q 0 0 0 * nx_q 0 0 0.
Proof.
  assert (A0 := Ha). assert (P : nx_p 0 0 0 = a * Rv / (a + Rv)) by (unfold P_steady.nx_p, P_steady.pre_p; field_simplify_eq; [ring|lra]).
  assert (Q : nx_q 0 0 0 = c * Rv / (a + Rv)) by (unfold P_steady.nx_q, P_steady.pre_p, P_steady.pre_q; field_simplify_eq; [ring|lra]).
  assert (R0 : nx_r 0 0 0 = (a * d - c * c + d * Rv) / (a + Rv)) by (unfold P_steady.nx_r, P_steady.pre_p, P_steady.pre_q, P_steady.pre_r; field_simplify_eq; [ring|lra]).
  rewrite P, Q, R0. split; [apply Rdiv_lt_0_compat; nra|]. replace (a * Rv / (a + Rv) * ((a * d - c * c + d * Rv) / (a + Rv)) - c * Rv / (a + Rv) * (c * Rv / (a + Rv))) with (Rv * (a * d - c * c) / (a + Rv)) by (field; lra).
  apply Rdiv_lt_0_compat; [apply Rmult_lt_0_compat; assumption|lra].
Qed.
Lemma noise_sum : 0 < a + h * c + h * h * d / 4.
Proof. apply (Rmult_lt_reg_l d); [exact Hd|]. rewrite Rmult_0_r. replace (d * (a + h * c + h * h * d / 4)) with (a * d - c * c + (c + h * d / 2) ^ 2) by field. assert (0 <= (c + h * d / 2) ^ 2) by apply pow2_ge_0. lra. Qed.
(** ** the steady state *)
Local Notation stm0 := (st_m h a c d Rv).
Local Notation stu0 := (st_u h a c d Rv).
Local Notation stp0 := (st_p h a c d Rv).
Local Notation stq0 := (st_q h a c d Rv).
Local Notation str0 := (st_r h a c d Rv).
Lemma st_facts_w : 0 < sqrt d /\ 0 < stu0 /\ Rv < stu0 * stu0 /\
  (stu0 * stu0 - Rv) ^ 2 = h * sqrt d * stu0 * (stu0 * stu0 + Rv) + (h * c + a) * (stu0 * stu0) /\
  exists s, 0 < s /\ stu0 * stu0 - Rv = s * stu0 /\ h * sqrt d / 2 < stm0 /\ stu0 = (stm0 + s) / 2.
Proof.
  assert (E0 := sqrt_lt_R0 d Hd). set (e := sqrt d) in *. assert (EE : e * e = d) by (apply sqrt_sqrt; lra). assert (HC : - (d * h * h) / 2 <= h * c) by nra. assert (A0 := a_pos).
  assert (NS := noise_sum). assert (DD : 0 < h * h * d + 4 * (4 * Rv + a + h * c)) by lra.
  assert (M0 : h * e / 2 < stm0). { unfold st_m. fold e. assert (A := sqrt_lt_R0 _ DD). lra. }
  assert (M2 : stm0 * stm0 = h * e * stm0 + (4 * Rv + a + h * c)).
  { unfold st_m. fold e. set (s := sqrt (h * h * d + 4 * (4 * Rv + a + h * c))). assert (SS : s * s = h * h * d + 4 * (4 * Rv + a + h * c)) by (apply sqrt_sqrt; lra). rewrite <- EE in SS. nra. }
  assert (M1 : 0 < stm0) by (assert (0 < h * e) by (apply Rmult_lt_0_compat; assumption); lra).
  unfold st_u. set (m := stm0) in *. clearbody m. assert (K0 : 0 < m * m - 4 * Rv). { rewrite M2. assert (HE : 0 < h * e) by (apply Rmult_lt_0_compat; assumption). assert (h * e * (h * e / 2) < h * e * m) by (apply Rmult_lt_compat_l; assumption). replace (h * e * (h * e / 2)) with (d * h * h / 2) in H by (rewrite <- EE; field). lra. }
  assert (T0 := sqrt_lt_R0 _ K0). set (s := sqrt (m * m - 4 * Rv)) in *. assert (TT : s * s = m * m - 4 * Rv) by (apply sqrt_sqrt; lra). clearbody s e.
  set (u := (m + s) / 2) in *. assert (U0 : 0 < u) by (unfold u; lra). assert (UM : u * u + Rv = m * u) by (unfold u; nra).
  assert (US : u * u - Rv = s * u) by (unfold u; nra). split; [exact E0|]. split; [exact U0|]. split; [assert (0 < s * u) by (apply Rmult_lt_0_compat; assumption); lra|]. split.
  - rewrite UM, US. replace ((s * u) ^ 2) with (s * s * (u * u)) by ring. rewrite TT, M2. ring.
  - exists s. split; [exact T0|]. split; [exact US|]. split; [exact M0|reflexivity].
Qed.
Lemma st_fixed_w : nx_p stp0 stq0 str0 = stp0 /\ nx_q stp0 stq0 str0 = stq0 /\ nx_r stp0 stq0 str0 = str0.
Proof.
  destruct st_facts_w as (E0 & U0 & UR & EQ & _). set (e := sqrt d) in *. set (u := stu0) in *. assert (EE : e * e = d) by (apply sqrt_sqrt; lra).
  assert (PP : pre_p stp0 stq0 str0 = u * u - Rv).
  { unfold P_steady.pre_p, stp0, stq0, str0. fold e. fold u. apply (Rmult_eq_reg_r (u * u)); [|nra]. transitivity ((u * u - Rv) ^ 2 + Rv * (u * u - Rv)); [|ring]. rewrite EQ. field. split; lra. }
  assert (PQ : pre_q stp0 stq0 str0 = - e * u) by (unfold P_steady.pre_q, stq0, str0; fold e; fold u; field; lra).
  unfold P_steady.nx_p, P_steady.nx_q, P_steady.nx_r. rewrite PP, PQ. replace (u * u - Rv + Rv) with (u * u) by ring. split; [|split].
  - unfold stp0. fold u. field. lra.
  - unfold stq0. fold e. fold u. field. lra.
  - unfold P_steady.pre_r. rewrite <- EE. field. lra.
Qed.
Lemma st_pd_w : 0 < stp0 /\ 0 < stp0 * str0 - stq0 * stq0.
Proof.
  destruct st_facts_w as (E0 & U0 & UR & EQ & s & S0 & US & M0 & UE). assert (A0 := Ha). assert (EE : sqrt d * sqrt d = d) by (apply sqrt_sqrt; lra). unfold st_p, st_q, st_r. set (e := sqrt d) in *. set (u := stu0) in *. set (m := stm0) in *. clearbody e u m. assert (UU : 0 < u * u) by nra. split.
  - replace (Rv * (1 - Rv / (u * u))) with (Rv * (u * u - Rv) / (u * u)) by (field; lra). apply Rdiv_lt_0_compat; [apply Rmult_lt_0_compat; lra|exact UU].
  - replace (Rv * (1 - Rv / (u * u)) * ((c + e * (u - Rv / u)) / h) - - e * Rv / u * (- e * Rv / u)) with (Rv * ((u * u - Rv) * c * u + (e * (u * u - Rv) ^ 2 - e * e * Rv * h * u)) / (h * u * (u * u))) by (field; lra).
    apply Rdiv_lt_0_compat; [|apply Rmult_lt_0_compat; nra]. apply Rmult_lt_0_compat; [exact HR|]. rewrite EQ, US. replace (s * u * c * u + (e * (h * e * u * (u * u + Rv) + (h * c + a) * (u * u)) - e * e * Rv * h * u)) with (u * u * (c * (s + e * h) + e * a + h * (e * e) * u)) by ring.
    apply Rmult_lt_0_compat; [exact UU|]. rewrite EE. assert (EH : 0 < e * h) by (apply Rmult_lt_0_compat; assumption). assert (C1 : - (d * h) / 2 * s <= c * s) by (apply Rmult_le_compat_r; lra).
    assert (C2 : h * d * (h * e / 2) < h * d * m) by (apply Rmult_lt_compat_l; [apply Rmult_lt_0_compat; assumption|exact M0]). assert (NS := noise_sum). assert (C3 : 0 < e * (a + h * c + h * h * d / 4)) by (apply Rmult_lt_0_compat; assumption). rewrite UE. clear - C1 C2 C3. lra.
Qed.
Lemma st_psd_w : psd stp0 stq0 str0. Proof. destruct st_pd_w as [A B]. destruct (fm_low _ _ _ A B) as (e & E & L). intros x y. assert (Q := L x y). nra. Qed.

(** ** convergence *)
Theorem recursion_converges_w : exists rho, 0 <= rho < 1 /\ forall p q r : nat -> R, psd (p O) (q O) (r O) ->
  (forall k, p (S k) = nx_p (p k) (q k) (r k) /\ q (S k) = nx_q (p k) (q k) (r k) /\ r (S k) = nx_r (p k) (q k) (r k)) ->
  exists M, forall k, Rabs (p k - stp0) <= M * rho ^ k /\ Rabs (q k - stq0) <= M * rho ^ k /\ Rabs (r k - str0) <= M * rho ^ k.
Proof.
  destruct nx_zero_pd_w as [Z1 Z2]. destruct (fm_dom _ _ _ stp0 stq0 str0 Z1 Z2) as (g & G1 & G). set (eta := / g). assert (ET : 0 < eta <= 1). { unfold eta. split; [apply Rinv_0_lt_compat; lra|]. rewrite <- Rinv_1. apply Rinv_le_contravar; lra. }
  assert (G0 : forall x y, eta * fm stp0 stq0 str0 x y <= fm (nx_p 0 0 0) (nx_q 0 0 0) (nx_r 0 0 0) x y). { intros x y. apply (Rmult_le_reg_l g); [lra|]. replace (g * (eta * fm stp0 stq0 str0 x y)) with (fm stp0 stq0 str0 x y) by (unfold eta; field; lra). apply G. }
  exists (1 - eta). split; [lra|]. intros p q r H0 HS. assert (PS : forall k, psd (p k) (q k) (r k)). { induction k as [|k IH]; [exact H0|]. destruct (HS k) as (-> & -> & ->). apply nx_psd_w, IH. }
  destruct st_pd_w as [S1 S2]. destruct (fm_dom _ _ _ (p O) (q O) (r O) S1 S2) as (g0 & G01 & GX).
  destruct st_fixed_w as (F1 & F2 & F3). assert (ZC : forall x y l, fm (nx_p 0 0 0) (nx_q 0 0 0) (nx_r 0 0 0) x y <= fm a c d (x - l) y + Rv * l * l). { intros x y l. assert (Q := nx_cost_w 0 0 0 x y l zero_psd). unfold P_steady.cost in Q. unfold fm in Q at 2. lra. }
  assert (LOW : forall k x y, (1 - (1 - eta) ^ k) * fm stp0 stq0 str0 x y <= fm (p k) (q k) (r k) x y).
  { induction k as [|k IH]; intros x y; [cbn [pow]; assert (Q := H0 x y); lra|]. set (th := 1 - (1 - eta) ^ k) in *. assert (TH : 0 <= 1 - th) by (unfold th; assert (0 <= (1 - eta) ^ k) by (apply pow_le; lra); lra).
    destruct (HS k) as (-> & -> & ->). destruct (nx_best_w _ _ _ x y (PS k)) as [l ->]. assert (A := IH (x - l) (y - h * (x - l))). assert (B := ZC x y l). assert (C := nx_cost_w stp0 stq0 str0 x y l st_psd_w). rewrite F1, F2, F3 in C. assert (D := G0 x y).
    unfold P_steady.cost in *. set (X := fm stp0 stq0 str0 x y) in *. set (Y := fm stp0 stq0 str0 (x - l) (y - h * (x - l))) in *. set (N := fm a c d (x - l) y + Rv * l * l) in *. assert (TH1 : 0 <= th). { unfold th. assert (PW : (1 - eta) ^ k <= 1 ^ k) by (apply pow_incr; lra). rewrite pow1 in PW. lra. }
    replace (1 - (1 - eta) ^ S k) with (th + (1 - th) * eta) by (unfold th; cbn [pow]; ring). assert (th * X <= th * (Y + N)) by (apply Rmult_le_compat_l; [exact TH1|unfold N; lra]). assert ((1 - th) * (eta * X) <= (1 - th) * N) by (apply Rmult_le_compat_l; [exact TH|lra]). unfold N in *. lra. }
  assert (UPP : forall k x y, fm (p k) (q k) (r k) x y <= (1 + (g0 - 1) * (1 - eta) ^ k) * fm stp0 stq0 str0 x y).
  { induction k as [|k IH]; intros x y; [cbn [pow]; replace (1 + (g0 - 1) * 1) with g0 by ring; apply GX|]. set (ga := (g0 - 1) * (1 - eta) ^ k) in *. assert (GA : 0 <= ga) by (unfold ga; apply Rmult_le_pos; [lra|apply pow_le; lra]).
    destruct (HS k) as (-> & -> & ->). destruct (nx_best_w _ _ _ x y st_psd_w) as [l El]. rewrite F1, F2, F3 in El. assert (C := nx_cost_w _ _ _ x y l (PS k)). assert (A := IH (x - l) (y - h * (x - l))). assert (B := ZC x y l). assert (D := G0 x y).
    unfold P_steady.cost in *. set (X := fm stp0 stq0 str0 x y) in *. set (Y := fm stp0 stq0 str0 (x - l) (y - h * (x - l))) in *. set (N := fm a c d (x - l) y + Rv * l * l) in *.
    replace (1 + (g0 - 1) * (1 - eta) ^ S k) with (1 + ga - ga * eta) by (unfold ga; cbn [pow]; ring). assert (ga * (eta * X) <= ga * N) by (apply Rmult_le_compat_l; [exact GA|lra]). assert (XE : X = Y + N) by (unfold N; lra). unfold N in *. nra. }
  set (M0 := 1 + g0). exists (M0 * (Rabs stp0 + Rabs stq0 + Rabs str0)). intros k. assert (RK : 0 <= (1 - eta) ^ k) by (apply pow_le; lra).
  destruct (fm_entries (p k) (q k) (r k) stp0 stq0 str0 (M0 * (1 - eta) ^ k)) as (A & B & C).
  { intros x y. assert (L := LOW k x y). assert (U := UPP k x y). assert (P := st_psd_w x y). set (X := fm stp0 stq0 str0 x y) in *. set (rk := (1 - eta) ^ k) in *. assert (0 <= rk * X) by (apply Rmult_le_pos; assumption). apply Rabs_le. unfold M0. split; nra. }
  assert (A0 := Rle_abs stp0). assert (B0 := Rle_abs stq0). assert (C0 := Rle_abs str0). assert (B1 := Rabs_pos stq0). assert (A1 := Rabs_pos stp0). assert (C1 := Rabs_pos str0). set (mk := M0 * (1 - eta) ^ k) in *. assert (MK : 0 <= mk) by (unfold mk, M0; apply Rmult_le_pos; lra).
  replace (M0 * (Rabs stp0 + Rabs stq0 + Rabs str0) * (1 - eta) ^ k) with (mk * (Rabs stp0 + Rabs stq0 + Rabs str0)) by (unfold mk; ring).
  split; [|split]; (eapply Rle_trans; [eassumption|apply Rmult_le_compat_l; [exact MK|lra]]).
Qed.
End Weak.
