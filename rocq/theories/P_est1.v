(** * Lemmas: a planar recursion that tends to a stable linear one converges from nearby *)
From Coq Require Import Reals Lra Psatz Lia.
From Verif Require Import P_steady.
Local Open Scope R_scope.

Lemma sq0 x : 0 <= x * x. Proof. assert (H := Rle_0_sqr x). exact H. Qed.
Lemma fm_up p q r u x : fm p q r u x <= (Rabs p + 2 * Rabs q + Rabs r) * (u * u + x * x).
Proof.
  unfold fm. assert (A := Rle_abs p). assert (B := Rle_abs r). assert (U := sq0 u). assert (X := sq0 x). assert (V := sq0 (u + x)). assert (W := sq0 (u - x)).
  assert (D : 2 * q * u * x <= Rabs q * (u * u + x * x)). { unfold Rabs. destruct (Rcase_abs q); [assert (0 <= - q * ((u + x) * (u + x))) by (apply Rmult_le_pos; lra)|assert (0 <= q * ((u - x) * (u - x))) by (apply Rmult_le_pos; lra)]; lra. }
  assert (Q := Rabs_pos q). assert (P := Rabs_pos p). assert (R' := Rabs_pos r). assert (p * (u * u) <= Rabs p * (u * u)) by (apply Rmult_le_compat_r; lra). assert (r * (x * x) <= Rabs r * (x * x)) by (apply Rmult_le_compat_r; lra).
  assert (0 <= Rabs p * (x * x)) by (apply Rmult_le_pos; lra). assert (0 <= Rabs r * (u * u)) by (apply Rmult_le_pos; lra). assert (0 <= Rabs q * (u * u + x * x)) by (apply Rmult_le_pos; lra). lra.
Qed.

(** ** a quadratic form that the linear recursion shrinks *)
Lemma lyapunov a g : 0 < a < 1 -> 0 < g < 2 + 2 * a -> exists p q r m eta, 0 < m /\ 0 < eta < 1 /\
  (forall u x, m * (u * u + x * x) <= fm p q r u x) /\
  forall u x, fm p q r (a * (u - x)) (x + g * (u - x)) <= (1 - eta) * fm p q r u x.
Proof.
  intros A G. set (t := 1 - g / (1 + a)). set (ga := g * a / (1 + a)).
  assert (TG : g = (1 - t) * (1 + a)) by (unfold t; field; lra). assert (T1 : -1 < t < 1). { unfold t. assert (0 < g / (1 + a)) by (apply Rdiv_lt_0_compat; lra). assert (g / (1 + a) < 2); [|lra]. apply Rmult_lt_reg_r with (1 + a); [lra|]. replace (g / (1 + a) * (1 + a)) with g by (field; lra). lra. }
  assert (T2 : 0 < 1 - t * t) by nra. set (si := (1 - t * t) / 2). assert (S0 : 0 < si) by (unfold si; lra).
  set (K := (1 + / si) * (ga * ga)). assert (IS : 0 < / si) by (apply Rinv_0_lt_compat, S0). assert (K0 : 0 <= K) by (unfold K; apply Rmult_le_pos; [lra|apply sq0]).
  set (ep := (1 - a) * g / (2 * (K + 1))). assert (AG : 0 < (1 - a) * g) by (apply Rmult_lt_0_compat; lra). assert (E0 : 0 < ep) by (unfold ep; apply Rdiv_lt_0_compat; lra).
  assert (EK : ep * K <= (1 - a) * g / 2). { replace ((1 - a) * g / 2) with (ep * (K + 1)) by (unfold ep; field; lra). apply Rmult_le_compat_l; lra. }
  set (e := Rmin ((1 - a) * g / 2) (ep * si)). assert (e0 : 0 < e) by (apply Rmin_pos; [lra|apply Rmult_lt_0_compat; assumption]). assert (e1 : e <= (1 - a) * g / 2) by apply Rmin_l. assert (e2 : e <= ep * si) by apply Rmin_r. clearbody e.
  set (p := (1 + a) * g + ep * (g * g)). set (q := - (a * g) + ep * (g * (1 - g))). set (r := (1 + a) * g + 2 - 2 * g + ep * ((1 - g) * (1 - g))).
  destruct (fm_low ((1 + a) * g) (- (a * g)) ((1 + a) * g + 2 - 2 * g)) as (m & M0 & LOW); [apply Rmult_lt_0_compat; lra| |].
  { replace ((1 + a) * g * ((1 + a) * g + 2 - 2 * g) - - (a * g) * - (a * g)) with (g * (2 + 2 * a - g)) by ring. apply Rmult_lt_0_compat; lra. }
  set (c1 := 1 + a - g). set (c2 := 2 + a - g).
  destruct (fm_dom (e * (c1 * c1 + g * g)) (e * (- (c1 * c2) + g * (1 - g))) (e * (c2 * c2 + (1 - g) * (1 - g))) p q r) as (gg & GG & DOM).
  { apply Rmult_lt_0_compat; [exact e0|]. assert (X := sq0 c1). assert (0 < g * g) by (apply Rmult_lt_0_compat; lra). lra. }
  { replace (e * (c1 * c1 + g * g) * (e * (c2 * c2 + (1 - g) * (1 - g))) - e * (- (c1 * c2) + g * (1 - g)) * (e * (- (c1 * c2) + g * (1 - g)))) with (e * e * ((1 + a) * (1 + a))) by (unfold c1, c2; ring). repeat apply Rmult_lt_0_compat; lra. }
  assert (LM : forall u x, m * (u * u + x * x) <= fm p q r u x).
  { intros u x. eapply Rle_trans; [apply LOW|]. replace (fm p q r u x) with (fm ((1 + a) * g) (- (a * g)) ((1 + a) * g + 2 - 2 * g) u x + ep * ((g * u + (1 - g) * x) * (g * u + (1 - g) * x))) by (unfold fm, p, q, r; ring).
    assert (0 <= ep * ((g * u + (1 - g) * x) * (g * u + (1 - g) * x))) by (apply Rmult_le_pos; [lra|apply sq0]). lra. }
  exists p, q, r, m, (/ (gg + 1)). split; [exact M0|]. assert (IG : 0 < / (gg + 1)) by (apply Rinv_0_lt_compat; lra). assert (IG1 : / (gg + 1) < 1) by (rewrite <- Rinv_1; apply Rinv_lt_contravar; lra).
  split; [lra|]. split; [exact LM|]. intros u x.
  set (d := c1 * u - c2 * x). set (z := g * u + (1 - g) * x).
  assert (DE : fm p q r (a * (u - x)) (x + g * (u - x)) = fm p q r u x - (1 - a) * g * (d * d) + ep * ((t * z + ga * d) * (t * z + ga * d) - z * z)).
  { unfold fm, p, q, r, d, z, ga, t, c1, c2. field. lra. }
  assert (YO : (t * z + ga * d) * (t * z + ga * d) <= (1 - si) * (z * z) + K * (d * d)).
  { assert (Y1 : (t * z + ga * d) * (t * z + ga * d) <= (1 + si) * ((t * z) * (t * z)) + (1 + / si) * ((ga * d) * (ga * d))).
    { assert (H := sq0 (si * (t * z) - ga * d)). assert (0 <= / si * ((si * (t * z) - ga * d) * (si * (t * z) - ga * d))) by (apply Rmult_le_pos; lra).
      replace (/ si * ((si * (t * z) - ga * d) * (si * (t * z) - ga * d))) with (si * ((t * z) * (t * z)) - 2 * (t * z) * (ga * d) + / si * ((ga * d) * (ga * d))) in H0 by (field; lra). lra. }
    assert (Z := sq0 z). assert (Y2 : (1 + si) * (t * t) <= 1 - si). { unfold si. assert (X := sq0 t). assert (t * t * (1 - t * t) <= 1 * (1 - t * t)) by (apply Rmult_le_compat_r; lra). lra. }
    assert ((1 + si) * (t * t) * (z * z) <= (1 - si) * (z * z)) by (apply Rmult_le_compat_r; assumption). unfold K. lra. }
  assert (YE : ep * ((t * z + ga * d) * (t * z + ga * d) - z * z) <= ep * K * (d * d) - ep * si * (z * z)). { apply Rle_trans with (ep * (K * (d * d) - si * (z * z))); [apply Rmult_le_compat_l; lra|right; ring]. }
  assert (D0 := sq0 d). assert (Z0 := sq0 z). assert (ep * K * (d * d) <= (1 - a) * g / 2 * (d * d)) by (apply Rmult_le_compat_r; assumption). assert (e * (d * d) <= (1 - a) * g / 2 * (d * d)) by (apply Rmult_le_compat_r; assumption). assert (e * (z * z) <= ep * si * (z * z)) by (apply Rmult_le_compat_r; assumption).
  assert (DD := DOM u x). replace (fm (e * (c1 * c1 + g * g)) (e * (- (c1 * c2) + g * (1 - g))) (e * (c2 * c2 + (1 - g) * (1 - g))) u x) with (e * (d * d) + e * (z * z)) in DD by (unfold fm, d, z; ring).
  assert (LP : 0 <= fm p q r u x). { eapply Rle_trans; [|apply LM]. assert (X1 := sq0 u). assert (X2 := sq0 x). apply Rmult_le_pos; lra. }
  assert (FIN : / (gg + 1) * fm p q r u x <= e * (d * d) + e * (z * z)).
  { apply Rmult_le_reg_l with (gg + 1); [lra|]. rewrite <- Rmult_assoc, Rinv_r, Rmult_1_l by lra. assert (0 <= e * (d * d) + e * (z * z)); [|lra]. assert (0 <= e * (d * d)) by (apply Rmult_le_pos; lra). assert (0 <= e * (z * z)) by (apply Rmult_le_pos; lra). lra. }
  rewrite DE. lra.
Qed.

Lemma fm_young p q r t u x v y : (forall u x, 0 <= fm p q r u x) -> 0 < t -> fm p q r (u + v) (x + y) <= (1 + t) * fm p q r u x + (1 + / t) * fm p q r v y.
Proof.
  intros P T. assert (IT := Rinv_0_lt_compat t T). assert (H := P (t * u - v) (t * x - y)). assert (0 <= / t * fm p q r (t * u - v) (t * x - y)) by (apply Rmult_le_pos; lra).
  replace (/ t * fm p q r (t * u - v) (t * x - y)) with (t * fm p q r u x - 2 * (p * u * v + q * u * y + q * x * v + r * x * y) + / t * fm p q r v y) in H0 by (unfold fm; field; lra). unfold fm in *. lra.
Qed.

(** ** the recursion *)
Lemma local_conv a g C M rho0 : 0 < a < 1 -> 0 < g < 2 + 2 * a -> 0 <= C -> 0 <= M -> 0 <= rho0 < 1 -> exists eps K rho, 0 < eps /\ 0 < K /\ 0 < rho < 1 /\
  forall (I : nat -> Prop) (u x : nat -> R), Rabs (u O) + Rabs (x O) <= eps -> I O ->
  (forall k, I k -> Rabs (u k) + Rabs (x k) <= 1 / 4 -> I (S k) /\ Rabs (u (S k) - a * (u k - x k)) + Rabs (x (S k) - (x k + g * (u k - x k))) <= (M * rho0 ^ k + C * (Rabs (u k) + Rabs (x k))) * (Rabs (u k) + Rabs (x k))) ->
  forall k, I k /\ Rabs (u k) + Rabs (x k) <= 1 / 4 /\ Rabs (u k) + Rabs (x k) <= K * rho ^ k * (Rabs (u O) + Rabs (x O)).
Proof.
  intros A G HC HM HR. destruct (lyapunov a g A G) as (p & q & r & m & eta & M0 & E0 & LOW & DEC).
  set (m2 := Rabs p + 2 * Rabs q + Rabs r + m). assert (M2 : m <= m2) by (unfold m2; assert (X := Rabs_pos p); assert (Y := Rabs_pos q); assert (Z := Rabs_pos r); lra).
  assert (POS : forall u x, 0 <= fm p q r u x). { intros u x. eapply Rle_trans; [|apply LOW]. apply Rmult_le_pos; [lra|]. assert (X := sq0 u). assert (Y := sq0 x). lra. }
  assert (UP : forall u x, fm p q r u x <= m2 * ((Rabs u + Rabs x) * (Rabs u + Rabs x))).
  { intros u x. eapply Rle_trans; [apply fm_up|]. unfold m2. assert (X := sq0 u). assert (Y := sq0 x). assert (Hu := Rabs_pos u). assert (Hx := Rabs_pos x). assert (0 <= Rabs u * Rabs x) by (apply Rmult_le_pos; assumption).
    replace ((Rabs u + Rabs x) * (Rabs u + Rabs x)) with (Rabs u * Rabs u + Rabs x * Rabs x + 2 * (Rabs u * Rabs x)) by ring. rewrite <- !Rabs_mult, !(Rabs_pos_eq _ (sq0 _)), Rabs_mult. assert (X1 := Rabs_pos p). assert (Y1 := Rabs_pos q). assert (Z1 := Rabs_pos r).
    apply Rmult_le_compat; lra. }
  assert (LO2 : forall u x, m * ((Rabs u + Rabs x) * (Rabs u + Rabs x)) <= 2 * fm p q r u x).
  { intros u x. assert (Q := LOW u x). assert (W := sq0 (Rabs u - Rabs x)). assert (E : (Rabs u + Rabs x) * (Rabs u + Rabs x) <= 2 * (u * u + x * x)). { replace (u * u) with (Rabs u * Rabs u) by (rewrite <- Rabs_mult; apply Rabs_pos_eq, sq0). replace (x * x) with (Rabs x * Rabs x) by (rewrite <- Rabs_mult; apply Rabs_pos_eq, sq0). lra. }
    apply Rle_trans with (m * (2 * (u * u + x * x))); [apply Rmult_le_compat_l; lra|lra]. }
  set (t := eta / 2). assert (T0 : 0 < t < 1) by (unfold t; lra). assert (IT := Rinv_0_lt_compat t (proj1 T0)).
  set (K1 := (1 + / t) * m2 * (2 / m)). assert (K10 : 0 < K1) by (unfold K1; apply Rmult_lt_0_compat; [apply Rmult_lt_0_compat; lra|apply Rdiv_lt_0_compat; lra]).
  (* one step *)
  assert (STEP : forall u x u' x' w, 0 <= w -> Rabs (u' - a * (u - x)) + Rabs (x' - (x + g * (u - x))) <= w * (Rabs u + Rabs x) -> fm p q r u' x' <= (1 - t + K1 * (w * w)) * fm p q r u x).
  { intros u x u' x' w W0 W. set (du := u' - a * (u - x)) in *. set (dx := x' - (x + g * (u - x))) in *. replace u' with (a * (u - x) + du) by (unfold du; ring). replace x' with ((x + g * (u - x)) + dx) by (unfold dx; ring).
    eapply Rle_trans; [apply (fm_young p q r t _ _ _ _ POS (proj1 T0))|]. assert (L := POS u x). assert (Hs := LO2 u x). set (s := Rabs u + Rabs x) in *. assert (S0 : 0 <= s) by (unfold s; assert (X := Rabs_pos u); assert (Y := Rabs_pos x); lra).
    assert (P1 : (1 + t) * fm p q r (a * (u - x)) (x + g * (u - x)) <= (1 - t) * fm p q r u x).
    { apply Rle_trans with ((1 + t) * ((1 - eta) * fm p q r u x)); [apply Rmult_le_compat_l; [lra|apply DEC]|]. rewrite <- Rmult_assoc. apply Rmult_le_compat_r; [exact L|]. unfold t. assert (0 <= eta * eta) by apply sq0. lra. }
    assert (P2 : (1 + / t) * fm p q r du dx <= K1 * (w * w) * fm p q r u x).
    { assert (Q := UP du dx). assert (Pd := Rabs_pos du). assert (Px := Rabs_pos dx). assert (SQ : (Rabs du + Rabs dx) * (Rabs du + Rabs dx) <= (w * s) * (w * s)) by (apply Rmult_le_compat; lra).
      apply Rle_trans with ((1 + / t) * (m2 * ((w * s) * (w * s)))). { apply Rmult_le_compat_l; [lra|]. eapply Rle_trans; [exact Q|]. apply Rmult_le_compat_l; lra. }
      replace ((1 + / t) * (m2 * ((w * s) * (w * s)))) with ((1 + / t) * m2 * (w * w) * (s * s)) by ring. replace (K1 * (w * w) * fm p q r u x) with ((1 + / t) * m2 * (w * w) * (2 / m * fm p q r u x)) by (unfold K1; ring).
      apply Rmult_le_compat_l. { apply Rmult_le_pos; [apply Rmult_le_pos; lra|apply sq0]. } apply Rmult_le_reg_l with m; [exact M0|]. replace (m * (2 / m * fm p q r u x)) with (2 * fm p q r u x) by (field; lra). exact Hs. }
    lra. }
  (* from step n0 on the recursion is close to the linear one *)
  set (ws := Rmin 1 (t / (2 * K1))). assert (WS : 0 < ws) by (apply Rmin_pos; [lra|apply Rdiv_lt_0_compat; lra]). assert (WS1 : ws <= 1) by apply Rmin_l. assert (WS2 : K1 * (ws * ws) <= t / 2).
  { apply Rle_trans with (K1 * (1 * (t / (2 * K1)))); [apply Rmult_le_compat_l; [lra|]; apply Rmult_le_compat; try lra; apply Rmin_r|]. right. field. lra. }
  destruct (pow_lt_1_zero rho0) with (y := ws / (2 * (M + 1))) as (n0 & N0). { rewrite Rabs_pos_eq; lra. } { apply Rdiv_lt_0_compat; lra. }
  assert (LATE : forall k, (n0 <= k)%nat -> M * rho0 ^ k <= ws / 2). { intros k Hk. assert (X := N0 k Hk). rewrite Rabs_pos_eq in X by (apply pow_le; lra). apply Rle_trans with ((M + 1) * (ws / (2 * (M + 1)))); [apply Rmult_le_compat; try lra; apply pow_le; lra|]. right. field. lra. }
  set (B := 1 + K1 * ((M + C) * (M + C))). assert (B1 : 1 <= B) by (unfold B; assert (X := sq0 (M + C)); assert (0 <= K1 * ((M + C) * (M + C))) by (apply Rmult_le_pos; lra); lra).
  set (la := 1 - t / 2). assert (LA : 1 / 2 < la < 1) by (unfold la; lra).
  set (s0 := Rmin (1 / 4) (ws / (2 * (C + 1)))). assert (S0 : 0 < s0) by (apply Rmin_pos; [lra|apply Rdiv_lt_0_compat; lra]). assert (S1 : s0 <= 1 / 4) by apply Rmin_l. assert (S2 : C * s0 <= ws / 2). { apply Rle_trans with ((C + 1) * (ws / (2 * (C + 1)))); [apply Rmult_le_compat; try lra; apply Rmin_r|]. right. field. lra. }
  assert (BN : 1 <= B ^ n0) by (apply pow_R1_Rle, B1).
  assert (LN : 0 < la ^ n0) by (apply pow_lt; lra).
  set (Z := B ^ n0 / la ^ n0). assert (Z0 : 0 < Z) by (apply Rdiv_lt_0_compat; lra).
  (* enough for the sum to stay below s0 : 2 B^n0 L0 <= m s0^2 *)
  set (ee := m * (s0 * s0) / (2 * B ^ n0 * m2)). assert (SS : 0 < s0 * s0) by (apply Rmult_lt_0_compat; assumption). assert (EE : 0 < ee). { apply Rdiv_lt_0_compat; [apply Rmult_lt_0_compat; assumption|]. apply Rmult_lt_0_compat; lra. }
  exists (sqrt ee), (sqrt (2 * Z * m2 / m)), (sqrt la). split; [apply sqrt_lt_R0, EE|]. assert (KP : 0 < 2 * Z * m2 / m) by (apply Rdiv_lt_0_compat; [|exact M0]; apply Rmult_lt_0_compat; lra). split; [apply sqrt_lt_R0, KP|].
  split. { split; [apply sqrt_lt_R0; lra|]. rewrite <- sqrt_1. apply sqrt_lt_1; lra. }
  intros I u x I0 IO REC. set (s := fun k => Rabs (u k) + Rabs (x k)). set (L := fun k => fm p q r (u k) (x k)).
  assert (SP : forall k, 0 <= s k) by (intros k; unfold s; assert (X := Rabs_pos (u k)); assert (Y := Rabs_pos (x k)); lra).
  assert (L0 : 2 * B ^ n0 * L O <= m * (s0 * s0)).
  { assert (Q := UP (u O) (x O)). fold (s O) in Q. fold (L O) in Q. assert (I2 : s O * s O <= ee). { rewrite <- (sqrt_sqrt ee) by lra. apply Rmult_le_compat; try apply SP; exact I0. }
    apply Rle_trans with (2 * B ^ n0 * (m2 * ee)). { apply Rmult_le_compat_l; [lra|]. eapply Rle_trans; [exact Q|]. apply Rmult_le_compat_l; lra. } right. unfold ee. field. split; lra. }
  assert (LP : forall k, 0 <= L k) by (intros k; apply POS).
  assert (SMALL : forall k, 2 * L k <= m * (s0 * s0) -> s k <= s0).
  { intros k Hk. assert (Q := LO2 (u k) (x k)). fold (s k) in Q. fold (L k) in Q. destruct (Rle_lt_dec (s k) s0) as [Y|Y]; [exact Y|]. exfalso. assert (s0 * s0 < s k * s k) by (apply Rmult_le_0_lt_compat; lra). assert (m * (s0 * s0) < m * (s k * s k)) by (apply Rmult_lt_compat_l; assumption). lra. }
  assert (EARLY : forall k, (k <= n0)%nat -> I k /\ L k <= B ^ k * L O).
  { induction k as [|k IH]; intros Hk; [split; [exact IO|cbn; lra]|]. destruct (IH ltac:(lia)) as [IK IH']. assert (BK : B ^ k <= B ^ n0) by (apply Rle_pow; [exact B1|lia]). assert (X : B ^ k * L O <= B ^ n0 * L O) by (apply Rmult_le_compat_r; [apply LP|exact BK]).
    assert (SK : s k <= s0) by (apply SMALL; lra). destruct (REC k IK ltac:(fold (s k); lra)) as [IS R]. split; [exact IS|]. fold (s k) in R. assert (RP : 0 <= rho0 ^ k <= 1) by (split; [apply pow_le; lra|rewrite <- (pow1 k); apply pow_incr; lra]).
    assert (W0 : 0 <= M * rho0 ^ k + C * s k <= M + C). { assert (0 <= M * rho0 ^ k) by (apply Rmult_le_pos; lra). assert (0 <= C * s k) by (apply Rmult_le_pos; [lra|apply SP]). assert (M * rho0 ^ k <= M * 1) by (apply Rmult_le_compat_l; lra). assert (C * s k <= C * 1) by (apply Rmult_le_compat_l; lra). lra. }
    assert (ST := STEP _ _ _ _ _ (proj1 W0) R). fold (L k) in ST. fold (L (S k)) in ST. eapply Rle_trans; [exact ST|]. cbn [pow]. rewrite Rmult_assoc. apply Rle_trans with (B * L k); [|apply Rmult_le_compat_l; [lra|exact IH']]. apply Rmult_le_compat_r; [apply LP|]. unfold B.
    assert (K1 * ((M * rho0 ^ k + C * s k) * (M * rho0 ^ k + C * s k)) <= K1 * ((M + C) * (M + C))) by (apply Rmult_le_compat_l; [lra|apply Rmult_le_compat; lra]). lra. }
  assert (LATER : forall j, I (n0 + j)%nat /\ L (n0 + j)%nat <= la ^ j * (B ^ n0 * L O)).
  { induction j as [|j [IJ IH]]; [rewrite Nat.add_0_r; cbn [pow]; rewrite Rmult_1_l; apply EARLY; lia|]. assert (LJ : 0 <= la ^ j <= 1) by (split; [apply pow_le; lra|rewrite <- (pow1 j); apply pow_incr; lra]). assert (BL : 0 <= B ^ n0 * L O) by (apply Rmult_le_pos; [lra|apply LP]).
    assert (X : la ^ j * (B ^ n0 * L O) <= 1 * (B ^ n0 * L O)) by (apply Rmult_le_compat_r; lra). assert (SK : s (n0 + j)%nat <= s0) by (apply SMALL; lra). destruct (REC (n0 + j)%nat IJ ltac:(fold (s (n0 + j)%nat); lra)) as [IS R]. fold (s (n0 + j)%nat) in R.
    assert (W0 : 0 <= M * rho0 ^ (n0 + j) + C * s (n0 + j)%nat <= ws). { assert (0 <= M * rho0 ^ (n0 + j)) by (apply Rmult_le_pos; [lra|apply pow_le; lra]). assert (0 <= C * s (n0 + j)%nat) by (apply Rmult_le_pos; [lra|apply SP]). assert (Q := LATE (n0 + j)%nat ltac:(lia)). assert (C * s (n0 + j)%nat <= C * s0) by (apply Rmult_le_compat_l; lra). lra. }
    assert (ST := STEP _ _ _ _ _ (proj1 W0) R). fold (L (n0 + j)%nat) in ST. fold (L (S (n0 + j))%nat) in ST. replace (n0 + S j)%nat with (S (n0 + j)) by lia. split; [exact IS|]. eapply Rle_trans; [exact ST|]. cbn [pow]. rewrite Rmult_assoc. apply Rle_trans with (la * L (n0 + j)%nat); [|apply Rmult_le_compat_l; [lra|exact IH]]. apply Rmult_le_compat_r; [apply LP|]. unfold la.
    assert (K1 * ((M * rho0 ^ (n0 + j) + C * s (n0 + j)%nat) * (M * rho0 ^ (n0 + j) + C * s (n0 + j)%nat)) <= K1 * (ws * ws)) by (apply Rmult_le_compat_l; [lra|apply Rmult_le_compat; lra]). lra. }
  assert (ALL : forall k, L k <= Z * la ^ k * L O).
  { intros k. destruct (Nat.le_gt_cases k n0) as [Hk|Hk].
    - eapply Rle_trans; [apply (EARLY k Hk)|]. apply Rmult_le_compat_r; [apply LP|]. unfold Z. assert (B ^ k <= B ^ n0) by (apply Rle_pow; [exact B1|exact Hk]).
      assert (LK : la ^ n0 <= la ^ k). { replace n0 with (k + (n0 - k))%nat by lia. rewrite pow_add. assert (0 < la ^ k) by (apply pow_lt; lra). assert (la ^ (n0 - k) <= 1) by (rewrite <- (pow1 (n0 - k)); apply pow_incr; lra). apply Rle_trans with (la ^ k * 1); [apply Rmult_le_compat_l; lra|lra]. }
      apply Rle_trans with (B ^ n0); [assumption|]. replace (B ^ n0 / la ^ n0 * la ^ k) with (B ^ n0 * (la ^ k / la ^ n0)) by (field; lra). assert (1 <= la ^ k / la ^ n0). { apply Rmult_le_reg_r with (la ^ n0); [exact LN|]. replace (la ^ k / la ^ n0 * la ^ n0) with (la ^ k) by (field; lra). lra. } assert (B ^ n0 * 1 <= B ^ n0 * (la ^ k / la ^ n0)) by (apply Rmult_le_compat_l; lra). lra.
    - replace k with (n0 + (k - n0))%nat by lia. eapply Rle_trans; [apply LATER|]. rewrite pow_add. right. unfold Z. field. lra. }
  assert (UNI : forall k, 2 * L k <= m * (s0 * s0)).
  { intros k. destruct (Nat.le_gt_cases k n0) as [Hk|Hk].
    - assert (E := proj2 (EARLY k Hk)). assert (B ^ k <= B ^ n0) by (apply Rle_pow; [exact B1|exact Hk]). assert (B ^ k * L O <= B ^ n0 * L O) by (apply Rmult_le_compat_r; [apply LP|assumption]). lra.
    - assert (E := proj2 (LATER (k - n0)%nat)). replace (n0 + (k - n0))%nat with k in E by lia. assert (la ^ (k - n0) <= 1) by (rewrite <- (pow1 (k - n0)); apply pow_incr; lra). assert (BL : 0 <= B ^ n0 * L O) by (apply Rmult_le_pos; [lra|apply LP]). assert (la ^ (k - n0) * (B ^ n0 * L O) <= 1 * (B ^ n0 * L O)) by (apply Rmult_le_compat_r; assumption). lra. }
  intros k. fold (s k). fold (s O). split. { destruct (Nat.le_gt_cases k n0) as [Hk|Hk]; [apply (EARLY k Hk)|]. replace k with (n0 + (k - n0))%nat by lia. apply LATER. }
  split; [assert (Q := SMALL k (UNI k)); lra|].
  assert (SQ : s k * s k <= 2 * Z * m2 / m * la ^ k * (s O * s O)).
  { assert (Q1 := LO2 (u k) (x k)). fold (s k) in Q1. fold (L k) in Q1. assert (Q2 := ALL k). assert (Q3 := UP (u O) (x O)). fold (s O) in Q3. fold (L O) in Q3. assert (LK : 0 < la ^ k) by (apply pow_lt; lra). assert (Z * la ^ k * L O <= Z * la ^ k * (m2 * (s O * s O))) by (apply Rmult_le_compat_l; [apply Rmult_le_pos; lra|exact Q3]).
    apply Rmult_le_reg_l with m; [exact M0|]. replace (m * (2 * Z * m2 / m * la ^ k * (s O * s O))) with (2 * (Z * la ^ k * (m2 * (s O * s O)))) by (field; lra). lra. }
  assert (PS : forall y n, 0 <= y -> sqrt y ^ n = sqrt (y ^ n)). { intros y n Y. induction n as [|n IH]; [cbn; rewrite sqrt_1; reflexivity|]. cbn [pow]. rewrite IH, sqrt_mult; [reflexivity|exact Y|apply pow_le, Y]. }
  rewrite PS by lra. rewrite <- (sqrt_Rsqr (s k)) by apply SP. rewrite <- (sqrt_Rsqr (s O)) by apply SP. unfold Rsqr. assert (LK : 0 <= la ^ k) by (apply pow_le; lra). rewrite <- sqrt_mult by lra. rewrite <- sqrt_mult; [|apply Rmult_le_pos; lra|apply sq0]. apply sqrt_le_1; [apply sq0|apply Rmult_le_pos; [apply Rmult_le_pos; lra|apply sq0]|exact SQ].
Qed.
