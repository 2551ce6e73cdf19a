(** * Lemmas: a recursion of two vectors that tends to a stable linear one converges from nearby, up to what disturbs it *)
From Coq Require Import Reals Lra Psatz Lia.
From Verif Require Import Num Vec M_vector S_rot P_quat P_wheel P_dyn2 P_steady P_est1.
Local Open Scope R_scope.

Definition fm3 (p q r : R) (u x : v3) : R := p * dot3 u u + 2 * q * dot3 u x + r * dot3 x x.
Lemma fm3_sum p q r u x : fm3 p q r u x = fm p q r (x3 u) (x3 x) + fm p q r (y3 u) (y3 x) + fm p q r (z3 u) (z3 x).
Proof. unfold fm3, fm. vunfoldg. rnumg. ring. Qed.
Lemma n3sq (u : v3) : norm3 u * norm3 u = dot3 u u.
Proof. apply P_quat.norm3_sq. Qed.
Lemma n3pos (u : v3) : 0 <= norm3 u. Proof. apply sqrt_pos. Qed.
Lemma lyapunov3 a g : 0 < a < 1 -> 0 < g < 2 + 2 * a -> exists p q r m m2 eta, 0 < m /\ m <= m2 /\ 0 < eta < 1 /\
  (forall u x : v3, 0 <= fm3 p q r u x) /\
  (forall u x, m * ((norm3 u + norm3 x) * (norm3 u + norm3 x)) <= 2 * fm3 p q r u x) /\ (forall u x, fm3 p q r u x <= m2 * ((norm3 u + norm3 x) * (norm3 u + norm3 x))) /\
  (forall t u x v y, 0 < t -> fm3 p q r (add3 u v) (add3 x y) <= (1 + t) * fm3 p q r u x + (1 + / t) * fm3 p q r v y) /\
  forall u x, fm3 p q r (scale3 a (sub3 u x)) (add3 x (scale3 g (sub3 u x))) <= (1 - eta) * fm3 p q r u x.
Proof.
  intros A G. destruct (lyapunov a g A G) as (p & q & r & m & eta & M0 & E0 & LOW & DEC).
  assert (POS : forall u x, 0 <= fm p q r u x). { intros u x. eapply Rle_trans; [|apply LOW]. apply Rmult_le_pos; [lra|]. assert (X := sq0 u). assert (Y := sq0 x). lra. }
  assert (DD : forall u : v3, dot3 u u = x3 u * x3 u + y3 u * y3 u + z3 u * z3 u) by (intros u; vunfoldg; rnumg; ring).
  set (m2 := Rabs p + 2 * Rabs q + Rabs r + m). assert (M2 : m <= m2) by (unfold m2; assert (X := Rabs_pos p); assert (Y := Rabs_pos q); assert (Z := Rabs_pos r); lra).
  exists p, q, r, m, m2, eta. split; [exact M0|]. split; [exact M2|]. split; [exact E0|]. split; [|split; [|split; [|split]]].
  - intros u x. rewrite fm3_sum. assert (X1 := POS (x3 u) (x3 x)). assert (X2 := POS (y3 u) (y3 x)). assert (X3 := POS (z3 u) (z3 x)). lra.
  - intros u x. rewrite fm3_sum. assert (X1 := LOW (x3 u) (x3 x)). assert (X2 := LOW (y3 u) (y3 x)). assert (X3 := LOW (z3 u) (z3 x)). assert (W := sq0 (norm3 u - norm3 x)).
    assert (E : (norm3 u + norm3 x) * (norm3 u + norm3 x) <= 2 * (dot3 u u + dot3 x x)) by (rewrite <- !n3sq; lra). rewrite !DD in E.
    eapply Rle_trans; [apply Rmult_le_compat_l; [lra|exact E]|]. lra.
  - intros u x. rewrite fm3_sum. assert (X1 := fm_up p q r (x3 u) (x3 x)). assert (X2 := fm_up p q r (y3 u) (y3 x)). assert (X3 := fm_up p q r (z3 u) (z3 x)).
    assert (E : dot3 u u + dot3 x x <= (norm3 u + norm3 x) * (norm3 u + norm3 x)). { rewrite <- !n3sq. assert (0 <= norm3 u * norm3 x) by (apply Rmult_le_pos; apply sqrt_pos). lra. }
    apply Rle_trans with ((Rabs p + 2 * Rabs q + Rabs r) * (dot3 u u + dot3 x x)); [rewrite !DD; lra|]. assert (X := Rabs_pos p). assert (Y := Rabs_pos q). assert (Z := Rabs_pos r). apply Rmult_le_compat; try (unfold m2; lra). rewrite !DD. assert (Y1 := sq0 (x3 u)). assert (Y2 := sq0 (y3 u)). assert (Y3 := sq0 (z3 u)). assert (Z1 := sq0 (x3 x)). assert (Z2 := sq0 (y3 x)). assert (Z3 := sq0 (z3 x)). lra.
  - intros t u x v y T. rewrite !fm3_sum. destruct u as [ua ub uc], x as [xa xb xc], v as [va vb vc], y as [ya yb yc]. unfold add3. cbn [x3 y3 z3]. rnumg.
    assert (X1 := fm_young p q r t ua xa va ya POS T). assert (X2 := fm_young p q r t ub xb vb yb POS T). assert (X3 := fm_young p q r t uc xc vc yc POS T). lra.
  - intros u x. rewrite !fm3_sum. destruct u as [ua ub uc], x as [xa xb xc]. unfold add3, sub3, scale3. cbn [x3 y3 z3]. rnumg.
    assert (X1 := DEC ua xa). assert (X2 := DEC ub xb). assert (X3 := DEC uc xc). lra.
Qed.

Lemma sq_sum a b : 0 <= a -> 0 <= b -> (a + b) * (a + b) <= 2 * (a * a) + 2 * (b * b).
Proof. intros _ _. assert (H := sq0 (a - b)). lra. Qed.
Lemma le_sqrt_sq s y : 0 <= s -> 0 <= y -> s * s <= y -> s <= sqrt y.
Proof. intros S0 Y H. rewrite <- (sqrt_Rsqr s S0). apply sqrt_le_1_alt. exact H. Qed.
Lemma sqrt_pow y n : 0 <= y -> sqrt y ^ n = sqrt (y ^ n).
Proof. intros Y. induction n as [|n IH]; [cbn; rewrite sqrt_1; reflexivity|]. cbn [pow]. rewrite IH, sqrt_mult; [reflexivity|exact Y|apply pow_le, Y]. Qed.

Lemma tri_conv a g C M rho0 : 0 < a < 1 -> 0 < g < 2 + 2 * a -> 0 <= C -> 0 <= M -> 0 <= rho0 < 1 -> exists sig, 0 < sig /\ forall e1, 0 < e1 -> exists eps K rho, 0 < eps /\ 0 < K /\ 0 < rho < 1 /\
  forall (I : nat -> Prop) (u x : nat -> v3) (d : R), let s k := norm3 (u k) + norm3 (x k) in 0 <= d <= eps -> s O <= eps -> I O ->
  (forall k, I k -> s k <= e1 -> I (S k) /\ norm3 (sub3 (u (S k)) (scale3 a (sub3 (u k) (x k)))) + norm3 (sub3 (x (S k)) (add3 (x k) (scale3 g (sub3 (u k) (x k))))) <= (M * rho0 ^ k + sig + C * s k) * s k + C * d) ->
  forall k, I k /\ s k <= e1 /\ s k <= K * (rho ^ k * s O + d).
Proof.
  intros A G HC HM HR. destruct (lyapunov3 a g A G) as (p & q & r & m & m2 & eta & M0 & M2 & E0 & POS & LO2 & UP & YOU & DEC).
  set (t := eta / 2). assert (T0 : 0 < t < 1) by (unfold t; lra). assert (IT := Rinv_0_lt_compat t (proj1 T0)).
  set (K1 := (1 + / t) * m2 * (4 / m)). assert (K10 : 0 < K1) by (unfold K1; apply Rmult_lt_0_compat; [apply Rmult_lt_0_compat; lra|apply Rdiv_lt_0_compat; lra]).
  set (K2 := (1 + / t) * m2 * (2 * (C * C)) + 1). assert (K20 : 0 < K2). { unfold K2. assert (0 <= (1 + / t) * m2 * (2 * (C * C))); [|lra]. apply Rmult_le_pos; [apply Rmult_le_pos; lra|]. assert (X := sq0 C). lra. }
  assert (STEP : forall u x u' x' w d, 0 <= w -> 0 <= d -> norm3 (sub3 u' (scale3 a (sub3 u x))) + norm3 (sub3 x' (add3 x (scale3 g (sub3 u x)))) <= w * (norm3 u + norm3 x) + C * d -> fm3 p q r u' x' <= (1 - t + K1 * (w * w)) * fm3 p q r u x + K2 * (d * d)).
  { intros u x u' x' w d W0 D0 W. set (du := sub3 u' (scale3 a (sub3 u x))) in *. set (dx := sub3 x' (add3 x (scale3 g (sub3 u x)))) in *.
    replace u' with (add3 (scale3 a (sub3 u x)) du) by (unfold du; vring). replace x' with (add3 (add3 x (scale3 g (sub3 u x))) dx) by (unfold dx; vring).
    eapply Rle_trans; [apply (YOU t _ _ _ _ (proj1 T0))|]. assert (L := POS u x). assert (Hs := LO2 u x). set (s := norm3 u + norm3 x) in *. assert (S0 : 0 <= s) by (unfold s; assert (X := n3pos u); assert (Y := n3pos x); lra).
    assert (P1 : (1 + t) * fm3 p q r (scale3 a (sub3 u x)) (add3 x (scale3 g (sub3 u x))) <= (1 - t) * fm3 p q r u x).
    { apply Rle_trans with ((1 + t) * ((1 - eta) * fm3 p q r u x)); [apply Rmult_le_compat_l; [lra|apply DEC]|]. rewrite <- Rmult_assoc. apply Rmult_le_compat_r; [exact L|]. unfold t. assert (0 <= eta * eta) by apply sq0. lra. }
    assert (P2 : (1 + / t) * fm3 p q r du dx <= K1 * (w * w) * fm3 p q r u x + K2 * (d * d)).
    { assert (Q := UP du dx). assert (Pd : 0 <= norm3 du) by apply sqrt_pos. assert (Px : 0 <= norm3 dx) by apply sqrt_pos. assert (WS : 0 <= w * s) by (apply Rmult_le_pos; assumption). assert (CD : 0 <= C * d) by (apply Rmult_le_pos; assumption).
      assert (SQ : (norm3 du + norm3 dx) * (norm3 du + norm3 dx) <= 2 * ((w * s) * (w * s)) + 2 * ((C * d) * (C * d))) by (eapply Rle_trans; [|apply sq_sum; assumption]; apply Rmult_le_compat; lra).
      apply Rle_trans with ((1 + / t) * (m2 * (2 * ((w * s) * (w * s)) + 2 * ((C * d) * (C * d))))). { apply Rmult_le_compat_l; [lra|]. eapply Rle_trans; [exact Q|]. apply Rmult_le_compat_l; lra. }
      replace ((1 + / t) * (m2 * (2 * ((w * s) * (w * s)) + 2 * ((C * d) * (C * d))))) with ((1 + / t) * m2 * (w * w) * (2 * (s * s)) + (K2 - 1) * (d * d)) by (unfold K2; ring). replace (K1 * (w * w) * fm3 p q r u x) with ((1 + / t) * m2 * (w * w) * (4 / m * fm3 p q r u x)) by (unfold K1; ring).
      assert (X := sq0 d). apply Rplus_le_compat; [|lra]. apply Rmult_le_compat_l. { apply Rmult_le_pos; [apply Rmult_le_pos; lra|apply sq0]. } apply Rmult_le_reg_l with m; [exact M0|]. replace (m * (4 / m * fm3 p q r u x)) with (2 * (2 * fm3 p q r u x)) by (field; lra). lra. }
    lra. }
  set (ws := Rmin 1 (t / (2 * K1))). assert (WS : 0 < ws) by (apply Rmin_pos; [lra|apply Rdiv_lt_0_compat; lra]). assert (WS1 : ws <= 1) by apply Rmin_l. assert (WS2 : K1 * (ws * ws) <= t / 2).
  { apply Rle_trans with (K1 * (1 * (t / (2 * K1)))); [apply Rmult_le_compat_l; [lra|]; apply Rmult_le_compat; try lra; apply Rmin_r|]. right. field. lra. }
  exists (ws / 4). split; [lra|]. intros e1 HE1.
  destruct (pow_lt_1_zero rho0) with (y := ws / (2 * (M + 1))) as (n0 & N0). { rewrite Rabs_pos_eq; lra. } { apply Rdiv_lt_0_compat; lra. }
  assert (LATE : forall k, (n0 <= k)%nat -> M * rho0 ^ k <= ws / 2). { intros k Hk. assert (X := N0 k Hk). rewrite Rabs_pos_eq in X by (apply pow_le; lra). apply Rle_trans with ((M + 1) * (ws / (2 * (M + 1)))); [apply Rmult_le_compat; try lra; apply pow_le; lra|]. right. field. lra. }
  set (B := 1 + K1 * ((M + 1) * (M + 1))). assert (B1 : 1 <= B) by (unfold B; assert (X := sq0 (M + 1)); assert (0 <= K1 * ((M + 1) * (M + 1))) by (apply Rmult_le_pos; lra); lra).
  set (la := 1 - t / 2). assert (LA : 1 / 2 < la < 1) by (unfold la; lra).
  set (s0 := Rmin e1 (ws / (4 * (C + 1)))). assert (S0 : 0 < s0) by (apply Rmin_pos; [lra|apply Rdiv_lt_0_compat; lra]). assert (S1 : s0 <= e1) by apply Rmin_l. assert (S2 : C * s0 <= ws / 4). { apply Rle_trans with ((C + 1) * (ws / (4 * (C + 1)))); [apply Rmult_le_compat; try lra; apply Rmin_r|]. right. field. lra. }
  assert (BN : 1 <= B ^ n0) by (apply pow_R1_Rle, B1). assert (LN : 0 < la ^ n0) by (apply pow_lt; lra).
  set (Z := B ^ n0 / la ^ n0). assert (Z0 : 0 < Z) by (apply Rdiv_lt_0_compat; lra).
  set (Y := B ^ n0 * INR n0 + / (t / 2)). assert (Y0 : 0 < Y). { unfold Y. assert (0 <= B ^ n0 * INR n0) by (apply Rmult_le_pos; [lra|apply pos_INR]). assert (0 < / (t / 2)) by (apply Rinv_0_lt_compat; lra). lra. }
  assert (YK : 0 < Y * K2) by (apply Rmult_lt_0_compat; assumption). assert (BM : 0 < B ^ n0 * m2) by (apply Rmult_lt_0_compat; lra).
  set (ee := m * (s0 * s0) / (2 * (B ^ n0 * m2 + Y * K2))). assert (SS : 0 < s0 * s0) by (apply Rmult_lt_0_compat; assumption). assert (EE : 0 < ee) by (apply Rdiv_lt_0_compat; [apply Rmult_lt_0_compat; assumption|lra]).
  set (KK := 2 * (Z * m2 + Y * K2) / m). assert (ZM : 0 < Z * m2) by (apply Rmult_lt_0_compat; lra). assert (KP : 0 < KK) by (apply Rdiv_lt_0_compat; lra).
  exists (sqrt ee), (sqrt KK), (sqrt la). split; [apply sqrt_lt_R0, EE|]. split; [apply sqrt_lt_R0, KP|].
  split. { split; [apply sqrt_lt_R0; lra|]. rewrite <- sqrt_1. apply sqrt_lt_1; lra. }
  intros I u x d s HD I0 IO REC. set (L := fun k => fm3 p q r (u k) (x k)). set (D := K2 * (d * d)). assert (D0 : 0 <= D) by (unfold D; apply Rmult_le_pos; [lra|apply sq0]).
  assert (SP : forall k, 0 <= s k) by (intros k; unfold s; assert (X1 := n3pos (u k)); assert (Y1 := n3pos (x k)); lra).
  assert (LP : forall k, 0 <= L k) by (intros k; apply POS).
  assert (L0 : 2 * (B ^ n0 * L O + Y * D) <= m * (s0 * s0)).
  { assert (Q : L O <= m2 * (s O * s O)) by apply UP. assert (I2 : s O * s O <= ee). { rewrite <- (sqrt_sqrt ee) by lra. apply Rmult_le_compat; try apply SP; exact I0. } assert (I3 : d * d <= ee). { rewrite <- (sqrt_sqrt ee) by lra. apply Rmult_le_compat; lra. }
    assert (B ^ n0 * L O <= B ^ n0 * (m2 * ee)). { apply Rmult_le_compat_l; [lra|]. eapply Rle_trans; [exact Q|]. apply Rmult_le_compat_l; lra. }
    assert (Y * D <= Y * K2 * ee). { unfold D. rewrite <- Rmult_assoc. apply Rmult_le_compat_l; lra. }
    apply Rle_trans with (2 * ((B ^ n0 * m2 + Y * K2) * ee)); [lra|]. right. unfold ee. field. lra. }
  assert (SMALL : forall k, 2 * L k <= m * (s0 * s0) -> s k <= s0).
  { intros k Hk. assert (Q : m * (s k * s k) <= 2 * L k) by apply LO2. destruct (Rle_lt_dec (s k) s0) as [X|X]; [exact X|]. exfalso. assert (s0 * s0 < s k * s k) by (apply Rmult_le_0_lt_compat; lra). assert (m * (s0 * s0) < m * (s k * s k)) by (apply Rmult_lt_compat_l; assumption). lra. }
  assert (IY : B ^ n0 * INR n0 * D + / (t / 2) * D = Y * D) by (unfold Y; ring). assert (IT2 : 0 < / (t / 2)) by (apply Rinv_0_lt_compat; lra). assert (ITD : 0 <= / (t / 2) * D) by (apply Rmult_le_pos; lra).
  assert (EB : forall k, (k <= n0)%nat -> B ^ k * (L O + INR k * D) <= B ^ n0 * L O + B ^ n0 * INR n0 * D).
  { intros k Hk. assert (BK : B ^ k <= B ^ n0) by (apply Rle_pow; [exact B1|exact Hk]). assert (NK : INR k <= INR n0) by (apply le_INR, Hk). assert (BP : 0 < B ^ k) by (apply pow_lt; lra). apply Rle_trans with (B ^ n0 * (L O + INR n0 * D)); [|right; ring]. assert (LO0 := LP O). assert (0 <= INR k * D) by (apply Rmult_le_pos; [apply pos_INR|exact D0]). assert (INR k * D <= INR n0 * D) by (apply Rmult_le_compat_r; assumption). apply Rmult_le_compat; lra. }
  assert (EARLY : forall k, (k <= n0)%nat -> I k /\ L k <= B ^ k * (L O + INR k * D)).
  { induction k as [|k IH]; intros Hk; [split; [exact IO|cbn; lra]|]. destruct (IH ltac:(lia)) as [IK IH']. assert (X := EB k ltac:(lia)).
    assert (SK : s k <= s0) by (apply SMALL; lra). destruct (REC k IK ltac:(lra)) as [IS RR]. split; [exact IS|]. assert (RP : 0 <= rho0 ^ k <= 1) by (split; [apply pow_le; lra|rewrite <- (pow1 k); apply pow_incr; lra]).
    assert (W0 : 0 <= M * rho0 ^ k + ws / 4 + C * s k <= M + 1). { assert (0 <= M * rho0 ^ k) by (apply Rmult_le_pos; lra). assert (0 <= C * s k) by (apply Rmult_le_pos; [lra|apply SP]). assert (M * rho0 ^ k <= M * 1) by (apply Rmult_le_compat_l; lra). assert (C * s k <= C * s0) by (apply Rmult_le_compat_l; lra). lra. }
    assert (ST := STEP _ _ _ _ _ d (proj1 W0) (proj1 HD) RR). fold (L k) in ST. fold (L (S k)) in ST. fold D in ST. eapply Rle_trans; [exact ST|]. apply Rle_trans with (B * L k + D).
    - apply Rplus_le_compat_r, Rmult_le_compat_r; [apply LP|]. unfold B. set (w := M * rho0 ^ k + ws / 4 + C * s k) in *. assert (K1 * (w * w) <= K1 * ((M + 1) * (M + 1))) by (apply Rmult_le_compat_l; [lra|apply Rmult_le_compat; lra]). lra.
    - rewrite S_INR. cbn [pow]. assert (B * L k <= B * (B ^ k * (L O + INR k * D))) by (apply Rmult_le_compat_l; lra). assert (1 * D <= B * B ^ k * D). { apply Rmult_le_compat_r; [exact D0|]. change (B * B ^ k) with (B ^ S k). apply pow_R1_Rle, B1. } lra. }
  set (X0 := B ^ n0 * L O + B ^ n0 * INR n0 * D). assert (X00 : 0 <= X0). { unfold X0. assert (0 <= B ^ n0 * L O) by (apply Rmult_le_pos; [lra|apply LP]). assert (0 <= B ^ n0 * INR n0 * D) by (apply Rmult_le_pos; [apply Rmult_le_pos; [lra|apply pos_INR]|exact D0]). lra. }
  assert (LATER : forall j, I (n0 + j)%nat /\ L (n0 + j)%nat <= la ^ j * X0 + / (t / 2) * D).
  { induction j as [|j [IJ IH]]. { rewrite Nat.add_0_r. destruct (EARLY n0 (le_n _)) as [E1 E2]. split; [exact E1|]. cbn [pow]. rewrite Rmult_1_l. assert (X := EB n0 (le_n _)). fold X0 in X. lra. }
    assert (LJ : 0 <= la ^ j <= 1) by (split; [apply pow_le; lra|rewrite <- (pow1 j); apply pow_incr; lra]).
    assert (X : la ^ j * X0 <= 1 * X0) by (apply Rmult_le_compat_r; lra). assert (SK : s (n0 + j)%nat <= s0) by (apply SMALL; unfold X0 in *; lra). destruct (REC (n0 + j)%nat IJ ltac:(lra)) as [IS RR].
    assert (W0 : 0 <= M * rho0 ^ (n0 + j) + ws / 4 + C * s (n0 + j)%nat <= ws). { assert (0 <= M * rho0 ^ (n0 + j)) by (apply Rmult_le_pos; [lra|apply pow_le; lra]). assert (0 <= C * s (n0 + j)%nat) by (apply Rmult_le_pos; [lra|apply SP]). assert (Q := LATE (n0 + j)%nat ltac:(lia)). assert (C * s (n0 + j)%nat <= C * s0) by (apply Rmult_le_compat_l; lra). lra. }
    assert (ST := STEP _ _ _ _ _ d (proj1 W0) (proj1 HD) RR). fold (L (n0 + j)%nat) in ST. fold (L (S (n0 + j))%nat) in ST. fold D in ST. replace (n0 + S j)%nat with (S (n0 + j)) by lia. split; [exact IS|]. eapply Rle_trans; [exact ST|]. apply Rle_trans with (la * L (n0 + j)%nat + D).
    - apply Rplus_le_compat_r, Rmult_le_compat_r; [apply LP|]. unfold la. set (w := M * rho0 ^ (n0 + j) + ws / 4 + C * s (n0 + j)%nat) in *. assert (K1 * (w * w) <= K1 * (ws * ws)) by (apply Rmult_le_compat_l; [lra|apply Rmult_le_compat; lra]). lra.
    - cbn [pow]. assert (la * L (n0 + j)%nat <= la * (la ^ j * X0 + / (t / 2) * D)) by (apply Rmult_le_compat_l; lra). assert (la * (/ (t / 2) * D) + D = / (t / 2) * D) by (unfold la; field; lra). lra. }
  assert (ALL : forall k, L k <= Z * la ^ k * L O + Y * D).
  { intros k. destruct (Nat.le_gt_cases k n0) as [Hk|Hk].
    - eapply Rle_trans; [apply (EARLY k Hk)|]. eapply Rle_trans; [apply (EB k Hk)|]. assert (LK : la ^ n0 <= la ^ k). { replace n0 with (k + (n0 - k))%nat by lia. rewrite pow_add. assert (0 < la ^ k) by (apply pow_lt; lra). assert (la ^ (n0 - k) <= 1) by (rewrite <- (pow1 (n0 - k)); apply pow_incr; lra). apply Rle_trans with (la ^ k * 1); [apply Rmult_le_compat_l; lra|lra]. }
      assert (B ^ n0 * L O <= Z * la ^ k * L O); [|lra]. apply Rmult_le_compat_r; [apply LP|]. unfold Z. apply Rle_trans with (B ^ n0 / la ^ n0 * la ^ n0); [right; field; lra|]. apply Rmult_le_compat_l; [left; exact Z0|exact LK].
    - assert (Q := proj2 (LATER (k - n0)%nat)). replace (n0 + (k - n0))%nat with k in Q by lia. eapply Rle_trans; [exact Q|]. unfold X0. assert (LJ : 0 <= la ^ (k - n0) <= 1) by (split; [apply pow_le; lra|rewrite <- (pow1 (k - n0)); apply pow_incr; lra]).
      assert (B0D : 0 <= B ^ n0 * INR n0 * D) by (apply Rmult_le_pos; [apply Rmult_le_pos; [lra|apply pos_INR]|exact D0]). assert (la ^ (k - n0) * (B ^ n0 * INR n0 * D) <= 1 * (B ^ n0 * INR n0 * D)) by (apply Rmult_le_compat_r; lra).
      assert (la ^ (k - n0) * (B ^ n0 * L O) = Z * la ^ k * L O). { replace (la ^ k) with (la ^ n0 * la ^ (k - n0)) by (rewrite <- pow_add; f_equal; lia). unfold Z. field. lra. } lra. }
  assert (UNI : forall k, 2 * L k <= m * (s0 * s0)).
  { intros k. destruct (Nat.le_gt_cases k n0) as [Hk|Hk].
    - assert (E := proj2 (EARLY k Hk)). assert (E2 := EB k Hk). lra.
    - assert (E := proj2 (LATER (k - n0)%nat)). replace (n0 + (k - n0))%nat with k in E by lia. assert (la ^ (k - n0) <= 1) by (rewrite <- (pow1 (k - n0)); apply pow_incr; lra). assert (la ^ (k - n0) * X0 <= 1 * X0) by (apply Rmult_le_compat_r; assumption). unfold X0 in *. lra. }
  intros k. split. { destruct (Nat.le_gt_cases k n0) as [Hk|Hk]; [apply (EARLY k Hk)|]. replace k with (n0 + (k - n0))%nat by lia. apply LATER. }
  split; [assert (Q := SMALL k (UNI k)); lra|].
  assert (LK : 0 < la ^ k) by (apply pow_lt; lra). rewrite sqrt_pow by lra. assert (SL := sqrt_pos (la ^ k)). assert (Sq : sqrt (la ^ k) * sqrt (la ^ k) = la ^ k) by (apply sqrt_sqrt; lra). set (sl := sqrt (la ^ k)) in *.
  assert (SQ : s k * s k <= KK * (sl * s O * (sl * s O) + d * d)).
  { assert (Q1 : m * (s k * s k) <= 2 * L k) by apply LO2. assert (Q2 := ALL k). assert (Q3 : L O <= m2 * (s O * s O)) by apply UP. assert (Z * la ^ k * L O <= Z * la ^ k * (m2 * (s O * s O))) by (apply Rmult_le_compat_l; [apply Rmult_le_pos; lra|exact Q3]).
    apply Rmult_le_reg_l with m; [exact M0|]. apply Rle_trans with (2 * (Z * m2 * (la ^ k * (s O * s O)) + Y * K2 * (d * d))); [unfold D in Q2; lra|]. replace (m * (KK * (sl * s O * (sl * s O) + d * d))) with (2 * (Z * m2 + Y * K2) * (sl * sl * (s O * s O) + d * d)) by (unfold KK; field; lra). rewrite Sq.
    assert (X1 : 0 <= la ^ k * (s O * s O)) by (apply Rmult_le_pos; [lra|apply sq0]). assert (X2 := sq0 d). assert (0 <= Z * m2 * (d * d)) by (apply Rmult_le_pos; lra). assert (0 <= Y * K2 * (la ^ k * (s O * s O))) by (apply Rmult_le_pos; lra). lra. }
  assert (A1 : 0 <= sl * s O) by (apply Rmult_le_pos; [exact SL|apply SP]). assert (A2 : 0 <= sl * s O * d) by (apply Rmult_le_pos; lra).
  rewrite <- (sqrt_Rsqr (sl * s O + d)) by lra. rewrite <- sqrt_mult by (try lra; apply Rle_0_sqr). apply le_sqrt_sq; [apply SP|apply Rmult_le_pos; [lra|apply Rle_0_sqr]|]. eapply Rle_trans; [exact SQ|]. apply Rmult_le_compat_l; [lra|]. unfold Rsqr. lra.
Qed.
