(** * Lemmas: recursions that contract only after a while, and one Lyapunov step *)
From Coq Require Import Reals Lra Psatz Lia.
From Verif Require Import Num Vec M_vector S_rot P_quat P_wheel P_dyn2 P_steady P_est1 P_tri1.
Local Open Scope R_scope.

(** a sequence that from the cycle n0 on contracts by la, and before grows by at most B, up to D each time; the step is only known for Z k <= z0 *)
Lemma fade la B n0 z0 : 0 < la < 1 -> 1 <= B -> 0 < z0 -> exists eps K, 0 < eps /\ 0 < K /\
  forall (I : nat -> Prop) (Z : nat -> R) (D : R), 0 <= D <= eps -> (forall k, 0 <= Z k) -> Z O <= eps -> I O ->
  (forall k, I k -> Z k <= z0 -> I (S k) /\ Z (S k) <= (if (k <? n0)%nat then B else la) * Z k + D) ->
  forall k, I k /\ Z k <= z0 /\ Z k <= K * (la ^ k * Z O + D).
Proof.
  intros LA B1 Z0. set (BN := B ^ n0). assert (BN1 : 1 <= BN) by (apply pow_R1_Rle, B1). set (Y := BN * INR n0 + / (1 - la)). assert (IL : 0 < / (1 - la)) by (apply Rinv_0_lt_compat; lra). assert (Y0 : 0 < Y). { unfold Y. assert (0 <= BN * INR n0) by (apply Rmult_le_pos; [lra|apply pos_INR]). lra. }
  assert (LN : 0 < la ^ n0) by (apply pow_lt; lra). set (Q := BN / la ^ n0). assert (Q0 : 0 < Q) by (apply Rdiv_lt_0_compat; lra).
  exists (z0 / (BN + Y)), (Q + Y). split; [apply Rdiv_lt_0_compat; lra|]. split; [lra|].
  intros I Z D HD ZP ZE IO REC.
  assert (TOP : BN * Z O + Y * D <= z0). { apply Rle_trans with ((BN + Y) * (z0 / (BN + Y))); [|right; field; lra]. assert (BN * Z O <= BN * (z0 / (BN + Y))) by (apply Rmult_le_compat_l; lra). assert (Y * D <= Y * (z0 / (BN + Y))) by (apply Rmult_le_compat_l; lra). lra. }
  assert (ID0 : 0 <= / (1 - la) * D) by (apply Rmult_le_pos; lra). assert (YD : Y * D = BN * INR n0 * D + / (1 - la) * D) by (unfold Y; ring).
  assert (EB : forall k, (k <= n0)%nat -> B ^ k * (Z O + INR k * D) <= BN * Z O + BN * INR n0 * D).
  { intros k Hk. assert (BK : B ^ k <= BN) by (apply Rle_pow; assumption). assert (NK : INR k <= INR n0) by (apply le_INR, Hk). assert (BP : 0 < B ^ k) by (apply pow_lt; lra). apply Rle_trans with (BN * (Z O + INR n0 * D)); [|right; ring]. assert (LO0 := ZP O). assert (0 <= INR k * D) by (apply Rmult_le_pos; [apply pos_INR|lra]). assert (INR k * D <= INR n0 * D) by (apply Rmult_le_compat_r; lra). apply Rmult_le_compat; lra. }
  assert (EARLY : forall k, (k <= n0)%nat -> I k /\ Z k <= B ^ k * (Z O + INR k * D)).
  { induction k as [|k IH]; intros Hk; [split; [exact IO|cbn; lra]|]. destruct (IH ltac:(lia)) as [IK IH']. assert (X := EB k ltac:(lia)). destruct (REC k IK ltac:(lra)) as [IS RR]. split; [exact IS|]. replace (k <? n0)%nat with true in RR by (symmetry; apply Nat.ltb_lt; lia).
    eapply Rle_trans; [exact RR|]. rewrite S_INR. cbn [pow]. assert (B * Z k <= B * (B ^ k * (Z O + INR k * D))) by (apply Rmult_le_compat_l; lra). assert (1 * D <= B * B ^ k * D). { apply Rmult_le_compat_r; [lra|]. change (B * B ^ k) with (B ^ S k). apply pow_R1_Rle, B1. } lra. }
  set (X0 := BN * Z O + BN * INR n0 * D). assert (X00 : 0 <= X0). { unfold X0. assert (0 <= BN * Z O) by (apply Rmult_le_pos; [lra|apply ZP]). assert (0 <= BN * INR n0 * D) by (apply Rmult_le_pos; [apply Rmult_le_pos; [lra|apply pos_INR]|lra]). lra. }
  assert (LATER : forall j, I (n0 + j)%nat /\ Z (n0 + j)%nat <= la ^ j * X0 + / (1 - la) * D).
  { induction j as [|j [IJ IH]]. { rewrite Nat.add_0_r. destruct (EARLY n0 (le_n _)) as [E1 E2]. split; [exact E1|]. cbn [pow]. rewrite Rmult_1_l. assert (X := EB n0 (le_n _)). fold X0 in X. lra. }
    assert (LJ : 0 <= la ^ j <= 1) by (split; [apply pow_le; lra|rewrite <- (pow1 j); apply pow_incr; lra]). assert (X : la ^ j * X0 <= 1 * X0) by (apply Rmult_le_compat_r; lra).
    destruct (REC (n0 + j)%nat IJ ltac:(unfold X0 in *; lra)) as [IS RR]. replace (n0 + j <? n0)%nat with false in RR by (symmetry; apply Nat.ltb_ge; lia). replace (n0 + S j)%nat with (S (n0 + j)) by lia. split; [exact IS|]. eapply Rle_trans; [exact RR|].
    cbn [pow]. assert (la * Z (n0 + j)%nat <= la * (la ^ j * X0 + / (1 - la) * D)) by (apply Rmult_le_compat_l; lra). assert (la * (/ (1 - la) * D) + D = / (1 - la) * D) by (field; lra). lra. }
  intros k. assert (LP : 0 < la ^ k) by (apply pow_lt; lra). assert (ZO := ZP O). assert (PZ : 0 <= la ^ k * Z O) by (apply Rmult_le_pos; lra). assert (QD : 0 <= Q * D) by (apply Rmult_le_pos; lra). assert (YZ : 0 <= Y * (la ^ k * Z O)) by (apply Rmult_le_pos; lra).
  destruct (Nat.le_gt_cases k n0) as [Hk|Hk].
  - destruct (EARLY k Hk) as [E1 E2]. assert (E3 := EB k Hk). split; [exact E1|]. split; [lra|]. assert (LK : la ^ n0 <= la ^ k). { replace n0 with (k + (n0 - k))%nat by lia. rewrite pow_add. assert (la ^ (n0 - k) <= 1) by (rewrite <- (pow1 (n0 - k)); apply pow_incr; lra). apply Rle_trans with (la ^ k * 1); [apply Rmult_le_compat_l; lra|lra]. }
    assert (BN * Z O <= Q * (la ^ k * Z O)); [|lra]. rewrite <- Rmult_assoc. apply Rmult_le_compat_r; [exact ZO|]. unfold Q. apply Rle_trans with (BN / la ^ n0 * la ^ n0); [right; field; lra|]. apply Rmult_le_compat_l; [left; exact Q0|exact LK].
  - destruct (LATER (k - n0)%nat) as [E1 E2]. replace (n0 + (k - n0))%nat with k in E1, E2 by lia. split; [exact E1|]. assert (LJ : 0 <= la ^ (k - n0) <= 1) by (split; [apply pow_le; lra|rewrite <- (pow1 (k - n0)); apply pow_incr; lra]).
    assert (X : la ^ (k - n0) * X0 <= 1 * X0) by (apply Rmult_le_compat_r; lra). split; [unfold X0 in *; lra|]. assert (E : la ^ (k - n0) * (BN * Z O) = Q * (la ^ k * Z O)). { replace (la ^ k) with (la ^ n0 * la ^ (k - n0)) by (rewrite <- pow_add; f_equal; lia). unfold Q. field. lra. }
    assert (B0D : 0 <= BN * INR n0 * D) by (apply Rmult_le_pos; [apply Rmult_le_pos; [lra|apply pos_INR]|lra]). assert (la ^ (k - n0) * (BN * INR n0 * D) <= 1 * (BN * INR n0 * D)) by (apply Rmult_le_compat_r; lra). unfold X0 in E2. lra.
Qed.

(** one step of the two-vector recursion in its Lyapunov function *)
Lemma lyap_step a g : 0 < a < 1 -> 0 < g < 2 + 2 * a -> exists p q r m m2 t K1, 0 < m /\ m <= m2 /\ 0 < t < 1 /\ 0 < K1 /\
  (forall u x : v3, 0 <= fm3 p q r u x) /\
  (forall u x, m * ((norm3 u + norm3 x) * (norm3 u + norm3 x)) <= 2 * fm3 p q r u x) /\ (forall u x, fm3 p q r u x <= m2 * ((norm3 u + norm3 x) * (norm3 u + norm3 x))) /\
  forall u x u' x' w d, 0 <= w -> 0 <= d -> norm3 (sub3 u' (scale3 a (sub3 u x))) + norm3 (sub3 x' (add3 x (scale3 g (sub3 u x)))) <= w * (norm3 u + norm3 x) + d -> fm3 p q r u' x' <= (1 - t + K1 * (w * w)) * fm3 p q r u x + K1 * (d * d).
Proof.
  intros A G. destruct (lyapunov3 a g A G) as (p & q & r & m & m2 & eta & M0 & M2 & E0 & POS & LO2 & UP & YOU & DEC).
  set (t := eta / 2). assert (T0 : 0 < t < 1) by (unfold t; lra). assert (IT := Rinv_0_lt_compat t (proj1 T0)).
  set (Ka := (1 + / t) * m2 * (4 / m)). set (Kb := (1 + / t) * m2 * 2). assert (KB0 : 0 < Kb) by (unfold Kb; apply Rmult_lt_0_compat; [apply Rmult_lt_0_compat; lra|lra]). assert (KA0 : 0 < Ka) by (unfold Ka; apply Rmult_lt_0_compat; [apply Rmult_lt_0_compat; lra|apply Rdiv_lt_0_compat; lra]).
  exists p, q, r, m, m2, t, (Ka + Kb). split; [exact M0|]. split; [exact M2|]. split; [exact T0|]. split; [lra|]. split; [exact POS|]. split; [exact LO2|]. split; [exact UP|].
  intros u x u' x' w d W0 D0 W. set (du := sub3 u' (scale3 a (sub3 u x))) in *. set (dx := sub3 x' (add3 x (scale3 g (sub3 u x)))) in *.
  replace u' with (add3 (scale3 a (sub3 u x)) du) by (unfold du; vring). replace x' with (add3 (add3 x (scale3 g (sub3 u x))) dx) by (unfold dx; vring).
  eapply Rle_trans; [apply (YOU t _ _ _ _ (proj1 T0))|]. assert (L := POS u x). assert (Hs := LO2 u x). set (s := norm3 u + norm3 x) in *. assert (S0 : 0 <= s) by (unfold s; assert (X := n3pos u); assert (Y := n3pos x); lra).
  assert (P1 : (1 + t) * fm3 p q r (scale3 a (sub3 u x)) (add3 x (scale3 g (sub3 u x))) <= (1 - t) * fm3 p q r u x).
  { apply Rle_trans with ((1 + t) * ((1 - eta) * fm3 p q r u x)); [apply Rmult_le_compat_l; [lra|apply DEC]|]. rewrite <- Rmult_assoc. apply Rmult_le_compat_r; [exact L|]. unfold t. assert (0 <= eta * eta) by apply sq0. lra. }
  assert (Q := UP du dx). assert (Pd : 0 <= norm3 du) by apply n3pos. assert (Px : 0 <= norm3 dx) by apply n3pos. assert (WS : 0 <= w * s) by (apply Rmult_le_pos; assumption).
  assert (SQ : (norm3 du + norm3 dx) * (norm3 du + norm3 dx) <= 2 * ((w * s) * (w * s)) + 2 * (d * d)) by (eapply Rle_trans; [|apply sq_sum; assumption]; apply Rmult_le_compat; lra).
  assert (P2 : (1 + / t) * fm3 p q r du dx <= Ka * (w * w) * fm3 p q r u x + Kb * (d * d)).
  { apply Rle_trans with ((1 + / t) * (m2 * (2 * ((w * s) * (w * s)) + 2 * (d * d)))). { apply Rmult_le_compat_l; [lra|]. eapply Rle_trans; [exact Q|]. apply Rmult_le_compat_l; lra. }
    replace ((1 + / t) * (m2 * (2 * ((w * s) * (w * s)) + 2 * (d * d)))) with ((1 + / t) * m2 * (w * w) * (2 * (s * s)) + Kb * (d * d)) by (unfold Kb; ring). replace (Ka * (w * w) * fm3 p q r u x) with ((1 + / t) * m2 * (w * w) * (4 / m * fm3 p q r u x)) by (unfold Ka; ring).
    apply Rplus_le_compat_r. apply Rmult_le_compat_l. { apply Rmult_le_pos; [apply Rmult_le_pos; lra|apply sq0]. } apply Rmult_le_reg_l with m; [exact M0|]. replace (m * (4 / m * fm3 p q r u x)) with (2 * (2 * fm3 p q r u x)) by (field; lra). lra. }
  assert (0 <= Kb * (w * w) * fm3 p q r u x) by (apply Rmult_le_pos; [apply Rmult_le_pos; [lra|apply sq0]|exact L]). assert (0 <= Ka * (d * d)) by (apply Rmult_le_pos; [lra|apply sq0]). lra.
Qed.
