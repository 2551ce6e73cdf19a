(** * Lemmas: the position filter fed with fixes (6): away from its design radius the estimate is pulled off *)
From Coq Require Import Reals List Bool Lra Psatz Lia.
From Coquelicot Require Import Coquelicot.
From Verif Require Import Num Vec Mat6 M_vector M_env M_dyn M_obs S_rot S_dyn S_orb S_obs P_quat P_wheel P_tot2 P_tot3 P_dyn P_orb3 P_obs P_obs2 P_posf Props_obs P_gps1 P_gps2 P_gps3 P_gps4 P_gps5.
Local Open Scope R_scope.

Lemma pow_150 k : (150 <= k)%nat -> 0.9322 ^ k <= 0.00003.
Proof.
  intros H. apply Rle_trans with (0.9322 ^ 150).
  - replace k with (150 + (k - 150))%nat by lia. rewrite pow_add. assert (0 < 0.9322 ^ 150) by (apply pow_lt; lra). assert (0.9322 ^ (k - 150) <= 1) by (rewrite <- (pow1 (k - 150)); apply pow_incr; lra). nra.
  - replace (0.9322 ^ 150) with ((0.9322 ^ 10) ^ 15) by (rewrite <- pow_mult; reflexivity). assert (A : 0 <= 0.9322 ^ 10 <= 0.4957) by (split; [apply pow_le; lra|lra]). apply Rle_trans with (0.4957 ^ 15); [apply pow_incr; exact A|lra].
Qed.
Lemma vb_all s h dt Y X E0 W : (forall k, 0.5 <= dt k <= 1) -> (forall k, 6600000 <= norm3 (u1 (X k))) ->
  (let e := sub6 (p_x (pf_init s)) (X O) in sqrt (dot6 e e) <= E0) -> E0 <= 9000 -> W <= 18 ->
  (forall k, let d := sub6 (X (S k)) (step6 (dt k) (X k)) in let n := sub6 (Y (S k)) (X (S k)) in 1.5 * norm3 (u1 d) + 22 * norm3 (u2 d) + 0.1 * norm3 (u1 n) + 2 * norm3 (u2 n) <= W) ->
  forall k, vbound (p_P (fedV h dt Y (pf_init s) k)) (0.00947 + 0.9322 ^ k).
Proof.
  intros HT HX HE E9 W18 HW. assert (FL := fed_level s h dt Y X E0 W HT HX HE E9 W18 HW). induction k as [|k IH].
  - intros y. cbn [fedV pow]. unfold qf, pf_init. cbn [p_P]. rewrite mv6_id. unfold dot6. cbn [u1 u2]. replace (dot3 (zero3 (T := R)) zero3) with 0 by (unfold dot3, zero3; cbn [x3 y3 z3]; rnumg; ring). assert (YY := dot3_nonneg y). lra.
  - destruct (FL k) as (CF & _ & FR & _). cbn [fedV pow]. assert (P : 0 < 0.9322 ^ k) by (apply pow_lt; lra). assert (A := vb_cycle (h k) (dt k) (Y (S k)) _ (0.00947 + 0.9322 ^ k) CF FR (HT k) ltac:(lra) IH). intros y. eapply Rle_trans; [apply A|]. apply Rmult_le_compat_r; [apply dot3_nonneg|]. lra.
Qed.
(** one cycle with an exact fix, along a direction of the velocity *)
Lemma pull h f X X' k rho : cov_fine (p_P f) -> 6500000 <= norm3 (u1 (p_x f)) -> vbound (p_P (fixed h 1 X' f)) k -> 0 <= k <= 0.0095 -> norm3 rho <= 1 ->
  let e := sub6 (p_x f) X in let d := sub6 X' (step6 1 X) in let e' := sub6 (p_x (fixed h 1 X' f)) X' in
  norm3 (u1 e) <= 15 -> norm3 (u2 e) <= 2 -> norm3 (u1 d) <= 0.34 -> norm3 (u2 d) <= 0.65 -> 0.345 <= dot3 rho (u2 d) ->
  dot3 rho (u2 e') <= dot3 rho (u2 e) - 0.08.
Proof.
  intros CF HP VB K NR e d e' H1 H2 G1 G2 GD. assert (HT : 0.5 <= 1 <= 1) by lra. destruct (fine_cycle h 1 X' f CF HP HT) as [CF' LR]. destruct CF as (S & Q & AB & UP). destruct (prop_cov 1 f S Q) as [S1 Q1].
  destruct (update_gain h (u1 X') (u2 X') (pf_propagate 1 f) S1 Q1 (mk6 zero3 rho)) as (g & EG & EX). fold (fixed h 1 X' f) in EG, EX. destruct CF' as (S' & Q' & _).
  destruct (gain_sizes _ g rho k S' Q' LR VB K EG) as [M1 M2].
  set (em := sub6 (step6 1 e) d).
  assert (EM : sub6 (p_x (pf_propagate 1 f)) X' = em). { rewrite propagate_step. unfold em, d. replace (p_x f) with (add6 e X) by (unfold e; clear; destruct (p_x f) as [a b], X as [a' b']; unfold add6, sub6; cbn [u1 u2]; f_equal; vring). rewrite step6_add. generalize (step6 1 e) (step6 1 X). clear. intros [a b] [c d]. destruct X' as [x y]. unfold add6, sub6. cbn [u1 u2]. f_equal; vring. }
  assert (Z1 : forall v : v3, dot3 zero3 v = 0) by (intros v; unfold dot3, zero3; cbn [x3 y3 z3]; rnumg; ring).
  assert (EQ : dot3 rho (u2 e') = dot3 rho (u2 em) - dot6 g em).
  { assert (A : dot6 (mk6 zero3 rho) e' = dot6 (mk6 zero3 rho) em - dot6 g em). { unfold e'. rewrite dot6_sub_r, EX, <- EM. replace (mk6 (u1 X') (u2 X')) with X' by (destruct X'; reflexivity). rewrite !dot6_sub_r. ring. }
    unfold dot6 at 1 2 in A. cbn [u1 u2] in A. rewrite !Z1 in A. lra. }
  rewrite EQ. assert (PA := pfa_val). assert (PB := pfb_val).
  assert (C11 : 0 <= cA11 1 <= 1) by (unfold cA11; rewrite PA; lra). assert (C12 : 0 <= cA12 1 <= 1) by (unfold cA12; rewrite PA, PB; lra). assert (C22 : 0.999999 <= cA22 1 <= 1) by (unfold cA22; rewrite PA, PB; lra). assert (C21 : 0 <= - cA21 1 <= 0.00000128) by (unfold cA21; rewrite PA; lra).
  assert (P1 := norm3_pos (u1 e)). assert (P2 := norm3_pos (u2 e)). assert (P3 := norm3_pos rho). assert (P4 := norm3_pos (u1 g)). assert (P5 := norm3_pos (u2 g)).
  assert (TS : forall a b : v3, norm3 (sub3 a b) <= norm3 a + norm3 b). { intros a b. replace (sub3 a b) with (add3 a (scale3 (-1) b)) by (clear; vring). eapply Rle_trans; [apply norm3_triangle|]. rewrite norm3_scal. replace (Rabs (-1)) with 1 by (rewrite Rabs_left; lra). lra. }
  assert (L1 : norm3 (u1 em) <= 17.34).
  { unfold em. cbn [u1 u2 sub6 step6]. eapply Rle_trans; [apply TS|]. assert (T := norm3_triangle (scale3 (cA11 1) (u1 e)) (scale3 (cA12 1) (u2 e))). rewrite !nscal in T by lra. assert (cA11 1 * norm3 (u1 e) <= 1 * norm3 (u1 e)) by (apply Rmult_le_compat_r; lra). assert (cA12 1 * norm3 (u2 e) <= 1 * norm3 (u2 e)) by (apply Rmult_le_compat_r; lra). lra. }
  assert (ABS21 : Rabs (cA21 1) <= 0.00000128) by (apply Rabs_le; lra).
  assert (L2 : norm3 (u2 em) <= 2.651).
  { unfold em. cbn [u1 u2 sub6 step6]. eapply Rle_trans; [apply TS|]. assert (T := norm3_triangle (scale3 (cA21 1) (u1 e)) (scale3 (cA22 1) (u2 e))). rewrite (nscal (cA22 1)), norm3_scal in T by lra. assert (Rabs (cA21 1) * norm3 (u1 e) <= 0.00000128 * norm3 (u1 e)) by (apply Rmult_le_compat_r; lra). assert (cA22 1 * norm3 (u2 e) <= 1 * norm3 (u2 e)) by (apply Rmult_le_compat_r; lra). lra. }
  assert (GE : Rabs (dot6 g em) <= 0.0097 * 17.34 + 0.0351 * 2.651).
  { eapply Rle_trans; [apply dot6_split|]. assert (Q3 := norm3_pos (u1 em)). assert (Q4 := norm3_pos (u2 em)). apply Rplus_le_compat; (apply Rmult_le_compat; [assumption|assumption|lra|assumption]). }
  apply abs_both in GE.
  assert (RE : dot3 rho (u2 em) <= dot3 rho (u2 e) + 0.0001 - dot3 rho (u2 d)).
  { assert (EE : dot3 rho (u2 em) = cA21 1 * dot3 rho (u1 e) + cA22 1 * dot3 rho (u2 e) - dot3 rho (u2 d)) by (unfold em; cbn [u1 u2 sub6 step6]; generalize (cA21 1) (cA22 1); clear; vring).
    rewrite EE. assert (X1 := dots rho (u1 e)). assert (X2 := dots rho (u2 e)). assert (Y1 : norm3 rho * norm3 (u1 e) <= 15) by (apply Rle_trans with (1 * 15); [apply Rmult_le_compat; lra|lra]). assert (Y2 : norm3 rho * norm3 (u2 e) <= 2) by (apply Rle_trans with (1 * 2); [apply Rmult_le_compat; lra|lra]).
    set (x := dot3 rho (u1 e)) in *. set (y := dot3 rho (u2 e)) in *. assert (cA21 1 * x <= 0.00000128 * 15) by nra. assert (cA22 1 * y <= y + 0.000002) by nra. lra. }
  lra.
Qed.
Lemma cos_low2 z : 1 - z * z / 2 <= cos z. Proof. assert (H := cos_low z). lra. Qed.
Lemma circ_dot w p0 v0 t : w <> 0 -> dot3 p0 v0 = 0 -> dot3 p0 (u1 (circ w p0 v0 t)) = cos (w * t) * dot3 p0 p0 /\ dot3 p0 (u2 (circ w p0 v0 t)) = - (w * sin (w * t)) * dot3 p0 p0.
Proof.
  intros W H. unfold circ. cbn [u1 u2]. assert (G : forall m n, dot3 p0 (add3 (scale3 m p0) (scale3 n v0)) = m * dot3 p0 p0 + n * dot3 p0 v0) by (intros m n; clear; vring). rewrite !G, H. split; ring.
Qed.
(** the offset of the orbit from the filter's model, seen along the radius at the start of the window *)
Lemma off_radial w p0 v0 r j : 0 < w <= 0.00112 -> 0.0504 / 10 ^ 6 <= pf_a - w * w <= 0.0925 / 10 ^ 6 -> 6870000 <= r <= 6950000 -> dot3 p0 v0 = 0 -> dot3 v0 v0 = w * w * dot3 p0 p0 -> norm3 p0 = r -> (j <= 60)%nat ->
  let d := sub6 (circ w p0 v0 (INR j + 1)) (step6 1 (circ w p0 v0 (INR j))) in 0.345 <= dot3 (scale3 (/ r) p0) (u2 d).
Proof.
  intros HW HA HR HO HV HP HJ. cbv zeta. rewrite circ_off by lra. cbv zeta. cbn [u1 u2]. set (z := circ w p0 v0 (INR j)). destruct (circ_dot w p0 v0 (INR j) ltac:(lra) HO) as [C1 C2]. fold z in C1, C2.
  assert (G : forall k m n (x y : v3), dot3 (scale3 k p0) (add3 (scale3 m x) (scale3 n y)) = k * (m * dot3 p0 x + n * dot3 p0 y)) by (clear; vring). rewrite G, C1, C2, <- norm3_dot, HP.
  replace (/ r * ((- (w * sin (w * 1)) - cA21 1) * (cos (w * INR j) * (r * r)) + (cos (w * 1) - cA22 1) * (- (w * sin (w * INR j)) * (r * r)))) with (r * ((- (w * sin (w * 1)) - cA21 1) * cos (w * INR j) - w * ((cos (w * 1) - cA22 1) * sin (w * INR j)))) by (field; lra).
  assert (J : 0 <= INR j <= 60) by (split; [apply pos_INR|replace 60 with (INR 60) by (cbn [INR]; lra); apply le_INR; exact HJ]).
  assert (WJ : 0 <= w * INR j <= 0.0672) by (split; [apply Rmult_le_pos; lra|nra]). assert (CJ := cos_low2 (w * INR j)). assert (CJ1 : 0.9977 <= cos (w * INR j)) by nra. assert (CJ2 := COS_bound (w * INR j)). assert (SJ := SIN_bound (w * INR j)).
  destruct (coeffs w 1 (0.0925 / 10 ^ 6) ltac:(lra) ltac:(lra) ltac:(apply Rabs_le; lra)) as (_ & _ & _ & K4). apply abs_both in K4.
  assert (K3 : pf_a - w * w <= - (w * sin (w * 1)) - cA21 1). { assert (SL : sin (w * 1) <= w * 1) by (left; apply sin_lt_x; lra). assert (w * sin (w * 1) <= w * (w * 1)) by (apply Rmult_le_compat_l; lra). unfold cA21. lra. }
  set (A := - (w * sin (w * 1)) - cA21 1) in *. set (B := cos (w * 1) - cA22 1) in *. set (c := cos (w * INR j)) in *. set (s := sin (w * INR j)) in *.
  assert (T1 : 0.0504 / 10 ^ 6 * 0.9977 <= A * c) by (apply Rmult_le_compat; lra).
  assert (T2 : B * s <= 0.0465 / 10 ^ 6). { apply Rle_trans with (Rabs (B * s)); [apply Rle_abs|]. rewrite Rabs_mult. apply Rle_trans with (0.0465 / 10 ^ 6 * 1); [|lra]. apply Rmult_le_compat; [apply Rabs_pos|apply Rabs_pos|apply Rabs_le; lra|apply Rabs_le; lra]. }
  assert (T3 : w * (B * s) <= 0.00112 * (0.0465 / 10 ^ 6)). { destruct (Rle_or_lt 0 (B * s)) as [P|P]; [apply Rmult_le_compat; lra|]. assert (w * (B * s) <= 0) by nra. lra. }
  apply Rle_trans with (6870000 * (0.0504 / 10 ^ 6 * 0.9977 - 0.00112 * (0.0465 / 10 ^ 6))); [lra|]. apply Rmult_le_compat; lra.
Qed.
Lemma circ_from w p0 v0 a b : w <> 0 -> circ w p0 v0 (a + b) = circ w (u1 (circ w p0 v0 a)) (u2 (circ w p0 v0 a)) b.
Proof. intros W. rewrite circ_step by exact W. reflexivity. Qed.
Lemma rates r w : 0 < w -> w * w * r ^ 3 = earth_mu -> 6870000 <= r <= 6950000 -> w <= 0.00112 /\ 0.0504 / 10 ^ 6 <= pf_a - w * w <= 0.0925 / 10 ^ 6.
Proof.
  intros W E HR. assert (R3 : 6870000 ^ 3 <= r ^ 3 <= 6950000 ^ 3) by (split; apply pow_incr; lra). unfold earth_mu in E. set (q := r ^ 3) in *. set (e := w * w) in *. assert (PA := pfa_val).
  assert (E1 : 1.1875 / 10 ^ 6 <= e). { apply Rnot_lt_le. intros L. assert (e * q <= 1.1875 / 10 ^ 6 * 6950000 ^ 3) by (apply Rmult_le_compat; try lra; unfold e; nra). lra. }
  assert (E2 : e <= 1.2296 / 10 ^ 6). { apply Rnot_lt_le. intros L. assert (1.2296 / 10 ^ 6 * 6870000 ^ 3 <= e * q) by (apply Rmult_le_compat; lra). lra. }
  split; [|lra]. apply Rnot_lt_le. intros L. assert (0.00112 * 0.00112 <= e) by (unfold e; apply Rmult_le_compat; lra). lra.
Qed.
Lemma bias s h w p0 v0 r E0 N : 0 < w -> w * w * r ^ 3 = earth_mu -> 6870000 <= r <= 6950000 -> dot3 p0 v0 = 0 -> dot3 v0 v0 = w * w * dot3 p0 p0 -> norm3 p0 = r ->
  let X := fun k => circ w p0 v0 (INR k) in (let e := sub6 (p_x (pf_init s)) (X O) in sqrt (dot6 e e) <= E0) -> E0 <= 9000 -> (150 <= N)%nat ->
  let f := fedV h (fun _ => 1) X (pf_init s) in
  exists k, (N <= k <= N + 60)%nat /\ (15 < norm3 (sub3 (u1 (p_x (f k))) (u1 (X k))) \/ 2 < norm3 (sub3 (u2 (p_x (f k))) (u2 (X k)))).
Proof.
  intros W0 HW3 HR HO HV HP X HE E9 HN f. destruct (rates r w W0 HW3 HR) as [W1 HA].
  assert (SZ : forall k, norm3 (u1 (X k)) = r). { intros k. destruct (circ_size w p0 v0 (INR k) ltac:(lra) HO HV) as (S1 & _). rewrite <- HP. unfold norm3. unfold X. rewrite S1. reflexivity. }
  assert (OFF : forall k, norm3 (u1 (sub6 (X (S k)) (step6 1 (X k)))) <= 0.34 /\ norm3 (u2 (sub6 (X (S k)) (step6 1 (X k)))) <= 0.65).
  { intros k. unfold X. rewrite S_INR. destruct (off_size w p0 v0 r (INR k) 1 (0.0925 / 10 ^ 6) ltac:(lra) ltac:(lra) ltac:(apply Rabs_le; lra) ltac:(lra) HO HV HP) as [A B].
    split; (eapply Rle_trans; [eassumption|]); (eapply Rle_trans; [apply Rmult_le_compat_r; [|apply HR]; lra|lra]). }
  assert (HT : forall k : nat, 0.5 <= (fun _ : nat => 1) k <= 1) by (intros k; lra). assert (HX : forall k, 6600000 <= norm3 (u1 (X k))) by (intros k; rewrite SZ; lra).
  assert (HWW : forall k, let d := sub6 (X (S k)) (step6 ((fun _ => 1) k) (X k)) in let n := sub6 (X (S k)) (X (S k)) in 1.5 * norm3 (u1 d) + 22 * norm3 (u2 d) + 0.1 * norm3 (u1 n) + 2 * norm3 (u2 n) <= 18).
  { intros k. cbv zeta beta. destruct (OFF k) as [A B]. cbn [u1 u2 sub6] in *. rewrite !sub3_self. replace (norm3 zero3) with 0 by (unfold norm3, dot3, zero3; cbn [x3 y3 z3]; rnumg; replace (0 * 0 + 0 * 0 + 0 * 0) with 0 by ring; rewrite sqrt_0; reflexivity). lra. }
  assert (FL := fed_level s h _ X X E0 18 HT HX HE E9 ltac:(lra) HWW). assert (VB := vb_all s h _ X X E0 18 HT HX HE E9 ltac:(lra) HWW). fold f in FL, VB. cbv zeta in FL.
  (* either the conclusion or everything in the window is small *)
  assert (DEC : forall n, (exists k, (N <= k <= N + n)%nat /\ (15 < norm3 (sub3 (u1 (p_x (f k))) (u1 (X k))) \/ 2 < norm3 (sub3 (u2 (p_x (f k))) (u2 (X k))))) \/
    (forall k, (N <= k <= N + n)%nat -> norm3 (sub3 (u1 (p_x (f k))) (u1 (X k))) <= 15 /\ norm3 (sub3 (u2 (p_x (f k))) (u2 (X k))) <= 2)).
  { assert (ONE : forall k, (15 < norm3 (sub3 (u1 (p_x (f k))) (u1 (X k))) \/ 2 < norm3 (sub3 (u2 (p_x (f k))) (u2 (X k)))) \/ (norm3 (sub3 (u1 (p_x (f k))) (u1 (X k))) <= 15 /\ norm3 (sub3 (u2 (p_x (f k))) (u2 (X k))) <= 2)).
    { intros k. destruct (Rle_or_lt (norm3 (sub3 (u1 (p_x (f k))) (u1 (X k)))) 15) as [A|A]; [|left; left; exact A]. destruct (Rle_or_lt (norm3 (sub3 (u2 (p_x (f k))) (u2 (X k)))) 2) as [B|B]; [right; split; assumption|left; right; exact B]. }
    induction n as [|n IH].
    - destruct (ONE N) as [A|A]; [left; exists N; split; [lia|exact A]|right; intros k Hk; replace k with N by lia; exact A].
    - destruct IH as [(k & Hk & A)|A]; [left; exists k; split; [lia|exact A]|]. destruct (ONE (N + S n)%nat) as [B|B]; [left; exists (N + S n)%nat; split; [lia|exact B]|right].
      intros k Hk. destruct (Nat.eq_dec k (N + S n)) as [->|NE]; [exact B|apply A; lia]. }
  destruct (DEC 60%nat) as [A|SM]; [exact A|exfalso].
  set (q0 := u1 (X N)). set (w0 := u2 (X N)). set (rho := scale3 (/ r) q0).
  destruct (circ_size w p0 v0 (INR N) ltac:(lra) HO HV) as (S1 & S2 & S3). change (circ w p0 v0 (INR N)) with (X N) in S1, S2, S3. fold q0 w0 in S1, S2, S3.
  assert (HO' : dot3 q0 w0 = 0) by exact S3. assert (HV' : dot3 w0 w0 = w * w * dot3 q0 q0) by (rewrite S1, S2; exact HV). assert (HP' : norm3 q0 = r) by apply SZ.
  assert (NR : norm3 rho <= 1). { unfold rho. rewrite nscal by (left; apply Rinv_0_lt_compat; lra). rewrite HP'. right. field. lra. }
  assert (XJ : forall j, X (N + j)%nat = circ w q0 w0 (INR j)). { intros j. unfold X. rewrite plus_INR. apply circ_from. lra. }
  assert (ST : forall j, (j <= 59)%nat -> dot3 rho (u2 (sub6 (p_x (f (N + S j)%nat)) (X (N + S j)%nat))) <= dot3 rho (u2 (sub6 (p_x (f (N + j)%nat)) (X (N + j)%nat))) - 0.08).
  { intros j Hj. replace (N + S j)%nat with (S (N + j)) by lia. change (f (S (N + j))) with (fixed (h (N + j)%nat) 1 (X (S (N + j))) (f (N + j)%nat)). destruct (FL (N + j)%nat) as (CF & _ & FR & _). assert (VJ := VB (S (N + j))). change (f (S (N + j))) with (fixed (h (N + j)%nat) 1 (X (S (N + j))) (f (N + j)%nat)) in VJ.
    assert (PW := pow_150 (S (N + j)) ltac:(lia)). assert (PW0 : 0 < 0.9322 ^ S (N + j)) by (apply pow_lt; lra). destruct (SM (N + j)%nat ltac:(lia)) as [G1 G2]. destruct (OFF (N + j)%nat) as [O1 O2].
    apply (pull _ _ _ _ (0.00947 + 0.9322 ^ S (N + j)) rho CF FR VJ ltac:(lra) NR); try assumption.
    replace (S (N + j)) with (N + S j)%nat by lia. rewrite !XJ, S_INR. apply (off_radial w q0 w0 r j); try assumption; try lra; lia. }
  assert (TEL : forall j, (j <= 60)%nat -> dot3 rho (u2 (sub6 (p_x (f (N + j)%nat)) (X (N + j)%nat))) <= dot3 rho (u2 (sub6 (p_x (f N)) (X N))) - 0.08 * INR j).
  { induction j as [|j IH]; intros Hj; [rewrite Nat.add_0_r; cbn [INR]; lra|]. assert (A := IH ltac:(lia)). assert (B := ST j ltac:(lia)). rewrite S_INR. lra. }
  assert (T := TEL 60%nat ltac:(lia)). replace (INR 60) with 60 in T by (cbn [INR]; lra).
  destruct (SM N ltac:(lia)) as [_ A]. destruct (SM (N + 60)%nat ltac:(lia)) as [_ B]. assert (R0 := norm3_pos rho).
  assert (C := dots rho (u2 (sub6 (p_x (f N)) (X N)))). assert (D := dots rho (u2 (sub6 (p_x (f (N + 60)%nat)) (X (N + 60)%nat)))). cbn [u2 sub6] in *.
  assert (C' : norm3 rho * norm3 (sub3 (u2 (p_x (f N))) (u2 (X N))) <= 1 * 2) by (apply Rmult_le_compat; try assumption; apply norm3_pos).
  assert (D' : norm3 rho * norm3 (sub3 (u2 (p_x (f (N + 60)%nat))) (u2 (X (N + 60)%nat))) <= 1 * 2) by (apply Rmult_le_compat; try assumption; apply norm3_pos). lra.
Qed.
