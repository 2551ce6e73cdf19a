(** * Lemmas: the clock in binary64 *)
From Coq Require Import Reals ZArith List Bool Lra Psatz Lia Machin.
From Flocq Require Import Core BinarySingleNaN.
From Verif Require Import Num Flt M_jday M_jdayf P_sat P_integ P_struct P_normf P_qf P_jday.
Local Open Scope R_scope.

(** [x] is finite and within [e] of the real [r] *)
Definition within (e : R) (x : b64) (r : R) : Prop := fin x = true /\ Rabs (fR x - r) <= e.
Lemma eta30 : 0 < eta <= / 1000000000000000000000000000000.
Proof.
  split; [apply eta_pos|]. eapply Rle_trans; [apply eta_small|]. assert (H : bpow radix2 (-1000) <= bpow radix2 (-100)) by (apply bpow_le; lia).
  change (bpow radix2 (-100)) with (/ 1267650600228229401496703205376) in H.
  lra.
Qed.
Lemma big30 : 1000000000000000000000000000000 <= BIG.
Proof.
  unfold BIG. apply Rle_trans with (bpow radix2 100); [|apply bpow_le; lia]. change (bpow radix2 100) with 1267650600228229401496703205376.
  lra.
Qed.
Lemma within_ofZ z : (Z.abs z <= 9007199254740992)%Z -> within 0 (fofZ z) (IZR z).
Proof. intros H. destruct (fofZ_R z H) as [A B]. split; [exact B|]. rewrite A. rewrite Rminus_diag_eq by reflexivity. rewrite Rabs_R0. lra. Qed.
Lemma within_le e e' x r : within e x r -> e <= e' -> within e' x r.
Proof. intros [A B] H. split; [exact A|lra]. Qed.
Lemma within_rnd e x r v : fin x = true -> fR x = rnd v -> Rabs (v - r) <= e -> within (e + ulp1 * (Rabs r + e) + eta) x r.
Proof.
  intros F E H. split; [exact F|]. rewrite E. assert (RE := rnd_err v). assert (U := ulp1_rng).
  assert (V : Rabs v <= Rabs r + e). { replace v with (r + (v - r)) by ring. eapply Rle_trans; [apply Rabs_triang|lra]. }
  replace (rnd v - r) with ((rnd v - v) + (v - r)) by ring. eapply Rle_trans; [apply Rabs_triang|]. nra.
Qed.
Lemma small_fin v m : Rabs v <= m -> m <= 1000000000000000000000000000000 -> Rabs (rnd v) < bpow radix2 1024.
Proof. intros H M. apply rnd_fin. assert (B := big30). lra. Qed.
Lemma within_add e x r e' y r' M E : within e x r -> within e' y r' -> Rabs (r + r') <= M -> M + e + e' <= 1000000000000000000000000000000 -> 
  e + e' + ulp1 * (M + e + e') + / 1000000000000000000000000000000 <= E -> within E (fadd x y) (r + r').
Proof.
  intros [Fx Ex] [Fy Ey] HM HB HE.
  assert (D : Rabs (fR x + fR y - (r + r')) <= e + e'). { replace (fR x + fR y - (r + r')) with ((fR x - r) + (fR y - r')) by ring. eapply Rle_trans; [apply Rabs_triang|lra]. }
  assert (V : Rabs (fR x + fR y) <= M + e + e'). { replace (fR x + fR y) with ((r + r') + (fR x + fR y - (r + r'))) by ring. eapply Rle_trans; [apply Rabs_triang|lra]. }
  destruct (fadd_ok x y Fx Fy (small_fin _ _ V HB)) as [A B].
  apply (within_le _ _ _ _ (within_rnd (e + e') _ _ _ B A D)). assert (ET := eta30). assert (U := ulp1_rng).
  assert (ulp1 * (Rabs (r + r') + (e + e')) <= ulp1 * (M + e + e')) by (apply Rmult_le_compat_l; lra). lra.
Qed.
Lemma within_sub e x r e' y r' M E : within e x r -> within e' y r' -> Rabs (r - r') <= M -> M + e + e' <= 1000000000000000000000000000000 -> 
  e + e' + ulp1 * (M + e + e') + / 1000000000000000000000000000000 <= E -> within E (fsub x y) (r - r').
Proof.
  intros [Fx Ex] [Fy Ey] HM HB HE.
  assert (D : Rabs (fR x - fR y - (r - r')) <= e + e'). { replace (fR x - fR y - (r - r')) with ((fR x - r) + - (fR y - r')) by ring. eapply Rle_trans; [apply Rabs_triang|]. rewrite Rabs_Ropp. lra. }
  assert (V : Rabs (fR x - fR y) <= M + e + e'). { replace (fR x - fR y) with ((r - r') + (fR x - fR y - (r - r'))) by ring. eapply Rle_trans; [apply Rabs_triang|lra]. }
  destruct (fsub_ok x y Fx Fy (small_fin _ _ V HB)) as [A B].
  apply (within_le _ _ _ _ (within_rnd (e + e') _ _ _ B A D)). assert (ET := eta30). assert (U := ulp1_rng).
  assert (ulp1 * (Rabs (r - r') + (e + e')) <= ulp1 * (M + e + e')) by (apply Rmult_le_compat_l; lra). lra.
Qed.
Lemma within_mul e x r e' y r' m m' E : within e x r -> within e' y r' -> Rabs r <= m -> Rabs r' <= m' -> (m + e) * (m' + e') <= 1000000000000000000000000000000 -> 
  e * m' + e' * m + e * e' + ulp1 * ((m + e) * (m' + e')) + / 1000000000000000000000000000000 <= E -> within E (fmul x y) (r * r').
Proof.
  intros [Fx Ex] [Fy Ey] Hm Hm' HB HE.
  assert (P1 := Rabs_pos r). assert (P2 := Rabs_pos r'). assert (P3 := Rabs_pos (fR x - r)). assert (P4 := Rabs_pos (fR y - r')).
  assert (D : Rabs (fR x * fR y - r * r') <= e * m' + e' * m + e * e').
  { replace (fR x * fR y - r * r') with ((fR x - r) * r' + (fR y - r') * r + (fR x - r) * (fR y - r')) by ring.
    eapply Rle_trans; [apply Rabs_triang|]. rewrite Rabs_mult. eapply Rle_trans; [apply Rplus_le_compat_r, Rabs_triang|]. rewrite !Rabs_mult.
    assert (Rabs (fR x - r) * Rabs r' <= e * m') by (apply Rmult_le_compat; lra).
    assert (Rabs (fR y - r') * Rabs r <= e' * m) by (apply Rmult_le_compat; lra).
    assert (Rabs (fR x - r) * Rabs (fR y - r') <= e * e') by (apply Rmult_le_compat; lra). lra. }
  assert (RR : Rabs (r * r') <= m * m') by (rewrite Rabs_mult; apply Rmult_le_compat; lra).
  assert (V : Rabs (fR x * fR y) <= (m + e) * (m' + e')). { replace (fR x * fR y) with ((r * r') + (fR x * fR y - r * r')) by ring. eapply Rle_trans; [apply Rabs_triang|nra]. }
  destruct (fmul_ok x y Fx Fy (small_fin _ _ V HB)) as [A B].
  apply (within_le _ _ _ _ (within_rnd _ _ _ _ B A D)). assert (ET := eta30). assert (U := ulp1_rng).
  assert (ulp1 * (Rabs (r * r') + (e * m' + e' * m + e * e')) <= ulp1 * ((m + e) * (m' + e'))) by (apply Rmult_le_compat_l; nra). lra.
Qed.
Lemma within_div e x r d m E : within e x r -> (1 <= d <= 9007199254740992)%Z -> Rabs r <= m -> m + e <= 1000000000000000000000000000000 -> 
  e / IZR d + ulp1 * ((m + e) / IZR d) + / 1000000000000000000000000000000 <= E -> within E (fdiv x (fofZ d)) (r / IZR d).
Proof.
  intros [Fx Ex] Hd Hm HB HE. destruct (fofZ_R d ltac:(lia)) as [D1 D2].
  assert (K : 1 <= IZR d) by (apply IZR_le; lia). assert (KI : 0 < / IZR d <= 1) by (split; [apply Rinv_0_lt_compat; lra|rewrite <- Rinv_1; apply Rinv_le_contravar; lra]).
  assert (P1 := Rabs_pos r). assert (P3 := Rabs_pos (fR x - r)).
  assert (A1 : forall a, Rabs (a / IZR d) = Rabs a / IZR d) by (intros a; unfold Rdiv; rewrite Rabs_mult, (Rabs_pos_eq (/ IZR d)) by lra; reflexivity).
  assert (D : Rabs (fR x / IZR d - r / IZR d) <= e / IZR d). { replace (fR x / IZR d - r / IZR d) with ((fR x - r) / IZR d) by (field; lra). rewrite A1. unfold Rdiv. nra. }
  assert (V : Rabs (fR x / fR (fofZ d)) <= m + e). { rewrite D1. rewrite A1. replace (fR x) with (r + (fR x - r)) by ring. assert (T := Rabs_triang r (fR x - r)). unfold Rdiv. assert (Q := Rabs_pos (r + (fR x - r))). nra. }
  destruct (fdiv_ok x (fofZ d) Fx) as [A B]; [rewrite D1; lra|exact (small_fin _ _ V HB)|]. rewrite D1 in A.
  apply (within_le _ _ _ _ (within_rnd _ _ _ _ B A D)). assert (ET := eta30). assert (U := ulp1_rng).
  assert (ulp1 * (Rabs (r / IZR d) + e / IZR d) <= ulp1 * ((m + e) / IZR d)) by (apply Rmult_le_compat_l; [lra|]; rewrite A1; unfold Rdiv; nra). lra.
Qed.
Lemma within_dec n d E : (Z.abs n <= 9007199254740992)%Z -> (1 <= d <= 9007199254740992)%Z -> ulp1 * (Rabs (IZR n) / IZR d) + / 1000000000000000000000000000000 <= E -> within E (fdec n d) (IZR n / IZR d).
Proof.
  intros Hn Hd HE. apply (within_div 0 _ _ _ (Rabs (IZR n))); [apply within_ofZ, Hn|exact Hd|lra| |].
  - rewrite Rplus_0_r. rewrite <- abs_IZR. apply Rle_trans with 9007199254740992; [apply IZR_le, Hn|]. lra.
  - rewrite Rplus_0_r. unfold Rdiv at 1. rewrite Rmult_0_l. lra.
Qed.

(** ** Python's remainder *)
Lemma mod_exact (n y d : Z) : (0 < y)%Z -> IZR (n mod y) * bpow radix2 d = Rmod (IZR n * bpow radix2 d) (IZR y * bpow radix2 d).
Proof.
  intros H. unfold Rmod. assert (B := bpow_gt_0 radix2 d). assert (Y : 0 < IZR y) by (apply IZR_lt; lia).
  replace (IZR n * bpow radix2 d / (IZR y * bpow radix2 d)) with (IZR n / IZR y) by (field; lra).
  rewrite Zfloor_div by lia. rewrite Z.mod_eq by lia. rewrite minus_IZR, mult_IZR. ring.
Qed.
Lemma Rmod_rng x y : 0 < y -> 0 <= Rmod x y < y.
Proof.
  intros H. unfold Rmod. assert (A := Zfloor_lb (x / y)). assert (B := Zfloor_ub (x / y)).
  assert (E : x = y * (x / y)) by (field; lra). set (k := IZR (Zfloor (x / y))) in *. set (z := x / y) in *. rewrite E. nra.
Qed.
Lemma f_mod_ok x y : fin x = true -> (0 < y <= 9007199254740992)%Z ->
  fR (f_mod x y) = rnd (Rmod (fR x) (IZR y)) /\ fin (f_mod x y) = true.
Proof.
  intros F Y. assert (YP : 0 < IZR y) by (apply IZR_lt; lia).
  destruct x as [s|s| |s m e He]; try discriminate F.
  - split; [|reflexivity]. cbn [f_mod fR B2R]. unfold fR. cbn [B2R]. unfold Rmod. replace (0 / IZR y) with 0 by (field; lra). rewrite (Zfloor_IZR 0). rewrite Rmult_0_r, Rminus_0_r. symmetry. apply round_0. apply valid_rnd_N.
  - unfold f_mod. set (a := if s then Z.neg m else Z.pos m). set (d := Z.min e 0).
    assert (V : fR (B754_finite s m e He) = IZR (a * 2 ^ (e - d)) * bpow radix2 d).
    { unfold fR. cbn [B2R]. unfold F2R. cbn [Fnum Fexp]. replace (cond_Zopp s (Z.pos m)) with a by (unfold a; destruct s; reflexivity).
      rewrite mult_IZR. change (2 ^ (e - d))%Z with (Zpower radix2 (e - d)). rewrite (IZR_Zpower radix2 (e - d)) by (unfold d; lia). rewrite Rmult_assoc, <- bpow_plus. f_equal. f_equal. lia. }
    assert (W : IZR y = IZR (y * 2 ^ (- d)) * bpow radix2 d).
    { rewrite mult_IZR. change (2 ^ (- d))%Z with (Zpower radix2 (- d)). rewrite (IZR_Zpower radix2 (- d)) by (unfold d; lia). rewrite Rmult_assoc, <- bpow_plus. replace (- d + d)%Z with 0%Z by lia. cbn [bpow]. ring. }
    assert (P2 : (0 < y * 2 ^ (- d))%Z) by (apply Z.mul_pos_pos; [lia|apply Z.pow_pos_nonneg; unfold d; lia]).
    assert (C := binary_normalize_correct 53 1024 b64_prec b64_emax mode_NE ((a * 2 ^ (e - d)) mod (y * 2 ^ (- d))) d false).
    unfold F2R in C. cbn [Fnum Fexp] in C. rewrite mod_exact in C by exact P2. rewrite <- V, <- W in C.
    change (round radix2 (SpecFloat.fexp 53 1024) (round_mode mode_NE)) with rnd in C.
    assert (R0 := Rmod_rng (fR (B754_finite s m e He)) _ YP).
    rewrite Rlt_bool_true in C.
    + destruct C as (C1 & C2 & _). split; [exact C1|exact C2].
    + apply small_fin with (IZR y); [rewrite Rabs_pos_eq; lra|]. apply Rle_trans with 9007199254740992; [apply IZR_le; lia|lra].
Qed.

(** ** pi *)
Lemma pi_bounds : 3.14159265358979323 < PI < 3.14159265358979325.
Proof.
  assert (B := PI_2_3_7_ineq 9). unfold sum_f_R0, tg_alt, PI_2_3_7_tg, Ratan_seq in B. 
  cbn [Nat.mul Nat.add] in B. rewrite !INR_IZR_INZ in B. cbn [Z.of_nat Pos.of_succ_nat Pos.succ pow] in B. lra.
Qed.
