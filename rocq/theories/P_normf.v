(** * Lemmas: normalize in binary64 *)
From Coq Require Import Reals ZArith List Bool Lra Psatz Lia.
From Flocq Require Import Core BinarySingleNaN Plus_error Relative.
From Verif Require Import Num Flt Vec M_vector P_sat P_integ.
Import ListNotations.
Local Open Scope R_scope.

Definition ulp1 : R := / 9007199254740992.   (* 2^-53 *)
Lemma ulp1_bpow : ulp1 = bpow radix2 (-53). Proof. reflexivity. Qed.
Definition eta : R := bpow radix2 (-1075).
Lemma eta_pos : 0 < eta. Proof. apply bpow_gt_0. Qed.
(** rounding: relative error and an absolute one for tiny results *)
Lemma rnd_mixed x : exists e h, Rabs e <= ulp1 /\ Rabs h <= eta /\ rnd x = x * (1 + e) + h.
Proof.
  destruct (error_N_FLT radix2 (-1074) 53 ltac:(lia) (fun z => negb (Z.even z)) x) as (e & h & A & B & _ & E).
  exists e, h. rewrite fexp_FLT. split; [|split; [|exact E]].
  - eapply Rle_trans; [exact A|]. rewrite ulp1_bpow. change (/ 2) with (bpow radix2 (-1)). rewrite <- bpow_plus. apply bpow_le. lia.
  - eapply Rle_trans; [exact B|]. unfold eta. change (/ 2) with (bpow radix2 (-1)). rewrite <- bpow_plus. apply bpow_le. lia.
Qed.
Lemma rnd_rel x : bpow radix2 (-1022) <= Rabs x -> exists e, Rabs e <= ulp1 /\ rnd x = x * (1 + e).
Proof.
  intros H. destruct (relative_error_N_FLT_ex radix2 (-1074) 53 ltac:(lia) (fun z => negb (Z.even z)) x) as (e & A & E).
  - exact H.
  - exists e. rewrite fexp_FLT. split; [|exact E]. eapply Rle_trans; [exact A|]. rewrite ulp1_bpow. change (/ 2) with (bpow radix2 (-1)). rewrite <- bpow_plus. apply bpow_le. lia.
Qed.
Lemma rnd_add x y : fmt x -> fmt y -> exists e, Rabs e <= ulp1 /\ rnd (x + y) = (x + y) * (1 + e).
Proof.
  intros Fx Fy. destruct (FLT_plus_error_N_ex radix2 (-1074) 53 (fun z => negb (Z.even z)) x y) as (e & A & E).
  - exact Fx.
  - exact Fy.
  - exists e. rewrite fexp_FLT. split; [|exact E]. eapply Rle_trans; [exact A|].
    assert (U : u_ro radix2 53 = ulp1) by (unfold u_ro; rewrite ulp1_bpow; change (/ 2) with (bpow radix2 (-1)); rewrite <- bpow_plus; reflexivity). rewrite U.
    unfold ulp1. assert (0 < / 9007199254740992) by lra. apply (Rmult_le_reg_r (1 + / 9007199254740992)); [lra|]. unfold Rdiv. rewrite Rmult_assoc, Rinv_l by lra. nra.
Qed.
Lemma ulp1_rng : 0 < ulp1 < / 1000000000000000. Proof. unfold ulp1. lra. Qed.
Lemma pow_up j : (j <= 1000)%nat -> (1 + ulp1) ^ j <= 1 + INR j * ulp1 + INR j * INR j * (ulp1 * ulp1).
Proof.
  pose proof ulp1_rng as U. induction j as [|j IH]; intros Hj; [cbn; lra|].
  rewrite S_INR. cbn [pow]. specialize (IH ltac:(lia)). pose proof (pos_INR j) as P.
  assert (B : INR j <= 1000) by (change 1000 with (INR (Z.to_nat 1000)) || (replace 1000 with (INR 1000) by (rewrite INR_IZR_INZ; reflexivity)); apply le_INR; lia).
  set (a := INR j) in *. apply Rle_trans with ((1 + ulp1) * (1 + a * ulp1 + a * a * (ulp1 * ulp1))); [apply Rmult_le_compat_l; lra|].
  assert (a * a * ulp1 <= a + 1) by (assert (a * ulp1 <= 1) by nra; nra).
  assert (0 <= ulp1 * ulp1) by nra.
  assert (a * a * ulp1 * (ulp1 * ulp1) <= (a + 1) * (ulp1 * ulp1)) by (apply Rmult_le_compat_r; lra). nra.
Qed.
Lemma pow_lo j : 1 - INR j * ulp1 <= (1 - ulp1) ^ j.
Proof.
  pose proof ulp1_rng as U. induction j as [|j IH]; [cbn; lra|]. rewrite S_INR. cbn [pow]. pose proof (pos_INR j) as P.
  assert (0 <= INR j * (ulp1 * ulp1)) by nra. nra.
Qed.
(** ** the running sum of squares *)
Definition sumB (k : nat) (S0 : R) (s : b64) : Prop :=
  fin s = true /\ 0 <= fR s /\
  (S0 - INR k * (2 * eta)) * (1 - ulp1) ^ (k + 1) <= fR s <= (S0 + INR k * eta) * (1 + ulp1) ^ (k + 1).
Lemma eta_small : eta <= bpow radix2 (-1000) / 10000000000. Proof.
  unfold eta. replace (-1075)%Z with (-1000 + -75)%Z by lia. rewrite bpow_plus. pose proof (bpow_gt_0 radix2 (-1000)). unfold Rdiv. apply Rmult_le_compat_l; [lra|].
  cbn. lra.
Qed.
Lemma INR1000 : INR 1000 = 1000. Proof. rewrite INR_IZR_INZ. reflexivity. Qed.
Lemma pow_rng k : (k <= 999)%nat -> (1 + ulp1) ^ (k + 1) <= 2 /\ / 2 <= (1 - ulp1) ^ (k + 1) /\ 1 <= (1 + ulp1) ^ (k + 1) /\ (1 - ulp1) ^ (k + 1) <= 1.
Proof.
  intros Hk. pose proof ulp1_rng as U. pose proof (pow_up (k + 1) ltac:(lia)) as A. pose proof (pow_lo (k + 1)) as B.
  assert (C : 0 <= INR (k + 1) <= 1000) by (split; [apply pos_INR|rewrite <- INR1000; apply le_INR; lia]).
  set (a := INR (k + 1)) in *. assert (0 <= a * ulp1 <= / 1000000000) by nra.
  repeat split.
  - nra.
  - lra.
  - apply pow_R1_Rle. lra.
  - pose proof (pow_incr (1 - ulp1) 1 (k + 1) ltac:(lra)) as W. rewrite pow1 in W. exact W.
Qed.
Lemma square_ok (x : b64) : fin x = true -> fR x * fR x <= bpow radix2 1000 ->
  fin (fmul x x) = true /\ 0 <= fR (fmul x x) /\ fR (fmul x x) <= bpow radix2 1000 /\
  fR x * fR x * (1 - ulp1) - eta <= fR (fmul x x) <= fR x * fR x * (1 + ulp1) + eta.
Proof.
  intros Fx H. assert (Q : 0 <= fR x * fR x) by nra.
  assert (B : Rabs (rnd (fR x * fR x)) <= bpow radix2 1000) by (apply rnd_le_bpow; [lia|rewrite Rabs_pos_eq; assumption]).
  destruct (fmul_ok x x Fx Fx) as [E F].
  { eapply Rle_lt_trans; [exact B|]. apply bpow_lt. lia. }
  split; [exact F|]. rewrite E. split; [|split].
  - apply round_ge_generic; [apply fexp_valid|auto with typeclass_instances|apply generic_format_0|exact Q].
  - eapply Rle_trans; [apply Rle_abs|exact B].
  - destruct (rnd_mixed (fR x * fR x)) as (e & h & He & Hh & ->). apply Rabs_le_inv in He, Hh. nra.
Qed.
Lemma sumB_0 : sumB 0 0 (fofZ 0).
Proof. split; [reflexivity|]. replace (fR (fofZ 0)) with 0 by reflexivity. cbn. lra. Qed.
Lemma sumB_1 (x : b64) : fin x = true -> fR x * fR x <= bpow radix2 1000 -> sumB 1 (fR x * fR x) (fmul x x).
Proof.
  intros Fx H. destruct (square_ok x Fx H) as (F & P & _ & L & U). pose proof ulp1_rng. pose proof eta_pos. split; [exact F|split; [exact P|]].
  change (INR 1) with 1. cbn [pow Nat.add]. set (q := fR x * fR x) in *. assert (0 <= q) by (unfold q; nra). split; nra.
Qed.
Lemma sumB_step k S0 s x : (k <= 998)%nat -> 0 <= S0 -> sumB k S0 s -> fin x = true -> S0 + fR x * fR x <= bpow radix2 1000 ->
  sumB (k + 1) (S0 + fR x * fR x) (fadd s (fmul x x)).
Proof.
  intros Hk HS (Fs & Ps & L & U) Fx H. assert (Q : 0 <= fR x * fR x) by nra.
  destruct (square_ok x Fx ltac:(lra)) as (F & P & MB & ML & MU). pose proof ulp1_rng as HU. pose proof eta_pos as HE.
  destruct (pow_rng k ltac:(lia)) as (P1 & P2 & P3 & P4).
  assert (C : 0 <= INR k <= 1000) by (split; [apply pos_INR|rewrite <- INR1000; apply le_INR; lia]).
  pose proof eta_small as ES. assert (B0 : bpow radix2 (-1000) <= bpow radix2 1000) by (apply bpow_le; lia). pose proof (bpow_gt_0 radix2 (-1000)) as BP.
  pose proof (bpow_gt_0 radix2 1000) as BP2.
  set (m := fR (fmul x x)) in *. set (q := fR x * fR x) in *.
  assert (SB : fR s <= bpow radix2 1000 * 3).
  { eapply Rle_trans; [exact U|]. assert (INR k * eta <= bpow radix2 1000 / 10000000) by nra.
    apply Rle_trans with ((S0 + INR k * eta) * 2); [apply Rmult_le_compat_l; [nra|exact P1]|]. lra. }
  assert (TB : Rabs (rnd (fR s + m)) <= bpow radix2 1002).
  { apply rnd_le_bpow; [lia|]. rewrite Rabs_pos_eq by lra. replace 1002%Z with (1000 + 2)%Z by lia. rewrite bpow_plus. change (bpow radix2 2) with 4. lra. }
  destruct (fadd_ok s (fmul x x) Fs F) as [E F2].
  { eapply Rle_lt_trans; [exact TB|]. apply bpow_lt. lia. }
  split; [exact F2|]. rewrite E. fold m.
  destruct (rnd_add (fR s) m (fmt_R s) (fmt_R _)) as (e & He & ->). apply Rabs_le_inv in He.
  rewrite plus_INR. change (INR 1) with 1. rewrite (pow_add (1 + ulp1) (k + 1) 1), (pow_add (1 - ulp1) (k + 1) 1), !pow_1.
  set (pu := (1 + ulp1) ^ (k + 1)) in *. set (pl := (1 - ulp1) ^ (k + 1)) in *.
  assert (K1 : 1 + ulp1 <= pu) by (unfold pu; rewrite pow_add, pow_1; pose proof (pow_R1_Rle (1 + ulp1) k ltac:(lra)); nra).
  assert (K2 : pl <= 1 - ulp1) by (unfold pl; rewrite pow_add, pow_1; pose proof (pow_incr (1 - ulp1) 1 k ltac:(lra)) as W; rewrite pow1 in W; nra).
  assert (A1 : fR s + m <= (S0 + q + (INR k + 1) * eta) * pu) by nra.
  assert (A2 : (S0 + q - (INR k + 1) * (2 * eta)) * pl <= fR s + m) by nra.
  split; [nra|]. split.
  - rewrite <- Rmult_assoc. apply Rle_trans with ((fR s + m) * (1 - ulp1)); [apply Rmult_le_compat_r; lra|apply Rmult_le_compat_l; lra].
  - rewrite <- Rmult_assoc. apply Rle_trans with ((fR s + m) * (1 + ulp1)); [apply Rmult_le_compat_l; lra|apply Rmult_le_compat_r; lra].
Qed.
Lemma sumsq_app_pos x : 0 <= sumsq x. Proof. apply sumsq_nonneg. Qed.
Lemma sumB_fold (l : list b64) : forall k S0 s, (k + length l <= 999)%nat -> 0 <= S0 -> sumB k S0 s -> Forall (fun x => fin x = true) l ->
  S0 + sumsq (map fR l) <= bpow radix2 1000 ->
  sumB (k + length l) (S0 + sumsq (map fR l)) (fold_left (fun s xi => fadd s (fmul xi xi)) l s).
Proof.
  induction l as [|x l IH]; intros k S0 s Hk HS HB HF H.
  - cbn in *. rewrite Nat.add_0_r, Rplus_0_r. exact HB.
  - cbn [length map fold_left] in *. unfold sumsq in *. cbn [fold_right] in *. fold (sumsq (map fR l)) in *. inversion HF as [|? ? Fx Fl]; subst.
    pose proof (sumsq_nonneg (map fR l)) as Z. rewrite <- Rplus_assoc. replace (k + S (length l))%nat with ((k + 1) + length l)%nat by lia.
    rewrite <- Rplus_assoc in H. apply IH; [lia|nra| |exact Fl|exact H].
    apply sumB_step; try assumption; [lia|lra].
Qed.
(** the sum in binary64 is the exact sum with a small relative error *)
Lemma sumB_rel n S0 s : (n <= 100)%nat -> bpow radix2 (-900) <= S0 -> sumB n S0 s -> Rabs (fR s - S0) <= (INR n + 2) * ulp1 * S0.
Proof.
  intros Hn HS (_ & _ & L & U). pose proof ulp1_rng as HU. pose proof eta_pos as HE. pose proof (bpow_gt_0 radix2 (-900)) as BP.
  pose proof (pow_up (n + 1) ltac:(lia)) as A. pose proof (pow_lo (n + 1)) as B. rewrite plus_INR in A, B. change (INR 1) with 1 in *.
  assert (C : 0 <= INR n <= 100) by (split; [apply pos_INR|replace 100 with (INR 100) by (rewrite INR_IZR_INZ; reflexivity); apply le_INR; lia]).
  destruct (pow_rng n ltac:(lia)) as (P1 & P2 & P3 & P4).
  assert (ES : eta <= S0 * / 1000000000000000000000000000000000000).
  { apply Rle_trans with (bpow radix2 (-900) * / 1000000000000000000000000000000000000); [|apply Rmult_le_compat_r; lra].
    unfold eta. replace (-1075)%Z with (-900 + -175)%Z by lia. rewrite bpow_plus. apply Rmult_le_compat_l; [lra|]. cbn. lra. }
  set (a := INR n) in *. set (pu := (1 + ulp1) ^ (n + 1)) in *. set (pl := (1 - ulp1) ^ (n + 1)) in *.
  assert (UE : ulp1 = / 9007199254740992) by reflexivity.
  assert (X : a * eta <= S0 * ulp1 / 1000000) by nra.
  assert (Y : (a + 1) * (a + 1) * (ulp1 * ulp1) <= ulp1 / 1000000) by nra.
  apply Rabs_le. split.
  - assert (S0 * (1 - (a + 1) * ulp1) <= S0 * pl) by (apply Rmult_le_compat_l; lra).
    assert (AE : 0 <= a * eta) by nra. assert (a * eta * pl <= a * eta * 1) by (apply Rmult_le_compat_l; lra).
    assert (0 <= S0 * ulp1) by nra. lra.
  - assert (S0 * pu <= S0 * (1 + (a + 1) * ulp1 + ulp1 / 1000000)) by (apply Rmult_le_compat_l; lra).
    assert (AE : 0 <= a * eta) by nra. assert (a * eta * pu <= a * eta * 2) by (apply Rmult_le_compat_l; lra).
    assert (0 <= S0 * ulp1) by nra. lra.
Qed.
(** ** square root and division *)
Lemma abs_div_le a t k : 0 < t -> - (k * t) <= a <= k * t -> Rabs (a / t) <= k.
Proof.
  intros P H. unfold Rdiv. rewrite Rabs_mult, (Rabs_pos_eq (/ t)) by (left; apply Rinv_0_lt_compat, P).
  apply (Rmult_le_reg_r t); [exact P|]. rewrite Rmult_assoc, Rinv_l, Rmult_1_r by lra. apply Rabs_le. exact H.
Qed.
Lemma fsqrt_ok (s : b64) : fin s = true -> 0 < fR s -> fR (fsqrt s) = rnd (sqrt (fR s)) /\ fin (fsqrt s) = true.
Proof.
  intros F P. destruct (Bsqrt_correct 53 1024 b64_prec b64_emax mode_NE s) as (E & H & _). split; [exact E|].
  unfold fin, fsqrt in *. rewrite H. destruct s as [sg|sg| |sg m e b]; try discriminate; [reflexivity|]. destruct sg; [|reflexivity].
  exfalso. unfold fR in P. cbn in P. assert (F2R (Float radix2 (Z.neg m) e) < 0) by (apply F2R_lt_0; reflexivity). change (IZR (Z.neg m) * bpow radix2 e) with (F2R (Float radix2 (Z.neg m) e)) in *. lra.
Qed.
Lemma norm_part n S0 s : (n <= 100)%nat -> bpow radix2 (-900) <= S0 <= bpow radix2 1000 -> fin s = true ->
  Rabs (fR s - S0) <= (INR n + 2) * ulp1 * S0 ->
  fin (fsqrt s) = true /\ Rabs (fR (fsqrt s) - sqrt S0) <= ((INR n + 2) * (501 / 1000) + 1001 / 1000) * ulp1 * sqrt S0.
Proof.
  intros Hn [HL HU] Fs HS. pose proof ulp1_rng as U. pose proof (bpow_gt_0 radix2 (-900)) as BP.
  assert (C : 0 <= INR n <= 100) by (split; [apply pos_INR|replace 100 with (INR 100) by (rewrite INR_IZR_INZ; reflexivity); apply le_INR; lia]).
  set (a := INR n) in *. set (d := (a + 2) * ulp1) in *. assert (D : 0 < d < / 1000000000) by (unfold d; nra).
  apply Rabs_le_inv in HS. assert (SL : S0 / 2 <= fR s) by nra.
  destruct (fsqrt_ok s Fs ltac:(lra)) as [E F]. split; [exact F|]. rewrite E.
  set (N := sqrt S0). assert (NN : N * N = S0) by (apply sqrt_def; lra). assert (NP : 0 < N) by (apply sqrt_lt_R0; lra).
  set (q := sqrt (fR s)). assert (QQ : q * q = fR s) by (apply sqrt_def; lra). assert (QP : 0 < q) by (apply sqrt_lt_R0; lra).
  assert (QB : bpow radix2 (-1022) <= Rabs q).
  { rewrite Rabs_pos_eq by lra. apply Rle_trans with (sqrt (bpow radix2 (-1022) * bpow radix2 (-1022))); [rewrite sqrt_square by apply bpow_ge_0; lra|].
    apply sqrt_le_1_alt. apply Rle_trans with (bpow radix2 (-901)); [rewrite <- bpow_plus; apply bpow_le; lia|].
    replace (-901)%Z with (-900 + -1)%Z by lia. rewrite bpow_plus. change (bpow radix2 (-1)) with (/ 2). lra. }
  destruct (rnd_rel q QB) as (e & He & ->). apply Rabs_le_inv in He.
  assert (QN : Rabs (q - N) <= 5001 / 10000 * d * N).
  { assert (K : (q - N) * (q + N) = fR s - S0) by (rewrite <- QQ, <- NN; ring).
    assert (G : N * (1 - d) <= q).
    { destruct (Rle_lt_dec (N * (1 - d)) q) as [?|Z]; [assumption|exfalso]. assert (q * q < N * (1 - d) * (N * (1 - d))) by nra.
      assert (N * (1 - d) * (N * (1 - d)) <= S0 * (1 - d)) by (rewrite <- NN; assert (0 <= N * N) by nra; nra). nra. }
    apply Rabs_le. split.
    - apply Rnot_lt_le. intros Z. assert (W : (q - N) * (q + N) < - (5001 / 10000 * d * N) * (q + N)) by (apply Rmult_lt_compat_r; lra).
      assert (V : 19999 / 10000 * N <= q + N) by nra. assert (5001 / 10000 * d * N * (19999 / 10000 * N) <= 5001 / 10000 * d * N * (q + N)) by (apply Rmult_le_compat_l; [nra|exact V]).
      assert (0 < d * (N * N)) by nra. rewrite K in W. nra.
    - apply Rnot_lt_le. intros Z. assert (W : 5001 / 10000 * d * N * (q + N) < (q - N) * (q + N)) by (apply Rmult_lt_compat_r; lra).
      assert (V : 19999 / 10000 * N <= q + N) by nra. assert (5001 / 10000 * d * N * (19999 / 10000 * N) <= 5001 / 10000 * d * N * (q + N)) by (apply Rmult_le_compat_l; [nra|exact V]).
      assert (0 < d * (N * N)) by nra. rewrite K in W. nra. }
  apply Rabs_le_inv in QN. replace ((a + 2) * (501 / 1000) * ulp1) with (501 / 1000 * d) by (unfold d; ring).
  assert (X : (( a + 2) * (501 / 1000) + 1001 / 1000) * ulp1 * N = 501 / 1000 * (d * N) + 1001 / 1000 * (ulp1 * N)) by (unfold d; ring). rewrite X.
  assert (M1 : 0 < d * N) by nra. assert (M2 : 0 < ulp1 * N) by nra.
  assert (M3 : Rabs (q * e) <= 1001 / 1000 * (ulp1 * N)).
  { rewrite Rabs_mult, (Rabs_pos_eq q) by lra. assert (Rabs e <= ulp1) by (apply Rabs_le; lra). pose proof (Rabs_pos e).
    assert (q <= 1001 / 1000 * N) by nra. apply Rle_trans with (1001 / 1000 * N * ulp1); [apply Rmult_le_compat; lra|lra]. }
  apply Rabs_le_inv in M3. apply Rabs_le. split; nra.
Qed.
Lemma div_part n S0 (t x : b64) : (n <= 100)%nat -> bpow radix2 (-900) <= S0 <= bpow radix2 1000 -> fin x = true -> fR x * fR x <= S0 ->
  Rabs (fR t - sqrt S0) <= ((INR n + 2) * (501 / 1000) + 1001 / 1000) * ulp1 * sqrt S0 ->
  fin (fdiv x t) = true /\ Rabs (fR (fdiv x t) - fR x / sqrt S0) <= (INR n + 7) / 2 * ulp1 * Rabs (fR x / sqrt S0) + eta.
Proof.
  intros Hn [HL HU] Fx HX HT. pose proof ulp1_rng as U. pose proof (bpow_gt_0 radix2 (-900)) as BP.
  assert (C : 0 <= INR n <= 100) by (split; [apply pos_INR|replace 100 with (INR 100) by (rewrite INR_IZR_INZ; reflexivity); apply le_INR; lia]).
  set (a := INR n) in *. set (N := sqrt S0) in *. assert (NN : N * N = S0) by (apply sqrt_def; lra). assert (NP : 0 < N) by (apply sqrt_lt_R0; lra).
  set (r := ((a + 2) * (501 / 1000) + 1001 / 1000) * ulp1) in *. assert (RB : 0 < r < / 1000000000) by (unfold r; nra).
  apply Rabs_le_inv in HT. assert (TP : N / 2 < fR t) by nra.
  set (g := fR x / N). assert (GB : Rabs g <= 1).
  { unfold g. apply abs_div_le; [exact NP|]. split; nra. }
  set (w := N / fR t). assert (WB : Rabs (w - 1) <= 1001 / 1000 * r).
  { unfold w. replace (N / fR t - 1) with ((N - fR t) / fR t) by (field; lra). assert (1 - r <= 1 - r) by lra. assert (TL : N * (1 - r) <= fR t) by nra.
    apply abs_div_le; [lra|].
    assert (1001 / 1000 * r * (N * (1 - r)) <= 1001 / 1000 * r * fR t) by (apply Rmult_le_compat_l; lra).
    assert (0 < r * N) by nra. split; nra. }
  assert (XT : fR x / fR t = g * w) by (unfold g, w; field; lra).
  pose proof (Rabs_pos g) as G0. apply Rabs_le_inv in WB as WB'.
  assert (XB : Rabs (g * w) <= 2) by (rewrite Rabs_mult, (Rabs_pos_eq w) by lra; nra).
  destruct (fdiv_ok x t Fx ltac:(lra)) as [E F].
  { rewrite XT. eapply Rle_lt_trans; [apply (rnd_le_bpow _ 1); [lia|]; change (bpow radix2 1) with 2; exact XB|]. apply bpow_lt. lia. }
  split; [exact F|]. rewrite E, XT. destruct (rnd_mixed (g * w)) as (e & h & He & Hh & ->).
  replace (g * w * (1 + e) + h - g) with (g * ((w - 1) + w * e) + h) by ring.
  eapply Rle_trans; [apply Rabs_triang|]. rewrite Rabs_mult. apply Rplus_le_compat; [|exact Hh]. rewrite (Rmult_comm (Rabs g)).
  apply Rmult_le_compat_r; [exact G0|]. eapply Rle_trans; [apply Rabs_triang|]. rewrite (Rabs_mult w), (Rabs_pos_eq w) by lra.
  assert (w * Rabs e <= 1001 / 1000 * ulp1) by (pose proof (Rabs_pos e); apply Rmult_le_compat; lra).
  assert (1001 / 1000 * r + 1001 / 1000 * ulp1 <= (a + 7) / 2 * ulp1) by (unfold r; nra). lra.
Qed.
Definition near (n : nat) (N : R) (x y : b64) : Prop :=
  fin y = true /\ Rabs (fR y - fR x / N) <= (INR n + 7) / 2 * ulp1 * Rabs (fR x / N) + eta.
Lemma sumsq_mem (l : list b64) x : In x l -> fR x * fR x <= sumsq (map fR l).
Proof.
  induction l as [|y l IH]; intros [].
  - subst. cbn. fold (sumsq (map fR l)). pose proof (sumsq_nonneg (map fR l)). lra.
  - specialize (IH H). cbn. fold (sumsq (map fR l)). nra.
Qed.
Lemma near_sum n N (l l' : list b64) : (n <= 100)%nat -> 0 < N -> Forall2 (near n N) l l' -> Forall (fun x => Rabs (fR x / N) <= 1) l ->
  Rabs (sumsq (map fR l') - sumsq (map fR l) / (N * N)) <= (INR n + 7 + 1 / 10) * ulp1 * (sumsq (map fR l) / (N * N)) + INR (length l) * (5 * eta).
Proof.
  intros Hn NP. pose proof ulp1_rng as U. pose proof eta_pos as HE.
  assert (C : 0 <= INR n <= 100) by (split; [apply pos_INR|replace 100 with (INR 100) by (rewrite INR_IZR_INZ; reflexivity); apply le_INR; lia]).
  assert (E1 : eta < 1) by (unfold eta; change 1 with (bpow radix2 0); apply bpow_lt; lia).
  induction 1 as [|x y l l' [_ H] _ IH]; intros HF.
  - cbn. unfold Rdiv. rewrite Rmult_0_l, Rminus_0_r, Rabs_R0. lra.
  - inversion HF as [|? ? HX HF']; subst. specialize (IH HF'). cbn [map length]. unfold sumsq in *. cbn [fold_right]. fold (sumsq (map fR l)) in *. fold (sumsq (map fR l')) in *.
    rewrite S_INR. set (g := fR x / N) in *. set (v := fR y) in *. set (A := sumsq (map fR l) / (N * N)) in *. set (B := sumsq (map fR l')) in *.
    replace ((fR x * fR x + sumsq (map fR l)) / (N * N)) with (g * g + A) by (unfold g, A; field; lra).
    replace (v * v + B - (g * g + A)) with ((v * v - g * g) + (B - A)) by ring.
    eapply Rle_trans; [apply Rabs_triang|].
    set (r := (INR n + 7) / 2 * ulp1) in *. assert (RB : 0 < r < / 10000000000000) by (unfold r, ulp1; split; nra).
    assert (K : Rabs (v * v - g * g) <= (INR n + 7 + 1 / 10) * ulp1 * (g * g) + 5 * eta).
    { pose proof (Rabs_pos g) as G0. assert (GG : g * g = Rabs g * Rabs g) by (rewrite <- Rabs_mult; symmetry; apply Rabs_pos_eq; nra).
      replace (v * v - g * g) with ((v - g) * ((v - g) + 2 * g)) by ring. rewrite Rabs_mult.
      set (p := Rabs g) in *. assert (T : Rabs ((v - g) + 2 * g) <= (r * p + eta) + 2 * p).
      { eapply Rle_trans; [apply Rabs_triang|]. rewrite Rabs_mult, (Rabs_pos_eq 2) by lra. fold p. lra. }
      apply Rle_trans with ((r * p + eta) * ((r * p + eta) + 2 * p)); [apply Rmult_le_compat; try apply Rabs_pos; assumption|].
      rewrite GG. assert (2 * r = (INR n + 7) * ulp1) by (unfold r; field). assert (r * r <= ulp1 / 10) by (unfold r, ulp1 in *; nra).
      replace ((INR n + 7 + 1 / 10) * ulp1) with (2 * r + ulp1 / 10) by (unfold r; field). clearbody r p.
      assert (0 <= p * p) by nra. assert (r * p <= 1) by nra. assert (r * r * (p * p) <= ulp1 / 10 * (p * p)) by (apply Rmult_le_compat_r; assumption).
      assert (eta * (r * p) <= eta * 1) by (apply Rmult_le_compat_l; lra). assert (eta * p <= eta * 1) by (apply Rmult_le_compat_l; lra). assert (eta * eta <= eta * 1) by (apply Rmult_le_compat_l; lra). nra. }
    lra.
Qed.
(** any computed sum of squares with that accuracy *)
Lemma normalize_any (l : list b64) (s : b64) : (length l <= 100)%nat -> Forall (fun x => fin x = true) l ->
  bpow radix2 (-900) <= sumsq (map fR l) <= bpow radix2 1000 -> fin s = true ->
  Rabs (fR s - sumsq (map fR l)) <= (INR (length l) + 2) * ulp1 * sumsq (map fR l) ->
  feqb (fsqrt s) (fofZ 0) = false /\
  Forall2 (near (length l) (sqrt (sumsq (map fR l)))) l (map (fun x => fdiv x (fsqrt s)) l) /\
  Rabs (sumsq (map fR (map (fun x => fdiv x (fsqrt s)) l)) - 1) <= (INR (length l) + 8) * ulp1.
Proof.
  intros Hn HF HB Fs HS. set (n := length l) in *. set (S0 := sumsq (map fR l)) in *. pose proof (bpow_gt_0 radix2 (-900)) as BP. pose proof ulp1_rng as U.
  destruct (norm_part n S0 s Hn HB Fs HS) as [Ft Ht].
  assert (C : 0 <= INR n <= 100) by (split; [apply pos_INR|replace 100 with (INR 100) by (rewrite INR_IZR_INZ; reflexivity); apply le_INR; unfold n; lia]).
  assert (NP : 0 < sqrt S0) by (apply sqrt_lt_R0; lra).
  assert (N2 : Forall2 (near n (sqrt S0)) l (map (fun x => fdiv x (fsqrt s)) l)).
  { assert (G : forall m, incl m l -> Forall2 (near n (sqrt S0)) m (map (fun x => fdiv x (fsqrt s)) m)).
    { induction m as [|x m IH]; intros HI; [constructor|]. cbn [map]. constructor.
      - assert (Ix : In x l) by (apply HI; left; reflexivity). rewrite Forall_forall in HF. unfold near. apply div_part; try assumption; [apply HF, Ix|apply sumsq_mem, Ix].
      - apply IH. intros z Hz. apply HI. right. exact Hz. }
    apply G. intros z Hz. exact Hz. }
  split; [|split; [exact N2|]].
  - unfold feqb. rewrite (Beqb_correct 53 1024) by (assumption || reflexivity). apply Req_bool_false. change (B2R (fofZ 0)) with 0. unfold fR in Ht. apply Rabs_le_inv in Ht.
    assert (((INR n + 2) * (501 / 1000) + 1001 / 1000) * ulp1 <= / 2) by nra. nra.
  - assert (HG : Forall (fun x => Rabs (fR x / sqrt S0) <= 1) l).
    { rewrite Forall_forall. intros x Ix. pose proof (sumsq_mem l x Ix) as M. fold S0 in M. assert (NN : sqrt S0 * sqrt S0 = S0) by (apply sqrt_def; lra).
      set (N := sqrt S0) in *. apply abs_div_le; [exact NP|]. split; nra. }
    pose proof (near_sum n (sqrt S0) l _ Hn NP N2 HG) as K. fold S0 in K. rewrite sqrt_def in K by lra. replace (S0 / S0) with 1 in K by (field; lra). fold n in K.
    eapply Rle_trans; [exact K|]. assert (eta <= ulp1 / 1000000) by (unfold eta; replace (-1075)%Z with (-53 + -1022)%Z by lia; rewrite bpow_plus, <- ulp1_bpow; unfold Rdiv; apply Rmult_le_compat_l; [lra|]; apply Rle_trans with (bpow radix2 (-20)); [apply bpow_le; lia|cbn; lra]).
    pose proof eta_pos. nra.
Qed.
