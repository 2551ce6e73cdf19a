(** * C120: Clock.tick in binary64 for every step *)
From Coq Require Import Reals ZArith List Bool Lra Psatz Lia Arith.
From Flocq Require Import Core BinarySingleNaN.
From Verif Require Import Num Flt M_jday P_sat P_integ P_struct P_normf P_qf P_jday P_jdayf P_clockf.
Import ListNotations.
Local Open Scope R_scope.

(** a step some multiple of which meets the minute: after n minutes' worth of ticks and j more, exactly n minutes have passed, and the
    second hand is off by at most 2.2e-8 s, however large n is *)
Theorem C120_calendar : forall (dt : b64) k, fin dt = true -> 2 / 100000 <= fR dt -> Rabs (INR k * fR dt - 60) <= 9.9 / 1000000 ->
  forall (c : Clock b64) n j, clock_ok c -> second c = fofZ 0 -> (j < k)%nat ->
  let c' := ticks (repeat dt (n * k + j)) c in
  clock_ok c' /\ clock_minute c' = (clock_minute c + Z.of_nat n)%Z /\ fin (second c') = true /\ Rabs (fR (second c') - INR j * fR dt) <= 2.2 / 100000000.
Proof. intros dt k Fd D1 K1 c n j C S0 L c'. destruct (any_tick dt k Fd D1 K1 n j c C S0 L) as (A1 & A2 & A3 & A4). split; [exact A1|]. split; [exact A2|]. split; [exact A3|exact A4]. Qed.
Print Assumptions C120_calendar.
(** in particular every 60/k, as Python computes it, for k up to three million *)
Lemma divisor_step k : (1 <= k)%nat -> (Z.of_nat k < 3000000)%Z -> let dt := fdiv (fofZ 60) (fofZ (Z.of_nat k)) in fin dt = true /\ 2 / 100000 <= fR dt /\ Rabs (INR k * fR dt - 60) <= / 1000000000000.
Proof.
  intros K1 K2 dt. assert (KZ : (1 <= Z.of_nat k < 3000000)%Z) by lia. assert (KR : 1 <= INR k <= 2999999). { rewrite INR_IZR_INZ. split; [apply IZR_le; lia|apply IZR_le; lia]. }
  assert (QK : 0 < / INR k <= 1) by (split; [apply Rinv_0_lt_compat; lra|rewrite <- Rinv_1; apply Rinv_le_contravar; lra]). assert (IK : INR k * / INR k = 1) by (apply Rinv_r; lra).
  set (E := ulp1 * (60 * / INR k) + / 1000000000000000000000000000000).
  assert (W := within_dec 60 (Z.of_nat k) E ltac:(lia) ltac:(lia)). rewrite <- INR_IZR_INZ in W. rewrite (Rabs_pos_eq 60) in W by lra. destruct (W (Rle_refl _)) as [F B]. change (fdec 60 (Z.of_nat k)) with dt in F, B. split; [exact F|].
  apply Rabs_le_inv in B. unfold Rdiv in B. assert (L : / 2999999 <= / INR k) by (apply Rinv_le_contravar; lra). assert (U := ulp1_rng). assert (E1 : E <= / 1000000000000000 * 60 * / INR k + / 1000000000000000000000000000000) by (unfold E; assert (ulp1 * (60 * / INR k) <= / 1000000000000000 * (60 * / INR k)) by (apply Rmult_le_compat_r; lra); lra).
  split; [lra|]. assert (INR k * - E <= INR k * (fR dt - 60 * / INR k) <= INR k * E) by (split; apply Rmult_le_compat_l; lra).
  assert (INR k * E <= / 100000000000000 * 6 + / 1000000000000000000000). { apply Rle_trans with (INR k * (/ 1000000000000000 * 60 * / INR k + / 1000000000000000000000000000000)); [apply Rmult_le_compat_l; lra|]. replace (INR k * (/ 1000000000000000 * 60 * / INR k + / 1000000000000000000000000000000)) with (/ 1000000000000000 * 60 * (INR k * / INR k) + INR k * / 1000000000000000000000000000000) by ring. rewrite IK. lra. }
  replace (INR k * fR dt - 60) with (INR k * (fR dt - 60 * / INR k)) by (transitivity (INR k * fR dt - 60 * (INR k * / INR k)); [ring|rewrite IK; ring]). apply Rabs_le. lra.
Qed.
Theorem C120_divisors : forall k, (1 <= k)%nat -> (Z.of_nat k < 3000000)%Z -> let dt := fdiv (fofZ 60) (fofZ (Z.of_nat k)) in
  forall (c : Clock b64) n j, clock_ok c -> second c = fofZ 0 -> (j < k)%nat ->
  let c' := ticks (repeat dt (n * k + j)) c in
  clock_ok c' /\ clock_minute c' = (clock_minute c + Z.of_nat n)%Z /\ Rabs (fR (second c') - INR j * 60 / INR k) <= 2.3 / 100000000.
Proof.
  intros k K1 K2 dt c n j C S0 L c'. destruct (divisor_step k K1 K2) as (F & D & B). fold dt in F, D, B. destruct (C120_calendar dt k F D ltac:(lra) c n j C S0 L) as (A1 & A2 & _ & A3). fold c' in A1, A2, A3. split; [exact A1|]. split; [exact A2|].
  assert (J : INR j <= INR k) by (apply le_INR; lia). assert (J0 := pos_INR j). assert (K0 : 1 <= INR k) by (change 1 with (INR 1); apply le_INR; lia). apply Rabs_le_inv in B. apply Rabs_le_inv in A3.
  assert (Q : 0 <= INR j * / INR k <= 1). { assert (0 < / INR k) by (apply Rinv_0_lt_compat; lra). split; [apply Rmult_le_pos; lra|]. apply Rle_trans with (INR k * / INR k); [apply Rmult_le_compat_r; lra|rewrite Rinv_r; lra]. }
  assert (E : INR j * fR dt - INR j * 60 / INR k = INR j * / INR k * (INR k * fR dt - 60)) by (field; lra).
  assert (X : Rabs (INR j * / INR k * (INR k * fR dt - 60)) <= 1 * / 1000000000000). { rewrite Rabs_mult. apply Rmult_le_compat; try apply Rabs_pos; [rewrite Rabs_pos_eq; lra|apply Rabs_le; lra]. } apply Rabs_le_inv in X. apply Rabs_le. lra.
Qed.
Print Assumptions C120_divisors.
(** a step no multiple of which meets the minute: the date and minute never change again, however many ticks follow *)
Theorem C120_frozen : forall (dt : b64), fin dt = true -> 2 / 100000 <= fR dt <= 1000000 -> (forall k, (1 <= k)%nat -> 10.1 / 1000000 <= Rabs (INR k * fR dt - 60)) ->
  forall (c : Clock b64) n, clock_ok c -> second c = fofZ 0 -> let c' := ticks (repeat dt n) c in clock_ok c' /\ fields c' = fields c.
Proof. intros dt F D M c n C S0 c'. destruct (ticks_hand dt c C S0 n) as (A1 & A2 & _); [intros j _; apply (never_lands dt F D M)|]. split; assumption. Qed.
Print Assumptions C120_frozen.
(** the running total: off by at most half a unit in the last place per tick *)
Theorem C120_total : forall (dt : b64) (c : Clock b64) e n, fin dt = true -> fin (absolute c) = true -> 0 <= fR dt -> 0 <= fR (absolute c) -> (0 <= e <= 90)%Z ->
  fR (absolute c) + INR n * fR dt + INR n * bpow radix2 (e - 53) <= bpow radix2 e ->
  let a := absolute (ticks (repeat dt n) c) in fin a = true /\ Rabs (fR a - (fR (absolute c) + INR n * fR dt)) <= INR n * bpow radix2 (e - 53).
Proof. intros dt c e n F1 F2 P1 P2 He H a. unfold a. rewrite absolute_ticks. apply total_err; assumption. Qed.
Print Assumptions C120_total.
(** and within one binade the error is exactly proportional to the number of ticks: each adds the multiple r of the unit in the last
    place nearest to the step *)
Theorem C120_total_exact : forall (dt : b64) (c : Clock b64) e r n, fin dt = true -> fin (absolute c) = true -> (0 <= e <= 90)%Z -> 0 <= fR dt -> (0 <= r)%Z ->
  let u := bpow radix2 (e - 52) in Rabs (fR dt - IZR r * u) < u / 2 -> bpow radix2 e <= fR (absolute c) -> fR (absolute c) + INR n * (IZR r * u) + u <= bpow radix2 (e + 1) ->
  fR (absolute (ticks (repeat dt n) c)) = fR (absolute c) + INR n * (IZR r * u).
Proof. intros dt c e r n F1 F2 He P1 R0 u HR L H. rewrite absolute_ticks. apply (total_exact dt (absolute c) e r F1 F2 He P1 R0 HR L n H). Qed.
Print Assumptions C120_total_exact.
(** the simulator's step of 0.05 s *)
Lemma sim_step : fin (fdec 1 20) = true /\ 0.05 - / 1000000000000000 <= fR (fdec 1 20) <= 0.05 + / 1000000000000000.
Proof. destruct (within_dec 1 20 (/ 1000000000000000) ltac:(lia) ltac:(lia) ltac:(unfold ulp1; rewrite Rabs_pos_eq; lra)) as [A B]. split; [exact A|]. apply Rabs_le_inv in B. lra. Qed.
Theorem C120_drift_refuted : forall (c : Clock b64) n, clock_ok c -> second c = fofZ 0 -> fin (absolute c) = true -> 16777216 <= fR (absolute c) -> fR (absolute c) + INR n * 60.00001 <= 33554432 ->
  let c' := ticks (repeat (fdec 1 20) (n * 1200)) c in
  clock_minute c' = (clock_minute c + Z.of_nat n)%Z /\ second c' = fofZ 0 /\
  60 * INR n + 8.9 / 10000000 * INR n <= fR (absolute c') - fR (absolute c) <= 60 * INR n + 9 / 10000000 * INR n.
Proof.
  intros c n C S0 Fa L H c'. destruct sim_step as [Fd D].
  assert (K : Rabs (INR 1200 * fR (fdec 1 20) - 60) <= 9.9 / 1000000). { replace (INR 1200) with 1200 by (rewrite INR_IZR_INZ; reflexivity). apply Rabs_le. lra. }
  destruct (minutes_k (fdec 1 20) 1200 Fd ltac:(lra) K n c C S0) as (_ & A2 & A3). split; [exact A2|]. split; [exact A3|].
  assert (N0 := pos_INR n). assert (NK : INR (n * 1200) = INR n * 1200) by (rewrite mult_INR; f_equal; rewrite INR_IZR_INZ; reflexivity).
  assert (X := C120_total_exact (fdec 1 20) c 24 13421773 (n * 1200) Fd Fa ltac:(lia) ltac:(lra) ltac:(lia)). cbv zeta in X. change (bpow radix2 (24 - 52)) with (/ 268435456) in X. change (bpow radix2 24) with 16777216 in X. change (bpow radix2 (24 + 1)) with 33554432 in X. rewrite NK in X. unfold c'.
  destruct n as [|n].
  - simpl (INR 0). cbn [Nat.mul repeat ticks fold_left]. lra.
  - rewrite X; [|apply Rabs_def1; lra|exact L|]. 
    + split; lra.
    + assert (1 <= INR (S n)) by (change 1 with (INR 1); apply le_INR; lia). lra.
Qed.
Print Assumptions C120_drift_refuted.
(** clocks and steps meeting the hypotheses: one second (60 per minute), seven seconds (misses), half a year in with 0.05 s steps *)
Example C120_ex : let c := mkClock (fofZ 16777216) 2026 12 31 23 59 (fofZ 0) false false in clock_ok c /\
  (fin (fofZ 1) = true /\ 2 / 100000 <= fR (fofZ 1) /\ Rabs (INR 60 * fR (fofZ 1) - 60) <= 9.9 / 1000000) /\
  (fin (fofZ 7) = true /\ 2 / 100000 <= fR (fofZ 7) <= 1000000 /\ forall k, (1 <= k)%nat -> 10.1 / 1000000 <= Rabs (INR k * fR (fofZ 7) - 60)) /\
  fin (absolute c) = true /\ 16777216 <= fR (absolute c) /\ fR (absolute c) + INR (Z.to_nat 279000) * 60.00001 <= 33554432.
Proof.
  intros c. split; [repeat split; try reflexivity; try (cbn; lia); vm_compute; split; congruence|]. 
  destruct (fofZ_R 1 ltac:(lia)) as [A1 A2]. destruct (fofZ_R 7 ltac:(lia)) as [B1 B2]. destruct (fofZ_R 16777216 ltac:(lia)) as [C1 C2].
  split. { rewrite A1. split; [exact A2|]. split; [lra|]. replace (INR 60) with 60 by (rewrite INR_IZR_INZ; reflexivity). apply Rabs_le. lra. }
  split. { rewrite B1. split; [exact B2|]. split; [lra|]. intros k _. destruct (le_lt_dec k 8) as [L|L]; [apply le_INR in L; rewrite (INR_IZR_INZ 8) in L; change (IZR (Z.of_nat 8)) with 8 in L; rewrite Rabs_left1; lra|]. apply le_INR in L. rewrite (INR_IZR_INZ 9) in L. change (IZR (Z.of_nat 9)) with 9 in L. rewrite Rabs_pos_eq; lra. }
  unfold c. cbn [absolute]. rewrite C1. split; [exact C2|]. split; [lra|]. rewrite INR_IZR_INZ, Z2Nat.id by lia. lra.
Qed.
