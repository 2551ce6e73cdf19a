(** * Lemmas: Clock.tick in binary64, for every step *)
From Coq Require Import Reals ZArith List Bool Lra Psatz Lia Arith.
From Flocq Require Import Core BinarySingleNaN.
From Verif Require Import Num Flt M_jday P_sat P_integ P_struct P_normf P_qf P_jday P_jdayf.
Import ListNotations.
Local Open Scope R_scope.

(** half a unit in the last place, up to a power of two *)
Lemma rnd_err_pow x e : (-1000 <= e <= 1000)%Z -> Rabs x <= bpow radix2 e -> Rabs (rnd x - x) <= bpow radix2 (e - 53).
Proof.
  intros He H. apply (Rle_trans _ _ _ (error_le_half_ulp radix2 (SpecFloat.fexp 53 1024) (fun z => negb (Z.even z)) x)).
  assert (U : ulp radix2 (SpecFloat.fexp 53 1024) x <= ulp radix2 (SpecFloat.fexp 53 1024) (bpow radix2 e)).
  { apply ulp_le; [apply fexp_valid|apply fexp_mono|]. rewrite (Rabs_pos_eq (bpow radix2 e)) by apply bpow_ge_0. exact H. }
  rewrite ulp_bpow in U. rewrite fexp_FLT in U |- *. unfold FLT_exp in U at 2. replace (Z.max (e + 1 - 53) (-1074)) with (e - 53 + 1)%Z in U by lia. rewrite bpow_plus_1 in U. change (IZR (radix_val radix2)) with 2 in U. lra.
Qed.
Definition u47 : R := / 140737488355328.
Lemma rnd_err64 x : Rabs x <= 64 -> Rabs (rnd x - x) <= u47.
Proof. intros H. assert (X := rnd_err_pow x 6 ltac:(lia)). change (bpow radix2 6) with 64 in X. change (bpow radix2 (6 - 53)) with u47 in X. exact (X H). Qed.
Lemma rnd_mono x y : x <= y -> rnd x <= rnd y. Proof. intros H. apply round_le; [apply fexp_valid|auto with typeclass_instances|exact H]. Qed.
Lemma rnd_fmt (x : b64) : rnd (fR x) = fR x. Proof. apply round_generic; [auto with typeclass_instances|apply fmt_R]. Qed.
Lemma tol_R : fin (fdec 1 100000) = true /\ Rabs (fR (fdec 1 100000) - / 100000) <= / 10000000000000.
Proof. assert (W := within_dec 1 100000 (/ 10000000000000) ltac:(lia) ltac:(lia) ltac:(unfold ulp1; rewrite Rabs_pos_eq; lra)). destruct W as [A B]. split; [exact A|]. replace (/ 100000) with (1 / 100000) by lra. exact B. Qed.
(** the landing test on a finite second hand *)
Definition lands_on (s : b64) : bool := fltb (fabs (fsub s (fofZ 60))) (fdec 1 100000).
Lemma lands_on_R s : fin s = true -> Rabs (fR s) <= 1000000000000000000000000000 -> lands_on s = Rlt_bool (Rabs (rnd (fR s - 60))) (fR (fdec 1 100000)).
Proof.
  intros F B. destruct (fofZ_R 60 ltac:(lia)) as [A1 A2]. assert (V : Rabs (fR s - 60) <= 1000000000000000000000000100). { apply Rabs_le_inv in B. apply Rabs_le. lra. }
  destruct (fsub_ok s (fofZ 60) F A2) as [C1 C2]; [rewrite A1; apply (small_fin _ _ V); lra|]. unfold lands_on. rewrite fltb_ok; [|rewrite fabs_fin; exact C2|apply tol_R]. rewrite fabs_R, C1, A1. reflexivity.
Qed.
Lemma lands_near s : fin s = true -> Rabs (fR s - 60) <= 9.95 / 1000000 -> lands_on s = true.
Proof.
  intros F H. assert (H' := H). apply Rabs_le_inv in H'. rewrite lands_on_R; [|exact F|apply Rabs_le; lra]. apply Rlt_bool_true. destruct tol_R as [_ T]. apply Rabs_le_inv in T.
  assert (E := rnd_err64 (fR s - 60) ltac:(lra)). unfold u47 in E. assert (Q := Rabs_triang (fR s - 60) (rnd (fR s - 60) - (fR s - 60))). replace (fR s - 60 + (rnd (fR s - 60) - (fR s - 60))) with (rnd (fR s - 60)) in Q by ring. lra.
Qed.
Lemma lands_far s : fin s = true -> Rabs (fR s) <= 1000000000000000000000000000 -> 10.05 / 1000000 <= Rabs (fR s - 60) -> lands_on s = false.
Proof.
  intros F B H. rewrite lands_on_R; [|exact F|exact B]. apply Rlt_bool_false. destruct tol_R as [_ T]. apply Rabs_le_inv in T. assert (E := rnd_err (fR s - 60)). destruct eta30 as [e1 e2]. assert (U := ulp1_rng).
  set (v := fR s - 60) in *. assert (Q := Rabs_triang (rnd v) (v - rnd v)). replace (rnd v + (v - rnd v)) with v in Q by ring. rewrite (Rabs_minus_sym v (rnd v)) in Q.
  assert (ulp1 * Rabs v <= / 1000000000000000 * Rabs v) by (apply Rmult_le_compat_r; lra). lra.
Qed.
(** the second hand after j ticks without landing *)
Fixpoint hand (dt : b64) (j : nat) : b64 := match j with O => fofZ 0 | S j => fadd (hand dt j) dt end.
Lemma hand_err (dt : b64) : fin dt = true -> 0 < fR dt -> forall j, INR j * fR dt + INR j * u47 <= 64 ->
  fin (hand dt j) = true /\ Rabs (fR (hand dt j) - INR j * fR dt) <= INR j * u47.
Proof.
  intros F P. assert (U0 : 0 < u47) by (unfold u47; lra). induction j as [|j IH]; intros H.
  - destruct (fofZ_R 0 ltac:(lia)) as [A1 A2]. cbn [hand]. split; [exact A2|]. rewrite A1. simpl (INR 0). rewrite Rmult_0_l, Rminus_0_r, Rabs_R0. lra.
  - rewrite S_INR in *. assert (J := pos_INR j). destruct IH as [F' E]; [lra|]. cbn [hand]. apply Rabs_le_inv in E. assert (0 <= INR j * u47) by (apply Rmult_le_pos; lra). assert (0 <= INR j * fR dt) by (apply Rmult_le_pos; lra).
    assert (X : Rabs (fR (hand dt j) + fR dt) <= 64) by (apply Rabs_le; lra).
    destruct (fadd_ok (hand dt j) dt F' F) as [A1 A2]; [apply (small_fin _ _ X); lra|]. split; [exact A2|]. rewrite A1. assert (D := rnd_err64 _ X). apply Rabs_le_inv in D. apply Rabs_le. lra.
Qed.
Lemma lands_hand (dt : b64) (c : Clock b64) j : second c = hand dt j -> lands dt c = lands_on (hand dt (S j)).
Proof. intros E. rewrite lands_b64, E. reflexivity. Qed.
(** as long as no tick lands, the fields stay and the second hand is [hand] *)
Lemma ticks_hand (dt : b64) c : clock_ok c -> second c = fofZ 0 -> forall n, (forall j, (1 <= j <= n)%nat -> lands_on (hand dt j) = false) ->
  let c' := ticks (repeat dt n) c in clock_ok c' /\ fields c' = fields c /\ second c' = hand dt n.
Proof.
  intros C S0. induction n as [|n IH]; intros H.
  - split; [exact C|]. split; [reflexivity|exact S0].
  - replace (S n) with (n + 1)%nat by lia. rewrite repeat_app, ticks_app. destruct IH as (C' & F' & S'); [intros j Hj; apply H; lia|]. set (c' := ticks (repeat dt n) c) in *.
    cbn [repeat ticks fold_left]. destruct (tick_stay_ok dt c' C') as (G1 & G2 & G3); [rewrite (lands_hand dt c' n S'); apply H; lia|].
    split; [exact G1|]. split; [congruence|]. rewrite G3, S'. reflexivity || (replace (n + 1)%nat with (S n) by lia; reflexivity).
Qed.
Lemma minute_of_fields {T} (c c' : Clock T) : fields c' = fields c -> clock_minute c' = clock_minute c.
Proof. unfold fields, clock_minute. intros F. injection F; intros E1 E2 E3 E4 E5. rewrite E1, E2, E3, E4, E5. reflexivity. Qed.

(** ** a step that lands *)
Section Lands.
Variables (dt : b64) (k : nat).
Hypothesis Fd : fin dt = true.
Hypothesis D1 : 2 / 100000 <= fR dt.
Hypothesis K1 : Rabs (INR k * fR dt - 60) <= 9.9 / 1000000.
Lemma k_pos : (1 <= k)%nat.
Proof. destruct k as [|k']; [|lia]. exfalso. simpl INR in K1. rewrite Rmult_0_l, Rminus_0_l, Rabs_Ropp, Rabs_pos_eq in K1 by lra. lra. Qed.
Lemma k_le : INR k <= 3000001.
Proof. apply Rabs_le_inv in K1. assert (P := pos_INR k). destruct (Rle_lt_dec (INR k) 3000001) as [L|L]; [exact L|]. assert (3000001 * (2 / 100000) <= INR k * fR dt) by (apply Rmult_le_compat; lra). lra. Qed.
Lemma hand_k j : (j <= k)%nat -> fin (hand dt j) = true /\ Rabs (fR (hand dt j) - INR j * fR dt) <= 2.2 / 100000000.
Proof.
  intros L. apply le_INR in L. assert (P := pos_INR j). assert (Q := k_le). apply Rabs_le_inv in K1. assert (J : INR j * fR dt <= INR k * fR dt) by (apply Rmult_le_compat_r; lra).
  assert (E : INR j * u47 <= 2.2 / 100000000). { apply Rle_trans with (3000001 * u47); [apply Rmult_le_compat_r; [unfold u47; lra|lra]|unfold u47; lra]. }
  destruct (hand_err dt Fd ltac:(lra) j ltac:(lra)) as [A B]. split; [exact A|lra].
Qed.
Lemma no_land j : (1 <= j < k)%nat -> lands_on (hand dt j) = false.
Proof.
  intros L. destruct (hand_k j ltac:(lia)) as [F E]. assert (J : INR (S j) <= INR k) by (apply le_INR; lia). rewrite S_INR in J. apply Rabs_le_inv in E. apply Rabs_le_inv in K1. assert (P := pos_INR j).
  assert ((INR j + 1) * fR dt <= INR k * fR dt) by (apply Rmult_le_compat_r; lra). assert (0 <= INR j * fR dt) by (apply Rmult_le_pos; lra).
  apply lands_far; [exact F|apply Rabs_le; lra|]. rewrite Rabs_left1; lra.
Qed.
Lemma land_k : lands_on (hand dt k) = true.
Proof. destruct (hand_k k ltac:(lia)) as [F E]. apply lands_near; [exact F|]. apply Rabs_le_inv in E. apply Rabs_le_inv in K1. apply Rabs_le. lra. Qed.
Lemma minute_k c : clock_ok c -> second c = fofZ 0 -> let c' := ticks (repeat dt k) c in clock_ok c' /\ clock_minute c' = (clock_minute c + 1)%Z /\ second c' = fofZ 0.
Proof.
  intros C S0 c'. assert (KP := k_pos). destruct (ticks_hand dt c C S0 (k - 1)) as (A1 & A2 & A3); [intros j Hj; apply no_land; lia|]. unfold c'. replace k with (k - 1 + 1)%nat at 1 2 3 by lia. rewrite repeat_app, ticks_app.
  set (c1 := ticks (repeat dt (k - 1)) c) in *. cbn [repeat ticks fold_left].
  assert (LK : lands dt c1 = true). { rewrite (lands_hand dt c1 _ A3). replace (S (k - 1)) with k by lia. apply land_k. }
  destruct (tick_carry dt c1 A1 LK) as (H1 & H2 & H3 & _). split; [exact H1|]. split; [|exact H3]. rewrite H2, (minute_of_fields c c1 A2). reflexivity.
Qed.
Lemma minutes_k n : forall c, clock_ok c -> second c = fofZ 0 -> let c' := ticks (repeat dt (n * k)) c in clock_ok c' /\ clock_minute c' = (clock_minute c + Z.of_nat n)%Z /\ second c' = fofZ 0.
Proof.
  induction n as [|n IH]; intros c C S0 c'.
  - unfold c'. cbn [Nat.mul repeat ticks fold_left]. rewrite Z.add_0_r. auto.
  - unfold c'. cbn [Nat.mul]. rewrite repeat_app, ticks_app. destruct (minute_k c C S0) as (H1 & H2 & H3). destruct (IH _ H1 H3) as (G1 & G2 & G3). split; [exact G1|]. split; [|exact G3]. rewrite G2, H2. lia.
Qed.
Lemma any_tick n j c : clock_ok c -> second c = fofZ 0 -> (j < k)%nat -> let c' := ticks (repeat dt (n * k + j)) c in
  clock_ok c' /\ clock_minute c' = (clock_minute c + Z.of_nat n)%Z /\ within (2.2 / 100000000) (second c') (INR j * fR dt).
Proof.
  intros C S0 L c'. unfold c'. rewrite repeat_app, ticks_app. destruct (minutes_k n c C S0) as (G1 & G2 & G3). set (c1 := ticks (repeat dt (n * k)) c) in *.
  destruct (ticks_hand dt c1 G1 G3 j) as (A1 & A2 & A3); [intros i Hi; apply no_land; lia|]. split; [exact A1|]. split; [rewrite (minute_of_fields _ _ A2); exact G2|]. rewrite A3. apply hand_k. lia.
Qed.
End Lands.

(** ** a step that misses *)
Section Misses.
Variable dt : b64.
Hypothesis Fd : fin dt = true.
Hypothesis D1 : 2 / 100000 <= fR dt <= 1000000.
Hypothesis MS : forall k, (1 <= k)%nat -> 10.1 / 1000000 <= Rabs (INR k * fR dt - 60).
Definition past (s : b64) : Prop := fin s = true /\ 60 + 10.05 / 1000000 <= fR s <= bpow radix2 80.
Lemma past_next s : past s -> past (fadd s dt).
Proof.
  intros (F & L & U). assert (B : bpow radix2 80 = 1208925819614629174706176) by reflexivity. rewrite B in U.
  destruct (fadd_ok s dt F Fd) as [A1 A2]; [apply (small_fin _ 1208925819614629175706176); [apply Rabs_le; lra|lra]|]. split; [exact A2|]. rewrite A1. split.
  - apply Rle_trans with (fR s); [exact L|]. rewrite <- (rnd_fmt s) at 1. apply rnd_mono. lra.
  - apply Rle_trans with (rnd (bpow radix2 80 + 1000000)); [apply rnd_mono; rewrite B; lra|]. 
    assert (F80 : fmt (bpow radix2 80)) by (apply fmt_bpow; lia). 
    assert (X : rnd (bpow radix2 80 + 1000000) = bpow radix2 80); [|rewrite X; lra].
    assert (MG : mag radix2 (bpow radix2 80 + 1000000) = 81%Z :> Z). { apply mag_unique. rewrite Rabs_pos_eq by (rewrite B; lra). split; [change (81 - 1)%Z with 80%Z; lra|]. change (bpow radix2 81) with 2417851639229258349412352. rewrite B. lra. }
    unfold rnd, round, F2R, scaled_mantissa, cexp. rewrite MG. change (SpecFloat.fexp 53 1024 81) with 28%Z. cbn [Fnum Fexp].
    rewrite (Znearest_imp _ _ (2 ^ 52)); [change (bpow radix2 28) with 268435456; rewrite B; change (2 ^ 52)%Z with 4503599627370496%Z; lra|].
    rewrite B. change (bpow radix2 (- (28))) with (/ 268435456). change (2 ^ 52)%Z with 4503599627370496%Z. rewrite Rabs_pos_eq; lra.
Qed.
Definition before (s : b64) (j : nat) : Prop := fin s = true /\ Rabs (fR s - INR j * fR dt) <= INR j * u47 /\ INR j * fR dt <= 60 - 10.1 / 1000000.
Lemma before_next s j : before s j -> before (fadd s dt) (S j) \/ past (fadd s dt).
Proof.
  intros (F & E & L). assert (P := pos_INR j). assert (U0 : 0 < u47 <= / 140737488355328) by (unfold u47; lra).
  assert (JB : INR j <= 3000000). { destruct (Rle_lt_dec (INR j) 3000000) as [X|X]; [exact X|]. assert (3000000 * (2 / 100000) <= INR j * fR dt) by (apply Rmult_le_compat; lra). lra. }
  assert (EJ : INR j * u47 <= 2.2 / 100000000). { apply Rle_trans with (3000000 * / 140737488355328); [apply Rmult_le_compat; lra|lra]. }
  assert (0 <= INR j * u47) by (apply Rmult_le_pos; lra). assert (0 <= INR j * fR dt) by (apply Rmult_le_pos; lra). assert (E' := E). apply Rabs_le_inv in E'.
  assert (X : Rabs (fR s + fR dt) <= 2000000) by (apply Rabs_le; lra).
  destruct (fadd_ok s dt F Fd) as [A1 A2]; [apply (small_fin _ _ X); lra|]. assert (M := MS (S j) ltac:(lia)). rewrite S_INR in M.
  destruct (Rle_lt_dec (fR s + fR dt) 64) as [L6|L6].
  - assert (D := rnd_err64 (fR s + fR dt) ltac:(apply Rabs_le; lra)). rewrite <- A1 in D. apply Rabs_le_inv in D. unfold Rabs in M. destruct (Rcase_abs ((INR j + 1) * fR dt - 60)) as [N|N].
    + left. split; [exact A2|]. rewrite S_INR. split; [apply Rabs_le; lra|lra].
    + right. split; [exact A2|]. split; [lra|]. change (bpow radix2 80) with 1208925819614629174706176. lra.
  - right. split; [exact A2|]. rewrite A1. split.
    + apply Rle_trans with 64; [lra|]. change 64 with (bpow radix2 6). replace (bpow radix2 6) with (rnd (bpow radix2 6)) by (apply round_generic; [auto with typeclass_instances|apply fmt_bpow; lia]). apply rnd_mono. change (bpow radix2 6) with 64. lra.
    + assert (Y := rnd_le_bpow (fR s + fR dt) 80 ltac:(lia) ltac:(change (bpow radix2 80) with 1208925819614629174706176; lra)). apply Rabs_le_inv in Y. lra.
Qed.
Lemma hand_state j : before (hand dt j) j \/ past (hand dt j).
Proof.
  induction j as [|j [B|B]].
  - left. destruct (fofZ_R 0 ltac:(lia)) as [A1 A2]. cbn [hand]. split; [exact A2|]. rewrite A1. simpl (INR 0). rewrite !Rmult_0_l, Rminus_0_r, Rabs_R0. lra.
  - cbn [hand]. apply before_next, B.
  - right. cbn [hand]. apply past_next, B.
Qed.
Lemma never_lands j : lands_on (hand dt j) = false.
Proof.
  destruct (hand_state j) as [(F & E & L)|(F & L & U)].
  - assert (P := pos_INR j). assert (JB : INR j <= 3000000). { destruct (Rle_lt_dec (INR j) 3000000) as [X|X]; [exact X|]. assert (3000000 * (2 / 100000) <= INR j * fR dt) by (apply Rmult_le_compat; lra). lra. }
    assert (EJ : INR j * u47 <= 2.2 / 100000000). { apply Rle_trans with (3000000 * / 140737488355328); [apply Rmult_le_compat; unfold u47; lra|lra]. } apply Rabs_le_inv in E. assert (0 <= INR j * fR dt) by (apply Rmult_le_pos; lra).
    apply lands_far; [exact F|apply Rabs_le; lra|]. rewrite Rabs_left1; lra.
  - apply lands_far; [exact F| |rewrite Rabs_pos_eq; lra]. change (bpow radix2 80) with 1208925819614629174706176 in U. apply Rabs_le. lra.
Qed.
End Misses.

(** ** the running total [absolute] *)
Lemma absolute_tick (dt : b64) (c : Clock b64) : absolute (tick dt c) = fadd (absolute c) dt.
Proof.
  unfold tick. change (@nadd b64 FNum) with fadd. 
  repeat match goal with |- context [let '(_, _) := ?e in _] => destruct e as [? ?] end. reflexivity.
Qed.
Fixpoint total (dt a : b64) (n : nat) : b64 := match n with O => a | S n => fadd (total dt a n) dt end.
Lemma absolute_ticks (dt : b64) n : forall c, absolute (ticks (repeat dt n) c) = total dt (absolute c) n.
Proof.
  induction n as [|n IH]; intros c; [reflexivity|]. replace (S n) with (n + 1)%nat at 1 by lia. rewrite repeat_app, ticks_app. cbn [repeat ticks fold_left]. rewrite absolute_tick. change (fold_left (fun c dt => tick dt c) (repeat dt n) c) with (ticks (repeat dt n) c). rewrite IH. reflexivity.
Qed.
Lemma total_err (dt a : b64) e : fin dt = true -> fin a = true -> 0 <= fR dt -> 0 <= fR a -> (0 <= e <= 90)%Z -> forall n, fR a + INR n * fR dt + INR n * bpow radix2 (e - 53) <= bpow radix2 e ->
  fin (total dt a n) = true /\ Rabs (fR (total dt a n) - (fR a + INR n * fR dt)) <= INR n * bpow radix2 (e - 53).
Proof.
  intros Fd Fa D0 A0 He. set (u := bpow radix2 (e - 53)). assert (U0 : 0 < u) by apply bpow_gt_0. assert (B : bpow radix2 e <= 1237940039285380274899124224) by (change 1237940039285380274899124224 with (bpow radix2 90); apply bpow_le; lia). induction n as [|n IH]; intros H.
  - cbn [total]. split; [exact Fa|]. simpl (INR 0). replace (fR a - (fR a + 0 * fR dt)) with 0 by ring. rewrite Rabs_R0. lra.
  - rewrite S_INR in *. assert (J := pos_INR n). destruct IH as [F' E]; [lra|]. cbn [total]. apply Rabs_le_inv in E. assert (0 <= INR n * u) by (apply Rmult_le_pos; lra). assert (0 <= INR n * fR dt) by (apply Rmult_le_pos; lra).
    assert (X : Rabs (fR (total dt a n) + fR dt) <= bpow radix2 e) by (apply Rabs_le; lra).
    destruct (fadd_ok (total dt a n) dt F' Fd) as [A1 A2]; [apply (small_fin _ _ X); lra|]. split; [exact A2|]. rewrite A1. assert (D := rnd_err_pow _ e ltac:(lia) X). fold u in D. apply Rabs_le_inv in D. apply Rabs_le. lra.
Qed.
(** within one binade every step adds the same multiple of the unit in the last place *)
Lemma rnd_binade e (A r : Z) D : (0 <= e <= 90)%Z -> let u := bpow radix2 (e - 52) in bpow radix2 e <= IZR A * u -> IZR A * u + D < bpow radix2 (e + 1) -> 0 <= D -> Rabs (D - IZR r * u) < u / 2 ->
  rnd (IZR A * u + D) = IZR (A + r) * u.
Proof.
  intros He u L U D0 R. assert (U0 : 0 < u) by apply bpow_gt_0. assert (IU : bpow radix2 (- (e - 52)) * u = 1) by (unfold u; rewrite <- bpow_plus; replace (- (e - 52) + (e - 52))%Z with 0%Z by lia; reflexivity).
  assert (B0 := bpow_gt_0 radix2 e). assert (MG : mag radix2 (IZR A * u + D) = (e + 1)%Z :> Z). { apply mag_unique. rewrite Rabs_pos_eq by lra. replace (e + 1 - 1)%Z with e by lia. split; lra. }
  unfold rnd, round, F2R, scaled_mantissa, cexp. rewrite MG, fexp_FLT. unfold FLT_exp. replace (Z.max (e + 1 - 53) (-1074)) with (e - 52)%Z by lia. cbn [Fnum Fexp]. fold u.
  rewrite (Znearest_imp _ _ (A + r)); [reflexivity|]. set (iu := bpow radix2 (- (e - 52))) in *. assert (I0 : 0 < iu) by apply bpow_gt_0. rewrite plus_IZR.
  replace ((IZR A * u + D) * iu - (IZR A + IZR r)) with ((D - IZR r * u) * iu) by (transitivity (IZR A * (iu * u) + D * iu - IZR A - IZR r * (iu * u) + (IZR r * (iu * u) - IZR r)); [ring|rewrite IU; ring] || (replace ((IZR A * u + D) * iu) with (IZR A * (iu * u) + D * iu) by ring; replace ((D - IZR r * u) * iu) with (D * iu - IZR r * (iu * u)) by ring; rewrite IU; ring)).
  rewrite Rabs_mult, (Rabs_pos_eq iu) by lra. apply Rmult_lt_reg_r with u; [exact U0|]. rewrite Rmult_assoc, IU. lra.
Qed.
Lemma binade_mult (a : b64) e : (0 <= e <= 90)%Z -> bpow radix2 e <= fR a < bpow radix2 (e + 1) -> exists A, fR a = IZR A * bpow radix2 (e - 52).
Proof.
  intros He H. assert (F := fmt_R a). unfold fmt, generic_format in F. assert (B0 := bpow_gt_0 radix2 e). assert (MG : mag radix2 (fR a) = (e + 1)%Z :> Z). { apply mag_unique. rewrite Rabs_pos_eq by lra. replace (e + 1 - 1)%Z with e by lia. exact H. }
  unfold F2R, cexp in F. rewrite MG, fexp_FLT in F. unfold FLT_exp in F. replace (Z.max (e + 1 - 53) (-1074)) with (e - 52)%Z in F by lia. cbn [Fnum Fexp] in F. eexists. exact F.
Qed.
Lemma total_exact (dt a : b64) e (r : Z) : fin dt = true -> fin a = true -> (0 <= e <= 90)%Z -> 0 <= fR dt -> (0 <= r)%Z -> let u := bpow radix2 (e - 52) in Rabs (fR dt - IZR r * u) < u / 2 -> bpow radix2 e <= fR a -> forall n, fR a + INR n * (IZR r * u) + u <= bpow radix2 (e + 1) ->
  fin (total dt a n) = true /\ fR (total dt a n) = fR a + INR n * (IZR r * u).
Proof.
  intros Fd Fa He D0 R0 u HR L. assert (U0 : 0 < u) by apply bpow_gt_0. apply IZR_le in R0. assert (RU : 0 <= IZR r * u) by (apply Rmult_le_pos; lra).
  assert (B : bpow radix2 (e + 1) <= 2475880078570760549798248448) by (change 2475880078570760549798248448 with (bpow radix2 91); apply bpow_le; lia). assert (B0 := bpow_gt_0 radix2 e).
  induction n as [|n IH]; intros H.
  - cbn [total]. split; [exact Fa|]. simpl (INR 0). ring.
  - rewrite S_INR in *. assert (J := pos_INR n). assert (0 <= INR n * (IZR r * u)) by (apply Rmult_le_pos; lra). destruct IH as [F' E]; [lra|]. cbn [total]. set (b := total dt a n) in *. apply Rabs_lt_inv in HR.
    destruct (binade_mult b e He ltac:(lra)) as (A & EA). fold u in EA.
    assert (X : Rabs (fR b + fR dt) <= 2475880078570760549798248448) by (apply Rabs_le; lra).
    destruct (fadd_ok b dt F' Fd) as [A1 A2]; [apply (small_fin _ _ X); lra|]. split; [exact A2|]. rewrite A1, EA.
    assert (Y := rnd_binade e A r (fR dt) He). cbv zeta in Y. fold u in Y. rewrite Y; [|lra|lra|exact D0|apply Rabs_def1; lra]. rewrite plus_IZR, Rmult_plus_distr_r, <- EA, E. ring.
Qed.
