(** * Lemmas for the manager *)
From Coq Require Import Reals ZArith List Bool Lia Lra Psatz.
From Verif Require Import Num Vec Mat6 M_vector M_quaternion M_struct M_dyn M_integ M_obs M_ctrl M_fsm M_mgr P_struct P_integ.
Import ListNotations.
Local Open Scope R_scope.

Lemma list4_eq {A} (a b c d a' b' c' d' : A) : a = a' -> b = b' -> c = c' -> d = d' -> [a; b; c; d] = [a'; b'; c'; d'].
Proof. intros -> -> -> ->. reflexivity. Qed.
(** the component of four wheel speeds along the null direction, written out *)
Definition along (a b c d : R) : R := (- a + b - c + d) / 2.
Lemma np_dot4 a b c d : np_dot [a; b; c; d] null_dir = Ok (along a b c d).
Proof. unfold np_dot, null_dir, along. cbn. f_equal. lra. Qed.
Lemma norml4 a b c d : norml [a; b; c; d] = sqrt (a * a + b * b + c * c + d * d).
Proof. unfold norml. cbn [fold_left]. rnum. rewrite Rplus_0_l. reflexivity. Qed.
Lemma norml_null k : norml (map (fun n => - k * n) null_dir) = Rabs k.
Proof.
  unfold null_dir. cbn [map]. rewrite norml4. rewrite <- (sqrt_Rsqr_abs k). f_equal. unfold Rsqr. lra.
Qed.
Lemma norml_scale4 k a b c d : norml [k * a; k * b; k * c; k * d] = Rabs k * norml [a; b; c; d].
Proof.
  rewrite !norml4. rewrite <- (sqrt_Rsqr_abs k), <- sqrt_mult_alt by apply Rle_0_sqr. f_equal. unfold Rsqr. ring.
Qed.
Lemma norml4_pos a b c d : 0 <= norml [a; b; c; d]. Proof. rewrite norml4. apply sqrt_pos. Qed.
Lemma MULT_range : 0 < MULT < 2.
Proof.
  unfold MULT, K_BBQ. assert (P := PI_RGT_0). assert (Q := PI_4). split.
  - apply Rmult_lt_0_compat; [|lra]. apply Rmult_lt_0_compat; [|lra]. apply Rmult_lt_0_compat; lra.
  - replace (1.72192143 * 4 * PI / 5560.8 * 250) with (PI * (1.72192143 * 4 / 5560.8 * 250)) by lra. assert (1.72192143 * 4 / 5560.8 * 250 < 0.4) by lra. assert (0 < 1.72192143 * 4 / 5560.8 * 250) by lra. nra.
Qed.
Lemma spindown_cases a b c d : let k := along a b c d in
  (0.00001 <= Rabs k -> spindown_cmd [a; b; c; d] = Ok [k / 2; - k / 2; k / 2; - k / 2]) /\
  (Rabs k < 0.00001 -> norml [a; b; c; d] < 0.01 -> spindown_cmd [a; b; c; d] = Ok [0; 0; 0; 0]) /\
  (Rabs k < 0.00001 -> 0.01 <= norml [a; b; c; d] -> spindown_cmd [a; b; c; d] = Ok [- a * MULT; - b * MULT; - c * MULT; - d * MULT]).
Proof.
  intros k. unfold spindown_cmd. rewrite np_dot4. cbn [rbind]. fold k. rewrite norml_null. split; [|split].
  - intros H. destruct (Rltb_spec (Rabs k) 0.00001); [lra|]. unfold null_dir. cbn [map]. f_equal. apply list4_eq; lra.
  - intros H1 H2. destruct (Rltb_spec (Rabs k) 0.00001); [|lra]. destruct (Rltb_spec (norml [a; b; c; d]) 0.01); [|lra]. reflexivity.
  - intros H1 H2. destruct (Rltb_spec (Rabs k) 0.00001); [|lra]. destruct (Rltb_spec (norml [a; b; c; d]) 0.01); [lra|]. reflexivity.
Qed.
(** sample-and-hold: the wheels turn with the commanded acceleration for [h] seconds, then the next command is taken *)
Definition whl_hold (h : R) (w : list R) : list R := match spindown_cmd w with Ok a => zip_with (fun x y => x + h * y) w a | Raise _ => w end.
Lemma spin_shape h a b c d : exists a' b' c' d', whl_hold h [a; b; c; d] = [a'; b'; c'; d'].
Proof.
  destruct (spindown_cases a b c d) as (C1 & C2 & C3). unfold whl_hold. destruct (Rle_lt_dec 0.00001 (Rabs (along a b c d))) as [H|H].
  - rewrite C1 by exact H. cbn. eauto.
  - destruct (Rle_lt_dec 0.01 (norml [a; b; c; d])); [rewrite C3 by assumption|rewrite C2 by assumption]; cbn; eauto.
Qed.
Lemma pow_small r x e : 0 <= r < 1 -> 0 < e -> exists n, r ^ n * Rabs x < e.
Proof.
  intros Hr He. destruct (pow_lt_1_zero r ltac:(rewrite Rabs_pos_eq; lra) (e / (Rabs x + 1)) ltac:(apply Rdiv_lt_0_compat; [lra|assert (P := Rabs_pos x); lra])) as [N HN].
  exists N. specialize (HN N (le_n N)). rewrite Rabs_pos_eq in HN by (apply pow_le; lra). assert (P := Rabs_pos x).
  apply (Rmult_lt_compat_r (Rabs x + 1)) in HN; [|lra]. unfold Rdiv in HN. rewrite Rmult_assoc, Rinv_l, Rmult_1_r in HN by lra.
  assert (0 <= r ^ N) by (apply pow_le; lra). nra.
Qed.
Lemma abs_shrink h x : 0 < h <= 1 -> Rabs ((1 - h) * x) = (1 - h) * Rabs x.
Proof. intros H. rewrite Rabs_mult, (Rabs_pos_eq (1 - h)) by lra. reflexivity. Qed.
Definition ratio (h : R) : R := Rabs (1 - h * MULT).
Lemma ratio_range h : 0 < h <= 1 -> 0 <= ratio h < 1.
Proof. intros H. assert (M := MULT_range). unfold ratio. split; [apply Rabs_pos|]. apply Rabs_def1; nra. Qed.
(** one step *)
Lemma spin_cases h a b c d : let k := along a b c d in
  (0.00001 <= Rabs k -> whl_hold h [a; b; c; d] = [a + h * (k / 2); b - h * (k / 2); c + h * (k / 2); d - h * (k / 2)]) /\
  (Rabs k < 0.00001 -> norml [a; b; c; d] < 0.01 -> whl_hold h [a; b; c; d] = [a; b; c; d]) /\
  (Rabs k < 0.00001 -> 0.01 <= norml [a; b; c; d] -> whl_hold h [a; b; c; d] = [(1 - h * MULT) * a; (1 - h * MULT) * b; (1 - h * MULT) * c; (1 - h * MULT) * d]).
Proof.
  intros k. destruct (spindown_cases a b c d) as (C1 & C2 & C3). fold k in C1, C2, C3. unfold whl_hold. split; [|split].
  - intros H. rewrite C1 by exact H. cbn [zip_with]. apply list4_eq; lra.
  - intros H1 H2. rewrite C2 by assumption. cbn [zip_with]. apply list4_eq; lra.
  - intros H1 H2. rewrite C3 by assumption. cbn [zip_with]. apply list4_eq; ring.
Qed.
Definition alongl (w : list R) : R := match w with [a; b; c; d] => along a b c d | _ => 0 end.
Lemma spin_phase1 h w : length w = 4%nat -> 0.00001 <= Rabs (alongl w) -> length (whl_hold h w) = 4%nat /\ alongl (whl_hold h w) = (1 - h) * alongl w.
Proof.
  intros L H. destruct w as [|a [|b [|c [|d [|? ?]]]]]; try discriminate. cbn [alongl] in *. destruct (spin_cases h a b c d) as (C1 & _). rewrite C1 by exact H. split; [reflexivity|]. cbn [alongl]. unfold along. lra.
Qed.
Lemma spin_phase2 h w : 0 < h <= 1 -> length w = 4%nat -> Rabs (alongl w) < 0.00001 ->
  length (whl_hold h w) = 4%nat /\ Rabs (alongl (whl_hold h w)) < 0.00001 /\ (norml w < 0.01 -> whl_hold h w = w) /\ (0.01 <= norml w -> norml (whl_hold h w) = ratio h * norml w).
Proof.
  intros Hh L H. destruct w as [|a [|b [|c [|d [|? ?]]]]]; try discriminate. cbn [alongl] in H. destruct (spin_cases h a b c d) as (_ & C2 & C3).
  destruct (Rle_lt_dec 0.01 (norml [a; b; c; d])) as [N|N].
  - rewrite C3 by assumption. split; [reflexivity|]. split; [|split; [lra|intros _; apply norml_scale4]]. cbn [alongl].
    replace (along _ _ _ _) with ((1 - h * MULT) * along a b c d) by (unfold along; lra). rewrite Rabs_mult. fold (ratio h). assert (R := ratio_range h Hh). assert (P := Rabs_pos (along a b c d)). nra.
  - rewrite C2 by assumption. split; [reflexivity|]. split; [exact H|]. split; [reflexivity|lra].
Qed.
Lemma iter_S {A} n (f : A -> A) x : Nat.iter (S n) f x = Nat.iter n f (f x).
Proof. induction n as [|n IH]; [reflexivity|]. cbn [Nat.iter nat_rect] in *. cbn. f_equal. exact IH. Qed.
Lemma phase1_ends h w : 0 < h <= 1 -> length w = 4%nat -> exists n, length (Nat.iter n (whl_hold h) w) = 4%nat /\ Rabs (alongl (Nat.iter n (whl_hold h) w)) < 0.00001.
Proof.
  intros Hh L. destruct (pow_small (1 - h) (alongl w) 0.00001 ltac:(lra) ltac:(lra)) as [N HN].
  revert w L HN. induction N as [|N IH]; intros w L HN.
  - exists 0%nat. cbn in *. split; [exact L|lra].
  - destruct (Rlt_le_dec (Rabs (alongl w)) 0.00001) as [Sm|Sm]; [exists 0%nat; split; assumption|]. destruct (spin_phase1 h w L Sm) as [L1 E].
    destruct (IH (whl_hold h w) L1) as (n & A & B). { rewrite E, abs_shrink by exact Hh. cbn [pow] in HN. lra. }
    exists (S n). rewrite iter_S. auto.
Qed.
Lemma phase2_ends h w : 0 < h <= 1 -> length w = 4%nat -> Rabs (alongl w) < 0.00001 -> exists n, length (Nat.iter n (whl_hold h) w) = 4%nat /\ Rabs (alongl (Nat.iter n (whl_hold h) w)) < 0.00001 /\ norml (Nat.iter n (whl_hold h) w) < 0.01.
Proof.
  intros Hh L K. destruct (pow_small (ratio h) (norml w) 0.01 (ratio_range h Hh) ltac:(lra)) as [N HN].
  revert w L K HN. induction N as [|N IH]; intros w L K HN.
  - exists 0%nat. cbn in *. split; [exact L|]. split; [exact K|]. apply Rle_lt_trans with (Rabs (norml w)); [apply Rle_abs|]. rewrite Rmult_1_l in HN. exact HN.
  - destruct (Rlt_le_dec (norml w) 0.01) as [Sm|Sm]; [exists 0%nat; auto|]. destruct (spin_phase2 h w Hh L K) as (L1 & K1 & _ & E). specialize (E Sm).
    destruct (IH (whl_hold h w) L1 K1) as (n & A & B & C). { rewrite E, Rabs_mult, (Rabs_pos_eq (ratio h)) by apply ratio_range, Hh. cbn [pow] in HN. lra. }
    exists (S n). rewrite iter_S. auto.
Qed.
Lemma iter_add {A} n m (f : A -> A) x : Nat.iter (n + m) f x = Nat.iter n f (Nat.iter m f x).
Proof. induction n as [|n IH]; [reflexivity|]. cbn. f_equal. exact IH. Qed.
Lemma spin_settles h w : 0 < h <= 1 -> length w = 4%nat -> exists N, forall n, (N <= n)%nat -> let v := Nat.iter n (whl_hold h) w in
  length v = 4%nat /\ Rabs (alongl v) < 0.00001 /\ norml v < 0.01 /\ v = Nat.iter N (whl_hold h) w.
Proof.
  intros Hh L. destruct (phase1_ends h w Hh L) as (n1 & L1 & K1). destruct (phase2_ends h _ Hh L1 K1) as (n2 & L2 & K2 & M2).
  rewrite <- iter_add in L2, K2, M2. exists (n2 + n1)%nat. intros n Hn v.
  assert (E : v = Nat.iter (n2 + n1) (whl_hold h) w).
  { unfold v. replace n with ((n - (n2 + n1)) + (n2 + n1))%nat by lia. rewrite iter_add. generalize (n - (n2 + n1))%nat. intros k. induction k as [|k IH]; [reflexivity|].
    cbn [Nat.iter nat_rect]. change (whl_hold h (Nat.iter k (whl_hold h) (Nat.iter (n2 + n1) (whl_hold h) w)) = Nat.iter (n2 + n1) (whl_hold h) w). rewrite IH. apply (spin_phase2 h _ Hh L2 K2), M2. }
  rewrite E. auto.
Qed.
