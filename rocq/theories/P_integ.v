(** * Integrator: loop count, RK4 *)
From Coq Require Import Reals ZArith List Bool Arith Lra Psatz Lia FunctionalExtensionality.
From Flocq Require Import Core BinarySingleNaN.
From Coquelicot Require Import Coquelicot.
From Verif Require Import Num Flt Vec M_vector M_quaternion M_jday M_frame M_struct M_env M_dyn M_sensor M_integ S_integ P_quat P_sat P_struct.
Import ListNotations.
Local Open Scope R_scope.

(** ** the loop *)
Lemma updates_riter f stream sim dt n w : updates f stream sim dt n w = riter n (update f stream sim dt) w.
Proof. revert w; induction n as [|n IH]; intros w; [reflexivity|]. cbn [updates riter]. destruct (update f stream sim dt w); cbn [rbind]; [apply IH|reflexivity]. Qed.
Fixpoint acc {T} `{Num T} (dt : T) (n : nat) (t : T) : T := match n with O => t | S n => acc dt n (t + dt)%num end.
Lemma loop_runs {T} `{NT : Num T} {W} (step : W -> res W) (dt dur : T) m : forall fuel t w,
  (forall i, (i < m)%nat -> loop_cond dur (acc dt i t) = true) -> loop_cond dur (acc dt m t) = false -> (m < fuel)%nat ->
  int_loop fuel step dt dur t w = Some (riter m step w).
Proof.
  induction m as [|m IH]; intros fuel t w H1 H2 H3; (destruct fuel as [|fuel]; [lia|]); cbn [int_loop riter].
  - cbn [acc] in H2. rewrite H2. reflexivity.
  - assert (H0 : loop_cond dur t = true) by (apply (H1 O); lia). rewrite H0. destruct (step w) as [w'|e]; [|reflexivity].
    apply IH; [|exact H2|lia]. intros i Hi. apply (H1 (S i)). lia.
Qed.
Lemma loop_forever {T} `{NT : Num T} {W} (step : W -> res W) (dt dur : T) : (forall w, exists w', step w = Ok w') ->
  forall fuel t w, (forall i, loop_cond dur (acc dt i t) = true) -> int_loop fuel step dt dur t w = None.
Proof.
  intros HS. induction fuel as [|fuel IH]; intros t w H; cbn [int_loop]; [reflexivity|].
  assert (H0 := H O). cbn [acc] in H0. rewrite H0. destruct (HS w) as [w' ->]. apply IH. intros i. apply (H (S i)).
Qed.
Lemma acc_R dt n : forall t : R, acc dt n t = t + INR n * dt.
Proof. induction n as [|n IH]; intros t; cbn [acc]; [simpl; ring|]. rewrite IH, S_INR. rnumg. ring. Qed.
Lemma cond_R (dur t : R) : loop_cond dur t = true <-> t < dur + 0.001.
Proof.
  unfold loop_cond. rnumg. destruct (Rltb_spec t dur); cbn [orb]; [split; [lra|reflexivity]|].
  rewrite Rltb_true. rewrite Rabs_pos_eq by lra. split; lra.
Qed.
Lemma fits_iff dt dur k : fits dt dur k <-> INR k * dt < dur + 0.001.
Proof. unfold fits. destruct (Rlt_dec (INR k * dt) dur) as [H|H]; [split; [lra|tauto]|]. rewrite Rabs_pos_eq by lra. split; [intros [?|?]; lra|intros; right; lra]. Qed.
Lemma count_exists dt D : 0 < dt -> exists N : nat, forall k : nat, (1 <= k)%nat -> ((k <= N)%nat <-> INR k * dt < D).
Proof.
  intros Hd. exists (Z.to_nat (Zceil (D / dt) - 1)). intros k Hk.
  assert (E : INR k * dt < D <-> INR k < D / dt). { split; intros H. apply (Rmult_lt_reg_r dt); [exact Hd|]. unfold Rdiv. rewrite Rmult_assoc, Rinv_l; lra.
    apply (Rmult_lt_compat_r dt) in H; [|exact Hd]. unfold Rdiv in H. rewrite Rmult_assoc, Rinv_l in H; lra. }
  rewrite E, INR_IZR_INZ. assert (C1 := Zceil_ub (D / dt)). assert (C2 := Zceil_lb (D / dt)). split.
  - intros H. assert (K : (Z.of_nat k <= Zceil (D / dt) - 1)%Z) by lia. apply IZR_le in K. rewrite minus_IZR in K. lra.
  - intros H. assert (K : (Z.of_nat k < Zceil (D / dt))%Z) by (apply lt_IZR; lra). lia.
Qed.

(** ** binary64 loop *)
Lemma fadd_ok (x y : b64) : fin x = true -> fin y = true -> Rabs (rnd (fR x + fR y)) < bpow radix2 1024 ->
  fR (fadd x y) = rnd (fR x + fR y) /\ fin (fadd x y) = true.
Proof.
  intros Fx Fy H. generalize (Bplus_correct 53 1024 b64_prec b64_emax mode_NE x y Fx Fy).
  unfold fR in *. change (round_mode mode_NE) with ZnearestE. rewrite Rlt_bool_true by exact H. intros [H1 [H2 _]]. split; [exact H1|exact H2].
Qed.
Lemma fsub_ok (x y : b64) : fin x = true -> fin y = true -> Rabs (rnd (fR x - fR y)) < bpow radix2 1024 ->
  fR (fsub x y) = rnd (fR x - fR y) /\ fin (fsub x y) = true.
Proof.
  intros Fx Fy H. generalize (Bminus_correct 53 1024 b64_prec b64_emax mode_NE x y Fx Fy).
  unfold fR in *. change (round_mode mode_NE) with ZnearestE. rewrite Rlt_bool_true by exact H. intros [H1 [H2 _]]. split; [exact H1|exact H2].
Qed.
Lemma rnd_err13 x : Rabs x <= 8192 -> Rabs (rnd x - x) <= bpow radix2 (-40).
Proof.
  intros H. apply (Rle_trans _ _ _ (error_le_half_ulp radix2 (SpecFloat.fexp 53 1024) (fun z => negb (Z.even z)) x)).
  assert (U : ulp radix2 (SpecFloat.fexp 53 1024) x <= ulp radix2 (SpecFloat.fexp 53 1024) (bpow radix2 13)).
  { apply ulp_le; [apply fexp_valid|apply fexp_mono|]. rewrite (Rabs_pos_eq (bpow radix2 13)) by apply bpow_ge_0. replace (bpow radix2 13) with 8192 by (simpl; lra). exact H. }
  rewrite ulp_bpow in U. change (SpecFloat.fexp 53 1024 (13 + 1)) with (-39)%Z in U. change (-39)%Z with (-40 + 1)%Z in U. rewrite bpow_plus_1 in U. change (IZR (radix_val radix2)) with 2 in U. lra.
Qed.
Lemma fmt_bpow e : (-1074 <= e)%Z -> fmt (bpow radix2 e).
Proof. intros H. apply generic_format_bpow. rewrite fexp_FLT. unfold FLT_exp. lia. Qed.
Lemma rnd_le_bpow x e : (-1074 <= e)%Z -> Rabs x <= bpow radix2 e -> Rabs (rnd x) <= bpow radix2 e.
Proof. intros He H. apply abs_round_le_generic; [apply fexp_valid|auto with typeclass_instances|apply fmt_bpow, He|exact H]. Qed.
Lemma rnd_ge_bpow x e : (-1074 <= e)%Z -> bpow radix2 e <= Rabs x -> bpow radix2 e <= Rabs (rnd x).
Proof. intros He H. apply abs_round_ge_generic; [apply fexp_valid|auto with typeclass_instances|apply fmt_bpow, He|exact H]. Qed.
Lemma acc_last {T} `{Num T} (dt : T) n : forall t, acc dt (S n) t = (acc dt n t + dt)%num.
Proof. induction n as [|n IH]; intros t; [reflexivity|]. change (acc dt (S (S n)) t) with (acc dt (S n) (t + dt)%num). rewrite IH. reflexivity. Qed.
Definition u40 : R := bpow radix2 (-40).
Lemma u40_eq : u40 = / 1099511627776. Proof. unfold u40. simpl. reflexivity. Qed.
Lemma acc_err (dt : b64) : fin dt = true -> 0 < fR dt -> forall n, INR (S n) * fR dt <= 8000 -> INR n <= 1048576 ->
  fin (acc dt n dt) = true /\ Rabs (fR (acc dt n dt) - INR (S n) * fR dt) <= INR n * u40.
Proof.
  intros F P. induction n as [|n IH]; intros H1 H2.
  - split; [exact F|]. cbn [acc]. rewrite (S_INR 0). simpl (INR 0). replace (fR dt - (0 + 1) * fR dt) with 0 by ring. rewrite Rabs_R0. lra.
  - rewrite acc_last. change (@nadd b64 FNum) with fadd. rewrite (S_INR (S n)) in H1. rewrite (S_INR n) in H2. destruct IH as [F' E]; [lra|lra|].
    assert (N0 := pos_INR n). rewrite u40_eq in E.
    apply Rabs_le_inv in E. assert (B : INR n * / 1099511627776 <= 1) by lra.
    set (x := fR (acc dt n dt)) in *. assert (X : Rabs (x + fR dt) <= 8192) by (apply Rabs_le; rewrite (S_INR n) in *; nra).
    assert (R13 : Rabs (rnd (x + fR dt)) <= bpow radix2 13) by (apply rnd_le_bpow; [lia|]; replace (bpow radix2 13) with 8192 by (simpl; lra); exact X).
    destruct (fadd_ok (acc dt n dt) dt F' F) as [A1 A2]. { apply (Rle_lt_trans _ _ _ R13). apply bpow_lt. lia. }
    split; [exact A2|]. fold x in A1. rewrite A1. assert (D := rnd_err13 _ X). fold u40 in D. rewrite u40_eq in D |- *. apply Rabs_le_inv in D.
    rewrite (S_INR (S n)), (S_INR n). rewrite (S_INR n) in E. apply Rabs_le. split; lra.
Qed.
Lemma dec_milli : fin (fdec 1 1000) = true /\ bpow radix2 (-10) <= fR (fdec 1 1000) <= bpow radix2 (-9).
Proof.
  destruct (fofZ_R 1 ltac:(lia)) as [A1 A2]. destruct (fofZ_R 1000 ltac:(lia)) as [B1 B2].
  assert (U : Rabs (rnd (1 / 1000)) <= bpow radix2 (-9)) by (apply rnd_le_bpow; [lia|]; rewrite Rabs_pos_eq by lra; simpl; lra).
  assert (L : bpow radix2 (-10) <= Rabs (rnd (1 / 1000))) by (apply rnd_ge_bpow; [lia|]; rewrite Rabs_pos_eq by lra; simpl; lra).
  assert (P : 0 <= rnd (1 / 1000)) by (apply round_ge_generic; [apply fexp_valid|auto with typeclass_instances|apply generic_format_0|lra]).
  rewrite (Rabs_pos_eq _ P) in U, L.
  destruct (fdiv_ok (fofZ 1) (fofZ 1000) A2) as [C1 C2]; [rewrite B1; lra|rewrite A1, B1, (Rabs_pos_eq _ P); apply (Rle_lt_trans _ _ _ U), bpow_lt; lia|].
  split; [exact C2|]. unfold fdec. rewrite C1, A1, B1. split; assumption.
Qed.
Lemma cond_near (dur t : b64) : fin dur = true -> fin t = true -> Rabs (fR t - fR dur) <= bpow radix2 (-11) -> loop_cond dur t = true.
Proof.
  intros Fd Ft H. unfold loop_cond. apply orb_true_iff. right. change (@nltb b64 FNum) with fltb. change (@nabs b64 FNum) with fabs. change (@nsub b64 FNum) with fsub. change (@ndec b64 FNum 1%Z 1000%Z) with (fdec 1 1000).
  destruct dec_milli as (M1 & M2 & _). assert (U := rnd_le_bpow _ (-11) ltac:(lia) H).
  destruct (fsub_ok t dur Ft Fd) as [S1 S2]; [apply (Rle_lt_trans _ _ _ U), bpow_lt; lia|].
  rewrite fltb_ok; [|rewrite fabs_fin; exact S2|exact M1]. rewrite fabs_R, S1. apply Rlt_bool_true. apply (Rle_lt_trans _ _ _ U). apply (Rlt_le_trans _ (bpow radix2 (-10))); [apply bpow_lt; lia|exact M2].
Qed.
Lemma cond_below (dur t : b64) : fin dur = true -> fin t = true -> fR t < fR dur -> loop_cond dur t = true.
Proof. intros Fd Ft H. unfold loop_cond. change (@nltb b64 FNum t dur) with (fltb t dur). rewrite (fltb_ok t dur Ft Fd), (Rlt_bool_true _ _ H). reflexivity. Qed.
Lemma cond_far (dur t : b64) : fin dur = true -> fin t = true -> Rabs (fR t - fR dur) <= 8192 -> fR dur + bpow radix2 (-8) <= fR t -> loop_cond dur t = false.
Proof.
  intros Fd Ft B H. unfold loop_cond. change (@nltb b64 FNum) with fltb. change (@nabs b64 FNum) with fabs. change (@nsub b64 FNum) with fsub. change (@ndec b64 FNum 1%Z 1000%Z) with (fdec 1 1000).
  assert (P8 := bpow_gt_0 radix2 (-8)). rewrite (fltb_ok t dur Ft Fd), (Rlt_bool_false (fR t) (fR dur)) by lra. cbn [orb].
  destruct dec_milli as (M1 & _ & M2). assert (L := rnd_ge_bpow (fR t - fR dur) (-8) ltac:(lia) ltac:(rewrite Rabs_pos_eq; lra)).
  destruct (fsub_ok t dur Ft Fd) as [S1 S2]. { apply (Rle_lt_trans _ (bpow radix2 13)); [apply rnd_le_bpow; [lia|]; replace (bpow radix2 13) with 8192 by (simpl; lra); exact B|apply bpow_lt; lia]. }
  rewrite fltb_ok; [|rewrite fabs_fin; exact S2|exact M1]. rewrite fabs_R, S1. apply Rlt_bool_false. apply (Rle_trans _ _ _ M2). apply (Rle_trans _ (bpow radix2 (-8))); [apply bpow_le; lia|exact L].
Qed.
Lemma count_b64 {W} (step : W -> res W) (dt dur : b64) (n : nat) : fin dt = true -> fin dur = true -> 1 / 128 <= fR dt -> (1 <= n)%nat ->
  INR (S n) * fR dt <= 8000 -> Rabs (fR dur - INR n * fR dt) <= 0.0001 ->
  forall fuel w, (n < fuel)%nat -> integrate fuel step dt dur w = Some (riter n step w).
Proof.
  intros Fd Fu H1 Hn H2 H3 fuel w Hf. apply Rabs_le_inv in H3. assert (P := pos_INR n). rewrite S_INR in H2.
  assert (Bn : INR n <= 1048000) by nra.
  assert (B8 : bpow radix2 (-8) = / 256) by (simpl; lra). assert (B11 : bpow radix2 (-11) = / 2048) by (simpl; lra).
  apply loop_runs; [| |exact Hf].
  - intros i Hi. assert (Hi' : INR (S i) <= INR n) by (apply le_INR; lia). assert (Si := S_INR i). assert (P0 := pos_INR i).
    destruct (acc_err dt Fd ltac:(lra) i ltac:(nra) ltac:(lra)) as [F E]. rewrite u40_eq in E. apply Rabs_le_inv in E.
    destruct (Nat.eq_dec (S i) n) as [En|Nn].
    + apply cond_near; [exact Fu|exact F|]. rewrite B11. rewrite En in E. apply Rabs_le. split; lra.
    + assert (Hi2 : INR (S (S i)) <= INR n) by (apply le_INR; lia). rewrite (S_INR (S i)) in Hi2. apply cond_below; [exact Fu|exact F|]. nra.
  - destruct (acc_err dt Fd ltac:(lra) n ltac:(rewrite S_INR; lra) ltac:(lra)) as [F E]. rewrite u40_eq in E. apply Rabs_le_inv in E. rewrite S_INR in E.
    assert (0 <= INR n * fR dt) by (apply Rmult_le_pos; lra). apply cond_far; [exact Fu|exact F| |rewrite B8; lra]. apply Rabs_le. split; lra.
Qed.

(** ** RK4 *)
Definition okadd (a b : vecn) : res vecn := Ok (vadd a b).
Definition vmul (a : vecn) (k : R) : vecn := vscale k a.
Definition vdiv (a : vecn) (k : R) : vecn := fun i => a i / k.
Lemma vdiv_scale a k : vdiv a k = vscale (/ k) a.
Proof. apply functional_extensionality. intros i. unfold vdiv, vscale, Rdiv. ring. Qed.
Lemma rk4_linear L h s : linear L ->
  RK4_step okadd okadd vmul vdiv (fun x => Ok (L x)) h s =
  Ok (fun i => s i + h * L s i + h ^ 2 / 2 * L (L s) i + h ^ 3 / 6 * L (L (L s)) i + h ^ 4 / 24 * L (L (L (L s))) i).
Proof.
  intros [LA LS]. unfold RK4_step, okadd, vmul. cbn [rbind]. rewrite !vdiv_scale. repeat (rewrite ?LA, ?LS).
  f_equal. apply functional_extensionality. intros i. unfold vadd, vscale. field.
Qed.
(** Simpson exactness: x' = p(t) for a cubic p, with t' = 1 *)
Definition okadd2 (a b : R * R) : res (R * R) := Ok (fst a + fst b, snd a + snd b).
Definition mul2 (a : R * R) (k : R) := (fst a * k, snd a * k).
Definition div2 (a : R * R) (k : R) := (fst a / k, snd a / k).
Lemma rk4_cubic c0 c1 c2 c3 h t x :
  RK4_step okadd2 okadd2 mul2 div2 (fun y => Ok (1, c0 + c1 * fst y + c2 * fst y ^ 2 + c3 * fst y ^ 3)) h (t, x) =
  Ok (t + h, x + ((c0 * (t + h) + c1 / 2 * (t + h) ^ 2 + c2 / 3 * (t + h) ^ 3 + c3 / 4 * (t + h) ^ 4)
                  - (c0 * t + c1 / 2 * t ^ 2 + c2 / 3 * t ^ 3 + c3 / 4 * t ^ 4))).
Proof. unfold RK4_step, okadd2, mul2, div2. cbn [rbind fst snd]. f_equal. f_equal; field. Qed.
(** exponential error *)
Lemma exp_derive_n z n t : Derive_n (fun u => exp (z * u)) n t = z ^ n * exp (z * t).
Proof.
  revert t. induction n as [|n IH]; intros t; [simpl; ring|]. cbn [Derive_n]. rewrite (Derive_ext _ _ t IH). apply is_derive_unique. auto_derive; [exact I|]. simpl. ring.
Qed.
Lemma exp_ex_derive_n z n t : ex_derive_n (fun u => exp (z * u)) n t.
Proof.
  destruct n as [|n]; [exact I|]. cbn [ex_derive_n]. apply (ex_derive_ext (fun t => z ^ n * exp (z * t))); [intros u; symmetry; apply exp_derive_n|]. auto_derive. exact I.
Qed.
Lemma exp_taylor4 z : Rabs (exp z - (1 + z + z ^ 2 / 2 + z ^ 3 / 6 + z ^ 4 / 24)) <= Rabs z ^ 5 * exp (Rabs z) / 120.
Proof.
  destruct (Taylor_Lagrange (fun u => exp (z * u)) 4 0 1 ltac:(lra)) as (c & Hc & E); [intros; apply exp_ex_derive_n|].
  cbn [sum_f_R0] in E. rewrite !exp_derive_n in E. rewrite !Rmult_0_r, exp_0, Rmult_1_r in E.
  assert (E2 : exp z - (1 + z + z ^ 2 / 2 + z ^ 3 / 6 + z ^ 4 / 24) = z ^ 5 * exp (z * c) / 120).
  { rewrite E. unfold fact. simpl (INR _). field. }
  rewrite E2. unfold Rdiv. rewrite !Rabs_mult, (Rabs_pos_eq (/ 120)) by lra. apply Rmult_le_compat_r; [lra|]. rewrite <- RPow_abs. apply Rmult_le_compat_l; [apply pow_le, Rabs_pos|].
  rewrite (Rabs_pos_eq (exp (z * c))) by (left; apply exp_pos).
  assert (K : z * c <= Rabs z) by (assert (A := Rle_abs z); assert (B := Rabs_pos z); nra).
  destruct K as [K|K]; [left; apply exp_increasing, K|rewrite K; lra].
Qed.
Lemma rk4_mode l h x : RK4_step (fun a b => Ok (a + b)) (fun a b => Ok (a + b)) Rmult Rdiv (fun x => Ok (l * x)) h x =
  Ok ((1 + (l * h) + (l * h) ^ 2 / 2 + (l * h) ^ 3 / 6 + (l * h) ^ 4 / 24) * x).
Proof. unfold RK4_step. cbn [rbind]. f_equal. field. Qed.
