(** * C87: normalize in the arithmetic the code runs on *)
From Coq Require Import Reals ZArith List Bool Lra Psatz Lia.
From Flocq Require Import Core BinarySingleNaN.
From Verif Require Import Num Flt Vec M_vector P_sat P_integ P_struct P_normf.
Import ListNotations.
Local Open Scope R_scope.

(** ** The specification.  [x] is an array of finite binary64 numbers and N the exact norm of the reals they denote;
    [y] is what normalize returns.  With u = 2^-53: every component of y is finite and equal to x_i / N up to
    (n + 7)/2 units u in relative terms (plus half the smallest subnormal), and the exact norm of y squared is 1 up to
    (n + 8) u. *)
Definition norm_exact (x : list b64) : R := sqrt (sumsq (map fR x)).
Definition unit_to (x y : list b64) : Prop :=
  Forall2 (fun a b => fin b = true /\
     Rabs (fR b - fR a / norm_exact x) <= (INR (length x) + 7) / 2 * / 2 ^ 53 * Rabs (fR a / norm_exact x) + bpow radix2 (-1075)) x y /\
  Rabs (sumsq (map fR y) - 1) <= (INR (length x) + 8) * / 2 ^ 53.
(** arrays for which nothing overflows or underflows: up to 100 finite components, norm between 2^-450 and 2^500 *)
Definition normal_range (x : list b64) : Prop :=
  (length x <= 100)%nat /\ Forall (fun a => fin a = true) x /\ bpow radix2 (-900) <= sumsq (map fR x) <= bpow radix2 1000.

Lemma ulp1_pow : ulp1 = / 2 ^ 53. Proof. unfold ulp1. f_equal. cbn. lra. Qed.
Lemma unit_to_any x s : normal_range x -> fin s = true ->
  Rabs (fR s - sumsq (map fR x)) <= (INR (length x) + 2) * / 2 ^ 53 * sumsq (map fR x) ->
  feqb (fsqrt s) (fofZ 0) = false /\ unit_to x (map (fun a => fdiv a (fsqrt s)) x).
Proof.
  intros (Hn & HF & HB) Fs HS. unfold unit_to. rewrite <- ulp1_pow in *. destruct (normalize_any x s Hn HF HB Fs HS) as (A & B & C).
  split; [exact A|]. split; [exact B|exact C].
Qed.

(** ** The model's normalize, arrays of any length up to 100 *)
Theorem C87_normalize : forall x : list b64, normal_range x -> unit_to x (normalize x).
Proof.
  intros x HR. pose proof HR as (Hn & HF & HB). pose proof (bpow_gt_0 radix2 (-900)) as BP.
  pose proof (sumB_fold x 0 0 (fofZ 0) ltac:(cbn; lia) ltac:(lra) sumB_0 HF ltac:(rewrite Rplus_0_l; lra)) as K.
  rewrite Rplus_0_l, Nat.add_0_l in K. pose proof (sumB_rel _ _ _ Hn (proj1 HB) K) as E. rewrite ulp1_pow in E.
  destruct (unit_to_any x _ HR (proj1 K) E) as [Z G]. unfold normalize, norml. cbn zeta. cbn [neqb nsqrt nadd nmul ndiv n0 FNum]. rewrite Z. exact G.
Qed.
Print Assumptions C87_normalize.
(** ... the same for numpy's own order of summation: whatever finite number [s] the sum of squares comes out as, if it is
    within n + 2 units of the exact sum, the normalised array is as accurate. *)
Theorem C87_any_order : forall (x : list b64) (s : b64), normal_range x -> fin s = true ->
  Rabs (fR s - sumsq (map fR x)) <= (INR (length x) + 2) * / 2 ^ 53 * sumsq (map fR x) ->
  feqb (fsqrt s) (fofZ 0) = false /\ unit_to x (map (fun a => fdiv a (fsqrt s)) x).
Proof. exact unit_to_any. Qed.
Print Assumptions C87_any_order.

(** ** Quaternions and 3-vectors, as the attitude updates and pointing code call it *)
Definition lq (q : Q4 b64) : list b64 := [qw q; qx q; qy q; qz q].
Definition lv (v : V3 b64) : list b64 := [x3 v; y3 v; z3 v].
Theorem C87_normalize_quaternion : forall q : Q4 b64, normal_range (lq q) -> unit_to (lq q) (lq (normalizeq q)).
Proof.
  intros q HR. pose proof HR as (Hn & HF & HB). destruct q as [a b c d]. unfold lq in *. cbn [qw qx qy qz] in *. pose proof (bpow_gt_0 radix2 (-900)) as BP.
  inversion HF as [|? ? Fa HF']; subst.
  assert (SB : fR a * fR a + sumsq (map fR [b; c; d]) = sumsq (map fR [a; b; c; d])) by reflexivity.
  pose proof (sumsq_nonneg (map fR [b; c; d])) as NN.
  pose proof (sumB_fold [b; c; d] 1 (fR a * fR a) (fmul a a) ltac:(cbn; lia) ltac:(nra) (sumB_1 a Fa ltac:(lra)) HF' ltac:(lra)) as K.
  rewrite SB in K. change (1 + length [b; c; d])%nat with (length [a; b; c; d]) in K. pose proof (sumB_rel _ _ _ Hn (proj1 HB) K) as E. rewrite ulp1_pow in E.
  destruct (unit_to_any _ _ HR (proj1 K) E) as [Z G]. unfold normalizeq, normq, dotq. cbn zeta. cbn [neqb nsqrt nadd nmul ndiv n0 FNum qw qx qy qz].
  cbn [fold_left] in Z, G. rewrite Z. exact G.
Qed.
Print Assumptions C87_normalize_quaternion.
Theorem C87_normalize_vector : forall v : V3 b64, normal_range (lv v) -> unit_to (lv v) (lv (normalize3 v)).
Proof.
  intros v HR. pose proof HR as (Hn & HF & HB). destruct v as [a b c]. unfold lv in *. cbn [x3 y3 z3] in *. pose proof (bpow_gt_0 radix2 (-900)) as BP.
  inversion HF as [|? ? Fa HF']; subst.
  assert (SB : fR a * fR a + sumsq (map fR [b; c]) = sumsq (map fR [a; b; c])) by reflexivity.
  pose proof (sumsq_nonneg (map fR [b; c])) as NN.
  pose proof (sumB_fold [b; c] 1 (fR a * fR a) (fmul a a) ltac:(cbn; lia) ltac:(nra) (sumB_1 a Fa ltac:(lra)) HF' ltac:(lra)) as K.
  rewrite SB in K. change (1 + length [b; c])%nat with (length [a; b; c]) in K. pose proof (sumB_rel _ _ _ Hn (proj1 HB) K) as E. rewrite ulp1_pow in E.
  destruct (unit_to_any _ _ HR (proj1 K) E) as [Z G]. unfold normalize3, norm3, dot3. cbn zeta. cbn [neqb nsqrt nadd nmul ndiv n0 FNum x3 y3 z3].
  cbn [fold_left] in Z, G. rewrite Z. exact G.
Qed.
Print Assumptions C87_normalize_vector.

(** ** Outside that range the claim fails: a quaternion of norm 2^600 becomes the zero quaternion (the norm overflows), one
    of norm 2^-600 is returned as it is (the norm underflows to 0). *)
Definition two (e : Z) : b64 := binary_normalize 53 1024 b64_prec b64_emax mode_NE 1 e false.
Lemma fR_pos (x : b64) : match x with B754_finite false _ _ _ => true | _ => false end = true -> 0 < fR x.
Proof. destruct x as [sg|sg| |[|] m e b]; try discriminate. intros _. unfold fR, B2R. apply F2R_gt_0. reflexivity. Qed.
Theorem C87_range_refuted :
  ~ (forall q : Q4 b64, Forall (fun a => fin a = true) (lq q) -> sumsq (map fR (lq q)) <> 0 -> unit_to (lq q) (lq (normalizeq q))) /\
  lq (normalizeq (mkq (two 600) (fofZ 0) (fofZ 0) (fofZ 0))) = [fofZ 0; fofZ 0; fofZ 0; fofZ 0] /\
  normalizeq (mkq (two (-600)) (fofZ 0) (fofZ 0) (fofZ 0)) = mkq (two (-600)) (fofZ 0) (fofZ 0) (fofZ 0).
Proof.
  assert (E : lq (normalizeq (mkq (two 600) (fofZ 0) (fofZ 0) (fofZ 0))) = [fofZ 0; fofZ 0; fofZ 0; fofZ 0]) by (vm_compute; reflexivity).
  split; [|split; [exact E|]].
  2:{ unfold normalizeq. cbn zeta. replace (normq (mkq (two (-600)) (fofZ 0) (fofZ 0) (fofZ 0)) =? n0)%num with true by (vm_compute; reflexivity). reflexivity. }
  intros H. specialize (H (mkq (two 600) (fofZ 0) (fofZ 0) (fofZ 0))).
  rewrite E in H. destruct H as [_ H].
  - repeat constructor.
  - assert (P : 0 < fR (two 600)) by (apply fR_pos; vm_compute; reflexivity). cbn [lq qw qx qy qz map sumsq fold_right]. change (fR (fofZ 0)) with 0. nra.
  - cbn [lq qw qx qy qz map sumsq fold_right length] in H. change (fR (fofZ 0)) with 0 in H. rewrite <- ulp1_pow in H. pose proof ulp1_rng. apply Rabs_le_inv in H.
    replace (INR 4) with 4 in H by (rewrite INR_IZR_INZ; reflexivity). nra.
Qed.
Print Assumptions C87_range_refuted.

(** ** The hypotheses hold for the quaternion (1, 2, 3, 4) *)
Example C87_ex : normal_range (lq (mkq (fofZ 1) (fofZ 2) (fofZ 3) (fofZ 4))).
Proof.
  split; [cbn; lia|]. split; [repeat constructor|].
  replace (sumsq (map fR (lq (mkq (fofZ 1) (fofZ 2) (fofZ 3) (fofZ 4))))) with 30.
  - split; [apply Rle_trans with (bpow radix2 0); [apply bpow_le; lia|cbn; lra]|apply Rle_trans with (bpow radix2 5); [cbn; lra|apply bpow_le; lia]].
  - cbn [lq qw qx qy qz map sumsq fold_right]. rewrite !(fun z H => proj1 (fofZ_R z H)) by lia. lra.
Qed.
