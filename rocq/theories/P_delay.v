(** * Lemmas: the fourth-order Pade approximation of a delay on the imaginary axis *)
From Coq Require Import Reals List Lra Psatz Lia.
From Coquelicot Require Import Coquelicot.
Local Open Scope R_scope.

(** 1680 times the real and imaginary part of the denominator at j x (unit delay) *)
Definition pa (x : R) : R := 1680 - 180 * x ^ 2 + x ^ 4.
Definition pb (x : R) : R := 840 * x - 20 * x ^ 3.
Definition pm (x : R) : R := x ^ 8 + 40 * x ^ 6 + 2160 * x ^ 4 + 100800 * x ^ 2 + 2822400.
Lemma pm_eq x : pa x * pa x + pb x * pb x = pm x. Proof. unfold pa, pb, pm. ring. Qed.
Lemma even_pos x n : 0 <= x ^ (2 * n). Proof. rewrite pow_mult. apply pow_le. nra. Qed.
Lemma pm_ge x : 2822400 <= pm x /\ x ^ 8 < pm x.
Proof. assert (A := even_pos x 4). assert (B := even_pos x 3). assert (C := even_pos x 2). assert (D := even_pos x 1). cbn [Nat.mul Nat.add] in *. unfold pm. lra. Qed.
Definition rate (x : R) : R := 1 - x ^ 8 / pm x.
Lemma rate_range x : 0 < rate x <= 1.
Proof.
  assert (P := pm_ge x). assert (E := even_pos x 4). cbn [Nat.mul Nat.add] in E. assert (I : 0 < / pm x) by (apply Rinv_0_lt_compat; lra). unfold rate, Rdiv. split.
  - assert (x ^ 8 * / pm x < pm x * / pm x) by (apply Rmult_lt_compat_r; lra). rewrite Rinv_r in * by lra. lra.
  - assert (0 <= x ^ 8 * / pm x) by (apply Rmult_le_pos; lra). lra.
Qed.
Lemma rate_cont x : continuous rate x.
Proof. apply (ex_derive_continuous rate). unfold rate, pm. auto_derive. assert (P := pm_ge x). unfold pm in P. lra. Qed.
(** the phase lag *)
Definition lag (x : R) : R := RInt rate 0 x.
Lemma lag_0 : lag 0 = 0. Proof. unfold lag. exact (RInt_point 0 rate). Qed.
Lemma lag_is x : is_derive lag x (rate x).
Proof. apply (is_derive_RInt rate lag 0 x); [|apply rate_cont]. exists (mkposreal 1 Rlt_0_1). intros y _. unfold lag. apply (RInt_correct rate 0 y), (ex_RInt_continuous rate 0 y). intros z _. apply rate_cont. Qed.
Lemma lag_deriv x : derivable_pt_lim lag x (rate x). Proof. apply is_derive_Reals, lag_is. Qed.
Lemma mono (f f' : R -> R) : (forall x, is_derive f x (f' x)) -> (forall x, 0 <= x -> 0 <= f' x) -> forall x y, 0 <= x -> x <= y -> f x <= f y.
Proof.
  intros D P x y X XY. destruct (Req_dec x y) as [->|N]; [lra|]. destruct (MVT_cor2 f f' x y ltac:(lra)) as (c & E & C); [intros; apply is_derive_Reals, D|]. assert (0 <= f' c * (y - x)) by (apply Rmult_le_pos; [apply P; lra|lra]). lra.
Qed.
Lemma lag_bounds x : 0 <= x -> x - x ^ 9 / 25401600 <= lag x <= x.
Proof.
  intros X. split.
  - assert (M := mono (fun x => lag x - (x - x ^ 9 / 25401600)) (fun x => rate x - (1 - 9 * x ^ 8 / 25401600))). assert (G := M). specialize (G ltac:(intros y; apply (is_derive_minus lag (fun x => x - x ^ 9 / 25401600) y); [apply lag_is|auto_derive; [trivial|]; change (9%nat) with 9%nat; cbn [INR]; field])).
    assert (K : lag 0 - (0 - 0 ^ 9 / 25401600) <= lag x - (x - x ^ 9 / 25401600)). { apply (G); [|lra|exact X]. intros y Y. assert (P := pm_ge y). assert (E := even_pos y 4). cbn [Nat.mul Nat.add] in E. unfold rate. assert (y ^ 8 / pm y <= y ^ 8 / 2822400) by (unfold Rdiv; apply Rmult_le_compat_l; [exact E|apply Rinv_le_contravar; lra]). lra. }
    rewrite lag_0 in K. replace (0 ^ 9) with 0 in K by ring. lra.
  - assert (K : 0 - lag 0 <= x - lag x). { apply (mono (fun x => x - lag x) (fun x => 1 - rate x)); [intros y; apply (is_derive_minus (fun x => x) lag y); [apply (is_derive_id y)|apply lag_is]|intros y _; destruct (rate_range y); lra|lra|exact X]. }
    rewrite lag_0 in K. lra.
Qed.
Lemma lag_incr x y : x < y -> lag x < lag y.
Proof. intros XY. destruct (MVT_cor2 lag rate x y XY) as (c & E & C); [intros; apply lag_deriv|]. assert (0 < rate c * (y - x)) by (apply Rmult_lt_0_compat; [apply rate_range|lra]). lra. Qed.
(** the response is a pure rotation by the lag *)
Lemma lag_angle x : cos (lag x) * pm x = pa x * pa x - pb x * pb x /\ sin (lag x) * pm x = 2 * pa x * pb x.
Proof.
  set (c := fun x => (pa x * pa x - pb x * pb x) / pm x). set (s := fun x => 2 * pa x * pb x / pm x).
  assert (CS : forall x, c x * c x + s x * s x = 1). { intros y. assert (P := pm_ge y). unfold c, s. rewrite <- pm_eq in *. field. lra. }
  assert (Dc : forall y, is_derive c y (- (rate y * s y))).
  { intros y. assert (P := pm_ge y). unfold c, s, rate. unfold pa, pb, pm in *. auto_derive; [lra|]. field. lra. }
  assert (Ds : forall y, is_derive s y (rate y * c y)).
  { intros y. assert (P := pm_ge y). unfold c, s, rate. unfold pa, pb, pm in *. auto_derive; [lra|]. field. lra. }
  set (u := fun y => cos (lag y) * c y + sin (lag y) * s y).
  assert (Du : forall y, is_derive u y 0).
  { intros y. unfold u. evar_last. apply (is_derive_plus (fun y => cos (lag y) * c y) (fun y => sin (lag y) * s y)).
    - apply (is_derive_mult (fun y => cos (lag y)) c y); [apply (is_derive_comp cos lag y); [apply is_derive_cos|apply lag_is]|apply Dc|intros; apply Rmult_comm].
    - apply (is_derive_mult (fun y => sin (lag y)) s y); [apply (is_derive_comp sin lag y); [apply is_derive_sin|apply lag_is]|apply Ds|intros; apply Rmult_comm].
    - unfold plus, mult, scal, opp; cbn. unfold mult; cbn. ring. }
  assert (U0 : u 0 = 1). { unfold u, c, s. rewrite lag_0, cos_0, sin_0. unfold pa, pb, pm. field. }
  assert (U1 : u x = 1). { rewrite <- U0. destruct (Rtotal_order x 0) as [L|[->|L]]; [|reflexivity|].
    - destruct (MVT_cor2 u (fun _ => 0) x 0 L) as (z & E & _); [intros; apply is_derive_Reals, Du|]. lra.
    - destruct (MVT_cor2 u (fun _ => 0) 0 x L) as (z & E & _); [intros; apply is_derive_Reals, Du|]. lra. }
  assert (T := sin2_cos2 (lag x)). unfold Rsqr in T. specialize (CS x). unfold u in U1. set (p := cos (lag x)) in *. set (q := sin (lag x)) in *.
  assert (Z : (p - c x) * (p - c x) + (q - s x) * (q - s x) = 0) by lra. assert (A := Rle_0_sqr (p - c x)). assert (B := Rle_0_sqr (q - s x)). assert (p - c x = 0) by (apply Rsqr_0_uniq; unfold Rsqr in *; lra). assert (q - s x = 0) by (apply Rsqr_0_uniq; unfold Rsqr in *; lra). assert (EP : c x = p) by lra. assert (EQ : s x = q) by lra. assert (P := pm_ge x).
  split; [rewrite <- EP|rewrite <- EQ]; unfold c, s; field; lra.
Qed.
