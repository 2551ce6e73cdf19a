(** * Lemmas: the damped pendulum e' = - p, p' = - k sin (e / 2) - c p, started at rest *)
From Coq Require Import Reals Lra Psatz.
From Coquelicot Require Import Coquelicot.
Local Open Scope R_scope.

Lemma decreasing_from (f df : R -> R) a : (forall t, a <= t -> is_derive f t (df t)) -> (forall t, a <= t -> df t <= 0) -> forall t, a <= t -> f t <= f a.
Proof.
  intros D N t Ht. destruct (Req_dec t a) as [->|Ne]; [lra|].
  destruct (MVT_gen f a t df) as (c & Hc & E).
  - intros x Hx. rewrite Rmin_left, Rmax_right in Hx by lra. apply D. lra.
  - intros x Hx. rewrite Rmin_left, Rmax_right in Hx by lra. apply continuity_pt_filterlim. apply (ex_derive_continuous f). exists (df x). apply D. lra.
  - rewrite Rmin_left, Rmax_right in Hc by lra. assert (H := N c ltac:(lra)). assert (df c * (t - a) <= 0) by nra. lra.
Qed.

Section SLEW.
Variables (e p : R -> R) (k c : R).
Hypothesis (Hk : 0 < k) (Hc : 0 < c).
Hypothesis (De : forall t, is_derive e t (- p t)).
Hypothesis (Dp : forall t, is_derive p t (- k * sin (e t / 2) - c * p t)).
Hypothesis (P0 : p 0 = 0).
Hypothesis (E0 : 0 < e 0 < 2 * PI).

Lemma sl_energy t : 0 <= t -> 1 / 2 * p t ^ 2 + 2 * k * cos (e t / 2) <= 2 * k * cos (e 0 / 2).
Proof.
  intros Ht. assert (H := decreasing_from (fun t => 1 / 2 * p t ^ 2 + 2 * k * cos (e t / 2)) (fun t => - c * p t ^ 2) 0).
  assert (X : 1 / 2 * p t ^ 2 + 2 * k * cos (e t / 2) <= 1 / 2 * p 0 ^ 2 + 2 * k * cos (e 0 / 2)).
  { apply H; [|intros; assert (Q := pow2_ge_0 (p t0)); nra|exact Ht]. intros s _. assert (D1 := De s). assert (D2 := Dp s). assert (U1 : Derive (fun x : R => e x) s = - p s) by (apply is_derive_unique; exact D1). assert (U2 : Derive (fun x : R => p x) s = - k * sin (e s / 2) - c * p s) by (apply is_derive_unique; exact D2).
    auto_derive; [repeat split; [eexists; exact D2|eexists; exact D1]|]. rewrite U1, U2. unfold Rdiv. field. }
  rewrite P0 in X. lra.
Qed.
Lemma sl_cos t : 0 <= t -> cos (e t / 2) <= cos (e 0 / 2).
Proof. intros Ht. assert (H := sl_energy t Ht). assert (Q := pow2_ge_0 (p t)). apply (Rmult_le_reg_l (2 * k)); lra. Qed.
Lemma sl_cont t : continuity_pt e t.
Proof. apply continuity_pt_filterlim. apply (ex_derive_continuous e). exists (- p t). apply De. Qed.
Lemma sl_between y t : 0 <= t -> (e 0 < y < e t \/ e t < y < e 0) -> exists s, 0 <= s /\ e s = y.
Proof.
  intros Ht H. assert (C : continuity e) by (intros x; apply sl_cont).
  destruct (IVT_gen e 0 t y C) as (s & Hs & E).
  - destruct H as [H|H]; [rewrite Rmin_left, Rmax_right by lra; lra|rewrite Rmin_right, Rmax_left by lra; lra].
  - rewrite Rmin_left, Rmax_right in Hs by lra. exists s. split; [lra|exact E].
Qed.
Lemma sl_trapped t : 0 <= t -> e 0 <= e t <= 4 * PI - e 0.
Proof.
  intros Ht. assert (PP := PI_RGT_0). split.
  - destruct (Rle_dec (e 0) (e t)) as [|N]; [assumption|exfalso].
    set (y := Rmax ((e 0 + e t) / 2) (e 0 / 2)).
    assert (Y : e t < y < e 0 /\ 0 < y) by (unfold y, Rmax; destruct (Rle_dec _ _); lra).
    destruct (sl_between y t Ht) as (s & Hs & E); [right; lra|]. assert (H := sl_cos s Hs). rewrite E in H.
    assert (cos (e 0 / 2) < cos (y / 2)) by (apply cos_decreasing_1; lra). lra.
  - destruct (Rle_dec (e t) (4 * PI - e 0)) as [|N]; [assumption|exfalso].
    set (y := Rmin ((4 * PI - e 0 + e t) / 2) (4 * PI - e 0 / 2)).
    assert (Y : 4 * PI - e 0 < y < e t /\ y < 4 * PI) by (unfold y, Rmin; destruct (Rle_dec _ _); lra).
    destruct (sl_between y t Ht) as (s & Hs & E); [left; lra|]. assert (H := sl_cos s Hs). rewrite E in H.
    assert (X : cos (y / 2) = cos ((4 * PI - y) / 2)).
    { replace (y / 2) with (- ((4 * PI - y) / 2) + 2 * INR 1 * PI) by (cbn; field). rewrite cos_period, cos_neg. reflexivity. }
    rewrite X in H. assert (cos (e 0 / 2) < cos ((4 * PI - y) / 2)) by (apply cos_decreasing_1; lra). lra.
Qed.
Definition sl_eps := c * k / (k + c ^ 2).
Definition sl_W t := 1 / 2 * p t ^ 2 + 2 * k * (1 + cos (e t / 2)) + sl_eps * (p t * sin (e t / 2)).
Lemma sl_eps_spec : 0 < sl_eps /\ sl_eps * (k + c ^ 2) = c * k /\ 4 * sl_eps ^ 2 <= k.
Proof.
  assert (D : 0 < k + c ^ 2) by nra. assert (P : 0 < sl_eps) by (apply Rdiv_lt_0_compat; nra).
  assert (E : sl_eps * (k + c ^ 2) = c * k) by (unfold sl_eps; field; lra). split; [exact P|]. split; [exact E|].
  apply (Rmult_le_reg_r ((k + c ^ 2) ^ 2)); [nra|]. replace (4 * sl_eps ^ 2 * (k + c ^ 2) ^ 2) with (4 * (sl_eps * (k + c ^ 2)) ^ 2) by ring. rewrite E.
  assert (Q := pow2_ge_0 (k - c ^ 2)). nra.
Qed.
Lemma sl_sc x : sin x ^ 2 = (1 - cos x) * (1 + cos x).
Proof. assert (H := sin2_cos2 x). unfold Rsqr in H. nra. Qed.
Lemma sl_W_bounds t : 1 / 4 * p t ^ 2 + k * (1 + cos (e t / 2)) <= sl_W t <= 3 / 4 * p t ^ 2 + 3 * k * (1 + cos (e t / 2)).
Proof.
  destruct sl_eps_spec as (P & _ & Q). unfold sl_W. assert (S := sl_sc (e t / 2)). assert (B := COS_bound (e t / 2)).
  set (C := cos (e t / 2)) in *. set (s := sin (e t / 2)) in *. set (q := p t) in *. clearbody C s q.
  assert (H1 := pow2_ge_0 (q / 2 + sl_eps * s)). assert (H2 := pow2_ge_0 (q / 2 - sl_eps * s)).
  assert (H3 : sl_eps ^ 2 * s ^ 2 <= k / 2 * (1 + C)). { rewrite S. assert (0 <= (1 - C) * (1 + C) <= 2 * (1 + C)) by nra. assert (0 <= sl_eps ^ 2) by apply pow2_ge_0. nra. }
  assert (0 <= k * (1 + C)) by nra. nra.
Qed.
Definition sl_dW t := - c * p t ^ 2 - sl_eps * k * sin (e t / 2) ^ 2 - sl_eps * c * p t * sin (e t / 2) - 1 / 2 * sl_eps * cos (e t / 2) * p t ^ 2.
Lemma sl_W_derive t : is_derive sl_W t (sl_dW t).
Proof.
  unfold sl_W, sl_dW. assert (D1 := De t). assert (D2 := Dp t). assert (U1 : Derive (fun x : R => e x) t = - p t) by (apply is_derive_unique; exact D1). assert (U2 : Derive (fun x : R => p x) t = - k * sin (e t / 2) - c * p t) by (apply is_derive_unique; exact D2).
  auto_derive; [repeat split; try (eexists; exact D2); eexists; exact D1|]. rewrite U1, U2. unfold Rdiv. field.
Qed.
Definition sl_rate := Rmin (2 * c / 3) (sl_eps * (1 - cos (e 0 / 2)) / 6).
Lemma sl_rate_pos : 0 < sl_rate.
Proof.
  destruct sl_eps_spec as (P & _). assert (cos (e 0 / 2) < 1). { rewrite <- cos_0. apply cos_decreasing_1; assert (PP := PI_RGT_0); lra. }
  apply Rmin_pos; [lra|]. apply Rdiv_lt_0_compat; [|lra]. apply Rmult_lt_0_compat; lra.
Qed.
Lemma sl_W_decay t : 0 <= t -> sl_dW t + sl_rate * sl_W t <= 0.
Proof.
  intros Ht. destruct sl_eps_spec as (P & E & Q). destruct (sl_W_bounds t) as [_ U]. assert (S := sl_sc (e t / 2)). assert (B := COS_bound (e t / 2)). assert (L := sl_cos t Ht).
  assert (R0 := sl_rate_pos). assert (R1 : sl_rate <= 2 * c / 3) by apply Rmin_l. assert (R2 : sl_rate <= sl_eps * (1 - cos (e 0 / 2)) / 6) by apply Rmin_r.
  unfold sl_dW. set (C := cos (e t / 2)) in *. set (s := sin (e t / 2)) in *. set (q := p t) in *. set (W := sl_W t) in *. set (C0 := cos (e 0 / 2)) in *. set (r := sl_rate) in *. set (ep := sl_eps) in *. clearbody C s q W C0 r ep.
  assert (T1 : r * W <= r * (3 / 4 * q ^ 2 + 3 * k * (1 + C))) by (apply Rmult_le_compat_l; lra).
  assert (T2 : r * (3 / 4 * q ^ 2) <= 2 * c / 3 * (3 / 4 * q ^ 2)) by (apply Rmult_le_compat_r; [assert (H := pow2_ge_0 q); lra|exact R1]).
  assert (T3 : r * (3 * k * (1 + C)) <= ep * (1 - C0) / 6 * (3 * k * (1 + C))) by (apply Rmult_le_compat_r; [nra|exact R2]).
  assert (T4 : (1 - C0) * (1 + C) <= s ^ 2) by (rewrite S; nra).
  assert (T5 : ep * k / 2 * ((1 - C0) * (1 + C)) <= ep * k / 2 * s ^ 2) by (apply Rmult_le_compat_l; [nra|exact T4]).
  assert (T6 : - (1 / 2 * ep * C * q ^ 2) <= 1 / 2 * ep * q ^ 2). { assert (0 <= ep * q ^ 2) by (apply Rmult_le_pos; [lra|apply pow2_ge_0]). nra. }
  (* |ep c q s| <= ep k s^2 / 2 + ep c^2 q^2 / (2 k) *)
  assert (T7 : k * (- (ep * c * q * s)) <= k * (ep * k / 2 * s ^ 2) + ep * c ^ 2 / 2 * q ^ 2).
  { assert (H := pow2_ge_0 (k * s + c * q)). assert (0 <= ep * (k * s + c * q) ^ 2) by (apply Rmult_le_pos; lra). nra. }
  apply (Rmult_le_reg_l k); [exact Hk|]. rewrite Rmult_0_r.
  assert (T8 : ep * (k + c ^ 2) * q ^ 2 = c * k * q ^ 2) by (rewrite E; reflexivity).
  assert (T9 : k * (r * W) <= k * (c / 2 * q ^ 2 + ep * k / 2 * s ^ 2)) by (apply Rmult_le_compat_l; lra).
  assert (T10 : k * - (1 / 2 * ep * C * q ^ 2) <= k * (1 / 2 * ep * q ^ 2)) by (apply Rmult_le_compat_l; lra).
  nra.
Qed.
Lemma sl_W_exp t : 0 <= t -> sl_W t <= sl_W 0 * exp (- sl_rate * t).
Proof.
  intros Ht. assert (H := decreasing_from (fun t => sl_W t * exp (sl_rate * t)) (fun t => (sl_dW t + sl_rate * sl_W t) * exp (sl_rate * t)) 0).
  assert (X : sl_W t * exp (sl_rate * t) <= sl_W 0 * exp (sl_rate * 0)).
  { apply H; [| |exact Ht].
    - intros s _. assert (D := sl_W_derive s). assert (U1 : Derive (fun x : R => sl_W x) s = sl_dW s) by (apply is_derive_unique; exact D). auto_derive; [repeat split; eexists; exact D|]. rewrite U1. ring.
    - intros s Hs. assert (N := sl_W_decay s Hs). assert (Q := exp_pos (sl_rate * s)). nra. }
  rewrite Rmult_0_r, exp_0, Rmult_1_r in X. assert (Q := exp_pos (- sl_rate * t)). apply (Rmult_le_compat_r (exp (- sl_rate * t))) in X; [|lra].
  rewrite Rmult_assoc, <- exp_plus in X. replace (sl_rate * t + - sl_rate * t) with 0 in X by ring. rewrite exp_0, Rmult_1_r in X. exact X.
Qed.
Lemma sl_W_small d : 0 < d -> exists T, 0 <= T /\ forall t, T <= t -> sl_W t < d.
Proof.
  intros Hd. assert (R0 := sl_rate_pos). assert (W0 : 0 <= sl_W 0). { destruct (sl_W_bounds 0) as [L _]. assert (B := COS_bound (e 0 / 2)). assert (Q := pow2_ge_0 (p 0)). nra. }
  (* exp (- r t) <= 1 / (1 + r t) *)
  exists (sl_W 0 / (d * sl_rate)). split; [apply Rdiv_le_0_compat; [exact W0|nra]|]. intros t Ht.
  assert (T0 : 0 <= t) by (apply (Rle_trans _ (sl_W 0 / (d * sl_rate))); [apply Rdiv_le_0_compat; [exact W0|nra]|exact Ht]).
  assert (U := sl_W_exp t T0). assert (X : 1 + sl_rate * t <= exp (sl_rate * t)) by (apply exp_ineq1_le).
  assert (Y : sl_W 0 <= t * (d * sl_rate)). { apply (Rmult_le_compat_r (d * sl_rate)) in Ht; [|nra]. unfold Rdiv in Ht. rewrite Rmult_assoc, Rinv_l in Ht by nra. lra. }
  apply (Rle_lt_trans _ _ _ U). replace (- sl_rate * t) with (- (sl_rate * t)) by ring. rewrite exp_Ropp. apply (Rmult_lt_reg_r (exp (sl_rate * t))); [apply exp_pos|].
  rewrite Rmult_assoc, Rinv_l by (apply Rgt_not_eq, exp_pos). nra.
Qed.
Lemma sl_limit eps : 0 < eps -> exists T, 0 <= T /\ forall t, T <= t -> Rabs (e t - 2 * PI) < eps /\ Rabs (p t) < eps.
Proof.
  intros He. assert (PP := PI_RGT_0). set (h := Rmin (eps / 2) PI). assert (Hh : 0 < h <= PI) by (unfold h; split; [apply Rmin_pos; lra|apply Rmin_r]).
  assert (Hh2 : h <= eps / 2) by apply Rmin_l. assert (Ch : cos h < 1) by (rewrite <- cos_0; apply cos_decreasing_1; lra).
  set (d := Rmin (k * (1 - cos h)) (1 / 4 * eps ^ 2)). assert (Hd : 0 < d) by (apply Rmin_pos; nra).
  destruct (sl_W_small d Hd) as (T & HT & HW). exists T. split; [exact HT|]. intros t Ht. specialize (HW t Ht). assert (T0 : 0 <= t) by lra.
  destruct (sl_W_bounds t) as [L _]. assert (B := COS_bound (e t / 2)). assert (Q := pow2_ge_0 (p t)). assert (D1 : d <= k * (1 - cos h)) by apply Rmin_l. assert (D2 : d <= 1 / 4 * eps ^ 2) by apply Rmin_r.
  split.
  - destruct (Rlt_dec (Rabs (e t - 2 * PI)) eps) as [|N]; [assumption|exfalso].
    assert (Tr := sl_trapped t T0). set (dl := Rabs (e t - 2 * PI) / 2). assert (Hdl : h <= dl <= PI).
    { unfold dl. split; [lra|]. assert (Rabs (e t - 2 * PI) <= 2 * PI) by (apply Rabs_le; lra). lra. }
    assert (EC : cos (e t / 2) = - cos dl).
    { unfold dl, Rabs. destruct (Rcase_abs _).
      - replace (e t / 2) with (PI - (- (e t - 2 * PI) / 2)) by field. rewrite cos_minus, cos_PI, sin_PI. ring.
      - replace (e t / 2) with ((e t - 2 * PI) / 2 + PI) by field. apply neg_cos. }
    assert (cos dl <= cos h) by (apply cos_decr_1; lra). assert (k * (1 - cos h) <= k * (1 - cos dl)) by (apply Rmult_le_compat_l; lra). rewrite EC in L. lra.
  - assert (X : p t ^ 2 < eps ^ 2) by nra. apply Rabs_def1; nra.
Qed.
End SLEW.
