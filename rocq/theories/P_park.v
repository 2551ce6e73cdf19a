(** * A damped oscillator in space with a fading disturbance; quantities whose rate of change fades have limits *)
From Coq Require Import Reals Lra Lia Psatz.
From Verif Require Import Num Vec M_vector M_quaternion S_rot S_dyn.
From Verif Require Import P_quat P_dyn P_dyn2 P_ctrl3 P_detum P_tot3 P_orb3 P_posf P_samp.
Local Open Scope R_scope.

(** ** the oscillator z' = g + nu, g' = - k z - ga g + p *)
Definition osc (k ga : R) (z g : v3) : R := dot3 (add3 g (scale3 ga z)) (add3 g (scale3 ga z)) / 2 + dot3 g g / 2 + k * dot3 z z.
Lemma d_half f t l : derivable_pt_lim f t l -> derivable_pt_lim (fun u => f u / 2) t (l / 2).
Proof. intros H. eapply d_eq; [apply (d_mult f (fun _ => / 2) t l 0 H (d_const _ t))|]. field. Qed.
Lemma osc_deriv k ga (z g : R -> v3) (nu p : v3) t : deriv3 z t (add3 (g t) nu) -> deriv3 g t (add3 (sub3 (scale3 (- k) (z t)) (scale3 ga (g t))) p) ->
  derivable_pt_lim (fun u => osc k ga (z u) (g u)) t
    (- ga * (k * dot3 (z t) (z t) + dot3 (g t) (g t)) + dot3 (add3 (g t) (scale3 ga (z t))) (add3 p (scale3 ga nu)) + dot3 (g t) p + 2 * k * dot3 (z t) nu).
Proof.
  intros Z G. assert (ZS : deriv3 (fun u => scale3 ga (z u)) t (scale3 ga (add3 (g t) nu))). { destruct Z as (Z1 & Z2 & Z3). unfold scale3. repeat split; cbn [x3 y3 z3]; rnumg; apply d_scal; assumption. }
  assert (S := d3_add _ _ _ _ _ G ZS). unfold osc. eapply d_eq; [exact (d_plus _ _ t _ _ (d_plus _ _ t _ _ (d_half _ t _ (d_dot3 _ _ t _ _ S S)) (d_half _ t _ (d_dot3 _ _ t _ _ G G))) (d_scal k _ t _ (d_dot3 _ _ t _ _ Z Z)))|].
  cbv beta. generalize (z t) (g t). clear. intros [z1 z2 z3'] [g1 g2 g3]. destruct nu as [n1 n2 n3], p as [p1 p2 p3]. vunfoldg. cbn [x3 y3 z3]. rnumg. field.
Qed.
Lemma dot_up (a b : v3) : dot3 a b <= norm3 a * norm3 b. Proof. apply cauchy3. Qed.
(** size of the oscillator *)
Definition stir (z g : v3) : R := dot3 z z + dot3 g g.
Lemma osc_size k ga z g : 0 < k -> 0 < ga -> Rmin (/ 2) k * stir z g <= osc k ga z g <= (3 / 2 + ga * ga + k) * stir z g.
Proof.
  intros K G. unfold osc, stir. assert (Zp := dot3_nonneg z). assert (Gp := dot3_nonneg g). assert (Sp := dot3_nonneg (add3 g (scale3 ga z))). assert (M1 := Rmin_l (/ 2) k). assert (M2 := Rmin_r (/ 2) k).
  assert (S2 : dot3 (add3 g (scale3 ga z)) (add3 g (scale3 ga z)) <= 2 * dot3 g g + 2 * (ga * ga) * dot3 z z).
  { assert (X := dot3_nonneg (sub3 g (scale3 ga z))). assert (E : dot3 (add3 g (scale3 ga z)) (add3 g (scale3 ga z)) + dot3 (sub3 g (scale3 ga z)) (sub3 g (scale3 ga z)) = 2 * dot3 g g + 2 * (ga * ga) * dot3 z z) by (destruct z as [z1 z2 z3'], g as [g1 g2 g3]; vunfoldg; cbn [x3 y3 z3]; rnumg; ring). lra. }
  assert (Rmin (/ 2) k * dot3 z z <= k * dot3 z z) by (apply Rmult_le_compat_r; assumption). assert (Rmin (/ 2) k * dot3 g g <= / 2 * dot3 g g) by (apply Rmult_le_compat_r; assumption).
  assert (0 <= (ga * ga + k) * dot3 g g) by (apply Rmult_le_pos; [nra|assumption]). split; lra.
Qed.
(** a small enough coupling leaves it stable *)
Lemma osc_fades k ga c3 : 0 < k -> 0 < ga -> 0 <= c3 -> exists sg c Q, 0 < sg /\ 0 < c /\ 0 < Q /\
  forall (z g nu p : v3) n, norm3 nu <= n -> norm3 p <= sg * (norm3 z + norm3 g) + c3 * n ->
    - ga * (k * dot3 z z + dot3 g g) + dot3 (add3 g (scale3 ga z)) (add3 p (scale3 ga nu)) + dot3 g p + 2 * k * dot3 z nu <= - c * osc k ga z g + Q * n ^ 2.
Proof.
  intros K G C3. set (c1 := ga * Rmin k 1). assert (M1 := Rmin_l k 1). assert (M2 := Rmin_r k 1). assert (M0 : 0 < Rmin k 1) by (apply Rmin_pos; lra). assert (c1p : 0 < c1) by (apply Rmult_lt_0_compat; assumption).
  set (C2 := 2 + ga + ga * (1 + ga) + 2 * k). assert (C2p : 2 < C2) by (unfold C2; assert (0 < ga * (1 + ga)) by (apply Rmult_lt_0_compat; lra); lra).
  set (CV := 3 / 2 + ga * ga + k). assert (CVp : 0 < CV) by (unfold CV; assert (0 < ga * ga) by (apply Rmult_lt_0_compat; lra); lra).
  set (sg := c1 / (8 * C2)). set (C4 := C2 * (c3 + 1)). assert (C4p : 0 < C4) by (apply Rmult_lt_0_compat; lra).
  exists sg, (c1 / (2 * CV)), (2 * (C4 * C4) / c1 + 1). split; [apply Rdiv_lt_0_compat; lra|]. split; [apply Rdiv_lt_0_compat; lra|]. split; [assert (0 < 2 * (C4 * C4) / c1) by (apply Rdiv_lt_0_compat; [assert (0 < C4 * C4) by (apply Rmult_lt_0_compat; exact C4p); lra|exact c1p]); lra|].
  intros z g nu p n Hn Hp. assert (n0 : 0 <= n) by (assert (X := norm3_pos nu); lra). set (x := norm3 z) in *. set (y := norm3 g) in *. assert (x0 : 0 <= x) by apply norm3_pos. assert (y0 : 0 <= y) by apply norm3_pos.
  assert (XX : dot3 z z = x * x) by (unfold x; symmetry; apply P_quat.norm3_sq). assert (YY : dot3 g g = y * y) by (unfold y; symmetry; apply P_quat.norm3_sq).
  set (P := norm3 p) in *. assert (P0 : 0 <= P) by apply norm3_pos. set (v := norm3 nu) in *. assert (v0 : 0 <= v) by apply norm3_pos.
  assert (D1 : dot3 (add3 g (scale3 ga z)) (add3 p (scale3 ga nu)) <= (y + ga * x) * (P + ga * v)).
  { eapply Rle_trans; [apply dot_up|]. apply Rmult_le_compat; try apply norm3_pos; (eapply Rle_trans; [apply norm3_triangle|]; rewrite norm3_scal, (Rabs_right ga) by lra); unfold x, y, P, v; lra. }
  assert (D2 : dot3 g p <= y * P) by apply dot_up. assert (D3 : dot3 z nu <= x * v) by apply dot_up.
  assert (SZ : osc k ga z g <= CV * (x * x + y * y)) by (rewrite <- XX, <- YY; apply (osc_size k ga z g K G)).
  assert (E1 : - ga * (k * dot3 z z + dot3 g g) <= - c1 * (x * x + y * y)).
  { rewrite XX, YY. unfold c1. assert (0 <= x * x) by (apply Rmult_le_pos; assumption). assert (0 <= y * y) by (apply Rmult_le_pos; assumption). assert (Rmin k 1 * (x * x) <= k * (x * x)) by (apply Rmult_le_compat_r; assumption). assert (Rmin k 1 * (y * y) <= 1 * (y * y)) by (apply Rmult_le_compat_r; assumption).
    assert (ga * (Rmin k 1 * (x * x) + Rmin k 1 * (y * y)) <= ga * (k * (x * x) + 1 * (y * y))) by (apply Rmult_le_compat_l; lra). lra. }
  assert (E2 : (y + ga * x) * (P + ga * v) + y * P + 2 * k * (x * v) <= C2 * (x + y) * (P + v)).
  { unfold C2. assert (0 <= x * P) by (apply Rmult_le_pos; assumption). assert (0 <= y * P) by (apply Rmult_le_pos; assumption). assert (0 <= x * v) by (apply Rmult_le_pos; assumption). assert (0 <= y * v) by (apply Rmult_le_pos; assumption).
    assert (0 <= ga * (x * P)) by (apply Rmult_le_pos; lra). assert (0 <= ga * (y * P)) by (apply Rmult_le_pos; lra). assert (0 <= ga * (x * v)) by (apply Rmult_le_pos; lra). assert (0 <= ga * (y * v)) by (apply Rmult_le_pos; lra).
    assert (0 <= ga * ga) by (apply Rmult_le_pos; lra). assert (0 <= (ga * ga) * (x * P)) by (apply Rmult_le_pos; lra). assert (0 <= (ga * ga) * (y * P)) by (apply Rmult_le_pos; lra). assert (0 <= (ga * ga) * (x * v)) by (apply Rmult_le_pos; lra). assert (0 <= (ga * ga) * (y * v)) by (apply Rmult_le_pos; lra).
    assert (0 <= k * (x * P)) by (apply Rmult_le_pos; lra). assert (0 <= k * (y * P)) by (apply Rmult_le_pos; lra). assert (0 <= k * (x * v)) by (apply Rmult_le_pos; lra). assert (0 <= k * (y * v)) by (apply Rmult_le_pos; lra). lra. }
  assert (E3 : C2 * (x + y) * (P + v) <= C2 * (x + y) * (sg * (x + y) + (c3 + 1) * n)). { apply Rmult_le_compat_l; [apply Rmult_le_pos; lra|]. lra. }
  assert (Q1 : (x + y) * (x + y) <= 2 * (x * x + y * y)) by (assert (X := Rle_0_sqr (x - y)); unfold Rsqr in X; lra).
  assert (E4 : C2 * (x + y) * (sg * (x + y)) <= c1 / 4 * (x * x + y * y)). { replace (C2 * (x + y) * (sg * (x + y))) with (c1 / 8 * ((x + y) * (x + y))) by (unfold sg; field; lra). replace (c1 / 4 * (x * x + y * y)) with (c1 / 8 * (2 * (x * x + y * y))) by field. apply Rmult_le_compat_l; lra. }
  assert (E5 : C4 * ((x + y) * n) <= c1 / 4 * (x * x + y * y) + 2 * (C4 * C4) / c1 * (n * n)).
  { assert (X := Rle_0_sqr (c1 * (x + y) / 4 - C4 * n)). unfold Rsqr in X. apply (Rmult_le_reg_l c1); [exact c1p|]. replace (c1 * (c1 / 4 * (x * x + y * y) + 2 * (C4 * C4) / c1 * (n * n))) with (c1 * c1 / 4 * (x * x + y * y) + 2 * (C4 * C4) * (n * n)) by (field; lra).
    assert (c1 * c1 * ((x + y) * (x + y)) <= c1 * c1 * (2 * (x * x + y * y))) by (apply Rmult_le_compat_l; [apply Rmult_le_pos; lra|exact Q1]). assert (0 <= c1 * c1 * (x * x + y * y)) by (apply Rmult_le_pos; nra). assert (0 <= (C4 * n) * (C4 * n)) by apply Rle_0_sqr. lra. }
  assert (E6 : C2 * (x + y) * ((c3 + 1) * n) = C4 * ((x + y) * n)) by (unfold C4; ring).
  assert (E7 : c1 / (2 * CV) * osc k ga z g <= c1 / 2 * (x * x + y * y)). { replace (c1 / 2 * (x * x + y * y)) with (c1 / (2 * CV) * (CV * (x * x + y * y))) by (field; lra). apply Rmult_le_compat_l; [left; apply Rdiv_lt_0_compat; lra|exact SZ]. }
  assert (E8 : 2 * k * dot3 z nu <= 2 * k * (x * v)) by (apply Rmult_le_compat_l; lra). assert (0 <= n * n) by (apply Rmult_le_pos; assumption). replace (n ^ 2) with (n * n) by ring.
  replace (C2 * (x + y) * (sg * (x + y) + (c3 + 1) * n)) with (C2 * (x + y) * (sg * (x + y)) + C2 * (x + y) * ((c3 + 1) * n)) in E3 by ring. lra.
Qed.
(** ** V' <= - c V + Q n^2 with n fading *)
Lemma fades c Q nu D d T (V V' : R -> R) : 0 < c -> 0 < Q -> 0 < nu -> 0 <= D -> 0 <= d -> 0 <= T -> let mu := Rmin (c / 2) nu in
  (forall t, T <= t -> derivable_pt_lim V t (V' t)) -> (forall t, T <= t -> V' t <= - c * V t + Q * (D * exp (- nu * t) + d) ^ 2) ->
  forall t, T <= t -> V t <= 2 * Q * d ^ 2 / c + 4 * Q * D ^ 2 / c * exp (- mu * t) + Rabs (V T) * exp (- c * (t - T)).
Proof.
  intros Cp Qp Np D0 d0 T0 mu DV HV t Ht. assert (m1 := Rmin_l (c / 2) nu). assert (m2 := Rmin_r (c / 2) nu). fold mu in m1, m2. assert (mp : 0 < mu) by (apply Rmin_pos; lra).
  set (A := 4 * Q * D ^ 2 / c). set (B := 2 * Q * d ^ 2 / c). assert (D2 := pow2_ge_0 D). assert (d2 := pow2_ge_0 d). assert (A0 : 0 <= A) by (unfold A; apply Rmult_le_pos; [apply Rmult_le_pos; lra|left; apply Rinv_0_lt_compat; lra]). assert (B0 : 0 <= B) by (unfold B; apply Rmult_le_pos; [apply Rmult_le_pos; lra|left; apply Rinv_0_lt_compat; lra]).
  assert (EX : forall l u, derivable_pt_lim (fun u => exp (l * u)) u (l * exp (l * u))). { intros l u. eapply d_eq; [apply (derivable_pt_lim_comp (fun u => l * u) exp); [apply d_scal, d_id|apply derivable_pt_lim_exp]|]. ring. }
  set (W := fun u => (V u - B - A * exp (- mu * u)) * exp (c * u)).
  assert (DW : forall u, T <= u -> derivable_pt_lim W u ((V' u - 0 - A * (- mu * exp (- mu * u))) * exp (c * u) + (V u - B - A * exp (- mu * u)) * (c * exp (c * u)))).
  { intros u Hu. apply (d_mult (fun u => V u - B - A * exp (- mu * u)) (fun u => exp (c * u))); [|apply EX]. apply d_minus; [apply d_minus; [apply DV, Hu|apply d_const]|apply d_scal, EX]. }
  assert (LE : W t <= W T).
  { apply (le_of_deriv W _ T t Ht (fun u Hu => DW u (proj1 Hu))). intros u Hu. cbv beta. assert (X := HV u (proj1 Hu)). assert (P1 := exp_pos (c * u)). set (e := exp (- mu * u)) in *. assert (e0 : 0 < e) by apply exp_pos.
    assert (Y : (D * exp (- nu * u) + d) ^ 2 <= 2 * D ^ 2 * e + 2 * d ^ 2).
    { set (f := exp (- nu * u)). assert (f0 : 0 < f) by apply exp_pos. assert (FE : f <= e). { unfold f, e. assert (L : - nu * u <= - mu * u) by (assert (mu * u <= nu * u) by (apply Rmult_le_compat_r; lra); lra). destruct L as [L|L]; [left; apply exp_increasing, L|rewrite L; right; reflexivity]. }
      assert (F1 : f <= 1) by (unfold f; rewrite <- exp_0; assert (L : - nu * u <= 0) by (assert (0 <= nu * u) by (apply Rmult_le_pos; lra); lra); destruct L as [L|L]; [left; apply exp_increasing, L|rewrite L; right; reflexivity]).
      assert (f * f <= e) by (assert (f * f <= f * 1) by (apply Rmult_le_compat_l; lra); lra). assert (S := Rle_0_sqr (D * f - d)). unfold Rsqr in S. assert (D ^ 2 * (f * f) <= D ^ 2 * e) by (apply Rmult_le_compat_l; assumption). lra. }
    assert (Y2 : Q * (D * exp (- nu * u) + d) ^ 2 <= Q * (2 * D ^ 2 * e + 2 * d ^ 2)) by (apply Rmult_le_compat_l; lra).
    assert (CB : c * B = 2 * Q * d ^ 2) by (unfold B; field; lra). assert (CA : c * A = 4 * Q * D ^ 2) by (unfold A; field; lra).
    assert (AE : 0 <= A * e) by (apply Rmult_le_pos; lra). assert (mu * (A * e) <= c / 2 * (A * e)) by (apply Rmult_le_compat_r; lra). assert (CAe : c * (A * e) = 4 * Q * D ^ 2 * e) by (rewrite <- CA; ring).
    match goal with |- ?l <= 0 => replace l with (- (exp (c * u) * - (V' u + c * V u - c * B - c * (A * e) + mu * (A * e)))) by ring end.
    assert (0 <= exp (c * u) * - (V' u + c * V u - c * B - c * (A * e) + mu * (A * e))); [|lra]. apply Rmult_le_pos; lra. }
  unfold W in LE. assert (P1 := exp_pos (c * t)). assert (P2 := exp_pos (- mu * T)). assert (RA := Rle_abs (V T)). set (e := exp (- mu * t)) in *.
  assert (LE2 : (V t - B - A * e) * exp (c * t) <= Rabs (V T) * exp (c * T)). { eapply Rle_trans; [exact LE|]. apply Rmult_le_compat_r; [left; apply exp_pos|]. assert (0 <= A * exp (- mu * T)) by (apply Rmult_le_pos; lra). lra. }
  assert (SP : exp (c * T) = exp (- c * (t - T)) * exp (c * t)) by (rewrite <- exp_plus; f_equal; ring). rewrite SP in LE2.
  assert (V t - B - A * e <= Rabs (V T) * exp (- c * (t - T))); [|lra]. apply (Rmult_le_reg_r (exp (c * t))); [exact P1|]. lra.
Qed.
(** ** a quantity whose rate of change fades exponentially has a limit *)
Lemma has_limit (f f' : R -> R) C mu : 0 <= C -> 0 < mu -> (forall t, 0 <= t -> derivable_pt_lim f t (f' t)) -> (forall t, 0 <= t -> Rabs (f' t) <= C * exp (- mu * t)) ->
  exists l, forall t, 0 <= t -> Rabs (f t - l) <= C / mu * exp (- mu * t).
Proof.
  intros C0 Mp D B. set (k := C / mu). assert (KM : k * mu = C) by (unfold k; field; lra). assert (k0 : 0 <= k) by (unfold k; apply Rmult_le_pos; [exact C0|left; apply Rinv_0_lt_compat, Mp]).
  assert (EX : forall u, derivable_pt_lim (fun u => k * exp (- mu * u)) u (- (C * exp (- mu * u)))). { intros u. eapply d_eq; [apply d_scal, (derivable_pt_lim_comp (fun u => - mu * u) exp); [apply d_scal, d_id|apply derivable_pt_lim_exp]|]. rewrite <- KM. ring. }
  set (lo := fun t => f t - k * exp (- mu * t)). set (hi := fun t => f t + k * exp (- mu * t)).
  assert (UP : forall a s, 0 <= a -> a <= s -> lo a <= lo s). { intros a s H L. assert (X := le_of_deriv (fun t => k * exp (- mu * t) - f t) (fun t => - (C * exp (- mu * t)) - f' t) a s L (fun u Hu => d_minus _ _ u _ _ (EX u) (D u ltac:(lra)))). cbv beta in X. unfold lo.
    assert (Y : k * exp (- mu * s) - f s <= k * exp (- mu * a) - f a); [|lra]. apply X. intros u Hu. assert (Z := B u ltac:(lra)). unfold Rabs in Z; destruct (Rcase_abs (f' u)); lra. }
  assert (DN : forall a s, 0 <= a -> a <= s -> hi s <= hi a). { intros a s H L. apply (le_of_deriv hi (fun t => f' t + - (C * exp (- mu * t))) a s L (fun u Hu => d_plus _ _ u _ _ (D u ltac:(lra)) (EX u))). intros u Hu. assert (Z := B u ltac:(lra)). unfold Rabs in Z; destruct (Rcase_abs (f' u)); lra. }
  assert (LH : forall t, lo t <= hi t) by (intros t; unfold lo, hi; assert (P := exp_pos (- mu * t)); assert (0 <= k * exp (- mu * t)) by (apply Rmult_le_pos; lra); lra).
  destruct (completeness (fun x => exists t, 0 <= t /\ x = lo t)) as (l & UB & LU).
  - exists (hi 0). intros x (t & Ht & ->). eapply Rle_trans; [apply LH|]. apply DN; lra.
  - exists (lo 0), 0. split; [lra|reflexivity].
  - exists l. intros t Ht. assert (A1 : lo t <= l) by (apply UB; exists t; split; [exact Ht|reflexivity]).
    assert (A2 : l <= hi t). { apply LU. intros x (s & Hs & ->). destruct (Rle_dec s t) as [L|L]; [apply (Rle_trans _ (lo t)); [apply UP; lra|apply LH]|apply (Rle_trans _ (hi s)); [apply LH|apply DN; lra]]. }
    unfold lo, hi in A1, A2. fold k. apply Rabs_le. lra.
Qed.
Lemma fades_late C lam eps : 0 <= C -> 0 < lam -> 0 < eps -> exists T, 0 <= T /\ forall t, T <= t -> C * exp (- lam * t) <= eps.
Proof.
  intros C0 L E. exists (C / (lam * eps)). assert (LE : 0 < lam * eps) by (apply Rmult_lt_0_compat; assumption). split; [apply Rmult_le_pos; [exact C0|left; apply Rinv_0_lt_compat, LE]|]. intros t Ht.
  assert (H1 : C <= lam * eps * t). { apply (Rmult_le_compat_l (lam * eps)) in Ht; [|lra]. replace (lam * eps * (C / (lam * eps))) with C in Ht by (field; lra). exact Ht. }
  assert (X := exp_ineq1_le (lam * t)). assert (P := exp_pos (lam * t)). replace (- lam * t) with (- (lam * t)) by ring. rewrite exp_Ropp. apply (Rmult_le_reg_r (exp (lam * t))); [exact P|]. rewrite Rmult_assoc, Rinv_l, Rmult_1_r by lra.
  assert (eps * (1 + lam * t) <= eps * exp (lam * t)) by (apply Rmult_le_compat_l; lra). lra.
Qed.
Lemma abs_le_sq x y : 0 <= y -> x * x <= y * y -> Rabs x <= y.
Proof. intros Y H. apply Rsqr_incr_0; [|apply Rabs_pos|exact Y]. rewrite <- Rsqr_abs. exact H. Qed.
Lemma abs_sq x y : Rabs x <= y -> x * x <= y * y.
Proof. intros H. replace (x * x) with (Rabs x * Rabs x) by (symmetry; apply Rsqr_abs). apply Rmult_le_compat; try apply Rabs_pos; exact H. Qed.
Lemma vec_limit (f f' : R -> v3) C mu : 0 <= C -> 0 < mu -> (forall t, 0 <= t -> deriv3 f t (f' t)) -> (forall t, 0 <= t -> norm3 (f' t) <= C * exp (- mu * t)) ->
  exists l, forall t, 0 <= t -> norm3 (sub3 (f t) l) <= 2 * (C / mu) * exp (- mu * t).
Proof.
  intros C0 Mp D B. assert (CO : forall v : v3, x3 v * x3 v <= dot3 v v /\ y3 v * y3 v <= dot3 v v /\ z3 v * z3 v <= dot3 v v). { intros [a b c]. vunfoldg. cbn [x3 y3 z3]. rnumg. assert (X1 := Rle_0_sqr a). assert (X2 := Rle_0_sqr b). assert (X3 := Rle_0_sqr c). unfold Rsqr in *. lra. }
  assert (CE : forall t, 0 <= C * exp (- mu * t)) by (intros t; apply Rmult_le_pos; [exact C0|left; apply exp_pos]). assert (SQ : forall t, 0 <= t -> dot3 (f' t) (f' t) <= C * exp (- mu * t) * (C * exp (- mu * t))) by (intros t Ht; rewrite <- P_quat.norm3_sq; apply Rmult_le_compat; try apply norm3_pos; apply B, Ht).
  destruct (has_limit (fun t => x3 (f t)) (fun t => x3 (f' t)) C mu C0 Mp (fun t Ht => proj1 (D t Ht))) as (l1 & L1); [intros t Ht; apply abs_le_sq; [apply CE|]; eapply Rle_trans; [apply CO|apply SQ, Ht]|].
  destruct (has_limit (fun t => y3 (f t)) (fun t => y3 (f' t)) C mu C0 Mp (fun t Ht => proj1 (proj2 (D t Ht)))) as (l2 & L2); [intros t Ht; apply abs_le_sq; [apply CE|]; eapply Rle_trans; [apply CO|apply SQ, Ht]|].
  destruct (has_limit (fun t => z3 (f t)) (fun t => z3 (f' t)) C mu C0 Mp (fun t Ht => proj2 (proj2 (D t Ht)))) as (l3 & L3); [intros t Ht; apply abs_le_sq; [apply CE|]; eapply Rle_trans; [apply CO|apply SQ, Ht]|].
  exists (mk3 l1 l2 l3). intros t Ht. assert (A1 := abs_sq _ _ (L1 t Ht)). assert (A2 := abs_sq _ _ (L2 t Ht)). assert (A3 := abs_sq _ _ (L3 t Ht)). cbv beta in *. rewrite Rmult_assoc. set (e := C / mu * exp (- mu * t)) in *. assert (e0 : 0 <= e) by (eapply Rle_trans; [apply Rabs_pos|apply (L1 t Ht)]).
  apply P_exist3.norm3_le_sq; [lra|]. assert (0 <= e * e) by (apply Rmult_le_pos; assumption). clearbody e. clear -A1 A2 A3 H. revert A1 A2 A3. generalize (f t). intros [u1 u2 u3]. vunfoldg. cbn [x3 y3 z3]. rnumg. lra.
Qed.
Lemma quat_limit (f f' : R -> quat) C mu : 0 <= C -> 0 < mu -> (forall t, 0 <= t -> derivq f t (f' t)) -> (forall t, 0 <= t -> normq (f' t) <= C * exp (- mu * t)) ->
  exists l, forall t, 0 <= t -> normq (subq (f t) l) <= 2 * (C / mu) * exp (- mu * t).
Proof.
  intros C0 Mp D B. assert (CO : forall v : quat, qw v * qw v <= dotq v v /\ qx v * qx v <= dotq v v /\ qy v * qy v <= dotq v v /\ qz v * qz v <= dotq v v). { intros [d a b c]. vunfoldg. cbn [qw qx qy qz]. rnumg. assert (X1 := Rle_0_sqr a). assert (X2 := Rle_0_sqr b). assert (X3 := Rle_0_sqr c). assert (X4 := Rle_0_sqr d). unfold Rsqr in *. lra. }
  assert (NP : forall v : quat, 0 <= normq v) by (intros v; apply sqrt_pos). assert (CE : forall t, 0 <= C * exp (- mu * t)) by (intros t; apply Rmult_le_pos; [exact C0|left; apply exp_pos]). assert (SQ : forall t, 0 <= t -> dotq (f' t) (f' t) <= C * exp (- mu * t) * (C * exp (- mu * t))) by (intros t Ht; rewrite <- normq_sq; apply Rmult_le_compat; try apply NP; apply B, Ht).
  destruct (has_limit (fun t => qw (f t)) (fun t => qw (f' t)) C mu C0 Mp (fun t Ht => proj1 (D t Ht))) as (l0 & L0); [intros t Ht; apply abs_le_sq; [apply CE|]; eapply Rle_trans; [apply CO|apply SQ, Ht]|].
  destruct (has_limit (fun t => qx (f t)) (fun t => qx (f' t)) C mu C0 Mp (fun t Ht => proj1 (proj2 (D t Ht)))) as (l1 & L1); [intros t Ht; apply abs_le_sq; [apply CE|]; eapply Rle_trans; [apply CO|apply SQ, Ht]|].
  destruct (has_limit (fun t => qy (f t)) (fun t => qy (f' t)) C mu C0 Mp (fun t Ht => proj1 (proj2 (proj2 (D t Ht))))) as (l2 & L2); [intros t Ht; apply abs_le_sq; [apply CE|]; eapply Rle_trans; [apply CO|apply SQ, Ht]|].
  destruct (has_limit (fun t => qz (f t)) (fun t => qz (f' t)) C mu C0 Mp (fun t Ht => proj2 (proj2 (proj2 (D t Ht))))) as (l3 & L3); [intros t Ht; apply abs_le_sq; [apply CE|]; eapply Rle_trans; [apply CO|apply SQ, Ht]|].
  exists (mkq l0 l1 l2 l3). intros t Ht. assert (A0 := abs_sq _ _ (L0 t Ht)). assert (A1 := abs_sq _ _ (L1 t Ht)). assert (A2 := abs_sq _ _ (L2 t Ht)). assert (A3 := abs_sq _ _ (L3 t Ht)). cbv beta in *. rewrite Rmult_assoc. set (e := C / mu * exp (- mu * t)) in *. assert (e0 : 0 <= e) by (eapply Rle_trans; [apply Rabs_pos|apply (L1 t Ht)]).
  apply Rsqr_incr_0; [|apply NP|lra]. unfold Rsqr. rewrite normq_sq. clearbody e. clear -A0 A1 A2 A3. revert A0 A1 A2 A3. generalize (f t). intros [u0 u1 u2 u3]. vunfoldg. cbn [qw qx qy qz]. rnumg. lra.
Qed.
Lemma nothing x C lam : 0 <= C -> 0 < lam -> (forall t, 0 <= t -> x <= C * exp (- lam * t)) -> x <= 0.
Proof. intros C0 L H. destruct (Rle_dec x 0) as [X|X]; [exact X|]. exfalso. destruct (fades_late C lam (x / 2) C0 L ltac:(lra)) as (T & T0 & HT). assert (A := H T T0). assert (B := HT T ltac:(lra)). lra. Qed.
