(** * Convergence of the tracking law: a strict Lyapunov function *)
From Coq Require Import Reals Lra Psatz Lia.
From Coquelicot Require Import Coquelicot.
From Verif Require Import Num P_slew.
Local Open Scope R_scope.

(** a continuous function that starts below c and later does not, meets c for a first time *)
Lemma first_time (g : R -> R) c t : (forall u, 0 <= u <= t -> continuity_pt g u) -> 0 <= t -> g 0 < c -> c <= g t ->
  exists t1, 0 <= t1 <= t /\ c <= g t1 /\ forall u, 0 <= u < t1 -> g u < c.
Proof.
  intros Hc Ht H0 H1. set (E := fun x => 0 <= x <= t /\ forall u, 0 <= u <= x -> g u < c).
  assert (E0 : E 0) by (split; [lra|]; intros u Hu; replace u with 0 by lra; exact H0).
  destruct (completeness E) as [m [UB LUB]]; [exists t; intros x [Hx _]; lra|exists 0; exact E0|].
  assert (M0 : 0 <= m) by (apply UB, E0). assert (MT : m <= t) by (apply LUB; intros x [Hx _]; lra).
  assert (BE : forall u, 0 <= u < m -> g u < c).
  { intros u Hu. destruct (Rlt_dec (g u) c) as [L|N]; [exact L|]. exfalso. assert (m <= u); [|lra]. apply LUB. intros x [Hx Hg]. destruct (Rle_dec x u) as [|X]; [assumption|]. exfalso. apply N, Hg. lra. }
  exists m. split; [lra|]. split; [|exact BE]. destruct (Rle_dec c (g m)) as [|N]; [assumption|]. exfalso.
  assert (Lm : g m < c) by lra. destruct (Hc m ltac:(lra) (c - g m) ltac:(lra)) as (d & Hd & HD). cbn [dist R_met] in HD. unfold R_dist in HD.
  assert (NEAR : forall u, Rabs (u - m) < d -> g u < c).
  { intros u Hu. destruct (Req_dec u m) as [->|NE]; [exact Lm|]. assert (K := HD u (conj (conj I (not_eq_sym NE)) Hu)). apply Rabs_def2 in K. lra. }
  assert (m < t) by (destruct (Req_dec m t) as [->|]; lra).
  assert (m + Rmin (d / 2) (t - m) <= m); [|assert (0 < Rmin (d / 2) (t - m)) by (apply Rmin_pos; lra); lra].
  assert (A1 := Rmin_l (d / 2) (t - m)). assert (A2 := Rmin_r (d / 2) (t - m)). assert (A3 : 0 < Rmin (d / 2) (t - m)) by (apply Rmin_pos; lra).
  apply UB. split; [lra|]. intros u Hu. destruct (Rlt_dec u m) as [L|N2]; [apply BE; lra|]. apply NEAR. rewrite Rabs_right; lra.
Qed.

(** constants for the gains alpha, gamma and a distance delta from the antipode *)
Definition cv_eps (al ga : R) : R := Rmin (Rmin al (1 / 2)) (ga * al / (al + ga ^ 2)).
Definition cv_rate (al ga de : R) : R := Rmin (ga / 2) (cv_eps al ga * de / 6).
Lemma cv_eps_spec al ga : 0 < al -> 0 < ga -> let e := cv_eps al ga in 0 < e /\ e <= al /\ e <= 1 / 2 /\ e * (al + ga ^ 2) <= ga * al.
Proof.
  intros A G e. assert (G2 := pow2_ge_0 ga). assert (D : 0 < al + ga ^ 2) by lra. assert (Q : 0 < ga * al / (al + ga ^ 2)) by (apply Rdiv_lt_0_compat; [apply Rmult_lt_0_compat; assumption|exact D]).
  unfold e, cv_eps. assert (M1 := Rmin_l (Rmin al (1 / 2)) (ga * al / (al + ga ^ 2))). assert (M2 := Rmin_r (Rmin al (1 / 2)) (ga * al / (al + ga ^ 2))).
  assert (M3 := Rmin_l al (1 / 2)). assert (M4 := Rmin_r al (1 / 2)). set (m := Rmin (Rmin al (1 / 2)) (ga * al / (al + ga ^ 2))) in *.
  split; [unfold m; repeat apply Rmin_pos; lra|]. split; [lra|]. split; [lra|].
  apply (Rmult_le_compat_r (al + ga ^ 2)) in M2; [|lra]. replace (ga * al / (al + ga ^ 2) * (al + ga ^ 2)) with (ga * al) in M2 by (field; lra). exact M2.
Qed.
Lemma cv_rate_spec al ga de : 0 < al -> 0 < ga -> 0 < de -> 0 < cv_rate al ga de.
Proof. intros A G D. destruct (cv_eps_spec al ga A G) as (E & _). unfold cv_rate. apply Rmin_pos; [lra|]. assert (0 < cv_eps al ga * de) by (apply Rmult_lt_0_compat; assumption). lra. Qed.
(** the pointwise inequality: W' <= - rate W *)
Lemma cv_point al ga de x n r : 0 < al -> 0 < ga -> 0 < de -> -1 + de <= x <= 1 -> 0 <= n -> r ^ 2 <= (1 - x ^ 2) * n ->
  let e := cv_eps al ga in
  al * (1 - x) + n / 4 <= 2 * al * (1 - x) + n / 2 + e * r <= 3 * al * (1 - x) + n /\
  - ga * n + e * (x * n / 2 - al * (1 - x ^ 2) - ga * r) <= - cv_rate al ga de * (2 * al * (1 - x) + n / 2 + e * r).
Proof.
  intros A G D Hx Hn Hr e. destruct (cv_eps_spec al ga A G) as (E0 & E1 & E2 & E3). fold e in E0, E1, E2, E3.
  set (p := 1 - x ^ 2) in *. assert (P0 : 0 <= p) by (unfold p; nra). assert (P2 : p <= 2 * (1 - x)) by (unfold p; nra). assert (PD : de * (1 - x) <= p) by (unfold p; nra).
  assert (RA : Rabs r <= (p + n) / 2). { apply Rabs_le. assert (0 <= (p - n) ^ 2) by apply pow2_ge_0. split; nra. }
  assert (RB : ga * Rabs r <= al * p / 2 + ga ^ 2 * n / (2 * al)).
  { assert (X : 0 <= ga ^ 2 * n / (2 * al)) by (apply Rmult_le_pos; [nra|left; apply Rinv_0_lt_compat; lra]).
    set (y := ga ^ 2 * n / (2 * al)) in *. assert (Y : al * y = ga ^ 2 * n / 2) by (unfold y; field; lra). assert (N : 0 <= Rabs r) by apply Rabs_pos. assert (S : Rabs r ^ 2 = r ^ 2) by (apply pow2_abs).
    assert (0 <= al * p / 2) by nra. apply Rsqr_incr_0; [|nra|lra]. unfold Rsqr.
    assert (K : (ga * Rabs r) * (ga * Rabs r) <= ga ^ 2 * (p * n)) by (replace (ga * Rabs r * (ga * Rabs r)) with (ga ^ 2 * (Rabs r ^ 2)) by ring; rewrite S; apply Rmult_le_compat_l; [apply pow2_ge_0|exact Hr]).
    eapply Rle_trans; [exact K|]. replace (ga ^ 2 * (p * n)) with (2 * p * (al * y)) by (rewrite Y; field). assert (0 <= (al * p / 2 - y) ^ 2) by apply pow2_ge_0. nra. }
  apply Rabs_le_between in RA. assert (RR := Rle_abs r). assert (RR' := Rle_abs (- r)). rewrite Rabs_Ropp in RR'.
  assert (EU : e * r <= e * (1 - x) + e * n / 2) by nra. assert (EL : - (e * (1 - x) + e * n / 2) <= e * r) by nra.
  split; [split; nra|].
  assert (W : 2 * al * (1 - x) + n / 2 + e * r <= 3 * al * (1 - x) + n) by nra.
  assert (W0 : 0 <= 2 * al * (1 - x) + n / 2 + e * r) by nra.
  assert (L1 := Rmin_l (ga / 2) (e * de / 6)). assert (L2 := Rmin_r (ga / 2) (e * de / 6)). unfold cv_rate. fold e.
  assert (L0 : 0 < Rmin (ga / 2) (e * de / 6)) by (apply Rmin_pos; [lra|]; assert (0 < e * de) by (apply Rmult_lt_0_compat; assumption); lra).
  set (l := Rmin (ga / 2) (e * de / 6)) in *.
  assert (LW : l * (2 * al * (1 - x) + n / 2 + e * r) <= e * al * de / 2 * (1 - x) + ga / 2 * n).
  { eapply Rle_trans; [apply Rmult_le_compat_l; [lra|exact W]|]. assert (l * (3 * al * (1 - x)) <= e * de / 6 * (3 * al * (1 - x))) by (apply Rmult_le_compat_r; nra). assert (l * n <= ga / 2 * n) by (apply Rmult_le_compat_r; lra). lra. }
  assert (DW : - ga * n + e * (x * n / 2 - al * p - ga * r) <= - (ga / 2 * n) - e * al / 2 * p).
  { assert (T1 : e * (- (ga * r)) <= e * (al * p / 2 + ga ^ 2 * n / (2 * al))) by (apply Rmult_le_compat_l; nra).
    assert (T2 : e * (ga ^ 2 * n / (2 * al)) + e * n / 2 <= ga * n / 2).
    { apply (Rmult_le_reg_r (2 * al)); [lra|]. replace ((e * (ga ^ 2 * n / (2 * al)) + e * n / 2) * (2 * al)) with (e * (al + ga ^ 2) * n) by (field; lra). replace (ga * n / 2 * (2 * al)) with (ga * al * n) by field. apply Rmult_le_compat_r; assumption. }
    assert (T0 : x * n <= n) by nra. assert (T3 : e * (x * n) <= e * n) by (apply Rmult_le_compat_l; lra). lra. }
  assert (e * al * de / 2 * (1 - x) <= e * al / 2 * p). { replace (e * al * de / 2 * (1 - x)) with (e * al / 2 * (de * (1 - x))) by field. apply Rmult_le_compat_l; nra. }
  lra.
Qed.
Lemma cv_scalar al ga de (x n r : R -> R) : 0 < al -> 0 < ga -> 0 < de ->
  (forall t, 0 <= t -> -1 + de <= x t <= 1 /\ 0 <= n t /\ r t ^ 2 <= (1 - x t ^ 2) * n t) ->
  (forall t, 0 <= t -> derivable_pt_lim x t (- r t / 2)) -> (forall t, 0 <= t -> derivable_pt_lim n t (- 2 * al * r t - 2 * ga * n t)) ->
  (forall t, 0 <= t -> derivable_pt_lim r t (x t * n t / 2 - al * (1 - x t ^ 2) - ga * r t)) ->
  forall t, 0 <= t -> al * (1 - x t) + n t / 4 <= (3 * al * (1 - x 0) + n 0) * exp (- cv_rate al ga de * t).
Proof.
  intros A G D B DX DN DR t Ht. set (l := cv_rate al ga de). set (e := cv_eps al ga).
  set (W := fun t => 2 * al * (1 - x t) + n t / 2 + e * r t).
  assert (H := decreasing_from (fun t => W t * exp (l * t)) (fun t => ((- ga * n t + e * (x t * n t / 2 - al * (1 - x t ^ 2) - ga * r t)) + l * W t) * exp (l * t)) 0).
  assert (P : forall t, 0 <= t -> _) by (intros u Hu; destruct (B u Hu) as (B1 & B2 & B3); exact (cv_point al ga de (x u) (n u) (r u) A G D B1 B2 B3)). cbv zeta in P. fold l e in P.
  assert (K : W t * exp (l * t) <= W 0 * exp (l * 0)).
  { apply H; [| |exact Ht].
    - intros u Hu. assert (X := proj2 (is_derive_Reals _ _ _) (DX u Hu)). assert (N := proj2 (is_derive_Reals _ _ _) (DN u Hu)). assert (R' := proj2 (is_derive_Reals _ _ _) (DR u Hu)).
      unfold W. auto_derive; [split; [eexists; exact X|split; [eexists; exact N|split; [eexists; exact R'|exact I]]]|].
      replace (Derive (fun y => x y) u) with (- r u / 2) by (symmetry; apply is_derive_unique; exact X).
      replace (Derive (fun y => n y) u) with (- 2 * al * r u - 2 * ga * n u) by (symmetry; apply is_derive_unique; exact N).
      replace (Derive (fun y => r y) u) with (x u * n u / 2 - al * (1 - x u ^ 2) - ga * r u) by (symmetry; apply is_derive_unique; exact R'). field.
    - intros u Hu. destruct (P u Hu) as [_ P2]. fold (W u) in P2. assert (E := exp_pos (l * u)). assert ((- ga * n u + e * (x u * n u / 2 - al * (1 - x u ^ 2) - ga * r u) + l * W u) <= 0) by lra. nra. }
  rewrite Rmult_0_r, exp_0, Rmult_1_r in K. destruct (P t Ht) as [[P1 _] _]. fold (W t) in P1. destruct (P 0 (Rle_refl 0)) as [[_ P0] _]. fold (W 0) in P0.
  assert (E := exp_pos (l * t)). replace (- l * t) with (- (l * t)) by ring. rewrite exp_Ropp. apply (Rmult_le_reg_r (exp (l * t))); [exact E|]. rewrite Rmult_assoc, Rinv_l, Rmult_1_r by lra. 
  eapply Rle_trans; [apply Rmult_le_compat_r; [lra|exact P1]|]. lra.
Qed.
Lemma falls (f df : R -> R) b : 0 < b -> (forall t, 0 <= t < b -> derivable_pt_lim f t (df t)) -> (forall t, 0 <= t <= b -> continuity_pt f t) -> (forall t, df t <= 0) -> f b <= f 0.
Proof.
  intros B D C N. destruct (MVT_gen f 0 b df) as (c & Hc & E).
  - intros x Hx. rewrite Rmin_left, Rmax_right in Hx by lra. apply is_derive_Reals, D. lra.
  - intros x Hx. rewrite Rmin_left, Rmax_right in Hx by lra. apply C. lra.
  - assert (H := N c). assert (df c * (b - 0) <= 0) by nra. lra.
Qed.
