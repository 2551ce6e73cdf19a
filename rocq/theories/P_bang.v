(** * A body-fixed magnetic moment in a constant field: a compass needle *)
From Coq Require Import Reals ZArith List Bool Arith Lra Psatz Lia.
From Coquelicot Require Import Coquelicot.
From Verif Require Import Num Vec M_vector M_quaternion M_struct M_dyn M_ctrl S_rot S_dyn P_quat P_struct P_wheel P_dyn P_dyn2 P_ctrl2 P_tot3 P_orb3 P_samp P_detum Props_detum.
From Verif Require P_exist3 Props_samp.
Import ListNotations.
Local Open Scope R_scope.

(** wheels at rest, the moment M fixed in the body, the field B0 fixed in space *)
Definition compass (sat : Satellite) (M B0 : v3) (F : R -> v3) (accl : R -> list R) (y : R -> SVec) : Prop :=
  forall t, 0 <= t -> deriv_sv y t (derivative sat (y t) (F t) (cross3 M (sandwich (v_att (y t)) B0)) zero3 zero3 (accl t)).
Definition energy_in (sat : Satellite) (M B0 : v3) (v : SVec) : R := dot3 (v_rate v) (mv (s_total_moment sat) (v_rate v)) / 2 - dot3 M (sandwich (v_att v) B0).

Lemma const_from (f : R -> R) : (forall t, 0 <= t -> derivable_pt_lim f t 0) -> forall t, 0 <= t -> f t = f 0.
Proof.
  intros D t Ht. apply Rle_antisym.
  - apply (le_of_deriv f (fun _ => 0) 0 t Ht); intros u Hu; [apply D; lra|lra].
  - assert (X := le_of_deriv (fun u => -1 * f u) (fun u => -1 * 0) 0 t Ht (fun u Hu => d_lin _ _ _ (-1) (D u (proj1 Hu))) ltac:(intros; lra)). cbv beta in X. lra.
Qed.
Lemma sym_dot (m : m3) (u v : v3) : symm m -> dot3 u (mv m v) = dot3 v (mv m u).
Proof. intros Y. unfold symm in Y. rewrite <- Y at 1. clear Y. destruct m as [[a1 a2 a3] [b1 b2 b3] [c1 c2 c3]], u as [u1 u2 u3], v as [p q r]. vunfoldg. cbn [x3 y3 z3 row1 row2 row3]. rnumg. ring. Qed.
Lemma compass_field sat M B0 F accl y t : compass sat M B0 F accl y -> 0 <= t ->
  deriv3 (fun u => sandwich (v_att (y u)) B0) t (cross3 (sandwich (v_att (y t)) B0) (v_rate (y t))).
Proof.
  intros C Ht. destruct (C t Ht) as (_ & _ & Q & _ & _). cbn [derivative v_att] in Q. eapply d3_eq; [exact (d3_sandwich _ (fun _ => B0) t zero3 _ Q (d3_const B0 t))|]. cbv beta.
  assert (Z : sandwich (v_att (y t)) zero3 = zero3). { generalize (v_att (y t)). clear. intros [a b c d]. unfold sandwich, product, conjugate. vunfoldg. cbn [qw qx qy qz x3 y3 z3]. rnumg. apply mk3_c; ring. }
  rewrite Z. generalize (sandwich (v_att (y t)) B0) (v_rate (y t)). clear. vring.
Qed.
Lemma compass_spin sat M B0 F accl y t : det3 (s_total_moment sat) <> 0 -> compass sat M B0 F accl y -> 0 <= t ->
  let w' := mv (s_inv_tot sat) (sub3 (sub3 (cross3 M (sandwich (v_att (y t)) B0)) zero3) (cross3 (v_rate (y t)) (add3 zero3 (mv (s_total_moment sat) (v_rate (y t)))))) in
  let h' := sub3 (cross3 M (sandwich (v_att (y t)) B0)) (cross3 (v_rate (y t)) (mv (s_total_moment sat) (v_rate (y t)))) in
  deriv3 (fun u => v_rate (y u)) t w' /\ mv (s_total_moment sat) w' = h' /\ deriv3 (fun u => mv (s_total_moment sat) (v_rate (y u))) t h'.
Proof.
  intros DJ C Ht w' h'. destruct (C t Ht) as (_ & _ & _ & D & _). cbn [derivative v_rate] in D. assert (E : mv (s_total_moment sat) w' = h').
  { unfold w', s_inv_tot. rewrite mv_inv3 by exact DJ. unfold h'. generalize (mv (s_total_moment sat) (v_rate (y t))) (v_rate (y t)) (sandwich (v_att (y t)) B0). clear. vring. }
  split; [exact D|]. split; [exact E|]. rewrite <- E. apply (d3_mv _ _ t _ D).
Qed.
(** the strength of the field seen, and the energy, are constant *)
Lemma compass_strength sat M B0 F accl y t : compass sat M B0 F accl y -> 0 <= t ->
  let b u := sandwich (v_att (y u)) B0 in dot3 (b t) (b t) = dot3 (b 0) (b 0).
Proof.
  intros C Ht b. apply (const_from (fun u => dot3 (b u) (b u))); [|exact Ht]. intros u Hu. assert (D := compass_field _ _ _ _ _ _ u C Hu). eapply d_eq; [exact (d_dot3 _ _ u _ _ D D)|].
  cbv beta. generalize (sandwich (v_att (y u)) B0) (v_rate (y u)). clear. vring.
Qed.
Lemma compass_energy sat M B0 F accl y t : det3 (s_total_moment sat) <> 0 -> compass sat M B0 F accl y -> 0 <= t -> energy_in sat M B0 (y t) = energy_in sat M B0 (y 0).
Proof.
  intros DJ C Ht. apply (const_from (fun u => energy_in sat M B0 (y u))); [|exact Ht]. intros u Hu. destruct (compass_spin sat M B0 F accl y u DJ C Hu) as (D1 & E & D2). assert (D3 := compass_field _ _ _ _ _ _ u C Hu).
  set (w' := mv (s_inv_tot sat) _) in *. set (h' := sub3 (cross3 M _) _) in *. unfold energy_in.
  eapply d_eq; [exact (d_minus _ _ u _ _ (d_mult _ _ u _ _ (d_dot3 _ _ u _ _ D1 D2) (d_const (/ 2) u)) (d_dot3 _ _ u _ _ (d3_const M u) D3))|]. cbv beta.
  rewrite (sym_dot _ w' (v_rate (y u)) (total_symm sat)), E. unfold h'. generalize (mv (s_total_moment sat) (v_rate (y u))) (v_rate (y u)) (sandwich (v_att (y u)) B0). clear. intros [h1 h2 h3] [w1 w2 w3] [b1 b2 b3]. destruct M as [m1 m2 m3]. vunfoldg. cbn [x3 y3 z3]. rnumg. field.
Qed.
(** growth of a function whose derivative stays above a positive number *)
Lemma grows (f f' : R -> R) a k s : a <= s -> (forall u, a <= u -> derivable_pt_lim f u (f' u)) -> (forall u, a <= u -> k <= f' u) -> f a + k * (s - a) <= f s.
Proof.
  intros L D K. assert (X := le_of_deriv (fun u => k * u - f u) (fun u => k * 1 - f' u) a s L (fun u Hu => d_minus _ _ u _ _ (d_lin _ _ _ k (d_id u)) (D u (proj1 Hu))) ltac:(intros u Hu; specialize (K u (proj1 Hu)); cbv beta; lra)). cbv beta in X. lra.
Qed.
(** with w small the torque hardly changes, and drives the momentum *)
Lemma drive (M b w h : v3) E n k m B e : norm3 w <= e -> norm3 h <= k * e -> norm3 M = m -> norm3 b = B -> 0 <= e <= 1 -> 0 <= k -> dot3 w h / 2 - dot3 M b = E ->
  let f := cross3 M b in let f' := cross3 M (cross3 b w) in let h' := sub3 f (cross3 w h) in
  n = m * m * (B * B) - E * E -> n - ((Rabs E + 2 * (m * B)) * k + k * k) * (e * e) <= dot3 h' f + dot3 h f' /\ Rabs (dot3 h f) <= k * e * (m * B).
Proof.
  intros Hw Hh HM HB [He0 He1] Hk HE f f' h' En. assert (m0 : 0 <= m) by (rewrite <- HM; apply norm3_pos). assert (B0 : 0 <= B) by (rewrite <- HB; apply norm3_pos). assert (w0 := norm3_pos w). assert (h0 := norm3_pos h).
  assert (F1 : norm3 f <= m * B) by (unfold f; eapply Rle_trans; [apply cross_norm|rewrite HM, HB; lra]). assert (f0 := norm3_pos f).
  assert (F2 : norm3 f' <= m * B * e). { unfold f'. eapply Rle_trans; [apply cross_norm|]. rewrite HM. rewrite Rmult_assoc. apply Rmult_le_compat_l; [exact m0|]. eapply Rle_trans; [apply cross_norm|]. rewrite HB. apply Rmult_le_compat_l; assumption. } assert (f0' := norm3_pos f').
  assert (KE : 0 <= k * e) by (apply Rmult_le_pos; assumption).
  assert (A1 : Rabs (dot3 h f) <= k * e * (m * B)). { eapply Rle_trans; [apply dot_norm|]. apply Rmult_le_compat; assumption. }
  assert (A2 : Rabs (dot3 h f') <= k * e * (m * B * e)). { eapply Rle_trans; [apply dot_norm|]. apply Rmult_le_compat; assumption. }
  assert (A3 : Rabs (dot3 (cross3 w h) f) <= e * (k * e) * (m * B)). { eapply Rle_trans; [apply dot_norm|]. apply Rmult_le_compat; [apply norm3_pos|exact f0| |exact F1]. eapply Rle_trans; [apply cross_norm|]. apply Rmult_le_compat; assumption. }
  assert (A4 : Rabs (dot3 w h) <= e * (k * e)). { eapply Rle_trans; [apply dot_norm|]. apply Rmult_le_compat; assumption. }
  assert (FF : dot3 f f = m * m * (B * B) - dot3 M b * dot3 M b). { assert (X := P_quat.cauchy3 M b). fold f in X. rewrite <- !P_quat.norm3_sq, HM, HB in X. rewrite P_quat.norm3_sq in X. lra. }
  split; [|exact A1]. assert (EQ : dot3 h' f = dot3 f f - dot3 (cross3 w h) f) by (unfold h'; generalize f (cross3 w h); clear; vring). rewrite EQ, FF.
  replace (dot3 M b) with (dot3 w h / 2 - E) by lra. set (x := dot3 w h) in *. apply Rabs_le_between in A2. apply Rabs_le_between in A3.
  assert (X2 : x * x <= (e * (k * e)) * (e * (k * e))). { replace (x * x) with (Rabs x * Rabs x) by (rewrite <- Rabs_mult; apply Rabs_pos_eq, Rle_0_sqr). apply Rmult_le_compat; try apply Rabs_pos; assumption. }
  assert (XE : x * E <= Rabs E * (k * (e * e))). { eapply Rle_trans; [apply Rle_abs|]. rewrite Rabs_mult, Rmult_comm. apply Rmult_le_compat_l; [apply Rabs_pos|]. lra. }
  assert (E4 : (e * (k * e)) * (e * (k * e)) <= k * k * (e * e)). { replace ((e * (k * e)) * (e * (k * e))) with (k * k * (e * e) * (e * e)) by ring. rewrite <- (Rmult_1_r (k * k * (e * e))) at 2. apply Rmult_le_compat_l; [|nra]. apply Rmult_le_pos; apply Rle_0_sqr. }
  assert (XL : - (Rabs E * (k * (e * e))) <= x * E). { assert (Y := Rle_abs (- (x * E))). rewrite Rabs_Ropp, Rabs_mult in Y. assert (Rabs x * Rabs E <= e * (k * e) * Rabs E) by (apply Rmult_le_compat_r; [apply Rabs_pos|exact A4]). lra. }
  assert (P := Rle_0_sqr x). unfold Rsqr in P. assert (KK : 0 <= k * k * (e * e)) by (apply Rmult_le_pos; apply Rle_0_sqr). lra.
Qed.
Lemma compass_restless sat (M B0 : v3) F accl y : det3 (s_total_moment sat) <> 0 -> compass sat M B0 F accl y ->
  let b := sandwich (v_att (y 0)) B0 in let E := energy_in sat M B0 (y 0) in E * E <> dot3 M M * dot3 b b ->
  exists eps, 0 < eps /\ forall T, exists t, T <= t /\ eps < norm3 (v_rate (y t)).
Proof.
  intros DJ C b E NE. destruct (Props_samp.mv_bounded (s_total_moment sat)) as (k & K0 & K). set (m := norm3 M). set (B := norm3 b).
  assert (MM : m * m = dot3 M M) by apply P_quat.norm3_sq. assert (BB : B * B = dot3 b b) by apply P_quat.norm3_sq. set (n := m * m * (B * B) - E * E).
  set (h := fun u => mv (s_total_moment sat) (v_rate (y u))). set (bb := fun u => sandwich (v_att (y u)) B0).
  assert (ST : forall t, 0 <= t -> norm3 (bb t) = B). { intros t Ht. unfold B, norm3. f_equal. apply (compass_strength sat M B0 F accl y t C Ht). }
  assert (EN : forall t, 0 <= t -> dot3 (v_rate (y t)) (h t) / 2 - dot3 M (bb t) = E) by (intros t Ht; apply (compass_energy sat M B0 F accl y t DJ C Ht)).
  set (W := (Rabs E + 2 * (m * B)) * k + k * k). assert (m0 : 0 <= m) by apply norm3_pos. assert (b0 : 0 <= B) by apply norm3_pos. assert (MB : 0 <= m * B) by (apply Rmult_le_pos; assumption).
  assert (W0 : 0 <= W) by (unfold W; assert (0 <= Rabs E) by apply Rabs_pos; assert (0 <= (Rabs E + 2 * (m * B)) * k) by (apply Rmult_le_pos; lra); assert (0 <= k * k) by apply Rle_0_sqr; lra).
  assert (N0 : n <> 0) by (unfold n; rewrite MM, BB; lra).
  assert (EX : exists e, 0 < e <= 1 /\ W * (e * e) < Rabs n). { assert (PN : 0 < Rabs n) by (apply Rabs_pos_lt, N0). exists (Rmin 1 (Rabs n / (W + 1))). assert (P : 0 < Rabs n / (W + 1)) by (apply Rdiv_lt_0_compat; lra). assert (P1 := Rmin_l 1 (Rabs n / (W + 1))). assert (P2 := Rmin_r 1 (Rabs n / (W + 1))). assert (P3 : 0 < Rmin 1 (Rabs n / (W + 1))) by (apply Rmin_pos; lra). set (e := Rmin 1 _) in *. split; [lra|].
    assert (X : (W + 1) * e <= Rabs n). { apply Rmult_le_compat_l with (r := W + 1) in P2; [|lra]. replace ((W + 1) * (Rabs n / (W + 1))) with (Rabs n) in P2 by (field; lra). exact P2. }
    assert (W * (e * e) <= W * e) by (apply Rmult_le_compat_l; [exact W0|nra]). lra. }
  destruct EX as (e & [e0 e1] & HeW). exists e. split; [exact e0|]. intros T. apply Classical_Prop.NNPP. intros NX.
  set (T0 := Rmax T 0). assert (T1 : T <= T0) by apply Rmax_l. assert (T2 : 0 <= T0) by apply Rmax_r.
  assert (SM : forall t, T0 <= t -> norm3 (v_rate (y t)) <= e). { intros t Ht. apply Rnot_lt_le. intros L. apply NX. exists t. split; [lra|exact L]. } clear NX.
  set (f := fun u => cross3 M (bb u)). set (g' := fun u => dot3 (sub3 (f u) (cross3 (v_rate (y u)) (h u))) (f u) + dot3 (h u) (cross3 M (cross3 (bb u) (v_rate (y u))))).
  assert (DR : forall t, T0 <= t -> n - W * (e * e) <= g' t /\ Rabs (dot3 (h t) (f t)) <= k * e * (m * B)).
  { intros t Ht. assert (S := SM t Ht). apply (drive M (bb t) (v_rate (y t)) (h t) E n k m B e S); [|reflexivity|apply ST; lra|lra|exact K0|apply EN; lra|reflexivity]. eapply Rle_trans; [apply K|]. apply Rmult_le_compat_l; assumption. }
  assert (DG : forall t, T0 <= t -> derivable_pt_lim (fun u => dot3 (h u) (f u)) t (g' t)).
  { intros t Ht. destruct (compass_spin sat M B0 F accl y t DJ C ltac:(lra)) as (_ & _ & D1). assert (D2 := compass_field sat M B0 F accl y t C ltac:(lra)).
    assert (D3 : deriv3 f t (cross3 M (cross3 (bb t) (v_rate (y t))))). { eapply d3_eq; [exact (P_exist3.d3_cross _ _ t _ _ (d3_const M t) D2)|]. cbv beta. fold (bb t). generalize (bb t) (cross3 (bb t) (v_rate (y t))). clear. vring. }
    exact (d_dot3 _ _ t _ _ D1 D3). }
  assert (NP : 0 < n). { destruct (Rlt_dec 0 n) as [L|L]; [exact L|exfalso]. destruct (DR T0 ltac:(lra)) as [_ _].
    assert (S := SM T0 (Rle_refl _)). assert (FF : 0 <= dot3 (f T0) (f T0)) by apply dot3_nonneg. assert (X := P_quat.cauchy3 M (bb T0)). fold (f T0) in X. rewrite <- !P_quat.norm3_sq, (ST T0 T2) in X. fold m in X. rewrite P_quat.norm3_sq in X. assert (Y := EN T0 T2).
    set (x := dot3 (v_rate (y T0)) (h T0)) in *. assert (A4 : Rabs x <= e * (k * e)). { unfold x. eapply Rle_trans; [apply dot_norm|]. apply Rmult_le_compat; [apply norm3_pos|apply norm3_pos|exact S|]. eapply Rle_trans; [apply K|]. apply Rmult_le_compat_l; assumption. }
    replace (dot3 M (bb T0)) with (x / 2 - E) in X by lra.
    assert (XE : x * E <= Rabs E * (k * (e * e))). { eapply Rle_trans; [apply Rle_abs|]. rewrite Rabs_mult, Rmult_comm. apply Rmult_le_compat_l; [apply Rabs_pos|]. lra. }
    assert (P := Rle_0_sqr x). unfold Rsqr in P. rewrite Rabs_left1 in HeW by lra. unfold W in HeW. assert (Z1 : 0 <= 2 * (m * B) * k * (e * e)) by (apply Rmult_le_pos; [apply Rmult_le_pos; lra|apply Rle_0_sqr]). assert (Z2 : 0 <= k * k * (e * e)) by (apply Rmult_le_pos; apply Rle_0_sqr).
    assert (FE : 0 <= n + x * E - x * x / 4) by (unfold n; lra). assert (Z3 : 0 <= Rabs E * (k * (e * e))) by (apply Rmult_le_pos; [apply Rabs_pos|apply Rmult_le_pos; [exact K0|apply Rle_0_sqr]]). lra. }
  rewrite (Rabs_pos_eq n) in HeW by lra. set (k0 := n - W * (e * e)) in *. assert (k1 : 0 < k0) by (unfold k0; lra). set (G := k * e * (m * B)) in *. set (s := T0 + (2 * G + 1) / k0).
  assert (G0 : 0 <= G) by (unfold G; apply Rmult_le_pos; [apply Rmult_le_pos; lra|exact MB]). assert (LS : T0 <= s) by (unfold s; assert (0 < (2 * G + 1) / k0) by (apply Rdiv_lt_0_compat; lra); lra).
  assert (X := grows _ g' T0 k0 s LS DG (fun u Hu => proj1 (DR u Hu))). cbv beta in X. replace (k0 * (s - T0)) with (2 * G + 1) in X by (unfold s; field; lra).
  destruct (DR T0 (Rle_refl _)) as [_ Q1]. destruct (DR s LS) as [_ Q2]. apply Rabs_le_between in Q1. apply Rabs_le_between in Q2. lra.
Qed.
