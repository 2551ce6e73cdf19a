(** * Lemmas: the position filter fed with fixes (4): all cycles; circular motions *)
From Coq Require Import Reals List Bool Lra Psatz Lia.
From Coquelicot Require Import Coquelicot.
From Verif Require Import Num Vec Mat6 M_vector M_env M_dyn M_obs S_rot S_dyn S_orb S_obs P_quat P_wheel P_tot2 P_tot3 P_dyn P_orb3 P_orb5 P_exist3 P_obs P_obs2 P_posf Props_dyn Props_obs P_gps1 P_gps2 P_gps3.
Local Open Scope R_scope.

Definition fixed (h : store) (t : R) (Y : V6) (f : PosF) : PosF := fst (pf_update h (u1 Y) (u2 Y) (pf_propagate t f)).
Lemma prop_cov t f : symm6 (p_P f) -> psd6 (p_P f) -> symm6 (p_P (pf_propagate t f)) /\ psd6 (p_P (pf_propagate t f)).
Proof. intros S Q. exact (pf_step_cov f (PProp t) S Q). Qed.
Lemma fine_cycle h t Y f : cov_fine (p_P f) -> 6500000 <= norm3 (u1 (p_x f)) -> 0.5 <= t <= 1 -> cov_fine (p_P (fixed h t Y f)) /\ loewner (p_P (fixed h t Y f)) pf_R.
Proof.
  intros (S & Q & AB & UP) HP HT. destruct (prop_cov t f S Q) as [S1 Q1]. assert (AL := above_propagate t f AB HP HT). unfold fixed.
  destruct (pf_step_cov (pf_propagate t f) (PUpd h (u1 Y) (u2 Y)) S1 Q1) as [S2 Q2]. cbn [pf_step] in S2, Q2.
  destruct (C46_minimum_variance h (u1 Y) (u2 Y) (pf_propagate t f) S1 Q1) as (_ & _ & _ & _ & _ & LR & _). split; [|exact LR].
  split; [exact S2|]. split; [exact Q2|]. split; [apply above_update; assumption|]. intros x. eapply Rle_trans; [apply LR|]. unfold pf_R. rewrite diag6_form. assert (Z := dot3_nonneg (u2 x)). unfold v_sigma. assert (0 <= (1 - 0.52038 ^ 2) * dot3 (u2 x) (u2 x)) by (apply Rmult_le_pos; lra). lra.
Qed.
Lemma inside_cycle h t Y f X X' c : cov_fine (p_P f) -> 0 <= c -> 6500000 <= norm3 (u1 (p_x f)) -> 0.5 <= t <= 1 -> inside (p_P f) c (sub6 (p_x f) X) ->
  let d := sub6 X' (step6 t X) in let n := sub6 Y X' in
  inside (p_P (fixed h t Y f)) (0.998 * c + (1.5 * norm3 (u1 d) + 22 * norm3 (u2 d) + 0.1 * norm3 (u1 n) + 2 * norm3 (u2 n))) (sub6 (p_x (fixed h t Y f)) X').
Proof.
  intros CF C0 HP HT IN d n. assert (IP := inside_propagate t f X X' c CF C0 HP HT IN). cbv zeta in IP. fold d in IP. destruct CF as (S & Q & AB & UP). destruct (prop_cov t f S Q) as [S1 Q1]. assert (AL := above_propagate t f AB HP HT).
  assert (D1 := norm3_pos (u1 d)). assert (D2 := norm3_pos (u2 d)).
  set (c1 := 1.00068 * c + (1.5 * norm3 (u1 d) + 22 * norm3 (u2 d))) in *. assert (C1 : 0 <= c1) by (unfold c1; lra).
  assert (IU := inside_update h Y (pf_propagate t f) X' c1 S1 Q1 AL C1 IP). cbv zeta in IU. fold n in IU. eapply inside_le; [|exact IU]. unfold c1. lra.
Qed.
Fixpoint fedV (h : nat -> store) (dt : nat -> R) (Y : nat -> V6) (f : PosF) (k : nat) : PosF := match k with O => f | S k => fixed (h k) (dt k) (Y (S k)) (fedV h dt Y f k) end.
Definition level (E0 W : R) (k : nat) : R := 0.998 ^ k * E0 + (1 - 0.998 ^ k) * (500 * W).
Lemma level_rng E0 W k : 0 <= E0 <= 9000 -> 0 <= W <= 18 -> 0 <= level E0 W k <= 9000.
Proof.
  intros A B. unfold level. assert (P : 0 < 0.998 ^ k) by (apply pow_lt; lra). assert (P1 : 0.998 ^ k <= 1) by (rewrite <- (pow1 k); apply pow_incr; lra). set (z := 0.998 ^ k) in *.
  assert (0 <= z * E0 <= z * 9000) by (split; [apply Rmult_le_pos; lra|apply Rmult_le_compat_l; lra]). assert (0 <= (1 - z) * (500 * W) <= (1 - z) * 9000) by (split; [apply Rmult_le_pos; lra|apply Rmult_le_compat_l; lra]). lra.
Qed.
Lemma start_inside e E0 : sqrt (dot6 e e) <= E0 -> inside id6 E0 e.
Proof.
  intros H x. unfold qf. rewrite mv6_id. assert (C : Rabs (dot6 x e) <= sqrt (dot6 x x) * sqrt (dot6 e e)).
  { assert (X0 : forall z, 0 <= dot6 z z) by (intros z; unfold dot6; assert (A := dot3_nonneg (u1 z)); assert (B := dot3_nonneg (u2 z)); lra).
    rewrite <- sqrt_mult by apply X0. rewrite <- sqrt_Rsqr_abs. apply sqrt_le_1_alt. unfold Rsqr, dot6.
    assert (L := dots (u1 x) (u1 e)). assert (M := dots (u2 x) (u2 e)). rewrite <- !norm3_dot. assert (N1 := norm3_pos (u1 x)). assert (N2 := norm3_pos (u2 x)). assert (N3 := norm3_pos (u1 e)). assert (N4 := norm3_pos (u2 e)).
    set (a := norm3 (u1 x)) in *. set (b := norm3 (u2 x)) in *. set (c := norm3 (u1 e)) in *. set (d := norm3 (u2 e)) in *. set (s := dot3 (u1 x) (u1 e) + dot3 (u2 x) (u2 e)).
    assert (SS : - (a * c + b * d) <= s <= a * c + b * d) by (unfold s; lra). assert (P1 : 0 <= a * c) by (apply Rmult_le_pos; lra). assert (P2 : 0 <= b * d) by (apply Rmult_le_pos; lra).
    assert (Q1 : s * s <= (a * c + b * d) * (a * c + b * d)) by nra. assert (Q2 := Rle_0_sqr (a * d - b * c)). unfold Rsqr in Q2. lra. }
  eapply Rle_trans; [exact C|]. rewrite Rmult_comm. apply Rmult_le_compat_r; [apply sqrt_pos|exact H].
Qed.
Lemma norm_gap (a b : v3) m : norm3 b - m <= norm3 a \/ m < norm3 (sub3 a b).
Proof.
  destruct (Rle_or_lt (norm3 (sub3 a b)) m) as [H|H]; [left|right; exact H]. assert (T := norm3_triangle a (scale3 (-1) (sub3 a b))). rewrite norm3_scal in T. replace (Rabs (-1)) with 1 in T by (rewrite Rabs_left; lra).
  replace (add3 a (scale3 (-1) (sub3 a b))) with b in T by (clear; vring). lra.
Qed.
Lemma fed_level s h dt Y X E0 W : (forall k, 0.5 <= dt k <= 1) -> (forall k, 6600000 <= norm3 (u1 (X k))) ->
  (let e := sub6 (p_x (pf_init s)) (X O) in sqrt (dot6 e e) <= E0) -> E0 <= 9000 -> W <= 18 ->
  (forall k, let d := sub6 (X (S k)) (step6 (dt k) (X k)) in let n := sub6 (Y (S k)) (X (S k)) in 1.5 * norm3 (u1 d) + 22 * norm3 (u2 d) + 0.1 * norm3 (u1 n) + 2 * norm3 (u2 n) <= W) ->
  forall k, let f := fedV h dt Y (pf_init s) k in cov_fine (p_P f) /\ inside (p_P f) (level E0 W k) (sub6 (p_x f) (X k)) /\ 6500000 <= norm3 (u1 (p_x f)) /\ (k <> O -> loewner (p_P f) pf_R).
Proof.
  intros HT HX HE E9 W18 HW. cbv zeta in HE. assert (E00 : 0 <= E0) by (eapply Rle_trans; [apply sqrt_pos|exact HE]).
  assert (W0 : 0 <= W). { assert (A := HW O). cbv zeta in A. eapply Rle_trans; [|exact A]. repeat apply Rplus_le_le_0_compat; (apply Rmult_le_pos; [lra|apply norm3_pos]). }
  assert (FAR : forall f k, cov_fine (p_P f) -> inside (p_P f) (level E0 W k) (sub6 (p_x f) (X k)) -> 6500000 <= norm3 (u1 (p_x f))).
  { intros f k CF IN. destruct (level_rng E0 W k ltac:(lra) ltac:(lra)) as [L0 L1]. assert (N : norm3 (u1 (sub6 (p_x f) (X k))) <= level E0 W k * 10.0598) by (apply (inside_first (p_P f)); try lra; [intros y; apply fine_first, CF|exact IN]).
    cbn [u1 sub6] in N. destruct (norm_gap (u1 (p_x f)) (u1 (X k)) 100000) as [G|G]; [assert (A := HX k); lra|]. lra. }
  induction k as [|k IH].
  - cbv zeta. cbn [fedV]. assert (CF : cov_fine (p_P (pf_init s))) by exact cov_start. assert (IN : inside (p_P (pf_init s)) (level E0 W 0) (sub6 (p_x (pf_init s)) (X 0%nat))).
    { unfold level. cbn [pow]. replace (1 * E0 + (1 - 1) * (500 * W)) with E0 by ring. apply start_inside. exact HE. }
    split; [exact CF|]. split; [exact IN|]. split; [apply (FAR _ O); assumption|]. intros H. congruence.
  - cbv zeta in IH. destruct IH as (CF & IN & FR & _). cbv zeta. cbn [fedV]. set (f := fedV h dt Y (pf_init s) k) in *. destruct (level_rng E0 W k ltac:(lra) ltac:(lra)) as [L0 L1].
    destruct (fine_cycle (h k) (dt k) (Y (S k)) f CF FR (HT k)) as [CF' LR]. split; [exact CF'|].
    assert (IN' : inside (p_P (fixed (h k) (dt k) (Y (S k)) f)) (level E0 W (S k)) (sub6 (p_x (fixed (h k) (dt k) (Y (S k)) f)) (X (S k)))).
    { assert (IC := inside_cycle (h k) (dt k) (Y (S k)) f (X k) (X (S k)) _ CF L0 FR (HT k) IN). cbv zeta in IC. eapply inside_le; [|exact IC]. assert (A := HW k). cbv zeta in A. unfold level in *. cbn [pow]. lra. }
    split; [exact IN'|]. split; [apply (FAR _ (S k)); assumption|]. intros _. exact LR.
Qed.
Lemma level_sizes P c e : cov_fine P -> 0 <= c -> inside P c e -> norm3 (u1 e) <= 10.06 * c /\ (loewner P pf_R -> norm3 (u2 e) <= 0.5204 * c).
Proof.
  intros CF C0 IN. split.
  - assert (N : norm3 (u1 e) <= c * 10.0598) by (apply (inside_first P); try lra; [intros y; apply fine_first, CF|exact IN]). lra.
  - intros LR. assert (N : norm3 (u2 e) <= c * 0.52038); [|lra]. apply (inside_second P); try lra; [|exact IN]. intros y. unfold qf. eapply Rle_trans; [apply LR|]. unfold pf_R. rewrite diag6_form. cbn [u1 u2].
    replace (dot3 (zero3 (T := R)) zero3) with 0 by (unfold dot3, zero3; cbn [x3 y3 z3]; rnumg; ring). unfold v_sigma. lra.
Qed.

(** ** circular motions of angular rate w *)
Definition circ (w : R) (p0 v0 : v3) (t : R) : V6 := mk6 (add3 (scale3 (cos (w * t)) p0) (scale3 (sin (w * t) / w) v0)) (add3 (scale3 (- (w * sin (w * t))) p0) (scale3 (cos (w * t)) v0)).
Lemma circ_deriv w p0 v0 t : w <> 0 -> deriv3 (fun t => u1 (circ w p0 v0 t)) t (u2 (circ w p0 v0 t)) /\ deriv3 (fun t => u2 (circ w p0 v0 t)) t (scale3 (- (w * w)) (u1 (circ w p0 v0 t))).
Proof.
  intros W. unfold circ. cbn [u1 u2]. destruct p0 as [x y z], v0 as [a b c]. unfold deriv3, add3, scale3. cbn [x3 y3 z3]. rnumg.
  split; (split; [|split]); apply is_derive_Reals; auto_derive; trivial; field; exact W.
Qed.
Lemma circ_size w p0 v0 t : w <> 0 -> dot3 p0 v0 = 0 -> dot3 v0 v0 = w * w * dot3 p0 p0 -> let z := circ w p0 v0 t in
  dot3 (u1 z) (u1 z) = dot3 p0 p0 /\ dot3 (u2 z) (u2 z) = dot3 v0 v0 /\ dot3 (u1 z) (u2 z) = 0.
Proof.
  intros W H1 H2. unfold circ. cbn [u1 u2]. assert (T := sin2_cos2 (w * t)). unfold Rsqr in T. set (c := cos (w * t)) in *. set (s := sin (w * t)) in *.
  assert (G : forall m n k l, dot3 (add3 (scale3 m p0) (scale3 n v0)) (add3 (scale3 k p0) (scale3 l v0)) = m * k * dot3 p0 p0 + (m * l + n * k) * dot3 p0 v0 + n * l * dot3 v0 v0) by (intros m n k l; clear; destruct p0 as [x y z], v0 as [v1 v2 v4]; unfold dot3, add3, scale3; cbn [x3 y3 z3]; rnumg; ring).
  cbv zeta. rewrite !G, H1, H2. repeat split.
  - replace (c * c * dot3 p0 p0 + (c * (s / w) + s / w * c) * 0 + s / w * (s / w) * (w * w * dot3 p0 p0)) with ((s * s + c * c) * dot3 p0 p0) by (field; exact W). rewrite T. ring.
  - replace (- (w * s) * - (w * s) * dot3 p0 p0 + (- (w * s) * c + c * - (w * s)) * 0 + c * c * (w * w * dot3 p0 p0)) with ((s * s + c * c) * (w * w * dot3 p0 p0)) by ring. rewrite T. ring.
  - field. exact W.
Qed.
Lemma circ_step w p0 v0 t dt : w <> 0 -> let z := circ w p0 v0 t in circ w p0 v0 (t + dt) =
  mk6 (add3 (scale3 (cos (w * dt)) (u1 z)) (scale3 (sin (w * dt) / w) (u2 z))) (add3 (scale3 (- (w * sin (w * dt))) (u1 z)) (scale3 (cos (w * dt)) (u2 z))).
Proof.
  intros W. cbv zeta. unfold circ. rewrite Rmult_plus_distr_l, cos_plus, sin_plus. cbn [u1 u2].
  set (c := cos (w * dt)). set (s := sin (w * dt)). set (c' := cos (w * t)). set (s' := sin (w * t)). clearbody c s c' s'.
  destruct p0 as [x y z], v0 as [a b d]. unfold add3, scale3. cbn [x3 y3 z3]. rnumg. f_equal; apply mk3_c; field; exact W.
Qed.
Lemma circ_off w p0 v0 t dt : w <> 0 -> let z := circ w p0 v0 t in sub6 (circ w p0 v0 (t + dt)) (step6 dt z) =
  mk6 (add3 (scale3 (cos (w * dt) - cA11 dt) (u1 z)) (scale3 (sin (w * dt) / w - cA12 dt) (u2 z))) (add3 (scale3 (- (w * sin (w * dt)) - cA21 dt) (u1 z)) (scale3 (cos (w * dt) - cA22 dt) (u2 z))).
Proof.
  intros W. cbv zeta. rewrite circ_step by exact W. cbv zeta. unfold step6. generalize (cA11 dt) (cA12 dt) (cA21 dt) (cA22 dt). intros a b c d. destruct (circ w p0 v0 t) as [[x y z] [x' y' z']]. unfold sub6, sub3, add3, scale3. cbn [u1 u2 x3 y3 z3]. rnumg. f_equal; apply mk3_c; ring.
Qed.
(** the real circular orbit is that motion *)
Lemma orbit_is_circ p v r len : 0 < r -> norm3 (p 0) = r -> dot3 (p 0) (v 0) = 0 -> norm3 (v 0) ^ 2 = earth_mu / r -> orbit_motion (fun t => attraction (p t)) len p v -> 0 <= len ->
  let w := sqrt (earth_mu / r ^ 3) in 0 < w /\ w * w * r ^ 3 = earth_mu /\ dot3 (v 0) (v 0) = w * w * dot3 (p 0) (p 0) /\ forall t, 0 <= t <= len -> mk6 (p t) (v t) = circ w (p 0) (v 0) t.
Proof.
  intros R0 HP HO HV OM L0 w. assert (M0 : 0 < earth_mu) by (unfold earth_mu; lra). assert (R3 : 0 < r ^ 3) by (apply pow_lt; exact R0). assert (W0 : 0 < w) by (apply sqrt_lt_R0, Rdiv_lt_0_compat; assumption).
  assert (WW : w * w = earth_mu / r ^ 3) by (apply sqrt_sqrt; left; apply Rdiv_lt_0_compat; assumption).
  assert (W3 : w * w * r ^ 3 = earth_mu) by (rewrite WW; field; lra).
  assert (HV' : dot3 (v 0) (v 0) = w * w * dot3 (p 0) (p 0)). { rewrite <- !norm3_dot, HP. replace (norm3 (v 0) * norm3 (v 0)) with (norm3 (v 0) ^ 2) by ring. rewrite HV, <- W3. field. lra. }
  split; [exact W0|]. split; [exact W3|]. split; [exact HV'|].
  assert (OH : orbit_motion (fun t => attraction (u1 (circ w (p 0) (v 0) t))) len (fun t => u1 (circ w (p 0) (v 0) t)) (fun t => u2 (circ w (p 0) (v 0) t))).
  { intros t _. destruct (circ_deriv w (p 0) (v 0) t ltac:(lra)) as [A B]. split; [exact A|]. cbv beta. unfold attraction. destruct (circ_size w (p 0) (v 0) t ltac:(lra) HO HV') as (S1 & _).
    assert (N : norm3 (u1 (circ w (p 0) (v 0) t)) = r). { rewrite <- HP. unfold norm3. rewrite S1. reflexivity. } rewrite N, <- WW. exact B. }
  assert (H00 : circ w (p 0) (v 0) 0 = mk6 (p 0) (v 0)). { unfold circ. rewrite Rmult_0_r, cos_0, sin_0. destruct (p 0) as [x y z], (v 0) as [a b d]. unfold add3, scale3. cbn [x3 y3 z3]. rnumg. f_equal; apply mk3_c; field; lra. }
  assert (CR : cross3 (p 0) (v 0) <> zero3).
  { intros C. assert (Z : dot3 (cross3 (p 0) (v 0)) (cross3 (p 0) (v 0)) + dot3 (p 0) (v 0) * dot3 (p 0) (v 0) = dot3 (p 0) (p 0) * dot3 (v 0) (v 0)) by (clear; destruct (p 0) as [x y z], (v 0) as [a b d]; unfold dot3, cross3; cbn [x3 y3 z3]; rnumg; ring).
    rewrite C, HO, HV', <- (norm3_dot (p 0)), HP in Z. replace (dot3 zero3 zero3) with 0 in Z by (unfold dot3, zero3; cbn [x3 y3 z3]; rnumg; ring). assert (0 < r * r) by nra. assert (0 < w * w) by nra. assert (0 < r * r * (w * w * (r * r))) by (apply Rmult_lt_0_compat; [lra|apply Rmult_lt_0_compat; lra]). lra. }
  intros t Ht. destruct (orbit_unique _ _ _ _ len L0 OM OH CR ltac:(cbv beta; rewrite H00; reflexivity) ltac:(cbv beta; rewrite H00; reflexivity) t Ht) as [U1 U2].
  rewrite U1, U2. destruct (circ w (p 0) (v 0) t); reflexivity.
Qed.
