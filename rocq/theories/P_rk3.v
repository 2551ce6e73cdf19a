(** * Lemmas: the simulated rotation as perturbed Runge-Kutta steps of the quadratic equation of motion *)
From Coq Require Import Reals ZArith List Bool Arith Lra Psatz Lia.
From Verif Require Import Num Vec M_vector M_quaternion M_jday M_frame M_struct M_env M_dyn M_sensor M_integ.
From Verif Require Import S_rot S_integ S_dyn S_rk P_quat P_wheel P_integ2 P_dyn P_rk P_rk2.
Import ListNotations.
Local Open Scope R_scope.

(** ** the form of the satellite *)
Lemma bf_orth J Ji g k u : dotq (xq u) (xq (bf J Ji g k u u)) = 0.
Proof. unfold bf. cbn [xq]. destruct (xq u) as [a b c d], (xw u) as [x y z]. unfold pureq, product. vunfoldg. rnumg. field. Qed.
Lemma bf_square J Ji g k q w h : bf J Ji g k (mkX q w h 1) (mkX q w h 1) =
  mkX (scaleq (1 / 2) (product q (pureq w))) (mv Ji (sub3 g (cross3 w (add3 h (mv J w))))) k 0.
Proof.
  unfold bf. cbn [xq xw xh xo]. f_equal.
  - generalize (product q (pureq w)). intros [a b c d]. vunfoldg; rnumg; apply mkq_c; field.
  - f_equal. generalize (cross3 w (add3 h (mv J w))). intros [a b c]. destruct g as [d e f]. vunfoldg; rnumg; apply mk3_c; field.
  - destruct k as [a b c]. vunfoldg; rnumg; apply mk3_c; ring.
Qed.
Lemma momentum_lin ws (u a : list R) c : length u = length a ->
  sum3 (zip_with w_momentum ws (zip_with (fun x y => x + c * y) u a)) = add3 (sum3 (zip_with w_momentum ws u)) (scale3 c (sum3 (zip_with w_torque ws a))).
Proof.
  revert u a. induction ws as [|w ws IH]; intros u a HL.
  - cbn. vunfoldg; rnumg; apply mk3_c; ring.
  - destruct u as [|x u], a as [|y a]; try discriminate; [cbn; vunfoldg; rnumg; apply mk3_c; ring|]. cbn [zip_with]. change (sum3 (?p :: ?l)) with (add3 p (sum3 l)). injection HL as HL.
    unfold sum3 in *. cbn [fold_right]. rewrite (IH u a HL). unfold w_momentum, w_torque. destruct (w_axis w) as [p q r]. generalize (fold_right add3 zero3 (zip_with w_momentum ws u)) (fold_right add3 zero3 (zip_with w_torque ws a)). intros [b1 b2 b3] [d1 d2 d3]. vunfoldg; rnumg; apply mk3_c; ring.
Qed.
Lemma spun_lin ws u a t : length u = length a -> spun ws u a t = add3 (sum3 (zip_with w_momentum ws u)) (scale3 t (sum3 (zip_with w_torque ws a))).
Proof.
  revert u a. induction ws as [|w ws IH]; intros u a HL.
  - cbn. vunfoldg; rnumg; apply mk3_c; ring.
  - destruct u as [|x u], a as [|y a]; try discriminate; [cbn; vunfoldg; rnumg; apply mk3_c; ring|]. injection HL as HL.
    cbn [spun zip_with]. unfold sum3 in *. cbn [fold_right]. rewrite (IH u a HL). unfold w_momentum, w_torque. destruct (w_axis w) as [p q r]. generalize (fold_right add3 zero3 (zip_with w_momentum ws u)) (fold_right add3 zero3 (zip_with w_torque ws a)). intros [b1 b2 b3] [d1 d2 d3]. vunfoldg; rnumg; apply mk3_c; ring.
Qed.

(** ** one step of the model *)
Section Sat.
Context (sat : Satellite) (a : list R) (T0 : v3).
Let J := s_total_moment sat.
Let Ji := s_inv_tot sat.
Let Tw := rw_torque (s_rw sat) a.
Let Bs := bf J Ji (sub3 T0 Tw) Tw.
Definition toX (v : SVec) : X := mkX (v_att v) (v_rate v) (rw_momentum (s_rw sat) (v_whl v)) 1.
Definition dX (d : SVec) : X := mkX (v_att d) (v_rate d) Tw 0.
(** the derivative that a field returned at a state: that of the satellite under a torque near T0 *)
Definition rotates (delta : R) (v d : SVec) : Prop := exists T F, n1 (sub3 T T0) <= delta /\
  d = derivative sat v F T Tw (rw_momentum (s_rw sat) (v_whl v)) a.
Lemma rotates_near delta v d : rotates delta v d -> nx (xsub (dX d) (F Bs (toX v))) <= nm Ji * delta /\ v_whl d = a.
Proof.
  intros (T & Fo & HT & ->). split; [|reflexivity]. unfold F, Bs, toX. rewrite bf_square. unfold dX, derivative. cbn [v_att v_rate v_whl].
  set (h := rw_momentum _ _). fold J Ji. set (c := cross3 (v_rate v) (add3 h (mv J (v_rate v)))).
  unfold xsub, xadd, xscale. cbn [xq xw xh xo]. unfold nx. cbn [xq xw xh xo]. replace 0.5 with (1 / 2) by lra.
  assert (E1 : forall q : quat, nq (addq q (scaleq (-1) q)) = 0). { clear. intros [a b c d]. unfold nq. vunfoldg; rnumg. replace (a + -1 * a) with 0 by ring. replace (b + -1 * b) with 0 by ring. replace (c + -1 * c) with 0 by ring. replace (d + -1 * d) with 0 by ring. rewrite Rabs_R0. ring. }
  assert (E2 : forall v : v3, n1 (add3 v (scale3 (-1) v)) = 0). { clear. intros [a b c]. unfold n1. vunfoldg; rnumg. replace (a + -1 * a) with 0 by ring. replace (b + -1 * b) with 0 by ring. replace (c + -1 * c) with 0 by ring. rewrite Rabs_R0. ring. }
  fold (pureq (v_rate v)). rewrite E1, E2.
  assert (E3 : add3 (mv Ji (sub3 (sub3 T Tw) c)) (scale3 (-1) (mv Ji (sub3 (sub3 T0 Tw) c))) = mv Ji (sub3 T T0)).
  { clearbody c Ji Tw. clear. destruct Ji as [[i1 i2 i3] [i4 i5 i6] [i7 i8 i9]], T as [t1 t2 t3], T0 as [s1 s2 s3], Tw as [w1 w2 w3], c as [c1 c2 c3]. vunfoldg; rnumg; apply mk3_c; ring. }
  rewrite E3. replace (0 + -1 * 0) with 0 by ring. rewrite Rabs_R0. assert (A := n1_mv Ji (sub3 T T0)). assert (nm Ji * n1 (sub3 T T0) <= nm Ji * delta) by (apply Rmult_le_compat_l; [apply nm_pos|exact HT]). lra.
Qed.
Lemma toX_add (v d v' : SVec) c : sv_add v (sv_mul d c) = Ok v' -> v_whl d = a -> length (v_whl v) = length a -> toX v' = xadd (toX v) (xscale c (dX d)) /\ v_whl v' = zip_with (fun x y => x + c * y) (v_whl v) a.
Proof.
  intros H HA HL. apply sv_add_inv in H. destruct H as (W & _ & _ & A & R'). cbn [sv_mul v_whl v_att v_rate] in *. rewrite HA, np_add_eq in W by (rewrite map_length; exact HL). injection W as W.
  assert (W' : v_whl v' = zip_with (fun x y => x + c * y) (v_whl v) a) by (rewrite <- W, zip_map_r; apply zip_ext; intros; ring). split; [|exact W'].
  unfold toX, dX, xadd, xscale. cbn [xq xw xh xo]. rewrite A, R', W'. unfold rw_momentum. rewrite momentum_lin by exact HL. unfold Tw, rw_torque. f_equal. ring.
Qed.
Lemma div_mul (d : SVec) k : sv_div (sv_mul d k) 2 = sv_mul d (k / 2).
Proof.
  unfold sv_div, sv_mul. cbn [v_pos v_vel v_att v_rate v_whl]. f_equal.
  - destruct (v_pos d) as [x y z]. vunfoldg; rnumg; apply mk3_c; field.
  - destruct (v_vel d) as [x y z]. vunfoldg; rnumg; apply mk3_c; field.
  - destruct (v_att d) as [x y z w]. vunfoldg; rnumg; apply mkq_c; field.
  - destruct (v_rate d) as [x y z]. vunfoldg; rnumg; apply mk3_c; field.
  - rewrite map_map. apply map_ext. intros. field.
Qed.
Lemma step_pstep h f dt s s' delta : (forall s d, f s = Ok d -> rotates delta (sv s) d) -> length (v_whl (sv s)) = length a -> RK4_sat h f dt s = Ok s' ->
  pstep Bs (nm Ji * delta) (toX (sv s)) dt (toX (sv s')) /\ length (v_whl (sv s')) = length a.
Proof.
  intros HF HL H. assert (HW := rk4_wheels h f dt s s' a (fun s d Hd => proj2 (rotates_near _ _ _ (HF s d Hd))) HL H).
  split; [|rewrite HW; unfold wheels_after; rewrite zip_len by exact HL; exact HL].
  apply rk4_inv in H. destruct H as (s2 & s3 & s4 & k1 & k2 & k3 & k4 & a1 & b1 & c1 & (F1 & T2 & F2 & T3 & F3 & T4 & F4) & A & B & C & E).
  rewrite div_mul in T2, T3. apply state_add_inv in T2, T3, T4, E. destruct T2 as [T2 _]. destruct T3 as [T3 _]. destruct T4 as [T4 _]. destruct E as [E _].
  destruct (rotates_near _ _ _ (HF _ _ F1)) as [N1 W1']. destruct (rotates_near _ _ _ (HF _ _ F2)) as [N2 W2']. destruct (rotates_near _ _ _ (HF _ _ F3)) as [N3 W3']. destruct (rotates_near _ _ _ (HF _ _ F4)) as [N4 W4'].
  destruct (toX_add _ _ _ _ T2 W1' HL) as [E2 _]. destruct (toX_add _ _ _ _ T3 W2' HL) as [E3 _]. destruct (toX_add _ _ _ _ T4 W3' HL) as [E4 _].
  rewrite E2 in N2. rewrite E3 in N3. rewrite E4 in N4.
  exists (dX k1), (dX k2), (dX k3), (dX k4). split; [exact N1|]. split; [exact N2|]. split; [exact N3|]. split; [exact N4|].
  apply sv_add_inv in A, B, C, E. destruct A as (_ & _ & _ & A1 & A2), B as (_ & _ & _ & B1 & B2), C as (_ & _ & _ & C1 & C2), E as (_ & _ & _ & E5 & E6). cbn [sv_mul sv_div v_att v_rate] in *.
  unfold toX, comb, dX, xadd, xscale. cbn [xq xw xh xo]. rewrite E5, E6, C1, C2, B1, B2, A1, A2, HW. f_equal.
  - generalize (v_att (sv s)) (v_att k1) (v_att k2) (v_att k3) (v_att k4). clear. intros [? ? ? ?] [? ? ? ?] [? ? ? ?] [? ? ? ?] [? ? ? ?]. vunfoldg; rnumg; apply mkq_c; field.
  - generalize (v_rate (sv s)) (v_rate k1) (v_rate k2) (v_rate k3) (v_rate k4). clear. intros [? ? ?] [? ? ?] [? ? ?] [? ? ?] [? ? ?]. vunfoldg; rnumg; apply mk3_c; field.
  - unfold rw_momentum, wheels_after. replace (zip_with (fun w a0 : R => w + INR 1 * dt * a0) (v_whl (sv s)) a) with (zip_with (fun x y => x + dt * y) (v_whl (sv s)) a) by (apply zip_ext; intros; simpl INR; ring).
    rewrite momentum_lin by exact HL. fold (rw_torque (s_rw sat) a). fold Tw. generalize (sum3 (zip_with w_momentum (rw_wheels (s_rw sat)) (v_whl (sv s)))). clearbody Tw. clear. intros [? ? ?]. destruct Tw as [? ? ?]. vunfoldg; rnumg; apply mk3_c; field.
  - field.
Qed.
Lemma updates_run f stream dt delta N : (forall h s d, f h s = Ok d -> rotates delta (sv s) d) -> forall w w', length (v_whl (sv (w_state w))) = length a ->
  updates f stream true dt N w = Ok w' -> run Bs (nm Ji * delta) dt N (toX (sv (w_state w))) (toX (sv (w_state w'))) /\ v_whl (sv (w_state w')) = wheels_after dt N (v_whl (sv (w_state w))) a.
Proof.
  intros HF. induction N as [|N IH]; intros w w' HL H.
  - cbn [updates] in H. injection H as <-. split; [reflexivity|]. revert HL. generalize (v_whl (sv (w_state w))). clear. unfold wheels_after. simpl INR. induction a as [|x acc IH]; intros [|y l] H; try discriminate; [reflexivity|]. cbn [zip_with]. f_equal; [ring|]. apply IH. injection H; auto.
  - cbn [updates] in H. apply rbind_ok in H. destruct H as (w1 & H1 & H). destruct (update_inv _ _ _ _ _ _ H1) as (next & c & HR & _ & _ & _ & _ & _ & HS & _).
    destruct (step_pstep _ _ _ _ _ _ (HF _) HL HR) as [P L1]. assert (HW := rk4_wheels _ _ dt _ _ a (fun s d Hd => proj2 (rotates_near _ _ _ (HF _ s d Hd))) HL HR).
    destruct (IH w1 w') as [R1' WW]; [rewrite HS; exact L1|exact H|]. split.
    + cbn [run]. exists (toX (sv next)). split; [exact P|]. rewrite HS in R1'. exact R1'.
    + rewrite WW, HS. cbn [set_att v_whl]. rewrite HW. unfold wheels_after. rewrite zip_zip. apply zip_ext. intros x y. rewrite (S_INR N). simpl (INR 1). ring.
Qed.
End Sat.

(** ** the true motion *)
Lemma dX_const (x : R -> X) t d (H : forall i, derivable_pt_lim (fun s => co i (x s)) t (co i d)) : derivX x t d.
Proof. exact H. Qed.
Lemma d3_sandwich (q : R -> quat) (v : R -> v3) t v' w : derivq q t (scaleq (1 / 2) (product (q t) (pure w))) -> deriv3 v t v' ->
  deriv3 (fun u => sandwich (q u) (v u)) t (sub3 (sandwich (q t) v') (cross3 w (sandwich (q t) (v t)))).
Proof.
  intros Q H. unfold sandwich. eapply d3_eq. { apply d3_vec. apply dq_product; [apply dq_conj, Q|]. apply dq_product; [apply dq_pure, H|apply Q]. }
  cbv beta. generalize (q t) (v t). clear. intros [a b c d] [x y z]. destruct v' as [x' y' z'], w as [p r s]. unfold conjugate, product, pure. vunfold; rnum. apply mk3_c; field.
Qed.
Lemma deriv3_ext f g t d : (forall s, f s = g s) -> deriv3 f t d -> deriv3 g t d.
Proof. intros E (A & B & C). repeat split; (eapply derivable_pt_lim_ext; [intros s; rewrite <- E; reflexivity|assumption]). Qed.
Lemma motion_rate sat u a tau len q w t : det3 (s_total_moment sat) <> 0 -> length u = length a -> rigid_motion sat u a tau len q w -> 0 <= t <= len ->
  deriv3 w t (mv (s_inv_tot sat) (sub3 (sub3 (tau t) (rw_torque (s_rw sat) a)) (cross3 (w t) (add3 (spun (rw_wheels (s_rw sat)) u a t) (mv (s_total_moment sat) (w t)))))).
Proof.
  intros DJ HL (U & HM) Ht. destruct (HM t Ht) as (Q & L). set (J := s_total_moment sat) in *. set (H := spun (rw_wheels (s_rw sat)) u a) in *.
  assert (S1 := d3_sandwich q _ t _ (w t) Q L). cbv beta in S1.
  apply (deriv3_ext _ (fun s => add3 (mv J (w s)) (H s))) in S1; [|intros s; apply sandwich_sandwich_opp, U]. rewrite !sandwich_sandwich_opp in S1 by apply U.
  assert (DH : deriv3 H t (rw_torque (s_rw sat) a)).
  { apply (deriv3_ext (fun s => add3 (sum3 (zip_with w_momentum (rw_wheels (s_rw sat)) u)) (scale3 s (sum3 (zip_with w_torque (rw_wheels (s_rw sat)) a))))); [intros s; symmetry; apply spun_lin, HL|].
    unfold rw_torque. generalize (sum3 (zip_with w_momentum (rw_wheels (s_rw sat)) u)) (sum3 (zip_with w_torque (rw_wheels (s_rw sat)) a)). clear. intros [a b c] [d e f]. unfold add3, scale3. repeat split; cbn [x3 y3 z3]; rnumg; (eapply d_eq; [apply d_plus; [apply d_const|apply d_mult; [apply derivable_pt_lim_id|apply d_const]]|cbv beta; ring]). }
  assert (S2 : deriv3 (fun s => sub3 (add3 (mv J (w s)) (H s)) (H s)) t (sub3 (sub3 (tau t) (cross3 (w t) (add3 (mv J (w t)) (H t)))) (rw_torque (s_rw sat) a))).
  { destruct S1 as (A & B & C), DH as (A' & B' & C'). repeat split; unfold sub3 at 1; cbn [x3 y3 z3]; rnumg; (eapply d_eq; [apply d_minus; eassumption|]); generalize (rw_torque (s_rw sat) a); intros [r1 r2 r3]; vunfoldg; rnumg; cbn [x3 y3 z3]; ring. }
  assert (S3 := d3_mv (inv3 J) _ t _ S2). cbv beta in S3. apply (deriv3_ext _ w) in S3.
  - eapply d3_eq; [exact S3|]. unfold s_inv_tot. fold J. f_equal. generalize (rw_torque (s_rw sat) a) (mv J (w t)) (H t) (w t) (tau t). clear. intros. vring.
  - intros s. transitivity (mv (inv3 J) (mv J (w s))); [|apply inv3_mv, DJ]. f_equal. generalize (mv J (w s)) (H s). clear. intros. vring.
Qed.
Definition trueX (sat : Satellite) (u a : list R) (q : R -> quat) (w : R -> v3) (t : R) : X := mkX (q t) (w t) (spun (rw_wheels (s_rw sat)) u a t) 1.
Definition distX (sat : Satellite) (T0 : v3) (tau : R -> v3) (t : R) : X := mkX (mkq 0 0 0 0) (mv (s_inv_tot sat) (sub3 (tau t) T0)) zero3 0.
Lemma motion_X sat u a T0 tau len q w t : det3 (s_total_moment sat) <> 0 -> length u = length a -> rigid_motion sat u a tau len q w -> 0 <= t <= len ->
  derivX (trueX sat u a q w) t (xadd (F (bf (s_total_moment sat) (s_inv_tot sat) (sub3 T0 (rw_torque (s_rw sat) a)) (rw_torque (s_rw sat) a)) (trueX sat u a q w t)) (distX sat T0 tau t)).
Proof.
  intros DJ HL HM Ht. assert (DW := motion_rate sat u a tau len q w t DJ HL HM Ht). destruct HM as (U & HM). destruct (HM t Ht) as (Q & _).
  assert (DH : deriv3 (spun (rw_wheels (s_rw sat)) u a) t (rw_torque (s_rw sat) a)).
  { apply (deriv3_ext (fun s => add3 (sum3 (zip_with w_momentum (rw_wheels (s_rw sat)) u)) (scale3 s (sum3 (zip_with w_torque (rw_wheels (s_rw sat)) a))))); [intros s; symmetry; apply spun_lin, HL|].
    unfold rw_torque. generalize (sum3 (zip_with w_momentum (rw_wheels (s_rw sat)) u)) (sum3 (zip_with w_torque (rw_wheels (s_rw sat)) a)). clear. intros [a b c] [d e f]. unfold add3, scale3. repeat split; cbn [x3 y3 z3]; rnumg; (eapply d_eq; [apply d_plus; [apply d_const|apply d_mult; [apply derivable_pt_lim_id|apply d_const]]|cbv beta; ring]). }
  unfold F, trueX at 2 3. rewrite bf_square. fold (pureq (w t)). set (H := spun (rw_wheels (s_rw sat)) u a) in *. set (Tw := rw_torque (s_rw sat) a) in *.
  assert (E : xadd (mkX (scaleq (1 / 2) (product (q t) (pureq (w t)))) (mv (s_inv_tot sat) (sub3 (sub3 T0 Tw) (cross3 (w t) (add3 (H t) (mv (s_total_moment sat) (w t)))))) Tw 0) (distX sat T0 tau t) =
    mkX (scaleq (1 / 2) (product (q t) (pureq (w t)))) (mv (s_inv_tot sat) (sub3 (sub3 (tau t) Tw) (cross3 (w t) (add3 (H t) (mv (s_total_moment sat) (w t)))))) Tw 0).
  { unfold xadd, distX. cbn [xq xw xh xo]. f_equal.
    - generalize (product (q t) (pureq (w t))). clear. intros [a b c d]. vunfoldg; rnumg; apply mkq_c; ring.
    - generalize (s_inv_tot sat) (cross3 (w t) (add3 (H t) (mv (s_total_moment sat) (w t)))) (tau t). clearbody Tw. clear. intros m [c1 c2 c3] [t1 t2 t3]. destruct m as [[i1 i2 i3] [i4 i5 i6] [i7 i8 i9]], T0 as [s1 s2 s3], Tw as [w1 w2 w3]. vunfoldg; rnumg; apply mk3_c; ring.
    - clearbody Tw. clear. destruct Tw as [w1 w2 w3]. vunfoldg; rnumg; apply mk3_c; ring.
    - ring. }
  rewrite E. destruct Q as (Qa & Qb & Qc & Qd), DW as (Wa & Wb & Wc), DH as (Ha & Hb & Hc).
  intros i. unfold trueX. destruct i; cbn [co xq xw xh xo]; first [exact Qa|exact Qb|exact Qc|exact Qd|exact Wa|exact Wb|exact Wc|exact Ha|exact Hb|exact Hc|apply d_const].
Qed.
(** ** norms *)
Lemma norm3_n1 (v : v3) : norm3 v <= n1 v.
Proof.
  destruct v as [a b c]. unfold norm3, n1. vunfoldg. rnumg. cbn [x3 y3 z3]. assert (P0 := Rabs_pos a). assert (P1 := Rabs_pos b). assert (P2 := Rabs_pos c).
  rewrite <- (sqrt_Rsqr (Rabs a + Rabs b + Rabs c)) by lra. apply sqrt_le_1_alt. unfold Rsqr.
  assert (E : forall x, x * x = Rabs x * Rabs x) by (intros x; rewrite <- Rabs_mult, Rabs_pos_eq; [reflexivity|nra]). rewrite (E a), (E b), (E c). nra.
Qed.
Lemma n1_norm3 (v : v3) : n1 v <= 3 * norm3 v.
Proof.
  assert (S0 : 0 <= norm3 v) by (unfold norm3; rnumg; apply sqrt_pos). assert (K : forall x, x * x <= dot3 v v -> Rabs x <= norm3 v).
  { intros x H. unfold norm3. rnumg. rewrite <- sqrt_Rsqr_abs. apply sqrt_le_1_alt. exact H. }
  destruct v as [a b c]. unfold n1. cbn [x3 y3 z3]. assert (Ka := K a). assert (Kb := K b). assert (Kc := K c). clear K.
  revert Ka Kb Kc. unfold dot3. cbn [x3 y3 z3]. rnumg. intros Ka Kb Kc. assert (A := Ka ltac:(nra)). assert (B := Kb ltac:(nra)). assert (C := Kc ltac:(nra)). lra.
Qed.
Lemma normq_nq (v : quat) : normq v <= nq v.
Proof.
  destruct v as [a b c d]. unfold normq, nq. vunfoldg. rnumg. cbn [qw qx qy qz]. assert (P0 := Rabs_pos a). assert (P1 := Rabs_pos b). assert (P2 := Rabs_pos c). assert (P3 := Rabs_pos d).
  rewrite <- (sqrt_Rsqr (Rabs a + Rabs b + Rabs c + Rabs d)) by lra. apply sqrt_le_1_alt. unfold Rsqr.
  assert (E : forall x, x * x = Rabs x * Rabs x) by (intros x; rewrite <- Rabs_mult, Rabs_pos_eq; [reflexivity|nra]). rewrite (E a), (E b), (E c), (E d).
  assert (PP : forall u v, 0 <= u -> 0 <= v -> 0 <= u * v) by (intros; apply Rmult_le_pos; assumption). assert (PP1 := PP _ _ P0 P1). assert (PP2 := PP _ _ P0 P2). assert (PP3 := PP _ _ P0 P3). assert (PP4 := PP _ _ P1 P2). assert (PP5 := PP _ _ P1 P3). assert (PP6 := PP _ _ P2 P3). lra.
Qed.
Lemma nq_normq (v : quat) : nq v <= 4 * normq v.
Proof.
  assert (S0 : 0 <= normq v) by (unfold normq; rnumg; apply sqrt_pos). assert (K : forall x, x * x <= dotq v v -> Rabs x <= normq v).
  { intros x H. unfold normq. rnumg. rewrite <- sqrt_Rsqr_abs. apply sqrt_le_1_alt. exact H. }
  destruct v as [a b c d]. unfold nq. cbn [qw qx qy qz]. assert (Ka := K a). assert (Kb := K b). assert (Kc := K c). assert (Kd := K d). clear K.
  revert Ka Kb Kc Kd. unfold dotq. cbn [qw qx qy qz]. rnumg. intros Ka Kb Kc Kd. assert (A := Ka ltac:(nra)). assert (B := Kb ltac:(nra)). assert (C := Kc ltac:(nra)). assert (D := Kd ltac:(nra)). lra.
Qed.
