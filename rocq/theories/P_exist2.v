(** * Lemmas: the true rotation is unique *)
From Coq Require Import Reals List Arith Lra Psatz Lia.
From Verif Require Import Num Vec M_quaternion M_struct M_dyn S_rot S_dyn S_rk P_quat P_wheel P_dyn P_rk P_rk3 P_rk4 P_exist1.
Import ListNotations.
Local Open Scope R_scope.

Lemma dotq_le a b : Rabs (dotq a b) <= nq a * nq b.
Proof.
  destruct a as [a0 a1 a2 a3], b as [b0 b1 b2 b3]. unfold nq. vunfoldg. rnumg.
  assert (P0 := Rabs_pos a0). assert (P1 := Rabs_pos a1). assert (P2 := Rabs_pos a2). assert (P3 := Rabs_pos a3). assert (Q0 := Rabs_pos b0). assert (Q1 := Rabs_pos b1). assert (Q2 := Rabs_pos b2). assert (Q3 := Rabs_pos b3).
  eapply Rle_trans; [apply Rabs_triang|]. eapply Rle_trans; [apply Rplus_le_compat_r, Rabs_triang|]. eapply Rle_trans; [apply Rplus_le_compat_r, Rplus_le_compat_r, Rabs_triang|]. rewrite !Rabs_mult.
  set (p0 := Rabs a0) in *. set (p1 := Rabs a1) in *. set (p2 := Rabs a2) in *. set (p3 := Rabs a3) in *. set (r0 := Rabs b0) in *. set (r1 := Rabs b1) in *. set (r2' := Rabs b2) in *. set (r3 := Rabs b3) in *.
  assert (Z : forall x y, 0 <= x -> 0 <= y -> 0 <= x * y) by (intros; apply Rmult_le_pos; assumption).
  assert (Z1 := Z p0 r1 P0 Q1). assert (Z2 := Z p0 r2' P0 Q2). assert (Z3 := Z p0 r3 P0 Q3). assert (Z4 := Z p1 r0 P1 Q0). assert (Z5 := Z p1 r2' P1 Q2). assert (Z6 := Z p1 r3 P1 Q3).
  assert (Z7 := Z p2 r0 P2 Q0). assert (Z8 := Z p2 r1 P2 Q1). assert (Z9 := Z p2 r3 P2 Q3). assert (Z10 := Z p3 r0 P3 Q0). assert (Z11 := Z p3 r1 P3 Q1). assert (Z12 := Z p3 r2' P3 Q2). lra.
Qed.
Lemma nq_sq a : nq a * nq a <= 4 * dotq a a.
Proof.
  destruct a as [a0 a1 a2 a3]. unfold nq. vunfoldg. rnumg. assert (S0 := Rsqr_abs a0). assert (S1 := Rsqr_abs a1). assert (S2 := Rsqr_abs a2). assert (S3 := Rsqr_abs a3). unfold Rsqr in *.
  set (p := Rabs a0) in *. set (r := Rabs a1) in *. set (s := Rabs a2) in *. set (v := Rabs a3) in *.
  assert (Z1 := Rle_0_sqr (p - r)). assert (Z2 := Rle_0_sqr (p - s)). assert (Z3 := Rle_0_sqr (p - v)). assert (Z4 := Rle_0_sqr (r - s)). assert (Z5 := Rle_0_sqr (r - v)). assert (Z6 := Rle_0_sqr (s - v)). unfold Rsqr in *. lra.
Qed.
Lemma n1_sq v : n1 v * n1 v <= 3 * dot3 v v.
Proof.
  destruct v as [a0 a1 a2]. unfold n1. vunfoldg. rnumg. assert (S0 := Rsqr_abs a0). assert (S1 := Rsqr_abs a1). assert (S2 := Rsqr_abs a2). unfold Rsqr in *.
  set (p := Rabs a0) in *. set (r := Rabs a1) in *. set (s := Rabs a2) in *.
  assert (Z1 := Rle_0_sqr (p - r)). assert (Z2 := Rle_0_sqr (p - s)). assert (Z4 := Rle_0_sqr (r - s)). unfold Rsqr in *. lra.
Qed.
Lemma dotq_pos a : 0 <= dotq a a.
Proof. destruct a as [a b c d]. vunfoldg. rnumg. assert (A := Rle_0_sqr a). assert (B := Rle_0_sqr b). assert (C := Rle_0_sqr c). assert (D := Rle_0_sqr d). unfold Rsqr in *. lra. Qed.
Lemma dot3_pos' (a : v3) : 0 <= dot3 a a.
Proof. destruct a as [a b c]. vunfoldg. rnumg. assert (A := Rle_0_sqr a). assert (B := Rle_0_sqr b). assert (C := Rle_0_sqr c). unfold Rsqr in *. lra. Qed.
Lemma sq0 x : x * x = 0 -> x = 0. Proof. intros H. apply Rmult_integral in H. destruct H; assumption. Qed.
Lemma dotq_zero a b : dotq (subq a b) (subq a b) <= 0 -> a = b.
Proof.
  destruct a as [a0 a1 a2 a3], b as [b0 b1 b2 b3]. vunfoldg. rnumg. intros H.
  assert (A := Rle_0_sqr (a0 - b0)). assert (B := Rle_0_sqr (a1 - b1)). assert (C := Rle_0_sqr (a2 - b2)). assert (D := Rle_0_sqr (a3 - b3)). unfold Rsqr in *.
  assert (E0 := sq0 (a0 - b0) ltac:(lra)). assert (E1 := sq0 (a1 - b1) ltac:(lra)). assert (E2 := sq0 (a2 - b2) ltac:(lra)). assert (E3 := sq0 (a3 - b3) ltac:(lra)). apply mkq_c; lra.
Qed.
Lemma dot3_zero (a b : v3) : dot3 (sub3 a b) (sub3 a b) <= 0 -> a = b.
Proof.
  destruct a as [a0 a1 a2], b as [b0 b1 b2]. vunfoldg. rnumg. intros H.
  assert (A := Rle_0_sqr (a0 - b0)). assert (B := Rle_0_sqr (a1 - b1)). assert (C := Rle_0_sqr (a2 - b2)). unfold Rsqr in *.
  assert (E0 := sq0 (a0 - b0) ltac:(lra)). assert (E1 := sq0 (a1 - b1) ltac:(lra)). assert (E2 := sq0 (a2 - b2) ltac:(lra)). apply mk3_c; lra.
Qed.
Lemma d3_sub f g t a b : deriv3 f t a -> deriv3 g t b -> deriv3 (fun u => sub3 (f u) (g u)) t (sub3 a b).
Proof. intros (A & B & C) (A' & B' & C'). split; [|split]; [exact (d_minus _ _ _ _ _ A A')|exact (d_minus _ _ _ _ _ B B')|exact (d_minus _ _ _ _ _ C C')]. Qed.
Lemma dq_sub f g t a b : derivq f t a -> derivq g t b -> derivq (fun u => subq (f u) (g u)) t (subq a b).
Proof. intros (A & B & C & D) (A' & B' & C' & D'). split; [|split; [|split]]; [exact (d_minus _ _ _ _ _ A A')|exact (d_minus _ _ _ _ _ B B')|exact (d_minus _ _ _ _ _ C C')|exact (d_minus _ _ _ _ _ D D')]. Qed.
Lemma turn_apart (q q' : quat) (w w' : v3) : dotq (subq q q') (subq (scaleq (1 / 2) (product q (pure w))) (scaleq (1 / 2) (product q' (pure w')))) = 1 / 2 * dotq (subq q q') (product q' (pure (sub3 w w'))).
Proof. destruct q as [a b c d], q' as [a' b' c' d'], w as [x y z], w' as [x' y' z']. unfold product, pure. vunfoldg. rnumg. field. Qed.
Lemma rate_apart (J : m3) (T H w w' : v3) : sub3 (sub3 T (cross3 w (add3 H (mv J w)))) (sub3 T (cross3 w' (add3 H (mv J w')))) = opp3 (add3 (cross3 (sub3 w w') (add3 H (mv J w))) (cross3 w' (mv J (sub3 w w')))).
Proof. destruct J as [[j1 j2 j3] [j4 j5 j6] [j7 j8 j9]], w as [x y z], w' as [x' y' z'], T as [a b c], H as [d e f]. vunfoldg. rnumg. apply mk3_c; ring. Qed.
Lemma mv_sub' (m : m3) a b : sub3 (mv m a) (mv m b) = mv m (sub3 a b).
Proof. destruct m as [[j1 j2 j3] [j4 j5 j6] [j7 j8 j9]], a as [x y z], b as [x' y' z']. vunfoldg. rnumg. apply mk3_c; ring. Qed.
Lemma n1_opp v : n1 (opp3 v) = n1 v.
Proof. destruct v as [a b c]. unfold n1. vunfoldg. rnumg. rewrite !Rabs_Ropp. reflexivity. Qed.

Lemma rotation_unique sat u a tau len q w q' w' B : det3 (s_total_moment sat) <> 0 -> length u = length a -> (forall s, 0 <= s <= len -> n1 (tau s) <= B) ->
  rigid_motion sat u a tau len q w -> rigid_motion sat u a tau len q' w' -> q 0 = q' 0 -> w 0 = w' 0 -> forall t, 0 <= t <= len -> q t = q' t /\ w t = w' t.
Proof.
  intros DJ HU HB M M' EQ EW.
  set (J := s_total_moment sat). set (Ji := s_inv_tot sat). set (H := spun (rw_wheels (s_rw sat)) u a). set (Tw := rw_torque (s_rw sat) a).
  set (W := nm Ji * (16 * (16 * (nm J * n1 (w 0) + n1 (rw_momentum (s_rw sat) u)) + 3 * (len * (16 * B))) + (n1 (rw_momentum (s_rw sat) u) + len * n1 Tw))).
  assert (BW : forall t, 0 <= t <= len -> n1 (w t) <= W) by (intros t Ht; apply (motion_bound sat u a tau len q w B t DJ HU M Ht HB)).
  assert (BW' : forall t, 0 <= t <= len -> n1 (w' t) <= W) by (intros t Ht; unfold W; rewrite EW; apply (motion_bound sat u a tau len q' w' B t DJ HU M' Ht HB)).
  set (HH := n1 (rw_momentum (s_rw sat) u) + len * n1 Tw).
  assert (BH : forall t, 0 <= t <= len -> n1 (H t) <= HH). { intros t Ht. eapply Rle_trans; [apply spun_n1; [exact HU|lra]|]. unfold HH. fold Tw. apply Rplus_le_compat_l. apply Rmult_le_compat_r; [apply n1_pos|lra]. }
  intros t Ht. assert (W0 : 0 <= W) by (eapply Rle_trans; [apply n1_pos|apply (BW t Ht)]). assert (HH0 : 0 <= HH) by (eapply Rle_trans; [apply n1_pos|apply (BH t Ht)]).
  assert (PJ := nm_pos J). assert (PI := nm_pos Ji).
  set (D := nm Ji * (HH + nm J * W + W * nm J)). assert (D0 : 0 <= D). { apply Rmult_le_pos; [exact PI|]. assert (0 <= nm J * W) by (apply Rmult_le_pos; assumption). lra. }
  set (dq := fun s => subq (q s) (q' s)). set (dw := fun s => sub3 (w s) (w' s)).
  set (rate := fun (w : R -> v3) s => mv Ji (sub3 (sub3 (tau s) Tw) (cross3 (w s) (add3 (H s) (mv J (w s)))))).
  set (tq := fun s => subq (scaleq (1 / 2) (product (q s) (pure (w s)))) (scaleq (1 / 2) (product (q' s) (pure (w' s))))). set (tw := fun s => sub3 (rate w s) (rate w' s)).
  assert (V : dotq (dq t) (dq t) + dot3 (dw t) (dw t) = 0).
  { apply (vanishes (fun s => dotq (dq s) (dq s) + dot3 (dw s) (dw s)) (fun s => dotq (tq s) (dq s) + dotq (dq s) (tq s) + (dot3 (tw s) (dw s) + dot3 (dw s) (tw s))) (16 + 6 * D) len); [lra| | | |exact Ht].
    - intros s Hs. apply d_plus; [apply d_dotq; (apply dq_sub; [apply (proj2 M s Hs)|apply (proj2 M' s Hs)])|apply d_dot3; (apply d3_sub; [apply (motion_rate sat u a tau len q w s DJ HU M Hs)|apply (motion_rate sat u a tau len q' w' s DJ HU M' Hs)])].
    - intros s Hs. assert (PQ := dotq_pos (dq s)). assert (PW := dot3_pos' (dw s)). split; [lra|].
      assert (T1 : dotq (dq s) (tq s) <= 8 * dotq (dq s) (dq s) + 3 * dot3 (dw s) (dw s)).
      { unfold tq, dq. rewrite turn_apart. fold (dq s) (dw s). assert (A1 := dotq_le (dq s) (product (q' s) (pure (dw s)))). assert (A2 := nq_product (q' s) (pure (dw s))). rewrite pure_nq in A2. assert (A3 := unit_nq (q' s) (proj1 M' s)).
        assert (A4 := nq_sq (dq s)). assert (A5 := n1_sq (dw s)). assert (A6 := Rle_abs (dotq (dq s) (product (q' s) (pure (dw s))))). assert (P1 := nq_pos (dq s)). assert (P2 := n1_pos (dw s)).
        assert (A7 : nq (q' s) * n1 (dw s) <= 4 * n1 (dw s)) by (apply Rmult_le_compat_r; assumption).
        assert (A8 : nq (dq s) * nq (product (q' s) (pure (dw s))) <= nq (dq s) * (4 * n1 (dw s))) by (apply Rmult_le_compat_l; lra).
        assert (A9 := Rle_0_sqr (nq (dq s) - n1 (dw s))). unfold Rsqr in A9. lra. }
      assert (T2 : dot3 (dw s) (tw s) <= 3 * D * dot3 (dw s) (dw s)).
      { unfold tw, rate. rewrite mv_sub', rate_apart. fold (dw s). assert (P2 := n1_pos (dw s)). assert (BWs := BW s Hs). assert (BWs' := BW' s Hs). assert (BHs := BH s Hs).
        match goal with |- dot3 _ (mv Ji (opp3 ?c)) <= _ => assert (C : n1 c <= (HH + nm J * W + W * nm J) * n1 (dw s)) end.
        { eapply Rle_trans; [apply n1_add|]. assert (X1 := n1_cross (dw s) (add3 (H s) (mv J (w s)))). assert (X2 := n1_cross (w' s) (mv J (dw s))). assert (X3 := n1_add (H s) (mv J (w s))). assert (X4 := n1_mv J (w s)). assert (X5 := n1_mv J (dw s)).
          assert (X6 : nm J * n1 (w s) <= nm J * W) by (apply Rmult_le_compat_l; assumption).
          assert (X7 : n1 (dw s) * n1 (add3 (H s) (mv J (w s))) <= n1 (dw s) * (HH + nm J * W)) by (apply Rmult_le_compat_l; lra).
          assert (X8 : n1 (w' s) * n1 (mv J (dw s)) <= W * (nm J * n1 (dw s))) by (apply Rmult_le_compat; [apply n1_pos|apply n1_pos|exact BWs'|exact X5]). lra. }
        match goal with |- dot3 _ (mv Ji (opp3 ?c)) <= _ => set (cc := c) in * end.
        assert (Y1 := dot_le (dw s) (mv Ji (opp3 cc))). assert (Y2 := Rle_abs (dot3 (dw s) (mv Ji (opp3 cc)))). assert (Y3 := n1_mv Ji (opp3 cc)). rewrite n1_opp in Y3.
        assert (Y4 : nm Ji * n1 cc <= D * n1 (dw s)) by (unfold D; rewrite Rmult_assoc; apply Rmult_le_compat_l; assumption).
        assert (Y5 : n1 (dw s) * n1 (mv Ji (opp3 cc)) <= n1 (dw s) * (D * n1 (dw s))) by (apply Rmult_le_compat_l; lra). assert (Y6 := n1_sq (dw s)).
        assert (Y7 : D * (n1 (dw s) * n1 (dw s)) <= D * (3 * dot3 (dw s) (dw s))) by (apply Rmult_le_compat_l; assumption). lra. }
      assert (C1 : dotq (tq s) (dq s) = dotq (dq s) (tq s)) by (generalize (dq s) (tq s); clear; intros [a b c d] [e f g h]; vunfoldg; rnumg; ring).
      assert (C2 : dot3 (tw s) (dw s) = dot3 (dw s) (tw s)) by (generalize (dw s) (tw s); clear; intros [a b c] [e f g]; vunfoldg; rnumg; ring).
      rewrite C1, C2. assert (0 <= D * dotq (dq s) (dq s)) by (apply Rmult_le_pos; assumption). assert (0 <= D * dot3 (dw s) (dw s)) by (apply Rmult_le_pos; assumption). lra.
    - unfold dq, dw. rewrite EQ, EW. generalize (q' 0) (w' 0). clear. intros [a b c d] [e f g]. vunfoldg. rnumg. ring. }
  assert (PQ := dotq_pos (dq t)). assert (PW := dot3_pos' (dw t)). split; [apply dotq_zero|apply dot3_zero]; fold (dq t) (dw t); lra.
Qed.
