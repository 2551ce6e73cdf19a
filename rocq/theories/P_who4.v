(** * Lemmas: one cycle of filter, controller and satellite *)
From Coq Require Import Reals ZArith List Bool Lra Lia Psatz.
From Verif Require Import Num Vec Mat6 M_vector M_quaternion M_jday M_struct M_dyn M_ctrl M_obs S_rot S_dyn S_ctrl S_obs S_steady.
From Verif Require Import P_quat P_struct P_wheel P_dyn P_dyn2 P_obs P_obs3 P_ctrl P_ctrl2 P_ctrl3 P_ctrl4 P_ctrl5 P_conv P_ode P_tot3 P_orb3 P_posf P_detum P_samp P_samp2 Props_struct Props_ctrl2 Props_conv Props_samp Props_dist P_meas Props_meas.
From Verif Require Import P_steady Props_obs P_farr P_est1 P_est2 P_est3 Props_est P_tri1 P_tri2 P_tri3 P_tri4 P_tri5 Props_tri P_who1 P_who2 P_who3.
Import ListNotations.
Local Open Scope R_scope.

(** a number small enough for finitely many conditions *)
Lemma below (l : list (R * R)) : Forall (fun p => 0 < fst p /\ 0 < snd p) l -> exists A, 0 < A /\ Forall (fun p => fst p * A <= snd p) l.
Proof.
  induction l as [|[c b] l IH]; intros H; [exists 1; split; [lra|constructor]|]. apply Forall_cons_iff in H. destruct H as ((C & B) & H). cbn [fst snd] in *. destruct (IH H) as (A & A0 & HA).
  exists (Rmin A (b / c)). assert (BC : 0 < b / c) by (apply Rdiv_lt_0_compat; assumption). split; [apply Rmin_pos; assumption|]. constructor.
  - cbn [fst snd]. apply (Rle_trans _ (c * (b / c))); [apply Rmult_le_compat_l; [lra|apply Rmin_r]|right; field; lra].
  - assert (H' := Forall_and H HA). eapply Forall_impl; [|exact H']. intros [c' b'] ((C' & _) & K). cbn [fst snd] in *. apply (Rle_trans _ (c' * A)); [apply Rmult_le_compat_l; [lra|apply Rmin_l]|exact K].
Qed.

(** turning over a period at rates of at most O *)
Lemma turn_over (q : R -> quat) (om a : R -> v3) t0 h O : 0 < h -> 0 <= O -> O * h <= 1 ->
  (forall t, t0 <= t <= t0 + h -> unitq (q t) /\ derivq q t (scaleq 0.5 (product (q t) (pure (om t)))) /\ norm3 (om t) <= O /\ deriv3 a t (om t)) ->
  exists c T, q (t0 + h) = product (q t0) (mkqv c T) /\ turns (O * h) (scale3 (1 / 2) (sub3 (a (t0 + h)) (a t0))) c T.
Proof.
  intros H O0 OH HY. set (p := fun t => product (conjugate (q t0)) (q t)). assert (I0 : t0 <= t0 <= t0 + h) by lra. assert (I1 : t0 <= t0 + h <= t0 + h) by lra.
  assert (U0 : dotq (q t0) (q t0) = 1) by apply (HY t0 I0).
  assert (UP : forall t, t0 <= t <= t0 + h -> unitq (p t)). { intros t Ht. unfold p, unitq. rewrite product_size. destruct (HY t Ht) as (X & _). unfold unitq in X. rewrite X. replace (dotq (conjugate (q t0)) (conjugate (q t0))) with (dotq (q t0) (q t0)) by (destruct (q t0) as [x y z w]; unfold conjugate; vunfoldg; cbn [qw qx qy qz]; rnumg; ring). rewrite U0. ring. }
  assert (DP : forall t, t0 <= t <= t0 + h -> derivq p t (scaleq 0.5 (product (p t) (pure (om t))))).
  { intros t Ht. destruct (HY t Ht) as (_ & D & _). assert (DC : derivq (fun _ => conjugate (q t0)) t (mkq 0 0 0 0)) by (repeat split; cbn; apply d_const). unfold p. eapply dq_eq; [apply (dq_product (fun _ => conjugate (q t0)) q t _ _ DC D)|]. cbv beta. rewrite product_assoc.
    generalize (conjugate (q t0)) (product (q t) (pure (om t))) (q t). clear. intros [a b c d] [e f g h] [i j k l]. unfold product. vunfoldg. cbn [qw qx qy qz]. rnumg. set (hf := 0.5). clearbody hf. apply mkq_c; ring. }
  assert (P0 : p t0 = mkq 1 0 0 0). { unfold p. assert (X : product (conjugate (q t0)) (q t0) = mkq (dotq (q t0) (q t0)) 0 0 0) by (destruct (q t0) as [x y z w]; unfold conjugate, product; vunfoldg; cbn [qw qx qy qz]; rnumg; apply mkq_c; ring). rewrite X, U0. reflexivity. }
  set (th := O * h). assert (T0 : 0 <= th) by (apply Rmult_le_pos; lra).
  assert (NV : forall t, t0 <= t <= t0 + h -> norm3 (vec (p t)) <= th / 2).
  { intros t Ht. assert (X := vmvt (fun u => vec (p u)) (fun u => vec (scaleq 0.5 (product (p u) (pure (om u))))) t0 t (O / 2) (proj1 Ht)).
    assert (Y : norm3 (sub3 (vec (p t)) (vec (p t0))) <= O / 2 * (t - t0)). { apply X; intros u Hu; assert (Iu : t0 <= u <= t0 + h) by lra; [apply d3_vec, DP, Iu|]. eapply Rle_trans; [apply err_v_norm, UP, Iu|]. assert (Z : norm3 (om u) <= O) by apply (HY u Iu). lra. }
    rewrite P0 in Y. replace (sub3 (vec (p t)) (vec (mkq 1 0 0 0))) with (vec (p t)) in Y by (generalize (p t); clear; intros [a b c d]; unfold vec; vunfoldg; cbn [qw qx qy qz]; rnumg; apply mk3_c; ring).
    assert (O / 2 * (t - t0) <= O / 2 * h) by (apply Rmult_le_compat_l; lra). unfold th. lra. }
  assert (NW : forall t, t0 <= t <= t0 + h -> 0 <= 1 - qw (p t) <= th * th / 4).
  { intros t Ht. assert (U := UP t Ht). split.
    - assert (X := dotq_parts (p t)). unfold unitq in U. rewrite U in X. assert (Y := dot3_nonneg (vec (p t))). nra.
    - assert (K : - qw (p t) - O / 2 * (th / 2) * t <= - qw (p t0) - O / 2 * (th / 2) * t0).
      { apply (le_of_deriv (fun u => - qw (p u) - O / 2 * (th / 2) * u) (fun u => - (- (1 / 2) * dot3 (vec (p u)) (om u)) - O / 2 * (th / 2)) t0 t (proj1 Ht)); intros u Hu; assert (Iu : t0 <= u <= t0 + h) by lra.
        - apply d_minus; [apply d_opp; rewrite <- err_w; apply (proj1 (DP u Iu))|eapply d_eq; [apply d_scal, d_id|]; ring].
        - assert (X1 := dot_norm (vec (p u)) (om u)). assert (X2 := Rle_abs (dot3 (vec (p u)) (om u))). assert (X3 := NV u Iu). assert (X4 : norm3 (om u) <= O) by apply (HY u Iu). assert (X5 := norm3_pos (vec (p u))). assert (X6 := norm3_pos (om u)).
          assert (norm3 (vec (p u)) * norm3 (om u) <= th / 2 * O) by (apply Rmult_le_compat; assumption). lra. }
      rewrite P0 in K. cbn [qw] in K. assert (Q : 0 <= O / 2 * (th / 2)) by (apply Rmult_le_pos; lra). assert (O / 2 * (th / 2) * (t - t0) <= O / 2 * (th / 2) * h) by (apply Rmult_le_compat_l; lra). unfold th in *. lra. }
  set (c := qw (p (t0 + h))). set (T := vec (p (t0 + h))). exists c, T.
  assert (EP : mkqv c T = p (t0 + h)) by (unfold c, T; generalize (p (t0 + h)); clear; intros [a b c d]; reflexivity). split.
  - rewrite EP. unfold p. rewrite <- product_assoc. assert (X : product (q t0) (conjugate (q t0)) = mkq (dotq (q t0) (q t0)) 0 0 0) by (generalize (q t0); clear; intros [x y z w]; unfold conjugate, product; vunfoldg; cbn [qw qx qy qz]; rnumg; apply mkq_c; ring). rewrite X, U0. generalize (q (t0 + h)). clear. intros [x y z w]. unfold product. vunfoldg. cbn [qw qx qy qz]. rnumg. apply mkq_c; ring.
  - set (Th := scale3 (1 / 2) (sub3 (a (t0 + h)) (a t0))).
    assert (TT : th * th <= 1 * th) by (apply Rmult_le_compat_r; [exact T0|exact OH]).
    assert (NT : norm3 Th <= th / 2). { unfold Th. rewrite norm3_scal, Rabs_pos_eq by lra. assert (X := vmvt a om t0 (t0 + h) O ltac:(lra)). assert (Y : norm3 (sub3 (a (t0 + h)) (a t0)) <= O * (t0 + h - t0)) by (apply X; intros u Hu; apply (HY u Hu)). unfold th. lra. }
    assert (TT0 : 0 <= th * th) by (apply Rmult_le_pos; lra). split; [|split; [|split; [|split]]].
    + assert (X := UP _ I1). unfold unitq in X. rewrite dotq_parts in X. unfold c, T. lra.
    + assert (X := NW _ I1). unfold c. fold th. lra.
    + set (g := fun u => sub3 (vec (p u)) (scale3 (1 / 2) (a u))). set (g' := fun u => sub3 (vec (scaleq 0.5 (product (p u) (pure (om u))))) (scale3 (1 / 2) (om u))).
      assert (X := vmvt g g' t0 (t0 + h) (th * O) ltac:(lra)).
      assert (Y : norm3 (sub3 (g (t0 + h)) (g t0)) <= th * O * (t0 + h - t0)).
      { apply X; intros u Hu.
        - unfold g, g'. apply P_ctrl3.d3_sub; [apply d3_vec, DP, Hu|]. destruct (HY u Hu) as (_ & _ & _ & DA). destruct DA as (D1 & D2 & D3). split; [|split]; cbn [scale3 x3 y3 z3]; [apply (d_scal (1 / 2) (fun v => x3 (a v)))|apply (d_scal (1 / 2) (fun v => y3 (a v)))|apply (d_scal (1 / 2) (fun v => z3 (a v)))]; assumption.
        - unfold g'. replace (sub3 (vec (scaleq 0.5 (product (p u) (pure (om u))))) (scale3 (1 / 2) (om u))) with (add3 (scale3 (- (1 / 2) * (1 - qw (p u))) (om u)) (scale3 (1 / 2) (cross3 (vec (p u)) (om u)))).
          2: { generalize (p u) (om u). clear. intros [x y z w] [i j k]. unfold pure, product, vec. replace 0.5 with (1 / 2) by lra. vunfoldg. cbn [qw qx qy qz x3 y3 z3]. rnumg. apply mk3_c; field. }
          eapply Rle_trans; [apply norm3_triangle|]. rewrite !norm3_scal, Rabs_mult, Rabs_Ropp, (Rabs_pos_eq (1 / 2)), (Rabs_pos_eq (1 - qw (p u))) by (try apply NW; lra || exact Hu).
          assert (X1 := cross_norm (vec (p u)) (om u)). assert (X3 := NV u Hu). assert (X4 : norm3 (om u) <= O) by apply (HY u Hu). assert (X5 := norm3_pos (vec (p u))). assert (X6 := norm3_pos (om u)). assert (X7 := NW u Hu).
          assert (norm3 (vec (p u)) * norm3 (om u) <= th / 2 * O) by (apply Rmult_le_compat; assumption). assert ((1 - qw (p u)) * norm3 (om u) <= th / 4 * O) by (apply Rmult_le_compat; lra). assert (0 <= th * O) by (apply Rmult_le_pos; lra). lra. }
      assert (EG : sub3 (g (t0 + h)) (g t0) = sub3 T Th). { unfold g. rewrite P0. fold T. unfold Th. generalize T (a (t0 + h)) (a t0). clear. intros [x y z] [i j k] [l m n]. unfold vec. vunfoldg. cbn [qw qx qy qz x3 y3 z3]. rnumg. apply mk3_c; field. }
      rewrite EG in Y. fold th. replace (th * O * (t0 + h - t0)) with (th * th) in Y by (unfold th; ring). exact Y.
    + assert (X := NV _ I1). fold T in X. fold th. lra.
    + fold th. lra.
Qed.
