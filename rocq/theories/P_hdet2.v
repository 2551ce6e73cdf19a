(** * Lemmas: the satellite's motion under a held moment, as a function of the start *)
From Coq Require Import Reals ZArith List Bool Arith Lra Psatz Lia.
From Coquelicot Require Import Coquelicot.
From Verif Require Import Num Vec M_vector M_quaternion M_struct M_dyn M_ctrl S_rot S_dyn S_ctrl P_rk P_rk3 P_rk4 P_picard P_exist1 P_exist2 P_loop1.
From Verif Require P_vec2.
From Verif Require Import P_quat P_struct P_wheel P_dyn P_dyn2 P_obs P_sat P_ctrl P_ctrl2 P_ctrl3 P_ctrl4 P_ctrl5 P_conv P_tot3 P_posf P_detum P_samp P_hdet P_loop2 P_loop3 P_who6 P_who7.
Import ListNotations.
Local Open Scope R_scope.

Lemma comp_le (v : v3) : Rabs (x3 v) <= norm3 v /\ Rabs (y3 v) <= norm3 v /\ Rabs (z3 v) <= norm3 v.
Proof.
  assert (G : forall c, c * c <= dot3 v v -> Rabs c <= norm3 v). { intros c H. unfold norm3. rnumg. rewrite <- (sqrt_square (Rabs c)) by apply Rabs_pos. apply sqrt_le_1_alt. rewrite <- Rabs_mult, Rabs_pos_eq by apply Rle_0_sqr. exact H. }
  destruct v as [a b c]. cbn [x3 y3 z3]. assert (A := Rle_0_sqr a). assert (B := Rle_0_sqr b). assert (C := Rle_0_sqr c). unfold Rsqr in *. repeat split; apply G; vunfoldg; rnumg; lra.
Qed.
Lemma sub_sym (u v : v3) : norm3 (sub3 u v) = norm3 (sub3 v u).
Proof. rewrite <- (P_vec2.norm3_opp (sub3 v u)). apply (f_equal norm3). destruct u as [?a ?b ?c], v as [?a ?b ?c]. vunfoldg. rnumg. apply mk3_c; ring. Qed.
Lemma blip3_cross n f g : blip3 n f -> blip3 n g -> blip3 n (fun x => cross3 (f x) (g x)).
Proof.
  intros (F1 & F2 & F3) (G1 & G2 & G3).
  assert (S : forall a b c d, blip n a -> blip n b -> blip n c -> blip n d -> blip n (fun x => a x * b x - c x * d x)).
  { intros a b c d A B C D. apply (blip_ext n (fun x => a x * b x + -1 * (c x * d x))); [intros x; ring|]. apply blip_add; [apply blip_mul; assumption|]. apply (blip_mul n (fun _ => -1)); [apply blip_const|apply blip_mul; assumption]. }
  split; [|split]; unfold cross3; cbn [x3 y3 z3]; rnumg; apply S; assumption.
Qed.

Section HOLD.
Variables (Ji : m3) (B : R -> v3) (m : v3) (t0 h b : R).
Definition hd_q (x : nat -> R) : quat := mkq (x 0%nat) (x 1%nat) (x 2%nat) (x 3%nat).
Definition hd_c (x : nat -> R) : quat := scaleq (3 / Rmax 3 (nq (hd_q x))) (hd_q x).
Definition hd_h (x : nat -> R) : v3 := mk3 (x 4%nat) (x 5%nat) (x 6%nat).
Definition hd_s (x : nat -> R) : v3 := scale3 (P_loop1.shrink b (hd_h x)) (hd_h x).
Definition hd_dq (x : nat -> R) : quat := scaleq (1 / 2) (product (hd_c x) (pure (mv Ji (sandwich (hd_c x) (hd_s x))))).
Definition hd_dh (x : nat -> R) : v3 := cross3 (sandwich_opp (hd_c x) m) (B (t0 + clamp (-1) (h + 1) (x 7%nat))).
Definition hd_field (x : nat -> R) (i : nat) : R :=
  match i with
  | 0%nat => qw (hd_dq x) | 1%nat => qx (hd_dq x) | 2%nat => qy (hd_dq x) | 3%nat => qz (hd_dq x)
  | 4%nat => x3 (hd_dh x) | 5%nat => y3 (hd_dh x) | 6%nat => z3 (hd_dh x)
  | 7%nat => 1
  | _ => 0
  end.
Definition hd_x (q0 : quat) (h0 : v3) : R -> nat -> R := psol hd_field (fun i => match i with 0%nat => qw q0 | 1%nat => qx q0 | 2%nat => qy q0 | 3%nat => qz q0 | 4%nat => x3 h0 | 5%nat => y3 h0 | 6%nat => z3 h0 | _ => 0 end).
Hypothesis bP : 0 < b.
Hypothesis hP : 0 < h.
Variable kb : R.
Hypothesis KB : 0 <= kb.
Hypothesis BL : forall s t, norm3 (sub3 (B s) (B t)) <= kb * Rabs (s - t).
Lemma clamp_in u : -1 <= clamp (-1) (h + 1) u <= h + 1.
Proof. unfold clamp, Rmin, Rmax. repeat destruct Rle_dec; lra. Qed.
Lemma clamped_B u : norm3 (B (t0 + clamp (-1) (h + 1) u)) <= norm3 (B t0) + kb * (h + 1).
Proof.
  assert (X := norm3_sub_split (B (t0 + clamp (-1) (h + 1) u)) (B t0)). assert (Y := BL (t0 + clamp (-1) (h + 1) u) t0). assert (C := clamp_in u).
  assert (Z : Rabs (t0 + clamp (-1) (h + 1) u - t0) <= h + 1) by (apply Rabs_le; lra). assert (kb * Rabs (t0 + clamp (-1) (h + 1) u - t0) <= kb * (h + 1)) by (apply Rmult_le_compat_l; assumption). lra.
Qed.
Lemma hd_lip : forall i, lip 8 (fun x => hd_field x i).
Proof.
  assert (C : forall i, (i < 8)%nat -> lip 8 (fun x => x i)) by (intros i Hi; apply lip_coord, Hi).
  assert (EC : blipq 8 hd_c) by (apply (blipq_radial 8 hd_q); [apply (C 0%nat)|apply (C 1%nat)|apply (C 2%nat)|apply (C 3%nat)]; lia).
  assert (AB : forall v : v3, Rabs (x3 v) <= n1 v /\ Rabs (y3 v) <= n1 v /\ Rabs (z3 v) <= n1 v) by (intros v; unfold n1; assert (A1 := Rabs_pos (x3 v)); assert (A2 := Rabs_pos (y3 v)); assert (A3 := Rabs_pos (z3 v)); lra).
  assert (ZC : blip3 8 hd_s).
  { assert (L0 : forall i, (i < 8)%nat -> lip 8 (fun x => / b * x i)) by (intros i Hi; apply (lip_scal 8 (/ b)), C, Hi).
    assert (LN : lip 8 (fun x => n1 (scale3 (/ b) (hd_h x)))) by (exact (lip_add 8 _ _ (lip_add 8 _ _ (lip_abs 8 _ (L0 4%nat ltac:(lia))) (lip_abs 8 _ (L0 5%nat ltac:(lia)))) (lip_abs 8 _ (L0 6%nat ltac:(lia))))).
    assert (G : forall i, (i < 8)%nat -> (forall x, Rabs (/ b * x i) <= n1 (scale3 (/ b) (hd_h x))) -> blip 8 (fun x => P_loop1.shrink b (hd_h x) * x i)).
    { intros i Hi HB. apply (blip_ext 8 (fun x => b * (3 / Rmax 3 (n1 (scale3 (/ b) (hd_h x))) * (/ b * x i)))).
      - intros x. unfold P_loop1.shrink. assert (M : 3 <= Rmax 3 (n1 (scale3 (/ b) (hd_h x)))) by apply Rmax_l. field. split; lra.
      - apply (blip_mul 8 (fun _ => b)); [apply blip_const|]. exact (blip_radial 8 _ _ (L0 i Hi) LN HB). }
    split; [|split]; [exact (G 4%nat ltac:(lia) (fun x => proj1 (AB (scale3 (/ b) (hd_h x)))))|exact (G 5%nat ltac:(lia) (fun x => proj1 (proj2 (AB (scale3 (/ b) (hd_h x))))))|exact (G 6%nat ltac:(lia) (fun x => proj2 (proj2 (AB (scale3 (/ b) (hd_h x))))))]. }
  assert (NC : blip3 8 (fun x => B (t0 + clamp (-1) (h + 1) (x 7%nat)))).
  { assert (GEN : forall pr : v3 -> R, (forall v, Rabs (pr v) <= norm3 v) -> (forall a b, pr (sub3 a b) = pr a - pr b) -> blip 8 (fun x => pr (B (t0 + clamp (-1) (h + 1) (x 7%nat))))).
    { intros pr P1 P2. apply (blip_time 8 7 (fun t => pr (B (t0 + clamp (-1) (h + 1) t))) kb (norm3 (B t0) + kb * (h + 1))); [lia|exact KB| |].
      - intros s t. rewrite <- P2. eapply Rle_trans; [apply P1|]. eapply Rle_trans; [apply BL|]. apply Rmult_le_compat_l; [exact KB|]. replace (t0 + clamp (-1) (h + 1) s - (t0 + clamp (-1) (h + 1) t)) with (clamp (-1) (h + 1) s - clamp (-1) (h + 1) t) by ring. apply clamp_lip. lra.
      - intros t. eapply Rle_trans; [apply P1|]. apply clamped_B. }
    split; [|split]; apply GEN; intros; try apply comp_le; reflexivity. }
  assert (DZ : blip3 8 hd_dh) by (unfold hd_dh; apply (blip3_cross 8 (fun x => sandwich_opp (hd_c x) m)); [apply (blip3_sandwich_opp 8 hd_c (fun _ => m)); [exact EC|apply blip3_const]|exact NC]).
  assert (WC : blip3 8 (fun x => mv Ji (sandwich (hd_c x) (hd_s x)))) by (apply (blip3_mv 8 Ji (fun x => sandwich (hd_c x) (hd_s x))); apply (blip3_sandwich 8 hd_c hd_s); assumption).
  assert (DQ : blipq 8 (fun x => product (hd_c x) (pure (mv Ji (sandwich (hd_c x) (hd_s x)))))) by (apply (blipq_product 8 hd_c); [exact EC|apply (blipq_pure 8 (fun x => mv Ji (sandwich (hd_c x) (hd_s x)))), WC]). destruct DQ as (D0 & D1 & D2 & D3). destruct DZ as (E1 & E2 & E3).
  intros [|[|[|[|[|[|[|[|i]]]]]]]]; cbn [hd_field].
  - exact (lip_scal 8 (1 / 2) _ (blip_lip 8 _ D0)).
  - exact (lip_scal 8 (1 / 2) _ (blip_lip 8 _ D1)).
  - exact (lip_scal 8 (1 / 2) _ (blip_lip 8 _ D2)).
  - exact (lip_scal 8 (1 / 2) _ (blip_lip 8 _ D3)).
  - exact (blip_lip 8 _ E1).
  - exact (blip_lip 8 _ E2).
  - exact (blip_lip 8 _ E3).
  - apply blip_lip, blip_const.
  - apply blip_lip, blip_const.
Qed.
Lemma hd_spec (q0 : quat) (h0 : v3) : unitq q0 -> norm3 h0 + norm3 m * (norm3 (B t0) + kb * (h + 1)) * (h + 1) <= b ->
  let q := fun t => hd_q (hd_x q0 h0 t) in let H := fun t => hd_h (hd_x q0 h0 t) in
  q 0 = q0 /\ H 0 = h0 /\ (forall t, unitq (q t)) /\
  (forall t, -1 < t < h + 1 -> derivq q t (scaleq 0.5 (product (q t) (pure (mv Ji (sandwich (q t) (H t)))))) /\ deriv3 H t (cross3 (sandwich_opp (q t) m) (B (t0 + t)))).
Proof.
  intros U0 HB. destruct (lip_all 8 hd_field 8 hd_lip) as (kk & KK & LF). { intros x i Hi. do 8 (destruct i as [|i]; [lia|]). reflexivity. }
  destruct (psol_system 8 hd_field kk (fun i => match i with 0%nat => qw q0 | 1%nat => qx q0 | 2%nat => qy q0 | 3%nat => qz q0 | 4%nat => x3 h0 | 5%nat => y3 h0 | 6%nat => z3 h0 | _ => 0 end) ltac:(lia) KK LF) as (X0 & XD).
  set (x := hd_x q0 h0). change (psol hd_field _) with x in X0, XD. intros e d.
  assert (E0 : e 0 = q0) by (unfold e, hd_q; rewrite !X0 by lia; destruct q0; reflexivity).
  assert (D0 : d 0 = h0) by (unfold d, hd_h; rewrite !X0 by lia; destruct h0; reflexivity).
  assert (DE : forall t, derivq e t (hd_dq (x t))) by (intros t; split; [|split; [|split]]; [exact (XD t 0%nat ltac:(lia))|exact (XD t 1%nat ltac:(lia))|exact (XD t 2%nat ltac:(lia))|exact (XD t 3%nat ltac:(lia))]).
  assert (DD : forall t, deriv3 d t (hd_dh (x t))) by (intros t; split; [|split]; [exact (XD t 4%nat ltac:(lia))|exact (XD t 5%nat ltac:(lia))|exact (XD t 6%nat ltac:(lia))]).
  assert (TM : forall t, x t 7%nat = t).
  { intros t. assert (Z : x t 7%nat - t = x 0 7%nat - 0). { apply (const_all (fun t => x t 7%nat - t)). intros s. apply (d_eq _ _ (1 - 1)); [|ring]. apply d_minus; [exact (XD s 7%nat ltac:(lia))|apply derivable_pt_lim_id]. } rewrite X0 in Z by lia. lra. }
  assert (UE : forall t, unitq (e t)).
  { intros t. unfold unitq. transitivity (dotq (e 0) (e 0)); [|rewrite E0; exact U0]. apply (const_all (fun t => dotq (e t) (e t))). intros s. eapply d_eq; [apply d_dotq; apply DE|]. cbv beta.
    assert (Z : dotq (e s) (hd_dq (x s)) = 0) by (unfold hd_dq, hd_c; apply dotq_scaled_perp).
    transitivity (dotq (e s) (hd_dq (x s)) + dotq (e s) (hd_dq (x s))); [|rewrite Z; ring]. f_equal. generalize (e s) (hd_dq (x s)). clear. intros [p q r v] [p' q' r' v']. vunfoldg. rnumg. ring. }
  assert (CE : forall t, hd_c (x t) = e t).
  { intros t. unfold hd_c. fold (e t). assert (N3 := nq_unit3 (e t) (UE t)).
    rewrite Rmax_left by exact N3. unfold Rdiv. rewrite Rinv_r by lra. generalize (e t). clear. intros [p q r v]. vunfoldg. rnumg. apply mkq_c; ring. }
  split; [exact E0|]. split; [exact D0|]. split; [exact UE|].
  set (bb := norm3 (B t0) + kb * (h + 1)) in *.
  assert (NH : forall u, norm3 (hd_dh (x u)) <= norm3 m * bb).
  { intros u. unfold hd_dh. rewrite CE. eapply Rle_trans; [apply cross_norm|]. assert (Y : norm3 (sandwich_opp (e u) m) = norm3 m) by (destruct (sandwich_opp_rigid _ (UE u)) as (R1 & _); unfold norm3; rewrite R1; reflexivity). rewrite Y. apply Rmult_le_compat_l; [apply norm3_pos|apply clamped_B]. }
  assert (PB : 0 <= norm3 m * bb) by (assert (Y := NH 0); assert (Z := norm3_pos (hd_dh (x 0))); lra).
  assert (SM : forall t, -1 <= t <= h + 1 -> norm3 (d t) <= b).
  { intros t Ht. assert (Y : norm3 (sub3 (d t) h0) <= norm3 m * bb * (h + 1)).
    { rewrite <- D0. destruct (Rle_dec 0 t) as [L|L].
      - eapply Rle_trans; [apply (vmvt d (fun u => hd_dh (x u)) 0 t (norm3 m * bb) L (fun u _ => DD u) (fun u _ => NH u))|]. apply Rmult_le_compat_l; lra.
      - replace (norm3 (sub3 (d t) (d 0))) with (norm3 (sub3 (d 0) (d t))) by apply sub_sym.
        eapply Rle_trans; [apply (vmvt d (fun u => hd_dh (x u)) t 0 (norm3 m * bb) ltac:(lra) (fun u _ => DD u) (fun u _ => NH u))|]. apply Rmult_le_compat_l; lra. }
    assert (Z := norm3_sub_split (d t) h0). lra. }
  intros t Ht. assert (SS : scale3 (P_loop1.shrink b (d t)) (d t) = d t).
  { assert (Y := SM t ltac:(lra)). assert (Q := P_quat.norm3_sq (d t)). assert (P := norm3_pos (d t)).
    assert (Z : dot3 (d t) (d t) < 3 * (b * b)). { rewrite <- Q. revert Y P bP. generalize (norm3 (d t)) b. clear. intros n c Y P C. nra. }
    rewrite (P_loop2.shrink_1 b (d t) bP Z). exact (scale3_1 (d t)). }
  split.
  - assert (Q := DE t). unfold hd_dq, hd_s in Q. change (hd_h (x t)) with (d t) in Q. rewrite SS, CE in Q. rewrite half_05. exact Q.
  - assert (Q := DD t). unfold hd_dh in Q. rewrite TM, CE in Q. replace (clamp (-1) (h + 1) t) with t in Q by (unfold clamp, Rmin, Rmax; repeat destruct Rle_dec; lra). exact Q.
Qed.
End HOLD.
