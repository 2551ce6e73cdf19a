(** * The tracking error along a moving reference, and what a rotation moves *)
From Coq Require Import Reals ZArith List Bool Arith Lra Psatz Lia.
From Verif Require Import Num Vec M_vector M_quaternion M_struct M_dyn M_ctrl S_rot S_dyn S_ctrl.
From Verif Require Import P_quat P_wheel P_dyn P_dyn2 P_ctrl2 P_ctrl3 P_conv Props_conv.
Import ListNotations.
Local Open Scope R_scope.

(** the error attitude e and the rate error d obey the closed loop; sg is the sign the trigger gives *)
Lemma error_converges al ga (tr : Trigger R) (e : R -> quat) (d : R -> v3) a : 0 < al -> 0 < ga -> 0 < tr_hw tr < 1 -> pm1 (tr_mem tr) -> a < 0 ->
  (forall t, a < t -> unitq (e t)) ->
  (forall t, a < t -> derivq e t (scaleq 0.5 (product (e t) (pure (d t))))) ->
  (forall t, a < t -> deriv3 d t (sub3 (scale3 (- tr_mem (trig_step (qw (e t)) tr) * al) (vec (e t))) (scale3 ga (d t)))) ->
  let s := tr_mem tr in
  2 * al * (1 - s * qw (e 0)) + dot3 (d 0) (d 0) / 2 < 2 * al * (1 + tr_hw tr) ->
  forall t, 0 <= t -> trig_step (qw (e t)) tr = tr /\
    4 * al * (1 - s * qw (e t)) + dot3 (d t) (d t) <= (12 * al * (1 - s * qw (e 0)) + 4 * dot3 (d 0) (d 0)) * exp (- cv_rate al ga (1 - tr_hw tr) * t).
Proof.
  intros A G HW PM HA UE DE DW0 s HE. set (hw := tr_hw tr) in *. assert (SS := pm1_sq _ PM). fold s in SS.
  set (x := fun t => s * qw (e t)). set (n := fun t => dot3 (d t) (d t)). set (r := fun t => s * dot3 (vec (e t)) (d t)).
  set (sg := fun t => tr_mem (trig_step (qw (e t)) tr)).
  assert (DW : forall t, a < t -> deriv3 d t (sub3 (scale3 (- sg t * al) (vec (e t))) (scale3 ga (d t)))) by exact DW0. clear DW0.
  assert (DX : forall t, a < t -> derivable_pt_lim x t (- r t / 2)).
  { intros t Ht. unfold x. eapply d_eq; [apply d_scal; exact (proj1 (DE t Ht))|]. unfold r. generalize (e t) (d t). clear. intros [p q r' s'] [b c d]. unfold pure, product. replace 0.5 with (1/2) by lra. vunfold; rnum. field. }
  assert (DN : forall t, a < t -> derivable_pt_lim n t (- 2 * al * (sg t * s) * r t - 2 * ga * n t)).
  { intros t Ht. unfold n. eapply d_eq; [apply d_dot3; exact (DW t Ht)|]. unfold r. replace (- 2 * al * (sg t * s) * (s * dot3 (vec (e t)) (d t))) with (- 2 * al * sg t * dot3 (vec (e t)) (d t) * (s * s)) by ring. rewrite SS. generalize (vec (e t)) (d t) (sg t). clear. intros [p q r'] [b c d] k. vunfoldg; cbn [x3 y3 z3]; rnumg. ring. }
  assert (NR : forall t, a < t -> -1 <= x t <= 1 /\ 0 <= n t /\ r t ^ 2 <= (1 - x t ^ 2) * n t).
  { intros t Ht. assert (U := UE t Ht). unfold unitq in U. assert (Q : qw (e t) ^ 2 + dot3 (vec (e t)) (vec (e t)) = 1) by (rewrite <- U; destruct (e t) as [p q r' s']; vunfoldg; cbn [x3 y3 z3 qw qx qy qz]; rnumg; ring).
    assert (V0 := dot3_nonneg (vec (e t))). assert (X2 : x t ^ 2 = qw (e t) ^ 2) by (unfold x; replace ((s * qw (e t)) ^ 2) with (s * s * qw (e t) ^ 2) by ring; rewrite SS; ring).
    split; [nra|]. split; [apply dot3_nonneg|]. unfold r. replace ((s * dot3 (vec (e t)) (d t)) ^ 2) with (s * s * dot3 (vec (e t)) (d t) ^ 2) by ring. rewrite SS, X2. assert (C := cs3 (vec (e t)) (d t)). unfold n. replace (1 - qw (e t) ^ 2) with (dot3 (vec (e t)) (vec (e t))) by lra. lra. }
  fold (x 0) (n 0) in HE.
  assert (KEEP : forall t, - hw < x t -> sg t = s /\ trig_step (qw (e t)) tr = tr).
  { intros t Hx. assert (K : trig_step (qw (e t)) tr = tr) by (apply trig_keep; unfold x in Hx; fold hw s; lra). split; [unfold sg; rewrite K; reflexivity|exact K]. }
  assert (X0 : - hw < x 0) by (destruct (NR 0 HA) as (_ & N0 & _); nra).
  assert (STAY : forall t, 0 <= t -> - hw < x t).
  { intros t Ht. destruct (Rlt_dec (- hw) (x t)) as [|NX]; [assumption|]. exfalso.
    destruct (first_time (fun u => - x u) hw t) as (t1 & H1 & H2 & H3).
    - intros u Hu. apply derivable_continuous_pt. exists (- (- r u / 2)). apply d_opp. apply DX. lra.
    - exact Ht.
    - lra.
    - lra.
    - cbv beta in H2, H3. assert (T1 : 0 < t1) by (destruct (Req_dec t1 0) as [->|]; lra).
      set (V := fun t => 2 * al * (1 - x t) + n t / 2).
      assert (DV : forall u, 0 <= u < t1 -> derivable_pt_lim V u (- ga * n u)).
      { intros u Hu. destruct (KEEP u ltac:(specialize (H3 u Hu); lra)) as [SG _]. unfold V. eapply d_eq.
        { apply d_plus; [apply d_mult; [apply d_const|apply d_minus; [apply d_const|apply DX; lra]]|unfold Rdiv; apply d_mult; [apply DN; lra|apply d_const]]. }
        cbv beta. rewrite SG, SS. field. }
      assert (CV : forall u, a < u -> continuity_pt V u).
      { intros u Hu. apply derivable_continuous_pt. eexists. apply d_plus; [apply d_mult; [apply d_const|apply d_minus; [apply d_const|apply DX; lra]]|unfold Rdiv; apply d_mult; [apply DN; lra|apply d_const]]. }
      assert (LE : V t1 <= V 0).
      { apply (falls V (fun u => - ga * Rabs (n u)) t1 T1).
        - intros u Hu. rewrite Rabs_right; [apply DV, Hu|]. apply Rle_ge. apply (NR u). lra.
        - intros u Hu. apply CV. lra.
        - intros u. assert (P := Rabs_pos (n u)). nra. }
      unfold V in LE. destruct (NR t1 ltac:(lra)) as (_ & N1 & _). nra. }
  assert (DN' : forall t, 0 <= t -> derivable_pt_lim n t (- 2 * al * r t - 2 * ga * n t)).
  { intros t Ht. eapply d_eq; [apply DN; lra|]. destruct (KEEP t (STAY t Ht)) as [-> _]. rewrite SS. ring. }
  assert (DR : forall t, 0 <= t -> derivable_pt_lim r t (x t * n t / 2 - al * (1 - x t ^ 2) - ga * r t)).
  { intros t Ht. assert (At : a < t) by lra. assert (D := d_dot3 _ _ t _ _ (d3_vec _ t _ (DE t At)) (DW t At)). cbv beta in D. unfold r. eapply d_eq; [apply d_scal; exact D|].
    destruct (KEEP t (STAY t Ht)) as [-> _]. assert (U := UE t At). unfold unitq in U. unfold x, n.
    replace (1 - (s * qw (e t)) ^ 2) with (s * s * dot3 (vec (e t)) (vec (e t))).
    - generalize (e t) (d t). clear. intros [p q r' s'] [b c d]. unfold pure, product. replace 0.5 with (1/2) by lra. vunfold; rnum. field.
    - replace ((s * qw (e t)) ^ 2) with (s * s * qw (e t) ^ 2) by ring. rewrite SS. assert (Q : qw (e t) ^ 2 + dot3 (vec (e t)) (vec (e t)) = 1) by (rewrite <- U; destruct (e t) as [p q r' s']; vunfoldg; cbn [x3 y3 z3 qw qx qy qz]; rnumg; ring). lra. }
  intros t Ht. split; [apply KEEP, STAY, Ht|].
  assert (C := cv_scalar al ga (1 - hw) x n r A G ltac:(lra)). fold (x t) (x 0) (n t) (n 0).
  assert (C' : al * (1 - x t) + n t / 4 <= (3 * al * (1 - x 0) + n 0) * exp (- cv_rate al ga (1 - hw) * t)).
  { apply C; try assumption.
    - intros u Hu. destruct (NR u ltac:(lra)) as (B1 & B2 & B3). assert (B4 := STAY u Hu). split; [lra|]. split; assumption.
    - intros u Hu. apply DX. lra. }
  set (E := exp _) in *. lra.
Qed.
(** a rotation moves x by twice the sine of half its angle *)
Lemma sandwich_move (e : quat) (x : v3) : unitq e -> let m := sub3 (sandwich e x) x in dot3 m m = 4 * dot3 (cross3 (vec e) x) (cross3 (vec e) x).
Proof.
  intros U. cbv zeta. assert (E : sandwich e x = add3 (scale3 (dotq e e) x) (scale3 2 (add3 (scale3 (- qw e) (cross3 (vec e) x)) (cross3 (vec e) (cross3 (vec e) x))))).
  { destruct e as [p q r s], x as [a b c]. unfold sandwich, product, conjugate. vunfoldg. cbn [x3 y3 z3 qw qx qy qz]. rnumg. apply mk3_c; ring. }
  rewrite E, U. unfold unitq in U. set (v := vec e) in *. set (z := cross3 v x).
  assert (Q : qw e * qw e + dot3 v v = 1) by (rewrite <- U; unfold v; destruct e as [p q r s]; vunfoldg; cbn [x3 y3 z3 qw qx qy qz]; rnumg; ring).
  assert (O : dot3 v z = 0) by (unfold z; clear; destruct v as [v1 v2 v3], x as [a b c]; vunfoldg; cbn [x3 y3 z3]; rnumg; ring).
  transitivity (4 * (qw e * qw e * dot3 z z + (dot3 v v * dot3 z z - dot3 v z * dot3 v z))).
  - generalize (qw e) z v x. clear. intros w z v x. destruct z as [z1 z2 z3'], v as [v1 v2 v3], x as [a b c]. vunfoldg. cbn [x3 y3 z3]. rnumg. ring.
  - rewrite O. replace (qw e * qw e) with (1 - dot3 v v) by lra. ring.
Qed.
Lemma sandwich_move_le (e : quat) (x : v3) : unitq e -> let m := sub3 (sandwich e x) x in dot3 m m <= 4 * dot3 (vec e) (vec e) * dot3 x x.
Proof.
  intros U. cbv zeta. rewrite (sandwich_move e x U). assert (E : dot3 (cross3 (vec e) x) (cross3 (vec e) x) = dot3 (vec e) (vec e) * dot3 x x - dot3 (vec e) x * dot3 (vec e) x) by (generalize (vec e); clear; intros v; destruct v as [v1 v2 v3], x as [a b c]; vunfoldg; cbn [x3 y3 z3]; rnumg; ring).
  rewrite E. assert (S := Rle_0_sqr (dot3 (vec e) x)). unfold Rsqr in S. lra.
Qed.
Lemma sum2_sq (a b : v3) : dot3 (add3 a b) (add3 a b) <= 2 * dot3 a a + 2 * dot3 b b.
Proof. assert (P := dot3_nonneg (sub3 a b)). assert (E : dot3 (sub3 a b) (sub3 a b) = 2 * dot3 a a + 2 * dot3 b b - dot3 (add3 a b) (add3 a b)) by (destruct a as [a1 a2 a3], b as [b1 b2 b3]; vunfoldg; cbn [x3 y3 z3]; rnumg; ring). lra. Qed.
