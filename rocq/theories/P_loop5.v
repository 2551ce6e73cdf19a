(** * Lemmas: the detumbling motion exists and is unique *)
From Coq Require Import Reals ZArith List Bool Arith Lra Psatz Lia.
From Coquelicot Require Import Coquelicot.
From Verif Require Import Num Vec M_vector M_quaternion M_struct M_dyn M_ctrl S_rot S_dyn S_ctrl P_rk P_rk4 P_picard P_exist1 P_exist2 P_loop1.
From Verif Require Import P_quat P_wheel P_dyn P_dyn2 P_obs P_sat P_ctrl P_ctrl2 P_ctrl3 P_ctrl4 P_ctrl5 P_conv P_detum P_detum2 Props_ctrl Props_ctrl2 Props_ctrl3 Props_conv Props_detum P_dump P_dump2 Props_dump P_loop2 P_loop3 P_loop4.
Import ListNotations.
Local Open Scope R_scope.

Section TUMBLE.
Variables (Ji : m3) (kap : R) (n : R -> v3) (b : R).
Definition tu_q (x : nat -> R) : quat := mkq (x 0%nat) (x 1%nat) (x 2%nat) (x 3%nat).
Definition tu_c (x : nat -> R) : quat := scaleq (3 / Rmax 3 (nq (tu_q x))) (tu_q x).
Definition tu_h (x : nat -> R) : v3 := mk3 (x 4%nat) (x 5%nat) (x 6%nat).
Definition tu_s (x : nat -> R) : v3 := scale3 (shrink b (tu_h x)) (tu_h x).
Definition tu_dq (x : nat -> R) : quat := scaleq (1 / 2) (product (tu_c x) (pure (mv Ji (sandwich (tu_c x) (tu_s x))))).
Definition tu_dh (x : nat -> R) : v3 := scale3 (- kap) (over (n (x 7%nat)) (tu_s x)).
Definition tu_field (x : nat -> R) (i : nat) : R :=
  match i with
  | 0%nat => qw (tu_dq x) | 1%nat => qx (tu_dq x) | 2%nat => qy (tu_dq x) | 3%nat => qz (tu_dq x)
  | 4%nat => x3 (tu_dh x) | 5%nat => y3 (tu_dh x) | 6%nat => z3 (tu_dh x)
  | 7%nat => 1
  | _ => 0
  end.
Hypothesis bP : 0 < b.
Variable kn : R.
Hypothesis KN : 0 <= kn.
Hypothesis NU : forall t, dot3 (n t) (n t) = 1.
Hypothesis NL : forall s t, n1 (sub3 (n s) (n t)) <= kn * Rabs (s - t).
Lemma tu_lip : forall i, lip 8 (fun x => tu_field x i).
Proof.
  assert (C : forall i, (i < 8)%nat -> lip 8 (fun x => x i)) by (intros i Hi; apply lip_coord, Hi).
  assert (EC : blipq 8 tu_c) by (apply (blipq_radial 8 tu_q); [apply (C 0%nat)|apply (C 1%nat)|apply (C 2%nat)|apply (C 3%nat)]; lia).
  assert (AB : forall v : v3, Rabs (x3 v) <= n1 v /\ Rabs (y3 v) <= n1 v /\ Rabs (z3 v) <= n1 v) by (intros v; unfold n1; assert (A1 := Rabs_pos (x3 v)); assert (A2 := Rabs_pos (y3 v)); assert (A3 := Rabs_pos (z3 v)); lra).
  assert (ZC : blip3 8 tu_s).
  { assert (L0 : forall i, (i < 8)%nat -> lip 8 (fun x => / b * x i)) by (intros i Hi; apply (lip_scal 8 (/ b)), C, Hi).
    assert (LN : lip 8 (fun x => n1 (scale3 (/ b) (tu_h x)))) by (exact (lip_add 8 _ _ (lip_add 8 _ _ (lip_abs 8 _ (L0 4%nat ltac:(lia))) (lip_abs 8 _ (L0 5%nat ltac:(lia)))) (lip_abs 8 _ (L0 6%nat ltac:(lia))))).
    assert (G : forall i, (i < 8)%nat -> (forall x, Rabs (/ b * x i) <= n1 (scale3 (/ b) (tu_h x))) -> blip 8 (fun x => shrink b (tu_h x) * x i)).
    { intros i Hi HB. apply (blip_ext 8 (fun x => b * (3 / Rmax 3 (n1 (scale3 (/ b) (tu_h x))) * (/ b * x i)))).
      - intros x. unfold shrink. assert (M : 3 <= Rmax 3 (n1 (scale3 (/ b) (tu_h x)))) by apply Rmax_l. field. split; lra.
      - apply (blip_mul 8 (fun _ => b)); [apply blip_const|]. exact (blip_radial 8 _ _ (L0 i Hi) LN HB). }
    split; [|split]; [exact (G 4%nat ltac:(lia) (fun x => proj1 (AB (scale3 (/ b) (tu_h x)))))|exact (G 5%nat ltac:(lia) (fun x => proj1 (proj2 (AB (scale3 (/ b) (tu_h x))))))|exact (G 6%nat ltac:(lia) (fun x => proj2 (proj2 (AB (scale3 (/ b) (tu_h x))))))]. }
  assert (NC : blip3 8 (fun x => n (x 7%nat))).
  { assert (GEN : forall pr : v3 -> R, (forall v, Rabs (pr v) <= n1 v) -> (forall a b, pr (sub3 a b) = pr a - pr b) -> blip 8 (fun x => pr (n (x 7%nat)))).
    { intros pr P1 P2. apply (blip_time 8 7 (fun t => pr (n t)) kn 3); [lia|exact KN| |].
      - intros s t. rewrite <- P2. eapply Rle_trans; [apply P1|apply NL].
      - intros t. eapply Rle_trans; [apply P1|]. assert (Z := n1_sq (n t)). rewrite NU in Z. assert (P := n1_pos (n t)). apply Rnot_lt_le. intros L. assert (3 * 3 < n1 (n t) * n1 (n t)) by (apply Rmult_le_0_lt_compat; lra). lra. }
    split; [|split]; apply GEN; intros; try apply AB; reflexivity. }
  assert (DZ : blip3 8 tu_dh).
  { unfold tu_dh. apply (blip3_scale 8 (fun _ => - kap)); [apply blip_const|]. unfold over. apply (blip3_sub 8 tu_s); [exact ZC|]. apply (blip3_scale 8 (fun x => dot3 (tu_s x) (n (x 7%nat))) (fun x => n (x 7%nat))); [|exact NC]. apply (blip_dot 8 tu_s); assumption. }
  assert (WC : blip3 8 (fun x => mv Ji (sandwich (tu_c x) (tu_s x)))) by (apply (blip3_mv 8 Ji (fun x => sandwich (tu_c x) (tu_s x))); apply (blip3_sandwich 8 tu_c tu_s); assumption).
  assert (DQ : blipq 8 (fun x => product (tu_c x) (pure (mv Ji (sandwich (tu_c x) (tu_s x)))))) by (apply (blipq_product 8 tu_c); [exact EC|apply (blipq_pure 8 (fun x => mv Ji (sandwich (tu_c x) (tu_s x)))), WC]). destruct DQ as (D0 & D1 & D2 & D3). destruct DZ as (E1 & E2 & E3).
  intros [|[|[|[|[|[|[|[|i]]]]]]]]; cbn [tu_field].
  - exact (lip_scal 8 (1 / 2) _ (blip_lip 8 _ D0)).
  - exact (lip_scal 8 (1 / 2) _ (blip_lip 8 _ D1)).
  - exact (lip_scal 8 (1 / 2) _ (blip_lip 8 _ D2)).
  - exact (lip_scal 8 (1 / 2) _ (blip_lip 8 _ D3)).
  - exact (blip_lip 8 _ E1).
  - exact (blip_lip 8 _ E2).
  - exact (blip_lip 8 _ E3).
  - apply blip_lip, blip_const.
  - apply blip_lip, blip_const.
Qed.
Lemma tumble_raw (q0 : quat) (h0 : v3) : unitq q0 -> exists (q : R -> quat) (h : R -> v3), q 0 = q0 /\ h 0 = h0 /\ (forall t, unitq (q t)) /\
  (forall t, derivq q t (scaleq (1 / 2) (product (q t) (pure (mv Ji (sandwich (q t) (scale3 (shrink b (h t)) (h t)))))))) /\
  (forall t, deriv3 h t (scale3 (- kap) (over (n t) (scale3 (shrink b (h t)) (h t))))).
Proof.
  intros U0. destruct (lip_all 8 tu_field 8 tu_lip) as (kk & KK & LF).
  { intros x i Hi. do 8 (destruct i as [|i]; [lia|]). reflexivity. }
  destruct (picard_system 8 tu_field kk
    (fun i => match i with 0%nat => qw q0 | 1%nat => qx q0 | 2%nat => qy q0 | 3%nat => qz q0 | 4%nat => x3 h0 | 5%nat => y3 h0 | 6%nat => z3 h0 | _ => 0 end) ltac:(lia) KK LF) as (x & X0 & XD).
  set (e := fun t => tu_q (x t)). set (d := fun t => tu_h (x t)).
  assert (E0 : e 0 = q0) by (unfold e, tu_q; rewrite !X0; destruct q0; reflexivity).
  assert (D0 : d 0 = h0) by (unfold d, tu_h; rewrite !X0; destruct h0; reflexivity).
  assert (DE : forall t, derivq e t (tu_dq (x t))) by (intros t; split; [|split; [|split]]; [exact (XD t 0%nat ltac:(lia))|exact (XD t 1%nat ltac:(lia))|exact (XD t 2%nat ltac:(lia))|exact (XD t 3%nat ltac:(lia))]).
  assert (DD : forall t, deriv3 d t (tu_dh (x t))) by (intros t; split; [|split]; [exact (XD t 4%nat ltac:(lia))|exact (XD t 5%nat ltac:(lia))|exact (XD t 6%nat ltac:(lia))]).
  assert (TM : forall t, x t 7%nat = t).
  { intros t. assert (Z : x t 7%nat - t = x 0 7%nat - 0). { apply (const_all (fun t => x t 7%nat - t)). intros s. apply (d_eq _ _ (1 - 1)); [|ring]. apply d_minus; [exact (XD s 7%nat ltac:(lia))|apply derivable_pt_lim_id]. } rewrite X0 in Z. lra. }
  assert (UE : forall t, unitq (e t)).
  { intros t. unfold unitq. transitivity (dotq (e 0) (e 0)); [|rewrite E0; exact U0]. apply (const_all (fun t => dotq (e t) (e t))). intros s. eapply d_eq; [apply d_dotq; apply DE|]. cbv beta.
    assert (Z : dotq (e s) (tu_dq (x s)) = 0) by (unfold tu_dq, tu_c; apply dotq_scaled_perp).
    transitivity (dotq (e s) (tu_dq (x s)) + dotq (e s) (tu_dq (x s))); [|rewrite Z; ring]. f_equal. generalize (e s) (tu_dq (x s)). clear. intros [p q r v] [p' q' r' v']. vunfoldg. rnumg. ring. }
  assert (CE : forall t, tu_c (x t) = e t).
  { intros t. unfold tu_c. fold (e t). assert (N3 := nq_unit3 (e t) (UE t)).
    rewrite Rmax_left by exact N3. unfold Rdiv. rewrite Rinv_r by lra. generalize (e t). clear. intros [p q r v]. vunfoldg. rnumg. apply mkq_c; ring. }
  exists e, d. split; [exact E0|]. split; [exact D0|]. split; [exact UE|]. split; intros t.
  - assert (Q := DE t). unfold tu_dq in Q. rewrite CE in Q. exact Q.
  - assert (Q := DD t). unfold tu_dh in Q. rewrite TM in Q. exact Q.
Qed.
End TUMBLE.
Lemma over_scaled (n v : v3) k : dot3 v (over n (scale3 k v)) = k * (dot3 v v - dot3 v n * dot3 v n).
Proof. rewrite over_dot. destruct n as [a b c], v as [d e f]. vunfoldg. rnumg. ring. Qed.
Lemma dot_scale_r (u v : v3) k : dot3 u (scale3 k v) = k * dot3 u v. Proof. destruct u as [a b c], v as [d e f]. vunfoldg. rnumg. ring. Qed.
Lemma scale_1 (v : v3) : scale3 1 v = v. Proof. revert v. vring. Qed.
Lemma tumble_solution Ji kap (n : R -> v3) kn q0 h0 : 0 <= kap -> 0 <= kn -> (forall t, dot3 (n t) (n t) = 1) -> (forall s t, n1 (sub3 (n s) (n t)) <= kn * Rabs (s - t)) -> unitq q0 ->
  exists (q : R -> quat) (h : R -> v3), q 0 = q0 /\ h 0 = h0 /\ forall t, 0 <= t -> unitq (q t) /\
  derivq q t (scaleq 0.5 (product (q t) (pure (mv Ji (sandwich (q t) (h t)))))) /\ deriv3 h t (scale3 (- kap) (over (n t) (h t))).
Proof.
  intros KP KN NU NL U0. set (b := 1 + dot3 h0 h0). assert (H0 := dot3_nonneg h0). assert (bP : 1 <= b) by (unfold b; lra).
  destruct (tumble_raw Ji kap n b ltac:(lra) kn KN NU NL q0 h0 U0) as (q & h & Q0 & HH0 & UQ & DQ & DH). exists q, h. split; [exact Q0|]. split; [exact HH0|].
  assert (L : forall t, 0 <= t -> dot3 (h t) (h t) < 3 * (b * b)).
  { intros t Ht. assert (Z := le_of_deriv (fun s => dot3 (h s) (h s)) (fun s => 2 * dot3 (h s) (scale3 (- kap) (over (n s) (scale3 (shrink b (h s)) (h s))))) 0 t Ht (fun s _ => d_square h s _ (DH s))). cbv beta in Z. rewrite HH0 in Z.
    assert (b <= b * b) by nra. eapply Rle_lt_trans; [apply Z|unfold b in *; lra]. intros s _. rewrite dot_scale_r, over_scaled. assert (K := cs3 (h s) (n s)). rewrite NU in K. assert (P := shrink_pos b (h s)).
    assert (0 <= shrink b (h s) * (dot3 (h s) (h s) - dot3 (h s) (n s) * dot3 (h s) (n s))) by (apply Rmult_le_pos; [exact P|lra]). set (y := shrink b (h s) * _) in *. assert (0 <= kap * y) by (apply Rmult_le_pos; assumption). lra. }
  intros t Ht. assert (E : scale3 (shrink b (h t)) (h t) = h t) by (rewrite shrink_1; [apply scale_1|lra|apply L, Ht]). split; [apply UQ|]. split.
  - assert (Z := DQ t). rewrite E, <- half_05 in Z. exact Z.
  - assert (Z := DH t). rewrite E in Z. exact Z.
Qed.
(** ** existence *)
Lemma tumble_exists sat B F v0 : det3 (s_total_moment sat) <> 0 -> swings B -> cont3 F -> unitq (v_att v0) -> exists y, y 0 = v0 /\ detumbled sat B F (fun _ => []) y.
Proof.
  intros DJ (NB & kn & KN & HN) CF U0. set (J := s_total_moment sat). assert (kp := K_pos).
  destruct (tumble_solution (inv3 J) K_BBQ (fun t => normalize3 (B t)) kn (v_att v0) (sandwich_opp (v_att v0) (mv J (v_rate v0))) ltac:(lra) KN (fun t => normalize3_unit (B t) (NB t)) HN U0) as (q & h & Q0 & H0 & SOL).
  destruct (antideriv3 (fun t => div3 (F t) (s_mass sat)) (v_vel v0) (cont3_div F (s_mass sat) CF)) as (vel & V0 & DV). destruct (antideriv3 vel (v_pos v0) (deriv3_cont _ _ DV)) as (pos & P0 & DP).
  set (om := fun t => mv (inv3 J) (sandwich (q t) (h t))). set (y := fun t => mkSV (pos t) (vel t) (q t) (om t) (v_whl v0)).
  assert (Y0 : y 0 = v0).
  { unfold y, om. rewrite P0, V0, Q0, H0, sandwich_sandwich_opp by exact U0. rewrite inv3_mv by exact DJ. destruct v0; reflexivity. }
  exists y. split; [exact Y0|]. split; [rewrite Y0; exact U0|]. intros t Ht. destruct (SOL t Ht) as (UQ & DQ & DH).
  assert (NS : seen B y t <> zero3) by (apply seen_nz; [exact UQ|apply NB]). assert (JO : mv J (om t) = sandwich (q t) (h t)) by (unfold om; apply mv_inv3, DJ).
  split; [exact (DP t)|]. split; [exact (DV t)|]. split; [exact DQ|]. split; [|intros i; cbn [derivative v_whl]; replace (nth i [] 0) with 0 by (destruct i; reflexivity); exact (derivable_pt_lim_const (nth i (v_whl v0) 0) t)].
  cbn [derivative v_rate]. eapply d3_eq; [exact (d3_mv (inv3 J) _ t _ (P_ctrl2.d3_sandwich q h t _ (om t) DQ DH))|]. unfold s_inv_tot. fold J. f_equal.
  rewrite mag_torque by exact NS. unfold detumble_torque. fold J. change (v_rate (y t)) with (om t). rewrite JO. rewrite <- rej_over, s_scale, rej_sandwich by (exact UQ || apply NB). change (sandwich (v_att (y t)) (B t)) with (seen B y t). change (sandwich (q t) (B t)) with (seen B y t).
  assert (P := dpos _ NS). unfold rej. generalize (sandwich (q t) (h t)) (om t) K_BBQ (seen B y t) P. clear. intros [h1 h2 h3] [w1 w2 w3] k [b1 b2 b3]. vunfoldg. cbn [x3 y3 z3]. rnumg. intros P. apply mk3_c; field; lra.
Qed.
(** ** uniqueness *)
Lemma sandwich_gap (q q' : quat) (h : v3) : sub3 (sandwich q h) (sandwich q' h) = vec (addq (product (conjugate (subq q q')) (product (pure h) q)) (product (conjugate q') (product (pure h) (subq q q')))).
Proof. destruct q as [a b c d], q' as [a' b' c' d'], h as [x y z]. unfold sandwich, product, pure, conjugate. vunfoldg. rnumg. apply mk3_c; ring. Qed.
Lemma n1_gap (q q' : quat) (h : v3) : unitq q -> unitq q' -> n1 (sub3 (sandwich q h) (sandwich q' h)) <= 8 * n1 h * nq (subq q q').
Proof.
  intros U U'. rewrite sandwich_gap. eapply Rle_trans; [apply vec_nq|]. eapply Rle_trans; [apply nq_add|]. assert (A := unit_nq q U). assert (A' := unit_nq q' U'). set (dq := subq q q').
  assert (P := n1_pos h). assert (PD := nq_pos dq). assert (PQ := nq_pos q). assert (PQ' := nq_pos q').
  assert (X : nq (product (conjugate dq) (product (pure h) q)) <= nq dq * (n1 h * 4)).
  { eapply Rle_trans; [apply nq_product|]. rewrite nq_conj. apply Rmult_le_compat_l; [exact PD|]. eapply Rle_trans; [apply nq_product|]. rewrite pure_nq. apply Rmult_le_compat_l; assumption. }
  assert (Y : nq (product (conjugate q') (product (pure h) dq)) <= 4 * (n1 h * nq dq)).
  { eapply Rle_trans; [apply nq_product|]. rewrite nq_conj. assert (Z := nq_product (pure h) dq). rewrite pure_nq in Z. apply Rmult_le_compat; try assumption. apply nq_pos. }
  lra.
Qed.
Lemma spin_gap (Ji : m3) (q q' : quat) (h : v3) m : unitq q -> unitq q' -> dot3 h h <= m -> dot3 (sub3 (mv Ji (sandwich q h)) (mv Ji (sandwich q' h))) (sub3 (mv Ji (sandwich q h)) (mv Ji (sandwich q' h))) <= nm Ji * nm Ji * (768 * m) * dotq (subq q q') (subq q q').
Proof.
  intros U U' HM. rewrite mv_sub'. set (v := sub3 (sandwich q h) (sandwich q' h)). set (dq := subq q q'). assert (A := n1_gap q q' h U U'). fold v dq in A.
  assert (PV := n1_pos v). assert (PH := n1_pos h). assert (PD := nq_pos dq). assert (PJ : 0 <= nm Ji) by (unfold nm; assert (X := n1_pos (row1 Ji)); assert (Y := n1_pos (row2 Ji)); assert (Z := n1_pos (row3 Ji)); lra).
  assert (C := n1_mv Ji v). assert (PC := n1_pos (mv Ji v)). assert (D := Rle_abs (dot3 (mv Ji v) (mv Ji v))). assert (D' := dot_le (mv Ji v) (mv Ji v)).
  set (k := nm Ji * (8 * n1 h * nq dq)). assert (Ck : n1 (mv Ji v) <= k) by (eapply Rle_trans; [exact C|]; apply Rmult_le_compat_l; assumption).
  assert (K2 : n1 (mv Ji v) * n1 (mv Ji v) <= k * k) by (apply Rmult_le_compat; assumption).
  assert (E : k * k = nm Ji * nm Ji * (64 * ((n1 h * n1 h) * (nq dq * nq dq)))) by (unfold k; ring). assert (Q := nq_sq dq). assert (Hs := n1_sq h). assert (HP := dot3_nonneg h). assert (DP := dotq_pos dq).
  assert (G : (n1 h * n1 h) * (nq dq * nq dq) <= (3 * m) * (4 * dotq dq dq)) by (apply Rmult_le_compat; [apply Rle_0_sqr|apply Rle_0_sqr|lra|exact Q]).
  assert (G2 := Rmult_le_compat_l (nm Ji * nm Ji) _ _ (Rle_0_sqr (nm Ji)) (Rmult_le_compat_l 64 _ _ ltac:(lra) G)). lra.
Qed.
Lemma sub_zero (v : v3) : sub3 v zero3 = v. Proof. revert v. vring. Qed.
Lemma tumble_unique sat B F accl y y' : det3 (s_total_moment sat) <> 0 -> (forall t, B t <> zero3) -> detumbled sat B F accl y -> detumbled sat B F accl y' -> same (y 0) (y' 0) -> forall t, 0 <= t -> same (y t) (y' t).
Proof.
  intros DJ NB M M' (E1 & E2 & E3 & E4 & E5). assert (UY := keeps_unit _ _ _ _ _ M). assert (UY' := keeps_unit _ _ _ _ _ M'). assert (IL := inertial_law _ _ _ _ _ DJ NB M). assert (IL' := inertial_law _ _ _ _ _ DJ NB M').
  set (H := fun u => sandwich_opp (v_att (y u)) (spin_of sat y u)) in *. set (H' := fun u => sandwich_opp (v_att (y' u)) (spin_of sat y' u)) in *. assert (kp := K_pos). destruct M as (_ & D), M' as (_ & D'). set (J := s_total_moment sat) in *.
  assert (H0 : H 0 = H' 0) by (unfold H, H', spin_of; rewrite E3, E4; reflexivity).
  assert (EH : forall t, 0 <= t -> H t = H' t).
  { apply (rej_same_unique K_BBQ B H H' (fun _ => zero3)); [lra|exact NB| | |exact H0]; intros t Ht; rewrite sub_zero; [exact (IL t Ht)|exact (IL' t Ht)]. }
  assert (HB : forall t, 0 <= t -> dot3 (H t) (H t) <= dot3 (H 0) (H 0)).
  { intros t Ht. assert (Z := le_of_deriv (fun s => dot3 (H s) (H s)) (fun s => 2 * dot3 (H s) (scale3 (- K_BBQ) (rej (B s) (H s)))) 0 t Ht (fun s Hs => d_square H s _ (IL s (proj1 Hs)))). apply Z. intros s Hs. rewrite dot_scale_r, rej_dot by apply NB. assert (P : 0 <= across (H s) (B s)) by (apply across_nonneg, NB). assert (0 <= K_BBQ * across (H s) (B s)) by (apply Rmult_le_pos; lra). lra. }
  assert (RO : forall t, 0 <= t -> v_rate (y t) = mv (inv3 J) (sandwich (v_att (y t)) (H t))) by (intros t Ht; unfold H, spin_of; rewrite sandwich_sandwich_opp by (apply UY, Ht); symmetry; apply inv3_mv, DJ).
  assert (RO' : forall t, 0 <= t -> v_rate (y' t) = mv (inv3 J) (sandwich (v_att (y' t)) (H t))) by (intros t Ht; rewrite (EH t Ht); unfold H', spin_of; rewrite sandwich_sandwich_opp by (apply UY', Ht); symmetry; apply inv3_mv, DJ).
  assert (EA : forall t, 0 <= t -> v_att (y t) = v_att (y' t)).
  { intros t Ht. set (dq := fun s => subq (v_att (y s)) (v_att (y' s))). set (tq := fun s => subq (scaleq (1 / 2) (product (v_att (y s)) (pure (v_rate (y s))))) (scaleq (1 / 2) (product (v_att (y' s)) (pure (v_rate (y' s)))))). set (m := dot3 (H 0) (H 0)). assert (mP : 0 <= m) by apply dot3_nonneg.
    set (k := nm (inv3 J) * nm (inv3 J) * (768 * m)). assert (kP : 0 <= k) by (apply Rmult_le_pos; [apply Rle_0_sqr|lra]).
    apply P_exist2.dotq_zero. right. apply (vanishes (fun s => dotq (dq s) (dq s)) (fun s => dotq (tq s) (dq s) + dotq (dq s) (tq s)) (16 + 6 * k) t); [lra| | | |lra].
    - intros s Hs. destruct (D s (proj1 Hs)) as (_ & _ & DQ & _). destruct (D' s (proj1 Hs)) as (_ & _ & DQ' & _). cbn [derivative v_att] in DQ, DQ'. rewrite half_05 in DQ, DQ'. exact (d_dotq _ _ s _ _ (dq_sub _ _ s _ _ DQ DQ') (dq_sub _ _ s _ _ DQ DQ')).
    - intros s Hs. assert (PQ := dotq_pos (dq s)). split; [exact PQ|]. assert (T1 := turn_gap (v_att (y s)) (v_att (y' s)) (v_rate (y s)) (v_rate (y' s)) (UY' s (proj1 Hs))). fold (dq s) (tq s) in T1.
      assert (T2 := spin_gap (inv3 J) (v_att (y s)) (v_att (y' s)) (H s) m (UY s (proj1 Hs)) (UY' s (proj1 Hs)) (HB s (proj1 Hs))). rewrite <- RO, <- RO' in T2 by exact (proj1 Hs). fold (dq s) k in T2.
      assert (C1 : dotq (tq s) (dq s) = dotq (dq s) (tq s)) by (generalize (dq s) (tq s); clear; intros [a b c d] [e f g h]; vunfoldg; rnumg; ring). rewrite C1. lra.
    - unfold dq. rewrite E3. generalize (v_att (y' 0)). clear. intros [a b c d]. vunfoldg. rnumg. ring. }
  assert (EV : forall t, 0 <= t -> v_vel (y t) = v_vel (y' t)).
  { intros t Ht. apply (same_slope3 (fun s => v_vel (y s)) (fun s => v_vel (y' s)) (fun s => div3 (F s) (s_mass sat)) t Ht); [| |exact E2]; intros s Hs; [destruct (D s (proj1 Hs)) as (_ & Z & _)|destruct (D' s (proj1 Hs)) as (_ & Z & _)]; exact Z. }
  intros t Ht. split; [|split; [exact (EV t Ht)|split; [exact (EA t Ht)|split]]].
  - apply (same_slope3 (fun s => v_pos (y s)) (fun s => v_pos (y' s)) (fun s => v_vel (y s)) t Ht); [| |exact E1]; intros s Hs.
    + destruct (D s (proj1 Hs)) as (Z & _). exact Z.
    + destruct (D' s (proj1 Hs)) as (Z & _). rewrite (EV s (proj1 Hs)). exact Z.
  - rewrite (RO t Ht), (RO' t Ht), (EA t Ht). reflexivity.
  - intros i. apply (same_slope (fun s => nth i (v_whl (y s)) 0) (fun s => nth i (v_whl (y' s)) 0) (fun s => nth i (accl s) 0) t Ht); [| |exact (E5 i)]; intros s Hs; [destruct (D s (proj1 Hs)) as (_ & _ & _ & _ & Z)|destruct (D' s (proj1 Hs)) as (_ & _ & _ & _ & Z)]; exact (Z i).
Qed.
