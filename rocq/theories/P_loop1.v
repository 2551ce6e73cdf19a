(** * Lemmas: the closed loop in error coordinates has a solution (Picard, with clamps that turn out not to act) *)
From Coq Require Import Reals List Arith Lra Psatz Lia.
From Verif Require Import Num Vec M_quaternion M_struct M_dyn S_rot S_dyn S_rk P_quat P_wheel P_dyn P_rk P_rk3 P_rk4 P_picard P_exist1 P_exist2.
Import ListNotations.
Local Open Scope R_scope.

(** ** functions of time as functions of the state *)
Lemma blip_time n i (f : R -> R) k b : (i < n)%nat -> 0 <= k -> (forall s t, Rabs (f s - f t) <= k * Rabs (s - t)) -> (forall t, Rabs (f t) <= b) -> blip n (fun x => f (x i)).
Proof.
  intros Hi K L B. split; [|exists b; intros x; apply B]. exists k. split; [exact K|]. intros x y. eapply Rle_trans; [apply L|]. apply Rmult_le_compat_l; [exact K|]. apply (nrm_comp n (fun j => x j - y j) i Hi).
Qed.
Lemma mvt_lip (f f' : R -> R) k : (forall t, derivable_pt_lim f t (f' t)) -> (forall t, Rabs (f' t) <= k) -> forall s t, Rabs (f s - f t) <= k * Rabs (s - t).
Proof.
  intros D B. assert (W : forall s t, s < t -> Rabs (f s - f t) <= k * Rabs (s - t)).
  { intros s t L. destruct (MVT_cor2 f f' s t L (fun c _ => D c)) as (c & E & _). rewrite Rabs_minus_sym, E, Rabs_mult, (Rabs_minus_sym s t). apply Rmult_le_compat_r; [apply Rabs_pos|apply B]. }
  intros s t. destruct (Rtotal_order s t) as [L|[->|L]]; [apply W, L| |].
  - rewrite !Rminus_eq_0, Rabs_R0. lra.
  - rewrite (Rabs_minus_sym (f s)), (Rabs_minus_sym s). apply W, L.
Qed.
(** the part of v across the unit vector n *)
Definition over (n v : v3) : v3 := sub3 v (scale3 (dot3 v n) n).
Definition boxed (D : R) (v : v3) : v3 := mk3 (clamp (- D) D (x3 v)) (clamp (- D) D (y3 v)) (clamp (- D) D (z3 v)).
Definition shrink (b : R) (z : v3) : R := 3 / Rmax 3 (n1 (scale3 (/ b) z)).

Section LOOP.
Variables (k ga kap : R) (J : m3) (hr wc N : v3) (qc : R -> quat) (n : R -> v3) (D b : R).
Definition lo_e (x : nat -> R) : quat := mkq (x 0%nat) (x 1%nat) (x 2%nat) (x 3%nat).
Definition lo_c (x : nat -> R) : quat := scaleq (3 / Rmax 3 (nq (lo_e x))) (lo_e x).
Definition lo_d (x : nat -> R) : v3 := mk3 (x 4%nat) (x 5%nat) (x 6%nat).
Definition lo_z (x : nat -> R) : v3 := mk3 (x 7%nat) (x 8%nat) (x 9%nat).
Definition lo_L (t : R) (e : quat) (d : v3) : v3 := sub3 (sandwich_opp (product (qc t) e) (add3 (mv J (add3 d (sandwich e wc))) hr)) N.
Definition lo_de (x : nat -> R) : quat := scaleq (1 / 2) (product (lo_c x) (pure (boxed D (lo_d x)))).
Definition lo_dd (x : nat -> R) : v3 := sub3 (scale3 (- k) (vec (lo_c x))) (scale3 ga (lo_d x)).
Definition lo_dz (x : nat -> R) : v3 := scale3 (- kap) (over (n (x 10%nat)) (sub3 (scale3 (shrink b (lo_z x)) (lo_z x)) (lo_L (x 10%nat) (lo_c x) (boxed D (lo_d x))))).
Definition lo_field (x : nat -> R) (i : nat) : R :=
  match i with
  | 0%nat => qw (lo_de x) | 1%nat => qx (lo_de x) | 2%nat => qy (lo_de x) | 3%nat => qz (lo_de x)
  | 4%nat => x3 (lo_dd x) | 5%nat => y3 (lo_dd x) | 6%nat => z3 (lo_dd x)
  | 7%nat => x3 (lo_dz x) | 8%nat => y3 (lo_dz x) | 9%nat => z3 (lo_dz x)
  | 10%nat => 1
  | _ => 0
  end.
Hypothesis DP : 0 <= D.
Hypothesis bP : 0 < b.
Variables (kq kn : R).
Hypothesis KQ : 0 <= kq.
Hypothesis KN : 0 <= kn.
Hypothesis QU : forall t, unitq (qc t).
Hypothesis QL : forall s t, Rabs (qw (qc s) - qw (qc t)) <= kq * Rabs (s - t) /\ Rabs (qx (qc s) - qx (qc t)) <= kq * Rabs (s - t) /\ Rabs (qy (qc s) - qy (qc t)) <= kq * Rabs (s - t) /\ Rabs (qz (qc s) - qz (qc t)) <= kq * Rabs (s - t).
Hypothesis NU : forall t, dot3 (n t) (n t) = 1.
Hypothesis NL : forall s t, n1 (sub3 (n s) (n t)) <= kn * Rabs (s - t).
Lemma lo_lip : forall i, lip 11 (fun x => lo_field x i).
Proof.
  assert (C : forall i, (i < 11)%nat -> lip 11 (fun x => x i)) by (intros i Hi; apply lip_coord, Hi).
  assert (EC : blipq 11 lo_c) by (apply (blipq_radial 11 lo_e); [apply (C 0%nat)|apply (C 1%nat)|apply (C 2%nat)|apply (C 3%nat)]; lia).
  assert (DC : blip3 11 (fun x => boxed D (lo_d x))) by (split; [|split]; [apply (blip_clamp 11 (- D) D (fun x => x 4%nat))|apply (blip_clamp 11 (- D) D (fun x => x 5%nat))|apply (blip_clamp 11 (- D) D (fun x => x 6%nat))]; try lra; apply C; lia).
  assert (AB : forall v : v3, Rabs (x3 v) <= n1 v /\ Rabs (y3 v) <= n1 v /\ Rabs (z3 v) <= n1 v) by (intros v; unfold n1; assert (A1 := Rabs_pos (x3 v)); assert (A2 := Rabs_pos (y3 v)); assert (A3 := Rabs_pos (z3 v)); lra).
  assert (ZC : blip3 11 (fun x => scale3 (shrink b (lo_z x)) (lo_z x))).
  { assert (L0 : forall i, (i < 11)%nat -> lip 11 (fun x => / b * x i)) by (intros i Hi; apply (lip_scal 11 (/ b)), C, Hi).
    assert (LN : lip 11 (fun x => n1 (scale3 (/ b) (lo_z x)))) by (exact (lip_add 11 _ _ (lip_add 11 _ _ (lip_abs 11 _ (L0 7%nat ltac:(lia))) (lip_abs 11 _ (L0 8%nat ltac:(lia)))) (lip_abs 11 _ (L0 9%nat ltac:(lia))))).
    assert (G : forall i, (i < 11)%nat -> (forall x, Rabs (/ b * x i) <= n1 (scale3 (/ b) (lo_z x))) -> blip 11 (fun x => shrink b (lo_z x) * x i)).
    { intros i Hi HB. apply (blip_ext 11 (fun x => b * (3 / Rmax 3 (n1 (scale3 (/ b) (lo_z x))) * (/ b * x i)))).
      - intros x. unfold shrink. assert (M : 3 <= Rmax 3 (n1 (scale3 (/ b) (lo_z x)))) by apply Rmax_l. field. split; lra.
      - apply (blip_mul 11 (fun _ => b)); [apply blip_const|]. exact (blip_radial 11 _ _ (L0 i Hi) LN HB). }
    split; [|split]; [exact (G 7%nat ltac:(lia) (fun x => proj1 (AB (scale3 (/ b) (lo_z x)))))|exact (G 8%nat ltac:(lia) (fun x => proj1 (proj2 (AB (scale3 (/ b) (lo_z x))))))|exact (G 9%nat ltac:(lia) (fun x => proj2 (proj2 (AB (scale3 (/ b) (lo_z x))))))]. }
  assert (QC : blipq 11 (fun x => qc (x 10%nat))).
  { assert (BQ : forall t, Rabs (qw (qc t)) <= 4 /\ Rabs (qx (qc t)) <= 4 /\ Rabs (qy (qc t)) <= 4 /\ Rabs (qz (qc t)) <= 4).
    { intros t. assert (Z := unit_nq (qc t) (QU t)). unfold nq in Z. assert (A0 := Rabs_pos (qw (qc t))). assert (A1 := Rabs_pos (qx (qc t))). assert (A2 := Rabs_pos (qy (qc t))). assert (A3 := Rabs_pos (qz (qc t))). lra. }
    split; [|split; [|split]]; [apply (blip_time 11 10 (fun t => qw (qc t)) kq 4)|apply (blip_time 11 10 (fun t => qx (qc t)) kq 4)|apply (blip_time 11 10 (fun t => qy (qc t)) kq 4)|apply (blip_time 11 10 (fun t => qz (qc t)) kq 4)]; try lia; try exact KQ; intros; try apply QL; apply BQ. }
  assert (NC : blip3 11 (fun x => n (x 10%nat))).
  { assert (GEN : forall pr : v3 -> R, (forall v, Rabs (pr v) <= n1 v) -> (forall a b, pr (sub3 a b) = pr a - pr b) -> blip 11 (fun x => pr (n (x 10%nat)))).
    { intros pr P1 P2. apply (blip_time 11 10 (fun t => pr (n t)) kn 3); [lia|exact KN| |].
      - intros s t. rewrite <- P2. eapply Rle_trans; [apply P1|apply NL].
      - intros t. eapply Rle_trans; [apply P1|]. assert (Z := n1_sq (n t)). rewrite NU in Z. assert (P := n1_pos (n t)). apply Rnot_lt_le. intros L. assert (3 * 3 < n1 (n t) * n1 (n t)) by (apply Rmult_le_0_lt_compat; lra). lra. }
    split; [|split]; apply GEN; intros; try apply AB; reflexivity. }
  assert (LC : blip3 11 (fun x => lo_L (x 10%nat) (lo_c x) (boxed D (lo_d x)))).
  { unfold lo_L. apply (blip3_sub 11 (fun x => sandwich_opp (product (qc (x 10%nat)) (lo_c x)) (add3 (mv J (add3 (boxed D (lo_d x)) (sandwich (lo_c x) wc))) hr)) (fun _ => N)); [|apply blip3_const].
    apply (blip3_sandwich_opp 11 (fun x => product (qc (x 10%nat)) (lo_c x)) (fun x => add3 (mv J (add3 (boxed D (lo_d x)) (sandwich (lo_c x) wc))) hr)); [apply (blipq_product 11 (fun x => qc (x 10%nat))); assumption|].
    apply (blip3_add 11 (fun x => mv J (add3 (boxed D (lo_d x)) (sandwich (lo_c x) wc))) (fun _ => hr)); [|apply blip3_const].
    apply (blip3_mv 11 J (fun x => add3 (boxed D (lo_d x)) (sandwich (lo_c x) wc))). apply (blip3_add 11 (fun x => boxed D (lo_d x))); [exact DC|].
    apply (blip3_sandwich 11 lo_c (fun _ => wc)); [exact EC|apply blip3_const]. }
  assert (DZ : blip3 11 lo_dz).
  { unfold lo_dz. apply (blip3_scale 11 (fun _ => - kap)); [apply blip_const|]. unfold over.
    assert (SU : blip3 11 (fun x => sub3 (scale3 (shrink b (lo_z x)) (lo_z x)) (lo_L (x 10%nat) (lo_c x) (boxed D (lo_d x))))) by (apply (blip3_sub 11 (fun x => scale3 (shrink b (lo_z x)) (lo_z x))); assumption).
    set (v := fun x => sub3 (scale3 (shrink b (lo_z x)) (lo_z x)) (lo_L (x 10%nat) (lo_c x) (boxed D (lo_d x)))) in *.
    change (blip3 11 (fun x => sub3 (v x) (scale3 (dot3 (v x) (n (x 10%nat))) (n (x 10%nat))))).
    apply (blip3_sub 11 v); [exact SU|]. apply (blip3_scale 11 (fun x => dot3 (v x) (n (x 10%nat))) (fun x => n (x 10%nat))); [|exact NC]. apply (blip_dot 11 v); assumption. }
  assert (DQ : blipq 11 (fun x => product (lo_c x) (pure (boxed D (lo_d x))))) by (apply (blipq_product 11 lo_c); [exact EC|apply (blipq_pure 11 (fun x => boxed D (lo_d x))), DC]). destruct DQ as (D0 & D1 & D2 & D3).
  destruct (blip3_vec 11 lo_c EC) as (V1 & V2 & V3). destruct DZ as (E1 & E2 & E3).
  assert (DD : forall i f, (i < 11)%nat -> blip 11 f -> lip 11 (fun x => - k * f x - ga * x i)).
  { intros i f0 Hi Bf. apply (lip_ext 11 (fun x => - k * f0 x + - ga * x i)); [intros x; ring|]. apply (lip_add 11 (fun x => - k * f0 x)); [apply lip_scal, blip_lip, Bf|apply lip_scal, C, Hi]. }
  intros [|[|[|[|[|[|[|[|[|[|[|i]]]]]]]]]]]; cbn [lo_field].
  - exact (lip_scal 11 (1 / 2) _ (blip_lip 11 _ D0)).
  - exact (lip_scal 11 (1 / 2) _ (blip_lip 11 _ D1)).
  - exact (lip_scal 11 (1 / 2) _ (blip_lip 11 _ D2)).
  - exact (lip_scal 11 (1 / 2) _ (blip_lip 11 _ D3)).
  - exact (DD 4%nat _ ltac:(lia) V1).
  - exact (DD 5%nat _ ltac:(lia) V2).
  - exact (DD 6%nat _ ltac:(lia) V3).
  - exact (blip_lip 11 _ E1).
  - exact (blip_lip 11 _ E2).
  - exact (blip_lip 11 _ E3).
  - apply blip_lip, blip_const.
  - apply blip_lip, blip_const.
Qed.
Lemma nq_unit3 (q : quat) : unitq q -> nq q <= 3.
Proof.
  unfold unitq, nq. destruct q as [a0 b0 c0 d0]. vunfoldg. rnumg. intros U.
  assert (S1 := Rsqr_abs a0). assert (S2 := Rsqr_abs b0). assert (S3 := Rsqr_abs c0). assert (S4 := Rsqr_abs d0). unfold Rsqr in *. set (p := Rabs a0) in *. set (r := Rabs b0) in *. set (s := Rabs c0) in *. set (v := Rabs d0) in *.
  assert (Z1 := Rle_0_sqr (p - r)). assert (Z2 := Rle_0_sqr (p - s)). assert (Z3 := Rle_0_sqr (p - v)). assert (Z4 := Rle_0_sqr (r - s)). assert (Z5 := Rle_0_sqr (r - v)). assert (Z6 := Rle_0_sqr (s - v)). unfold Rsqr in *.
  apply Rnot_lt_le. intros L. assert (3 * 3 < (p + r + s + v) * (p + r + s + v)) by (apply Rmult_le_0_lt_compat; lra). lra.
Qed.
Lemma loop_raw (e0 : quat) (d0 z0 : v3) : unitq e0 -> exists (e : R -> quat) (d z : R -> v3), e 0 = e0 /\ d 0 = d0 /\ z 0 = z0 /\ (forall t, unitq (e t)) /\
  (forall t, derivq e t (scaleq (1 / 2) (product (e t) (pure (boxed D (d t)))))) /\
  (forall t, deriv3 d t (sub3 (scale3 (- k) (vec (e t))) (scale3 ga (d t)))) /\
  (forall t, deriv3 z t (scale3 (- kap) (over (n t) (sub3 (scale3 (shrink b (z t)) (z t)) (lo_L t (e t) (boxed D (d t))))))).
Proof.
  intros U0. destruct (lip_all 11 lo_field 11 lo_lip) as (kk & KK & LF).
  { intros x i Hi. do 11 (destruct i as [|i]; [lia|]). reflexivity. }
  destruct (picard_system 11 lo_field kk
    (fun i => match i with 0%nat => qw e0 | 1%nat => qx e0 | 2%nat => qy e0 | 3%nat => qz e0 | 4%nat => x3 d0 | 5%nat => y3 d0 | 6%nat => z3 d0 | 7%nat => x3 z0 | 8%nat => y3 z0 | 9%nat => z3 z0 | _ => 0 end) ltac:(lia) KK LF) as (x & X0 & XD).
  set (e := fun t => lo_e (x t)). set (d := fun t => lo_d (x t)). set (z := fun t => lo_z (x t)).
  assert (E0 : e 0 = e0) by (unfold e, lo_e; rewrite !X0; destruct e0; reflexivity).
  assert (D0 : d 0 = d0) by (unfold d, lo_d; rewrite !X0; destruct d0; reflexivity).
  assert (Z0 : z 0 = z0) by (unfold z, lo_z; rewrite !X0; destruct z0; reflexivity).
  assert (DE : forall t, derivq e t (lo_de (x t))) by (intros t; split; [|split; [|split]]; [exact (XD t 0%nat ltac:(lia))|exact (XD t 1%nat ltac:(lia))|exact (XD t 2%nat ltac:(lia))|exact (XD t 3%nat ltac:(lia))]).
  assert (DD : forall t, deriv3 d t (lo_dd (x t))) by (intros t; split; [|split]; [exact (XD t 4%nat ltac:(lia))|exact (XD t 5%nat ltac:(lia))|exact (XD t 6%nat ltac:(lia))]).
  assert (DZ : forall t, deriv3 z t (lo_dz (x t))) by (intros t; split; [|split]; [exact (XD t 7%nat ltac:(lia))|exact (XD t 8%nat ltac:(lia))|exact (XD t 9%nat ltac:(lia))]).
  assert (TM : forall t, x t 10%nat = t).
  { intros t. assert (Z : x t 10%nat - t = x 0 10%nat - 0). { apply (const_all (fun t => x t 10%nat - t)). intros s. apply (d_eq _ _ (1 - 1)); [|ring]. apply d_minus; [exact (XD s 10%nat ltac:(lia))|apply derivable_pt_lim_id]. } rewrite X0 in Z. lra. }
  assert (UE : forall t, unitq (e t)).
  { intros t. unfold unitq. transitivity (dotq (e 0) (e 0)); [|rewrite E0; exact U0]. apply (const_all (fun t => dotq (e t) (e t))). intros s. eapply d_eq; [apply d_dotq; apply DE|]. cbv beta.
    assert (Z : dotq (e s) (lo_de (x s)) = 0) by (unfold lo_de, lo_c; apply dotq_scaled_perp).
    transitivity (dotq (e s) (lo_de (x s)) + dotq (e s) (lo_de (x s))); [|rewrite Z; ring]. f_equal. generalize (e s) (lo_de (x s)). clear. intros [p q r v] [p' q' r' v']. vunfoldg. rnumg. ring. }
  assert (CE : forall t, lo_c (x t) = e t).
  { intros t. unfold lo_c. fold (e t). assert (N3 := nq_unit3 (e t) (UE t)).
    rewrite Rmax_left by exact N3. unfold Rdiv. rewrite Rinv_r by lra. generalize (e t). clear. intros [p q r v]. vunfoldg. rnumg. apply mkq_c; ring. }
  exists e, d, z. split; [exact E0|]. split; [exact D0|]. split; [exact Z0|]. split; [exact UE|]. split; [|split]; intros t.
  - assert (Q := DE t). unfold lo_de in Q. rewrite CE in Q. exact Q.
  - assert (Q := DD t). unfold lo_dd in Q. rewrite CE in Q. exact Q.
  - assert (Q := DZ t). unfold lo_dz in Q. rewrite CE, TM in Q. exact Q.
Qed.
End LOOP.
