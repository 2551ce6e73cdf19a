(** * Lemmas: the true rotation exists and is unique *)
From Coq Require Import Reals List Arith Lra Psatz Lia.
From Verif Require Import Num Vec M_quaternion M_struct M_dyn S_rot S_dyn S_rk P_quat P_wheel P_dyn P_rk P_rk3 P_rk4 P_picard.
Import ListNotations.
Local Open Scope R_scope.

(** ** vector-valued functions of the state *)
Section VECTOR.
Context (n : nat).
Definition blip3 (f : (nat -> R) -> v3) : Prop := blip n (fun x => x3 (f x)) /\ blip n (fun x => y3 (f x)) /\ blip n (fun x => z3 (f x)).
Definition blipq (f : (nat -> R) -> quat) : Prop := blip n (fun x => qw (f x)) /\ blip n (fun x => qx (f x)) /\ blip n (fun x => qy (f x)) /\ blip n (fun x => qz (f x)).
Lemma blip3_const c : blip3 (fun _ => c). Proof. split; [|split]; apply blip_const. Qed.
Lemma blip3_add f g : blip3 f -> blip3 g -> blip3 (fun x => add3 (f x) (g x)).
Proof. intros (F1 & F2 & F3) (G1 & G2 & G3). split; [|split]; [exact (blip_add n _ _ F1 G1)|exact (blip_add n _ _ F2 G2)|exact (blip_add n _ _ F3 G3)]. Qed.
Lemma blip3_sub f g : blip3 f -> blip3 g -> blip3 (fun x => sub3 (f x) (g x)).
Proof. intros (F1 & F2 & F3) (G1 & G2 & G3). split; [|split]; [exact (blip_sub n _ _ F1 G1)|exact (blip_sub n _ _ F2 G2)|exact (blip_sub n _ _ F3 G3)]. Qed.
Lemma blip3_scale f g : blip n f -> blip3 g -> blip3 (fun x => scale3 (f x) (g x)).
Proof. intros F (G1 & G2 & G3). split; [|split]; [exact (blip_mul n _ _ F G1)|exact (blip_mul n _ _ F G2)|exact (blip_mul n _ _ F G3)]. Qed.
Lemma blip_dot f g : blip3 f -> blip3 g -> blip n (fun x => dot3 (f x) (g x)).
Proof. intros (F1 & F2 & F3) (G1 & G2 & G3). exact (blip_add n _ _ (blip_add n _ _ (blip_mul n _ _ F1 G1) (blip_mul n _ _ F2 G2)) (blip_mul n _ _ F3 G3)). Qed.
Lemma blip3_mv m f : blip3 f -> blip3 (fun x => mv m (f x)).
Proof. intros F. split; [|split]; [exact (blip_dot (fun _ => row1 m) f (blip3_const _) F)|exact (blip_dot (fun _ => row2 m) f (blip3_const _) F)|exact (blip_dot (fun _ => row3 m) f (blip3_const _) F)]. Qed.
Lemma blipq_conj f : blipq f -> blipq (fun x => conjugate (f x)).
Proof. intros (F0 & F1 & F2 & F3). split; [exact F0|]. split; [|split]; [exact (blip_opp n _ F1)|exact (blip_opp n _ F2)|exact (blip_opp n _ F3)]. Qed.
Lemma blipq_pure f : blip3 f -> blipq (fun x => pure (f x)).
Proof. intros (F1 & F2 & F3). split; [exact (blip_const n 0)|]. split; [|split]; [exact F1|exact F2|exact F3]. Qed.
Lemma blip3_vec f : blipq f -> blip3 (fun x => vec (f x)).
Proof. intros (F0 & F1 & F2 & F3). split; [|split]; [exact F1|exact F2|exact F3]. Qed.
Lemma blipq_product f g : blipq f -> blipq g -> blipq (fun x => product (f x) (g x)).
Proof.
  intros (F0 & F1 & F2 & F3) (G0 & G1 & G2 & G3).
  assert (M : forall a b c d e f g h : (nat -> R) -> R, blip n a -> blip n b -> blip n c -> blip n d -> blip n e -> blip n f -> blip n g -> blip n h -> blip n (fun x => a x * b x + c x * d x + e x * f x + g x * h x)).
  { intros a b c d e f' g' h Ha Hb Hc Hd He Hf Hg Hh. exact (blip_add n _ _ (blip_add n _ _ (blip_add n _ _ (blip_mul n _ _ Ha Hb) (blip_mul n _ _ Hc Hd)) (blip_mul n _ _ He Hf)) (blip_mul n _ _ Hg Hh)). }
  assert (N0 := blip_opp n _ F0). assert (N1 := blip_opp n _ F1). assert (N2 := blip_opp n _ F2). assert (N3 := blip_opp n _ F3).
  split; [|split; [|split]].
  - eapply blip_ext; [|exact (M _ _ _ _ _ _ _ _ F0 G0 N1 G1 N2 G2 N3 G3)]. intros x. cbv beta. generalize (f x) (g x). intros [a0 a1 a2 a3] [b0 b1 b2 b3]. unfold product. vunfoldg. rnumg. ring.
  - eapply blip_ext; [|exact (M _ _ _ _ _ _ _ _ F0 G1 F1 G0 F2 G3 N3 G2)]. intros x. cbv beta. generalize (f x) (g x). intros [a0 a1 a2 a3] [b0 b1 b2 b3]. unfold product. vunfoldg. rnumg. ring.
  - eapply blip_ext; [|exact (M _ _ _ _ _ _ _ _ F0 G2 N1 G3 F2 G0 F3 G1)]. intros x. cbv beta. generalize (f x) (g x). intros [a0 a1 a2 a3] [b0 b1 b2 b3]. unfold product. vunfoldg. rnumg. ring.
  - eapply blip_ext; [|exact (M _ _ _ _ _ _ _ _ F0 G3 F1 G2 N2 G1 F3 G0)]. intros x. cbv beta. generalize (f x) (g x). intros [a0 a1 a2 a3] [b0 b1 b2 b3]. unfold product. vunfoldg. rnumg. ring.
Qed.
Lemma blip3_sandwich q f : blipq q -> blip3 f -> blip3 (fun x => sandwich (q x) (f x)).
Proof. intros Q F. apply (blip3_vec (fun x => product (conjugate (q x)) (product (pure (f x)) (q x)))). apply (blipq_product (fun x => conjugate (q x))); [apply blipq_conj, Q|]. apply (blipq_product (fun x => pure (f x))); [apply blipq_pure, F|exact Q]. Qed.
Lemma blip3_sandwich_opp q f : blipq q -> blip3 f -> blip3 (fun x => sandwich_opp (q x) (f x)).
Proof. intros Q F. exact (blip3_sandwich (fun x => conjugate (q x)) f (blipq_conj q Q) F). Qed.
(** dividing by the size keeps a vector in a ball, smoothly enough *)
Lemma blip_radial f N : lip n f -> lip n N -> (forall x, Rabs (f x) <= N x) -> blip n (fun x => 3 / Rmax 3 (N x) * f x).
Proof.
  intros (k & K & H) (l & L & G) B. split.
  - exists (k + l). split; [lra|]. intros x y. specialize (H x y). specialize (G x y). set (r := nrm n _) in *. assert (RP : 0 <= r) by apply nrm_pos.
    assert (MX : Rabs (Rmax 3 (N x) - Rmax 3 (N y)) <= l * r). { eapply Rle_trans; [|exact G]. unfold Rmax. destruct (Rle_dec 3 (N x)), (Rle_dec 3 (N y)); unfold Rabs; repeat destruct (Rcase_abs _); lra. }
    assert (A1 := Rmax_l 3 (N x)). assert (A2 := Rmax_l 3 (N y)). assert (A3 := Rmax_r 3 (N y)). set (a := Rmax 3 (N x)) in *. set (b := Rmax 3 (N y)) in *.
    replace (3 / a * f x - 3 / b * f y) with (3 / a * (f x - f y) + 3 / a * (f y / b) * (b - a)) by (field; lra).
    assert (D : Rabs (f y / b) <= 1). { unfold Rdiv. rewrite Rabs_mult, Rabs_inv, (Rabs_pos_eq b) by lra. apply Rmult_le_reg_r with b; [lra|]. rewrite Rmult_assoc, Rinv_l by lra. specialize (B y). lra. }
    assert (E : 0 <= 3 / a <= 1). { split; [apply Rlt_le, Rdiv_lt_0_compat; lra|]. apply Rmult_le_reg_r with a; [lra|]. unfold Rdiv. rewrite Rmult_assoc, Rinv_l; lra. }
    eapply Rle_trans; [apply Rabs_triang|]. rewrite !Rabs_mult, (Rabs_pos_eq (3 / a)) by lra. rewrite (Rabs_minus_sym b a).
    assert (X1 : 3 / a * Rabs (f x - f y) <= 1 * (k * r)) by (apply Rmult_le_compat; [lra|apply Rabs_pos|lra|exact H]).
    assert (X2 : 3 / a * Rabs (f y / b) <= 1 * 1) by (apply Rmult_le_compat; [lra|apply Rabs_pos|lra|exact D]).
    assert (X3 : 3 / a * Rabs (f y / b) * Rabs (a - b) <= 1 * (l * r)). { apply Rmult_le_compat; [apply Rmult_le_pos; [lra|apply Rabs_pos]|apply Rabs_pos|lra|exact MX]. } lra.
  - exists 3. intros x. assert (A1 := Rmax_l 3 (N x)). assert (A3 := Rmax_r 3 (N x)). set (a := Rmax 3 (N x)) in *. specialize (B x). unfold Rdiv. rewrite !Rabs_mult, Rabs_inv, (Rabs_pos_eq a), (Rabs_pos_eq 3) by lra.
    apply Rmult_le_reg_r with a; [lra|]. replace (3 * / a * Rabs (f x) * a) with (3 * Rabs (f x)) by (field; lra). lra.
Qed.
Lemma lip_abs f : lip n f -> lip n (fun x => Rabs (f x)).
Proof. intros (k & K & H). exists k. split; [exact K|]. intros x y. eapply Rle_trans; [apply Rabs_triang_inv2|apply H]. Qed.
Lemma blipq_radial (q : (nat -> R) -> quat) : lip n (fun x => qw (q x)) -> lip n (fun x => qx (q x)) -> lip n (fun x => qy (q x)) -> lip n (fun x => qz (q x)) ->
  blipq (fun x => scaleq (3 / Rmax 3 (nq (q x))) (q x)).
Proof.
  intros L0 L1 L2 L3. assert (LN : lip n (fun x => nq (q x))) by (exact (lip_add n _ _ (lip_add n _ _ (lip_add n _ _ (lip_abs _ L0) (lip_abs _ L1)) (lip_abs _ L2)) (lip_abs _ L3))).
  assert (B : forall x, Rabs (qw (q x)) <= nq (q x) /\ Rabs (qx (q x)) <= nq (q x) /\ Rabs (qy (q x)) <= nq (q x) /\ Rabs (qz (q x)) <= nq (q x)).
  { intros x. unfold nq. assert (A0 := Rabs_pos (qw (q x))). assert (A1 := Rabs_pos (qx (q x))). assert (A2 := Rabs_pos (qy (q x))). assert (A3 := Rabs_pos (qz (q x))). lra. }
  split; [|split; [|split]].
  - exact (blip_radial _ _ L0 LN (fun x => proj1 (B x))).
  - exact (blip_radial _ _ L1 LN (fun x => proj1 (proj2 (B x)))).
  - exact (blip_radial _ _ L2 LN (fun x => proj1 (proj2 (proj2 (B x))))).
  - exact (blip_radial _ _ L3 LN (fun x => proj2 (proj2 (proj2 (B x))))).
Qed.
End VECTOR.

(** ** a function that vanishes at the start and grows no faster than itself vanishes *)
Lemma vanishes (E E' : R -> R) C len : 0 <= C -> (forall t, 0 <= t <= len -> derivable_pt_lim E t (E' t)) -> (forall t, 0 <= t <= len -> 0 <= E t /\ E' t <= C * E t) -> E 0 = 0 -> forall t, 0 <= t <= len -> E t = 0.
Proof.
  intros HC D B Z t Ht. destruct (Req_dec t 0) as [->|N]; [exact Z|].
  destruct (MVT_cor2 (fun s => exp (- C * s) * E s) (fun s => - C * exp (- C * s) * E s + exp (- C * s) * E' s) 0 t ltac:(lra)) as (c & EQ & Hc).
  { intros s Hs. apply (d_mult (fun s => exp (- C * s)) E s (- C * exp (- C * s)) (E' s)); [|apply D; lra]. apply (d_eq _ _ (exp (- C * s) * (- C))); [|ring]. apply (derivable_pt_lim_comp (fun s => - C * s) exp); [|apply derivable_pt_lim_exp].
    apply (d_eq _ _ (- C * 1)); [|ring]. apply (derivable_pt_lim_scal id); apply derivable_pt_lim_id. }
  cbv beta in EQ. rewrite Z, Rmult_0_r, Rminus_0_r, Rminus_0_r in EQ. destruct (B c ltac:(lra)) as [B1 B2]. destruct (B t Ht) as [B3 _]. assert (P1 := exp_pos (- C * c)). assert (P2 := exp_pos (- C * t)).
  assert (X : exp (- C * c) * (E' c - C * E c) <= 0). { assert (0 <= exp (- C * c) * (C * E c - E' c)) by (apply Rmult_le_pos; lra). lra. }
  assert (Y : (exp (- C * c) * (E' c - C * E c)) * t <= 0). { assert (0 <= - (exp (- C * c) * (E' c - C * E c)) * t) by (apply Rmult_le_pos; lra). lra. }
  assert (Q : exp (- C * t) * E t <= 0) by lra. assert (0 <= exp (- C * t) * E t) by (apply Rmult_le_pos; lra). assert (exp (- C * t) * E t = 0) by lra. apply Rmult_integral in H0. destruct H0; lra.
Qed.

(** ** existence *)
Section ROTATION.
Context (J Ji : m3) (s0 s1 : v3) (tau : R -> v3) (len B : R).
Definition st_q (x : nat -> R) : quat := mkq (x 0%nat) (x 1%nat) (x 2%nat) (x 3%nat).
Definition st_c (x : nat -> R) : quat := scaleq (3 / Rmax 3 (nq (st_q x))) (st_q x).
Definition st_l (x : nat -> R) : v3 := mk3 (clamp (- B) B (x 4%nat)) (clamp (- B) B (x 5%nat)) (clamp (- B) B (x 6%nat)).
Definition st_t (x : nat -> R) : R := clamp 0 len (x 7%nat).
Definition st_w (x : nat -> R) : v3 := mv Ji (sub3 (sandwich (st_c x) (st_l x)) (add3 s0 (scale3 (st_t x) s1))).
Definition st_dq (x : nat -> R) : quat := scaleq (1 / 2) (product (st_c x) (pure (st_w x))).
Definition st_dl (x : nat -> R) : v3 := sandwich_opp (st_c x) (tau (st_t x)).
Definition st_field (x : nat -> R) (i : nat) : R :=
  match i with
  | 0%nat => qw (st_dq x) | 1%nat => qx (st_dq x) | 2%nat => qy (st_dq x) | 3%nat => qz (st_dq x)
  | 4%nat => x3 (st_dl x) | 5%nat => y3 (st_dl x) | 6%nat => z3 (st_dl x)
  | 7%nat => 1
  | _ => 0
  end.
Lemma st_lip : 0 <= B -> 0 <= len -> (exists k, 0 <= k /\ forall s t, 0 <= s <= len -> 0 <= t <= len -> n1 (sub3 (tau s) (tau t)) <= k * Rabs (s - t)) -> forall i, lip 8 (fun x => st_field x i).
Proof.
  intros HB HL (k & K & HT).
  assert (C : forall i, (i < 8)%nat -> lip 8 (fun x => x i)) by (intros i Hi; apply lip_coord, Hi).
  assert (QC : blipq 8 st_c) by (apply (blipq_radial 8 st_q); [apply (C 0%nat)|apply (C 1%nat)|apply (C 2%nat)|apply (C 3%nat)]; lia).
  assert (LC : blip3 8 st_l) by (split; [|split]; [apply (blip_clamp 8 (- B) B (fun x => x 4%nat))|apply (blip_clamp 8 (- B) B (fun x => x 5%nat))|apply (blip_clamp 8 (- B) B (fun x => x 6%nat))]; try lra; apply C; lia).
  assert (TC : blip 8 st_t) by (apply (blip_clamp 8 0 len (fun x => x 7%nat)); [lra|apply C; lia]).
  assert (WC : blip3 8 st_w). { apply (blip3_mv 8 Ji (fun x => sub3 (sandwich (st_c x) (st_l x)) (add3 s0 (scale3 (st_t x) s1)))). apply (blip3_sub 8 (fun x => sandwich (st_c x) (st_l x))); [apply blip3_sandwich; assumption|].
    apply (blip3_add 8 (fun _ => s0)); [apply blip3_const|]. apply (blip3_scale 8 st_t (fun _ => s1)); [exact TC|apply blip3_const]. }
  assert (TI : forall x, 0 <= st_t x <= len) by (intros x; apply clamp_in; exact HL).
  assert (TT : blip3 8 (fun x => tau (st_t x))).
  { destruct TC as [(l & L & HTC) _].
    assert (GEN : forall pr : v3 -> R, (forall v, Rabs (pr v) <= n1 v) -> (forall a b, pr (sub3 a b) = pr a - pr b) -> blip 8 (fun x => pr (tau (st_t x)))).
    { intros pr P1 P2. split.
      - exists (k * l). split; [apply Rmult_le_pos; assumption|]. intros x y. rewrite <- P2. eapply Rle_trans; [apply P1|]. eapply Rle_trans; [apply HT; apply TI|]. rewrite Rmult_assoc. apply Rmult_le_compat_l; [exact K|apply HTC].
      - exists (n1 (tau 0) + k * len). intros x. eapply Rle_trans; [apply P1|]. replace (tau (st_t x)) with (add3 (tau 0) (sub3 (tau (st_t x)) (tau 0))) by (generalize (tau (st_t x)) (tau 0); clear; intros; vring).
        eapply Rle_trans; [apply n1_add|]. apply Rplus_le_compat_l. eapply Rle_trans; [apply HT; [apply TI|lra]|]. apply Rmult_le_compat_l; [exact K|]. rewrite Rminus_0_r, Rabs_pos_eq; apply TI. }
    assert (AB : forall v : v3, Rabs (x3 v) <= n1 v /\ Rabs (y3 v) <= n1 v /\ Rabs (z3 v) <= n1 v) by (intros v; unfold n1; assert (A1 := Rabs_pos (x3 v)); assert (A2 := Rabs_pos (y3 v)); assert (A3 := Rabs_pos (z3 v)); lra).
    split; [|split]; apply GEN; intros; try apply AB; reflexivity. }
  assert (DQ : blipq 8 (fun x => product (st_c x) (pure (st_w x)))) by (apply (blipq_product 8 st_c); [exact QC|apply blipq_pure, WC]). destruct DQ as (D0 & D1 & D2 & D3).
  assert (DL : blip3 8 st_dl) by (apply (blip3_sandwich_opp 8 st_c (fun x => tau (st_t x))); assumption). destruct DL as (E1 & E2 & E3).
  intros [|[|[|[|[|[|[|[|i]]]]]]]]; cbn [st_field].
  - exact (lip_scal 8 (1 / 2) _ (blip_lip 8 _ D0)).
  - exact (lip_scal 8 (1 / 2) _ (blip_lip 8 _ D1)).
  - exact (lip_scal 8 (1 / 2) _ (blip_lip 8 _ D2)).
  - exact (lip_scal 8 (1 / 2) _ (blip_lip 8 _ D3)).
  - exact (blip_lip 8 _ E1).
  - exact (blip_lip 8 _ E2).
  - exact (blip_lip 8 _ E3).
  - apply blip_lip, blip_const.
  - apply blip_lip, blip_const.
Qed.
End ROTATION.
Lemma dotq_scaled_perp k q w : dotq q (scaleq (1 / 2) (product (scaleq k q) (pure w))) = 0.
Proof. destruct q as [a b c d], w as [x y z]. unfold product, pure. vunfoldg. rnumg. field. Qed.
Lemma const_all (f : R -> R) : (forall t, derivable_pt_lim f t 0) -> forall t, f t = f 0.
Proof. intros H t. assert (A := Rabs_pos t). assert (A' := Rle_abs t). assert (A'' := Rle_abs (- t)). rewrite Rabs_Ropp in A''. apply (const_of_deriv f (- (Rabs t + 1)) (Rabs t + 1)); [intros s _; apply H| |]; lra. Qed.
Lemma mv_sub_add (a b : v3) : add3 (sub3 a b) b = a. Proof. vring. Qed.
Lemma rotation_exists sat u a tau len q0 w0 : det3 (s_total_moment sat) <> 0 -> 0 <= len -> length u = length a ->
  (exists k, 0 <= k /\ forall s t, 0 <= s <= len -> 0 <= t <= len -> n1 (sub3 (tau s) (tau t)) <= k * Rabs (s - t)) -> unitq q0 ->
  exists q w, rigid_motion sat u a tau len q w /\ q 0 = q0 /\ w 0 = w0.
Proof.
  intros DJ HL HU HT U0. set (J := s_total_moment sat) in *. set (ws := rw_wheels (s_rw sat)).
  set (s0 := sum3 (zip_with w_momentum ws u)). set (s1 := sum3 (zip_with w_torque ws a)).
  assert (SP : forall t, spun ws u a t = add3 s0 (scale3 t s1)) by (intros t; apply spun_lin, HU).
  set (L0 := sandwich_opp q0 (add3 (mv J w0) s0)). assert (HT' := HT). destruct HT' as (k & K & HK).
  set (Bt := n1 (tau 0) + k * len). assert (B0 : 0 <= Bt) by (unfold Bt; assert (A := n1_pos (tau 0)); assert (0 <= k * len) by (apply Rmult_le_pos; assumption); lra).
  assert (TB : forall t, 0 <= t <= len -> n1 (tau t) <= Bt).
  { intros t Ht. replace (tau t) with (add3 (tau 0) (sub3 (tau t) (tau 0))) by (generalize (tau t) (tau 0); clear; intros; vring). eapply Rle_trans; [apply n1_add|]. unfold Bt. apply Rplus_le_compat_l.
    eapply Rle_trans; [apply HK; lra|]. apply Rmult_le_compat_l; [exact K|]. rewrite Rminus_0_r, Rabs_pos_eq; lra. }
  set (B := n1 L0 + 3 * (len * (16 * Bt))). assert (BP : 0 <= B) by (unfold B; assert (A := n1_pos L0); assert (0 <= len * (16 * Bt)) by (apply Rmult_le_pos; lra); lra).
  destruct (lip_all 8 (st_field (inv3 J) s0 s1 tau len B) 8 (st_lip (inv3 J) s0 s1 tau len B BP HL HT)) as (kk & KK & LF).
  { intros x i Hi. do 8 (destruct i as [|i]; [lia|]). reflexivity. }
  destruct (picard_system 8 (st_field (inv3 J) s0 s1 tau len B) kk
    (fun i => match i with 0%nat => qw q0 | 1%nat => qx q0 | 2%nat => qy q0 | 3%nat => qz q0 | 4%nat => x3 L0 | 5%nat => y3 L0 | 6%nat => z3 L0 | _ => 0 end) ltac:(lia) KK LF) as (x & X0 & XD).
  set (q := fun t => st_q (x t)). set (L := fun t => mk3 (x t 4%nat) (x t 5%nat) (x t 6%nat)).
  assert (Q0 : q 0 = q0) by (unfold q, st_q; rewrite !X0; destruct q0; reflexivity).
  assert (LL0 : L 0 = L0) by (unfold L; rewrite !X0; destruct L0; reflexivity).
  assert (DQ : forall t, derivq q t (st_dq (inv3 J) s0 s1 len B (x t))) by (intros t; split; [|split; [|split]]; [exact (XD t 0%nat ltac:(lia))|exact (XD t 1%nat ltac:(lia))|exact (XD t 2%nat ltac:(lia))|exact (XD t 3%nat ltac:(lia))]).
  assert (DL : forall t, deriv3 L t (st_dl tau len (x t))) by (intros t; split; [|split]; [exact (XD t 4%nat ltac:(lia))|exact (XD t 5%nat ltac:(lia))|exact (XD t 6%nat ltac:(lia))]).
  assert (TM : forall t, x t 7%nat = t).
  { intros t. assert (Z : x t 7%nat - t = x 0 7%nat - 0). { apply (const_all (fun t => x t 7%nat - t)). intros s. apply (d_eq _ _ (1 - 1)); [|ring]. apply d_minus; [exact (XD s 7%nat ltac:(lia))|apply derivable_pt_lim_id]. } rewrite X0 in Z. lra. }
  assert (UQ : forall t, unitq (q t)).
  { intros t. unfold unitq. transitivity (dotq (q 0) (q 0)); [|rewrite Q0; exact U0]. apply (const_all (fun t => dotq (q t) (q t))). intros s. eapply d_eq; [apply d_dotq; apply DQ|]. cbv beta.
    assert (Z : dotq (q s) (st_dq (inv3 J) s0 s1 len B (x s)) = 0) by (unfold st_dq, st_c; apply dotq_scaled_perp).
    transitivity (dotq (q s) (st_dq (inv3 J) s0 s1 len B (x s)) + dotq (q s) (st_dq (inv3 J) s0 s1 len B (x s))); [|rewrite Z; ring]. f_equal. generalize (q s) (st_dq (inv3 J) s0 s1 len B (x s)). clear. intros [a b c d] [e f g h]. vunfoldg. rnumg. ring. }
  assert (CQ : forall t, st_c (x t) = q t).
  { intros t. unfold st_c. fold (q t). assert (N4 : nq (q t) <= 3).
    { assert (U := UQ t). revert U. unfold unitq, nq. generalize (q t). clear. intros [a b c d]. vunfoldg. rnumg. intros U.
      assert (S1 := Rsqr_abs a). assert (S2 := Rsqr_abs b). assert (S3 := Rsqr_abs c). assert (S4 := Rsqr_abs d). unfold Rsqr in *. set (p := Rabs a) in *. set (r := Rabs b) in *. set (s := Rabs c) in *. set (v := Rabs d) in *.
      assert (Z1 := Rle_0_sqr (p - r)). assert (Z2 := Rle_0_sqr (p - s)). assert (Z3 := Rle_0_sqr (p - v)). assert (Z4 := Rle_0_sqr (r - s)). assert (Z5 := Rle_0_sqr (r - v)). assert (Z6 := Rle_0_sqr (s - v)). unfold Rsqr in *.
      apply Rnot_lt_le. intros L. assert (3 * 3 < (p + r + s + v) * (p + r + s + v)) by (apply Rmult_le_0_lt_compat; lra). lra. }
    rewrite Rmax_left by exact N4. unfold Rdiv. rewrite Rinv_r by lra. generalize (q t). clear. intros [a b c d]. vunfoldg. rnumg. apply mkq_c; ring. }
  assert (LB : forall t, 0 <= t <= len -> n1 (L t) <= B).
  { intros t Ht. eapply Rle_trans; [apply (lipschitz3 L (fun s => st_dl tau len (x s)) (16 * Bt) t (proj1 Ht)); intros s Hs|].
    - apply DL.
    - unfold st_dl. rewrite CQ. eapply Rle_trans; [apply n1_sandwich_opp, UQ|]. apply Rmult_le_compat_l; [lra|]. apply TB. unfold st_t. apply clamp_in, HL.
    - rewrite LL0. unfold B. apply Rplus_le_compat_l. apply Rmult_le_compat_l; [lra|]. apply Rmult_le_compat_r; lra. }
  assert (LC : forall t, 0 <= t <= len -> st_l B (x t) = L t).
  { intros t Ht. assert (Z := LB t Ht). unfold n1, L in Z. cbn [x3 y3 z3] in Z. assert (A1 := Rabs_pos (x t 4%nat)). assert (A2 := Rabs_pos (x t 5%nat)). assert (A3 := Rabs_pos (x t 6%nat)).
    assert (C1 := Rle_abs (x t 4%nat)). assert (C2 := Rle_abs (x t 5%nat)). assert (C3 := Rle_abs (x t 6%nat)). assert (E1 := Rle_abs (- x t 4%nat)). assert (E2 := Rle_abs (- x t 5%nat)). assert (E3 := Rle_abs (- x t 6%nat)). rewrite Rabs_Ropp in *.
    unfold st_l, L. rewrite !clamp_id by lra. reflexivity. }
  assert (TC : forall t, 0 <= t <= len -> st_t len (x t) = t) by (intros t Ht; unfold st_t; rewrite TM; apply clamp_id, Ht).
  set (w := fun t => mv (inv3 J) (sub3 (sandwich (q t) (L t)) (add3 s0 (scale3 t s1)))).
  assert (LW : forall t, sandwich_opp (q t) (add3 (mv J (w t)) (spun ws u a t)) = L t).
  { intros t. unfold w. rewrite mv_inv3 by exact DJ. rewrite SP, mv_sub_add. apply sandwich_opp_sandwich, UQ. }
  exists q, w. split; [split; [exact UQ|]|split; [exact Q0|]].
  - intros t Ht. split.
    + assert (Z := DQ t). unfold st_dq, st_w in Z. rewrite CQ, (LC t Ht), (TC t Ht) in Z. exact Z.
    + apply (deriv3_ext L); [intros s; symmetry; apply LW|]. assert (Z := DL t). unfold st_dl in Z. rewrite CQ, (TC t Ht) in Z. exact Z.
  - unfold w. rewrite Q0, LL0. unfold L0. rewrite sandwich_sandwich_opp by exact U0. transitivity (mv (inv3 J) (mv J w0)); [|apply inv3_mv, DJ]. f_equal. generalize (mv J w0) s0 s1. clear. intros. vring.
Qed.
