(** * Lemmas: a motion under a held command, as a function of the start *)
From Coq Require Import Reals ZArith List Bool Arith Lra Psatz Lia.
From Coquelicot Require Import Coquelicot.
From Verif Require Import Num Vec M_vector M_quaternion M_struct M_dyn M_ctrl S_rot S_dyn S_ctrl P_quat P_wheel P_dyn P_rk P_rk3 P_rk4 P_picard P_exist1 P_exist2 P_loop1.
Import ListNotations.
Local Open Scope R_scope.

(** the solution of a Lipschitz system as a function of the system, without a choice *)
Definition psol (F : (nat -> R) -> nat -> R) (x0 : nat -> R) (t : R) (i : nat) : R := real (Lim_seq (fun m => pic F x0 m t i)).
Lemma psol_system n F k x0 : (0 < n)%nat -> 0 < k -> (forall x y i, Rabs (F x i - F y i) <= k * nrm n (fun j => x j - y j)) ->
  (forall i, (i < n)%nat -> psol F x0 0 i = x0 i) /\ forall t i, (i < n)%nat -> derivable_pt_lim (fun s => psol F x0 s i) t (F (psol F x0 t) i).
Proof.
  intros NP kP LF. assert (EQ : forall t i, (i < n)%nat -> psol F x0 t i = sol n F k x0 NP kP LF t i). { intros t i Hi. assert (C := sol_cv n F k x0 NP kP LF t i Hi). apply is_lim_seq_Reals in C. unfold psol. rewrite (is_lim_seq_unique _ _ C). reflexivity. }
  assert (FE : forall x y i, (forall j, (j < n)%nat -> x j = y j) -> F x i = F y i).
  { intros x y i H. assert (X := LF x y i). replace (nrm n (fun j => x j - y j)) with 0 in X. 2:{ clear -H. induction n as [|m IH]; [reflexivity|]. cbn [nrm]. rewrite <- IH by (intros j Hj; apply H; lia). rewrite (H m) by lia. rewrite Rminus_eq_0, Rabs_R0. ring. } rewrite Rmult_0_r in X. assert (Y := Rabs_pos (F x i - F y i)). assert (Z : Rabs (F x i - F y i) = 0) by lra. destruct (Req_dec (F x i - F y i) 0) as [W|W]; [lra|]. apply Rabs_no_R0 in W. contradiction. }
  assert (INT : forall t i, (i < n)%nat -> psol F x0 t i = x0 i + RInt (fun s => F (sol n F k x0 NP kP LF s) i) 0 t) by (intros t i Hi; rewrite (EQ t i Hi); apply sol_integral, Hi).
  split.
  - intros i Hi. rewrite INT by exact Hi. rewrite RInt_point. unfold zero; cbn; ring.
  - intros t i Hi. rewrite (FE _ (sol n F k x0 NP kP LF t) i (EQ t)). apply is_derive_Reals. apply (is_derive_ext (fun t => x0 i + RInt (fun s => F (sol n F k x0 NP kP LF s) i) 0 t)); [intros s; symmetry; apply INT, Hi|]. apply (P_ode.prim_derive (fun s => F (sol n F k x0 NP kP LF s) i)). intros s. apply sol_field_cont.
Qed.

(** the attitude of a body whose momentum L stays fixed in space while its wheels take up s0 + t s1 *)
Section SPIN.
Variables (Ji : m3) (L s0 s1 : v3) (hi : R).
Definition sp_q (x : nat -> R) : quat := mkq (x 0%nat) (x 1%nat) (x 2%nat) (x 3%nat).
Definition sp_c (x : nat -> R) : quat := scaleq (3 / Rmax 3 (nq (sp_q x))) (sp_q x).
Definition sp_t (x : nat -> R) : R := clamp (-1) hi (x 4%nat).
Definition sp_w (x : nat -> R) : v3 := mv Ji (sub3 (sandwich (sp_c x) L) (add3 s0 (scale3 (sp_t x) s1))).
Definition sp_dq (x : nat -> R) : quat := scaleq (1 / 2) (product (sp_c x) (pure (sp_w x))).
Definition sp_field (x : nat -> R) (i : nat) : R :=
  match i with 0%nat => qw (sp_dq x) | 1%nat => qx (sp_dq x) | 2%nat => qy (sp_dq x) | 3%nat => qz (sp_dq x) | 4%nat => 1 | _ => 0 end.
Definition sp_x (q0 : quat) : R -> nat -> R := psol sp_field (fun i => match i with 0%nat => qw q0 | 1%nat => qx q0 | 2%nat => qy q0 | 3%nat => qz q0 | _ => 0 end).
Definition spin (q0 : quat) (t : R) : quat := sp_q (sp_x q0 t).
Hypothesis HI : 0 <= hi.
Lemma sp_lip : forall i, lip 5 (fun x => sp_field x i).
Proof.
  assert (C : forall i, (i < 5)%nat -> lip 5 (fun x => x i)) by (intros i Hi; apply lip_coord, Hi).
  assert (EC : blipq 5 sp_c) by (apply (blipq_radial 5 sp_q); [apply (C 0%nat)|apply (C 1%nat)|apply (C 2%nat)|apply (C 3%nat)]; lia).
  assert (TT : blip 5 sp_t). { unfold sp_t. apply (blip_clamp 5 (-1) hi (fun x => x 4%nat)); [lra|apply (C 4%nat); lia]. }
  assert (WC : blip3 5 sp_w). { unfold sp_w. apply (blip3_mv 5 Ji (fun x => sub3 (sandwich (sp_c x) L) (add3 s0 (scale3 (sp_t x) s1)))). apply (blip3_sub 5 (fun x => sandwich (sp_c x) L)); [apply (blip3_sandwich 5 sp_c (fun _ => L)); [exact EC|apply blip3_const]|]. apply (blip3_add 5 (fun _ => s0)); [apply blip3_const|]. apply (blip3_scale 5 sp_t (fun _ => s1)); [exact TT|apply blip3_const]. }
  assert (DQ : blipq 5 (fun x => product (sp_c x) (pure (sp_w x)))) by (apply (blipq_product 5 sp_c); [exact EC|apply (blipq_pure 5 sp_w), WC]). destruct DQ as (D0 & D1 & D2 & D3).
  intros [|[|[|[|[|i]]]]]; cbn [sp_field].
  - exact (lip_scal 5 (1 / 2) _ (blip_lip 5 _ D0)).
  - exact (lip_scal 5 (1 / 2) _ (blip_lip 5 _ D1)).
  - exact (lip_scal 5 (1 / 2) _ (blip_lip 5 _ D2)).
  - exact (lip_scal 5 (1 / 2) _ (blip_lip 5 _ D3)).
  - apply blip_lip, blip_const.
  - apply blip_lip, blip_const.
Qed.
Lemma spin_spec q0 : unitq q0 -> spin q0 0 = q0 /\ (forall t, unitq (spin q0 t)) /\
  forall t, derivq (spin q0) t (scaleq (1 / 2) (product (spin q0 t) (pure (mv Ji (sub3 (sandwich (spin q0 t) L) (add3 s0 (scale3 (clamp (-1) hi t) s1))))))).
Proof.
  intros U0. destruct (lip_all 5 sp_field 5 sp_lip) as (kk & KK & LF). { intros x i Hi. do 5 (destruct i as [|i]; [lia|]). reflexivity. }
  destruct (psol_system 5 sp_field kk (fun i => match i with 0%nat => qw q0 | 1%nat => qx q0 | 2%nat => qy q0 | 3%nat => qz q0 | _ => 0 end) ltac:(lia) KK LF) as (X0 & XD).
  set (x := sp_x q0). change (psol sp_field _) with x in X0, XD. change (spin q0) with (fun t => sp_q (x t)). set (q := fun t => sp_q (x t)).
  assert (Q0 : q 0 = q0) by (unfold q, sp_q; rewrite !X0 by lia; destruct q0; reflexivity).
  assert (DQ : forall t, derivq q t (sp_dq (x t))) by (intros t; split; [|split; [|split]]; [exact (XD t 0%nat ltac:(lia))|exact (XD t 1%nat ltac:(lia))|exact (XD t 2%nat ltac:(lia))|exact (XD t 3%nat ltac:(lia))]).
  assert (TM : forall t, x t 4%nat = t).
  { intros t. assert (Z : x t 4%nat - t = x 0 4%nat - 0). { apply (const_all (fun t => x t 4%nat - t)). intros s. apply (d_eq _ _ (1 - 1)); [|ring]. apply d_minus; [exact (XD s 4%nat ltac:(lia))|apply derivable_pt_lim_id]. } rewrite X0 in Z by lia. lra. }
  assert (UQ : forall t, unitq (q t)).
  { intros t. unfold unitq. transitivity (dotq (q 0) (q 0)); [|rewrite Q0; exact U0]. apply (const_all (fun t => dotq (q t) (q t))). intros s. eapply d_eq; [apply d_dotq; apply DQ|]. cbv beta.
    assert (Z : dotq (q s) (sp_dq (x s)) = 0) by (unfold sp_dq, sp_c; apply dotq_scaled_perp).
    transitivity (dotq (q s) (sp_dq (x s)) + dotq (q s) (sp_dq (x s))); [|rewrite Z; ring]. f_equal. generalize (q s) (sp_dq (x s)). clear. intros [a b c d] [e f g h]. vunfoldg. rnumg. ring. }
  assert (CQ : forall t, sp_c (x t) = q t).
  { intros t. unfold sp_c. fold (q t). assert (N4 := nq_unit3 (q t) (UQ t)). rewrite Rmax_left by exact N4. unfold Rdiv. rewrite Rinv_r by lra. generalize (q t). clear. intros [a b c d]. vunfoldg. rnumg. apply mkq_c; ring. }
  split; [exact Q0|]. split; [exact UQ|]. intros t. assert (Z := DQ t). unfold sp_dq, sp_w, sp_t in Z. rewrite CQ, TM in Z. exact Z.
Qed.
End SPIN.
