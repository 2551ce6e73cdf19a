(** * Lemmas: the satellite's motion over one period of a held command *)
From Coq Require Import Reals ZArith List Bool Arith Lra Psatz Lia.
From Coquelicot Require Import Coquelicot.
From Verif Require Import Num Vec M_vector M_quaternion M_struct M_dyn M_ctrl S_rot S_dyn S_ctrl P_rk P_exist2 P_loop1.
From Verif Require Import P_quat P_wheel P_dyn P_dyn2 P_obs P_sat P_ctrl P_ctrl2 P_ctrl3 P_ctrl4 P_ctrl5 P_conv P_loop2 P_loop3 P_picard Props_samp P_who6.
Import ListNotations.
Local Open Scope R_scope.

(** the antiderivative of F that is c at t0 *)
Definition prim (f : R -> R) (c t0 t : R) : R := c - RInt f 0 t0 + RInt f 0 t.
Definition prim3 (F : R -> v3) (c : v3) (t0 t : R) : v3 := mk3 (prim (fun s => x3 (F s)) (x3 c) t0 t) (prim (fun s => y3 (F s)) (y3 c) t0 t) (prim (fun s => z3 (F s)) (z3 c) t0 t).
Lemma prim3_spec F c t0 : cont3 F -> prim3 F c t0 t0 = c /\ forall t, deriv3 (prim3 F c t0) t (F t).
Proof.
  intros H. split; [unfold prim3, prim; destruct c as [a b d]; cbn [x3 y3 z3]; apply mk3_c; ring|].
  intros t. split; [|split]; apply is_derive_Reals; [apply (P_ode.prim_derive (fun s => x3 (F s)))|apply (P_ode.prim_derive (fun s => y3 (F s)))|apply (P_ode.prim_derive (fun s => z3 (F s)))]; intros s; apply H.
Qed.
Lemma torque_scale s x a : rw_torque s (map (Rmult x) a) = scale3 x (rw_torque s a).
Proof.
  unfold rw_torque. revert a. induction (rw_wheels s) as [|w ws IH]; intros a; [cbn; vunfoldg; rnumg; apply mk3_c; ring|]. destruct a as [|b a]; cbn [map zip_with sum3 fold_right]; [vunfoldg; rnumg; apply mk3_c; ring|].
  change (add3 (w_torque w (x * b)) (sum3 (zip_with w_torque ws (map (Rmult x) a))) = scale3 x (add3 (w_torque w b) (sum3 (zip_with w_torque ws a)))). rewrite IH. generalize (sum3 (zip_with w_torque ws a)). unfold w_torque. generalize (w_axis w) (w_par w). clear. intros [p q r] g [l m n]. vunfoldg. rnumg. apply mk3_c; ring.
Qed.
Lemma nth_mul x a i : nth i (map (Rmult x) a) 0 = x * nth i a 0.
Proof. revert i. induction a as [|b a IH]; intros [|i]; cbn; [ring|ring|reflexivity|apply IH]. Qed.
Lemma clamp_lip a b x y : a <= b -> Rabs (clamp a b x - clamp a b y) <= Rabs (x - y).
Proof. intros AB. unfold clamp. unfold Rmin, Rmax, Rabs. repeat destruct Rle_dec; repeat destruct Rcase_abs; lra. Qed.

Section GLIDE.
Variables (sat : Satellite) (F : R -> v3) (v0 : SVec) (acc : list R) (h t0 : R).
Definition gl_L : v3 := sandwich_opp (v_att v0) (add3 (mv (s_total_moment sat) (v_rate v0)) (rw_momentum (s_rw sat) (v_whl v0))).
Definition gl_s (t : R) : v3 := add3 (rw_momentum (s_rw sat) (v_whl v0)) (scale3 t (rw_torque (s_rw sat) acc)).
Definition gl_q (t : R) : quat := spin (s_inv_tot sat) gl_L (rw_momentum (s_rw sat) (v_whl v0)) (rw_torque (s_rw sat) acc) (h + 1) (v_att v0) (t - t0).
Definition gl_w (t : R) : v3 := mv (s_inv_tot sat) (sub3 (sandwich (gl_q t) gl_L) (gl_s (t - t0))).
Definition gl_v (t : R) : v3 := prim3 (fun s => div3 (F s) (s_mass sat)) (v_vel v0) t0 t.
(** the motion that starts from v0 at t0 under the wheel accelerations acc *)
Definition glide (t : R) : SVec := mkSV (prim3 gl_v (v_pos v0) t0 t) (gl_v t) (gl_q t) (gl_w t) (sped (v_whl v0) (map (Rmult (t - t0)) acc)).
Hypothesis DJ : det3 (s_total_moment sat) <> 0.
Hypothesis CF : cont3 F.
Hypothesis U0 : unitq (v_att v0).
Hypothesis LA : (length acc <= length (v_whl v0))%nat.
Hypothesis H0 : 0 <= h.
Lemma gl_mom t : rw_momentum (s_rw sat) (v_whl (glide t)) = gl_s (t - t0).
Proof. unfold glide. cbn [v_whl]. rewrite sped_momentum by (rewrite map_length; exact LA). rewrite torque_scale. reflexivity. Qed.
Lemma gl_body t : body_momentum sat (glide t) = sandwich (gl_q t) gl_L.
Proof. unfold body_momentum. rewrite gl_mom. unfold glide. cbn [v_rate]. unfold gl_w. change (s_inv_tot sat) with (inv3 (s_total_moment sat)). rewrite mv_inv3 by exact DJ. generalize (sandwich (gl_q t) gl_L) (gl_s (t - t0)). clear. intros [a b c] [d e f]. vunfoldg. rnumg. apply mk3_c; ring. Qed.
Lemma gl_unit t : unitq (gl_q t).
Proof. unfold gl_q. apply spin_spec; [lra|exact U0]. Qed.
Lemma glide_start : glide t0 = v0.
Proof.
  destruct (prim3_spec (fun s => div3 (F s) (s_mass sat)) (v_vel v0) t0 (cont3_div F (s_mass sat) CF)) as (V0 & DV). destruct (prim3_spec gl_v (v_pos v0) t0 (deriv3_cont _ _ DV)) as (P0 & DP).
  assert (Q0 : gl_q t0 = v_att v0) by (unfold gl_q; rewrite Rminus_eq_0; apply spin_spec; [lra|exact U0]).
  unfold glide. rewrite P0. unfold gl_v at 1. rewrite V0. unfold gl_w. rewrite Q0. unfold gl_L. rewrite sandwich_sandwich_opp by exact U0. rewrite Rminus_eq_0. rewrite sped_zero by (intros i; rewrite nth_mul; ring).
  assert (EW : mv (s_inv_tot sat) (sub3 (add3 (mv (s_total_moment sat) (v_rate v0)) (rw_momentum (s_rw sat) (v_whl v0))) (gl_s 0)) = v_rate v0).
  { transitivity (mv (inv3 (s_total_moment sat)) (mv (s_total_moment sat) (v_rate v0))); [|apply inv3_mv, DJ]. f_equal. unfold gl_s. generalize (mv (s_total_moment sat) (v_rate v0)) (rw_momentum (s_rw sat) (v_whl v0)) (rw_torque (s_rw sat) acc). clear. intros [a b c] [d e f] [g i j]. vunfoldg. rnumg. apply mk3_c; ring. }
  rewrite EW. destruct v0; reflexivity.
Qed.
Definition gl_c (t : R) : v3 := mv (s_inv_tot sat) (sub3 (sandwich (gl_q t) gl_L) (gl_s (clamp (-1) (h + 1) (t - t0)))).
Lemma gl_dq t : derivq gl_q t (scaleq 0.5 (product (gl_q t) (pure (gl_c t)))).
Proof.
  destruct (spin_spec (s_inv_tot sat) gl_L (rw_momentum (s_rw sat) (v_whl v0)) (rw_torque (s_rw sat) acc) (h + 1) ltac:(lra) (v_att v0) U0) as (_ & _ & D). rewrite half_05. set (sq := spin _ _ _ _ _ _) in *.
  assert (SH : forall (g : R -> R) d, derivable_pt_lim g (t - t0) d -> derivable_pt_lim (fun s => g (s - t0)) t d).
  { intros g d Hd. eapply d_eq; [apply (derivable_pt_lim_comp (fun s => s - t0) g); [apply (d_minus (fun s => s) (fun _ => t0) t 1 0); [apply derivable_pt_lim_id|apply derivable_pt_lim_const]|exact Hd]|]. ring. }
  destruct (D (t - t0)) as (D0 & D1 & D2 & D3). split; [exact (SH (fun s => qw (sq s)) _ D0)|]. split; [exact (SH (fun s => qx (sq s)) _ D1)|]. split; [exact (SH (fun s => qy (sq s)) _ D2)|exact (SH (fun s => qz (sq s)) _ D3)].
Qed.
Lemma gl_ds t : deriv3 (fun u => gl_s (u - t0)) t (rw_torque (s_rw sat) acc).
Proof.
  unfold gl_s. generalize (rw_momentum (s_rw sat) (v_whl v0)) (rw_torque (s_rw sat) acc). clear. intros [a b c] [d e f]. unfold deriv3. vunfoldg. cbn [x3 y3 z3]. rnumg.
  assert (G : forall p q, derivable_pt_lim (fun u => p + (u - t0) * q) t q). { intros p q. eapply d_eq; [apply (d_plus (fun _ => p) (fun u => (u - t0) * q)); [apply derivable_pt_lim_const|apply (d_mult (fun u => u - t0) (fun _ => q) t 1 0); [eapply d_eq; [apply (d_minus (fun s => s) (fun _ => t0) t 1 0); [apply derivable_pt_lim_id|apply derivable_pt_lim_const]|ring]|apply derivable_pt_lim_const]]|]. cbv beta. ring. }
  split; [|split]; apply G.
Qed.
Lemma gl_dw t : deriv3 gl_w t (mv (s_inv_tot sat) (sub3 (cross3 (sandwich (gl_q t) gl_L) (gl_c t)) (rw_torque (s_rw sat) acc))).
Proof.
  unfold gl_w. apply (d3_mv (s_inv_tot sat) (fun u => sub3 (sandwich (gl_q u) gl_L) (gl_s (u - t0)))). apply P_exist2.d3_sub; [|apply gl_ds]. eapply d3_eq; [exact (P_ctrl2.d3_sandwich gl_q (fun _ => gl_L) t zero3 (gl_c t) (gl_dq t) (d3_const gl_L t))|]. rewrite sandwich_0. generalize (cross3 (sandwich (gl_q t) gl_L) (gl_c t)). clear. vring.
Qed.
Lemma glide_spec : glide t0 = v0 /\ (forall t, unitq (v_att (glide t))) /\ (forall t, length (v_whl (glide t)) = length (v_whl v0)) /\ cont3 (fun t => v_rate (glide t)) /\
  (forall t, norm3 (body_momentum sat (glide t)) = norm3 (body_momentum sat v0)) /\
  forall t, t0 - 1 < t < t0 + h + 1 -> deriv_sv glide t (derivative sat (glide t) (F t) zero3 (rw_torque (s_rw sat) acc) (rw_momentum (s_rw sat) (v_whl (glide t))) acc).
Proof.
  split; [apply glide_start|]. split; [intros t; apply gl_unit|]. split; [intros t; apply sped_len|]. split; [exact (deriv3_cont gl_w _ gl_dw)|]. split.
  { intros t. assert (B0 := gl_body t0). rewrite glide_start in B0. rewrite B0, gl_body. unfold norm3. f_equal. destruct (sandwich_rigid (gl_q t) (gl_unit t)) as (D1 & _). destruct (sandwich_rigid (gl_q t0) (gl_unit t0)) as (D2 & _). rewrite D1, D2. reflexivity. }
  intros t Ht. assert (CW : gl_c t = gl_w t) by (unfold gl_c, gl_w; rewrite clamp_id by lra; reflexivity).
  destruct (prim3_spec (fun s => div3 (F s) (s_mass sat)) (v_vel v0) t0 (cont3_div F (s_mass sat) CF)) as (V0 & DV). destruct (prim3_spec gl_v (v_pos v0) t0 (deriv3_cont _ _ DV)) as (P0 & DP).
  split; [|split; [|split; [|split]]]; cbn [derivative v_pos v_vel v_att v_rate v_whl].
  - exact (DP t).
  - exact (DV t).
  - assert (X := gl_dq t). rewrite CW in X. exact X.
  - eapply d3_eq; [exact (gl_dw t)|]. f_equal. rewrite CW. assert (B := gl_body t). unfold body_momentum in B. change (v_rate (glide t)) with (gl_w t) in *. rewrite <- B. generalize (mv (s_total_moment sat) (gl_w t)) (rw_momentum (s_rw sat) (v_whl (glide t))) (rw_torque (s_rw sat) acc) (gl_w t). clear. intros [a b c] [d e f] [g i j] [k l m]. vunfoldg. rnumg. apply mk3_c; ring.
  - intros i. apply (d_ext (fun u => nth i (v_whl v0) 0 + (u - t0) * nth i acc 0)).
    + intros u. unfold glide. cbn [v_whl]. rewrite sped_nth by (rewrite map_length; exact LA). rewrite nth_mul. reflexivity.
    + generalize (nth i acc 0) (nth i (v_whl v0) 0). clear. intros q p. eapply d_eq; [apply (d_plus (fun _ => p) (fun u => (u - t0) * q)); [apply derivable_pt_lim_const|apply (d_mult (fun u => u - t0) (fun _ => q) t 1 0); [eapply d_eq; [apply (d_minus (fun s => s) (fun _ => t0) t 1 0); [apply derivable_pt_lim_id|apply derivable_pt_lim_const]|ring]|apply derivable_pt_lim_const]]|]. cbv beta. ring.
Qed.
End GLIDE.
