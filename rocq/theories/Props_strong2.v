(** * C138, continued: from any spin, strong enough wheels stop saturating after a time that can be told beforehand *)
From Coq Require Import Reals ZArith List Bool Lra Lia Psatz.
From Verif Require Props_agile.
From Verif Require Import Num Vec M_vector M_quaternion M_jday M_struct M_dyn M_ctrl S_rot S_dyn S_ctrl.
From Verif Require Import P_quat P_sat P_struct P_wheel P_dyn P_dyn2 P_obs P_ctrl P_ctrl2 P_ctrl5 P_tot3 P_samp P_posf Props_struct Props_conv Props_samp Props_sated Props_sated2 Props_strong.
Import ListNotations.
Local Open Scope R_scope.

Theorem C138_recovers : forall sat instr sun damping freq w0 jl jm D L X, 0 < damping -> 0 < freq -> whl_new sat instr sun damping freq = Ok w0 ->
  0 < jl -> (forall v, jl * dot3 v v <= dot3 v (mv (s_total_moment sat) v) <= jm * dot3 v v) ->
  spanning (s_rw sat) -> (rw_limited (s_rw sat) = true -> 0 < rw_maxT (s_rw sat)) -> spread (s_rw sat) D -> 0 <= L -> needed damping freq jl jm D L < rw_maxT (s_rw sat) ->
  exists T, 0 <= T /\ forall (w : R -> WhlCtl) (qc : R -> quat) F y a, a < 0 ->
  (forall t, a < t -> tracker sat (wc_alpha w0) (wc_gamma w0) (w t) /\ unitq (qc t) /\ obeys_limited (w t) (qc t) F y t) -> unitq (v_att (y 0)) -> spin2 sat (y 0) <= X ->
  norm3 (add3 (rw_momentum (s_rw sat) (v_whl (y 0))) (mv (s_total_moment sat) (v_rate (y 0)))) <= L ->
  forall t, T <= t -> exists w' u, tracking (w t) (y t) zero3 zero3 (qc t) = Ok (w', u) /\ Forall (fun x => Rabs x <= rw_maxT (s_rw sat)) (rw_distribute (s_rw sat) (opp3 u)).
Proof.
  intros sat instr sun damping freq w0 jl jm D L X HD HF WN JL B SP LM SD L0 ND.
  assert (PD : pdm (s_total_moment sat)). { intros v NV. destruct (B v) as [Y _]. assert (P : 0 < dot3 v v). { destruct (dot3_nonneg v) as [Q|E]; [exact Q|]. exfalso. apply NV, dot3_zero. lra. } assert (X2 := Rmult_lt_0_compat _ _ JL P). lra. }
  assert (DP := pd_det _ (total_symm sat) PD).
  assert (JM : 0 < jm). { assert (Y := B (mk3 1 0 0)). replace (dot3 (mk3 1 0 0) (mk3 1 0 0)) with 1 in Y by (vunfoldg; cbn [x3 y3 z3]; rnumg; ring). lra. }
  assert (G : wc_alpha w0 = 2 * freq ^ 2 /\ wc_gamma w0 = 2 * damping * freq). { unfold whl_new in WN. destruct (forallb _ instr); [|discriminate]. injection WN as <-. split; reflexivity. } destruct G as [GA GG].
  assert (GP : 0 < wc_gamma w0) by (rewrite GG; nra). assert (AP : 0 <= wc_alpha w0) by (rewrite GA; assert (F2 := pow2_ge_0 freq); lra).
  assert (EC : wc_alpha w0 / wc_gamma w0 = freq / damping) by (rewrite GA, GG; field; lra).
  set (W := top_rate damping freq jl jm). assert (W0 : 0 < W) by (unfold W, top_rate; apply Rmult_lt_0_compat; [apply Rdiv_lt_0_compat; assumption|apply sqrt_lt_R0, Rdiv_lt_0_compat; assumption]).
  set (C := jm * (wc_alpha w0 / wc_gamma w0) ^ 2). assert (CW : C = jl * (W * W)).
  { unfold C, W, top_rate. rewrite EC. replace (freq / damping * sqrt (jm / jl) * (freq / damping * sqrt (jm / jl))) with ((freq / damping) ^ 2 * (sqrt (jm / jl) * sqrt (jm / jl))) by ring. rewrite sqrt_sqrt by (left; apply Rdiv_lt_0_compat; assumption). field. lra. }
  destruct SD as [D0 SD']. assert (SD : spread (s_rw sat) D) by (split; assumption). set (g := D * (L + jm * wc_gamma w0)). assert (G0 : 0 <= g) by (unfold g; apply Rmult_le_pos; [exact D0|]; assert (Q := Rmult_lt_0_compat _ _ JM GP); lra).
  set (eta := (rw_maxT (s_rw sat) - needed damping freq jl jm D L) / (g + 1)). assert (E0 : 0 < eta) by (unfold eta; apply Rdiv_lt_0_compat; lra).
  assert (EB : D * ((W + eta) * L + jm * (wc_alpha w0 + wc_gamma w0 * (W + eta))) <= rw_maxT (s_rw sat)).
  { replace (D * ((W + eta) * L + jm * (wc_alpha w0 + wc_gamma w0 * (W + eta)))) with (D * (W * L + jm * (wc_alpha w0 + wc_gamma w0 * W)) + g * eta) by (unfold g; ring).
    replace (D * (W * L + jm * (wc_alpha w0 + wc_gamma w0 * W))) with (needed damping freq jl jm D L) by (unfold needed; rewrite GA, GG; reflexivity).
    assert (Q : (g + 1) * eta = rw_maxT (s_rw sat) - needed damping freq jl jm D L) by (unfold eta; field; lra). lra. }
  destruct (C137_decays sat (wc_alpha w0) (wc_gamma w0) jl jm X L GP JL B SP LM) as (lam & LP & DEC). fold C in DEC.
  set (M := Rmax 0 (X - C)). assert (M0 : 0 <= M) by apply Rmax_l. set (k := lam * (jl * (eta * eta))). assert (K0 : 0 < k) by (unfold k; apply Rmult_lt_0_compat; [exact LP|]; apply Rmult_lt_0_compat; [exact JL|]; apply Rmult_lt_0_compat; exact E0).
  exists (M / k). split; [apply Rmult_le_pos; [exact M0|left; apply Rinv_0_lt_compat, K0]|]. intros w qc F y a A O U HX HL t Ht.
  assert (T0 : 0 <= t) by (eapply Rle_trans; [|exact Ht]; apply Rmult_le_pos; [exact M0|left; apply Rinv_0_lt_compat, K0]).
  assert (DT := DEC w qc F y a A O U HX HL t T0).
  assert (ME : Rmax 0 (spin2 sat (y 0) - C) <= M) by (unfold M; apply Rle_max_compat_l; lra). assert (XP := exp_pos (- lam * t)).
  assert (MT : M <= k * t). { apply (Rmult_le_compat_l k) in Ht; [|lra]. replace (k * (M / k)) with M in Ht by (field; lra). exact Ht. }
  assert (XB : lam * t * exp (- lam * t) <= 1). { assert (Q := exp_ineq1_le (lam * t)). assert (Q2 : exp (lam * t) * exp (- lam * t) = 1) by (rewrite <- exp_plus; replace (lam * t + - lam * t) with 0 by ring; apply exp_0). rewrite <- Q2. apply Rmult_le_compat_r; lra. }
  assert (SM : spin2 sat (y t) <= C + jl * (eta * eta)).
  { eapply Rle_trans; [exact DT|]. apply Rplus_le_compat_l. eapply Rle_trans; [apply Rmult_le_compat_r; [lra|]; eapply Rle_trans; [exact ME|exact MT]|]. unfold k.
    replace (lam * (jl * (eta * eta)) * t * exp (- lam * t)) with (jl * (eta * eta) * (lam * t * exp (- lam * t))) by ring. assert (Q : 0 <= jl * (eta * eta)) by (apply Rmult_le_pos; [lra|nra]). assert (Q2 := Rmult_le_compat_l _ _ _ Q XB). lra. }
  assert (RW : norm3 (v_rate (y t)) <= W + eta).
  { destruct (B (v_rate (y t))) as [BL _]. unfold spin2 in SM. apply Rsqr_incr_0_var; [|lra]. unfold Rsqr. apply (Rmult_le_reg_l jl); [exact JL|]. assert (SQ := P_quat.norm3_sq (v_rate (y t))).
    replace (norm3 (v_rate (y t)) * norm3 (v_rate (y t))) with (dot3 (v_rate (y t)) (v_rate (y t))) by (clear - SQ; nra). rewrite CW in SM. assert (Q := Rmult_lt_0_compat _ _ W0 E0). assert (Q2 := Rmult_lt_0_compat _ _ JL Q). lra. }
  destruct (limited_kept sat _ _ w qc F y a SP LM ltac:(lra) A O U t ltac:(lra)) as [UT LT].
  destruct (O t ltac:(lra)) as (TK & UC & w' & u & acc & TR & _). exists w', u. split; [exact TR|].
  apply (asked_small sat (wc_alpha w0) (wc_gamma w0) D jm (W + eta) L (w t) (qc t) (y t) w' u TK JM PD (fun v => proj2 (B v)) GP AP SD); try assumption. rewrite LT. exact HL.
Qed.
Print Assumptions C138_recovers.

(** the motion of C137_ex starts with a command far beyond the limit *)
Example C138_ex_recovers : exists (qc : R -> quat) y u T, tracking weak_ctl (y 0) zero3 zero3 (qc 0) = Ok (weak_ctl, u) /\ ~ unsaturated (s_rw weak_ball) (opp3 u) /\
  (forall t, -1 < t -> obeys_limited weak_ctl (qc t) (fun _ => zero3) y t) /\ forall t, T <= t -> exists w' u, tracking weak_ctl (y t) zero3 zero3 (qc t) = Ok (w', u) /\ unsaturated (s_rw weak_ball) (opp3 u).
Proof.
  destruct C137_ex as (qc & y & u & PD & B & SP & LM & MT & O & U & TR & NS & MZ).
  assert (WN : whl_new weak_ball [] (Some (fun _ => ex)) 0.707 0.1 = Ok weak_ctl) by (unfold whl_new, weak_ctl; cbn [forallb map]; f_equal; f_equal; rewrite trig_new_eq; destruct (Rlt_dec 1 0); [lra|reflexivity]).
  destruct (C138_recovers weak_ball [] (Some (fun _ => ex)) 0.707 0.1 weak_ctl 4 4 1 0 (spin2 weak_ball (y 0))) as (T & T0 & H); [lra|lra|exact WN|lra|intros v; rewrite weak_bound; lra|exact SP|intros _; exact MT|exact weak_spread|lra| |].
  - unfold needed, top_rate. cbv zeta. replace (4 / 4) with 1 by field. rewrite sqrt_1. cbn [weak_ball s_rw rw_maxT]. replace (1 * (0.1 / 0.707 * 1 * 0 + 4 * (2 * 0.1 ^ 2 + 2 * 0.707 * 0.1 * (0.1 / 0.707 * 1)))) with (4 * (2 * 0.1 ^ 2 + 2 * 0.1 ^ 2 * (0.707 / 0.707))) by (unfold Rdiv; ring). replace (0.707 / 0.707) with 1 by (field; lra). lra.
  - exists qc, y, u, T. split; [exact TR|]. split; [exact NS|]. split; [intros t Ht; apply (O t Ht)|]. intros t Ht.
    destruct (H (fun _ => weak_ctl) qc (fun _ => zero3) y (-1) ltac:(lra) O U (Rle_refl _) ltac:(rewrite MZ, Props_agile.norm_zero3; lra) t Ht) as (w' & u' & E & FA). exists w', u'. split; [exact E|right; exact FA].
Qed.
