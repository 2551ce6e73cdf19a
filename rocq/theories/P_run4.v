(** * Lemmas: an orbit between two distances it has not the energy to pass *)
From Coq Require Import Reals List Arith Lra Psatz Lia Ranalysis5.
From Coquelicot Require Import Coquelicot.
From Verif Require Import Num Vec M_env S_rot S_dyn S_orb S_run P_quat P_dyn P_ode P_rk P_rk3 P_rk4 P_tot2 P_tot3 P_orb3 P_orb4 P_orb5 P_picard P_exist1 P_exist2 P_exist3.
Import ListNotations.
Local Open Scope R_scope.

Lemma lagrange3 (p v : v3) : dot3 (cross3 p v) (cross3 p v) = dot3 p p * dot3 v v - dot3 p v * dot3 p v.
Proof. destruct p as [a b c], v as [d e f]. vunfoldg. rnumg. ring. Qed.
Lemma norm_cont (p v : R -> v3) t : deriv3 p t (v t) -> continuity_pt (fun s => norm3 (p s)) t.
Proof.
  intros D. apply (continuity_pt_comp (fun s => dot3 (p s) (p s)) sqrt); [|apply continuity_pt_sqrt; apply dot3_pos'].
  apply derivable_continuous_pt. eexists. apply d_dot3; exact D.
Qed.
(** no way through a level that is not taken *)
Lemma barrier (f : R -> R) len c : (forall t, 0 <= t <= len -> continuity_pt f t) -> (forall t, 0 <= t <= len -> f t <> c) -> f 0 < c -> forall t, 0 <= t <= len -> f t < c.
Proof.
  intros CF NC F0 t Ht. destruct (Rlt_le_dec (f t) c) as [L|L]; [exact L|]. exfalso. destruct (Req_dec t 0) as [->|NZ]; [lra|].
  assert (LT : 0 < f t - c). { destruct L as [L|L]; [lra|]. exfalso. apply (NC t Ht). symmetry. exact L. }
  destruct (IVT_interv (fun s => f s - c) 0 t) as (z & Hz & Z); try lra.
  - intros a Ha. apply continuity_pt_minus; [apply CF; lra|]. apply continuity_pt_const. intros x y. reflexivity.
  - apply (NC z ltac:(lra)). lra.
Qed.
Lemma orbit_conserved p v len : 0 <= len -> orbit_motion (fun t => attraction (p t)) len p v -> cross3 (p 0) (v 0) <> zero3 ->
  forall t, 0 <= t <= len -> 0 < norm3 (p t) /\ cross3 (p t) (v t) = cross3 (p 0) (v 0) /\ energy2 (p t) (v t) = energy2 (p 0) (v 0).
Proof.
  intros HL OM HM. destruct (peri_spec (p 0) (v 0) HM) as (SP & R0 & HH). assert (M := MU_pos).
  assert (FAR := orbit_bounds p v len HL OM HM). set (sg := peri (p 0) (v 0)) in *. clearbody sg.
  assert (OD : forall t, 0 <= t <= len -> deriv3 p t (v t) /\ deriv3 v t (kep (p t))) by (intros t Ht; rewrite kep_attraction; apply OM, Ht).
  assert (MC : forall t, 0 <= t <= len -> cross3 (p t) (v t) = cross3 (p 0) (v 0)).
  { intros t Ht. assert (D : forall s, 0 <= s <= len -> deriv3 (fun s => cross3 (p s) (v s)) s zero3). { intros s Hs. eapply d3_eq; [apply d3_cross; apply (OD s Hs)|]. cbv beta. unfold kep. apply central_momentum. }
    assert (E1 := const_on (fun s => x3 (cross3 (p s) (v s))) len (fun s Hs => proj1 (D s Hs)) t Ht). assert (E2 := const_on (fun s => y3 (cross3 (p s) (v s))) len (fun s Hs => proj1 (proj2 (D s Hs))) t Ht). assert (E3 := const_on (fun s => z3 (cross3 (p s) (v s))) len (fun s Hs => proj2 (proj2 (D s Hs))) t Ht). cbv beta in E1, E2, E3.
    destruct (cross3 (p t) (v t)) as [a b c], (cross3 (p 0) (v 0)) as [a' b' c']. cbn [x3 y3 z3] in *. congruence. }
  assert (NP : forall t, 0 <= t <= len -> 0 < norm3 (p t)) by (intros t Ht; destruct (FAR t Ht); lra).
  assert (EC : forall t, 0 <= t <= len -> dot3 (v t) (v t) / 2 - MU / sqrt (dot3 (p t) (p t)) = dot3 (v 0) (v 0) / 2 - MU / sqrt (dot3 (p 0) (p 0))).
  { intros t Ht. apply (const_on (fun t => dot3 (v t) (v t) / 2 - MU / sqrt (dot3 (p t) (p t))) len); [|exact Ht]. intros s Hs. destruct (OD s Hs) as [D1 D2]. assert (QS := NP s Hs). rewrite norm3_dot in QS.
    assert (PS : 0 < dot3 (p s) (p s)). { assert (A := dot3_pos' (p s)). destruct A as [A|A]; [exact A|]. rewrite <- A, sqrt_0 in QS. lra. }
    apply (d_eq _ _ ((dot3 (kep (p s)) (v s) + dot3 (v s) (kep (p s))) * / 2 - (- (MU / (2 * sqrt (dot3 (p s) (p s)) ^ 3))) * (dot3 (v s) (p s) + dot3 (p s) (v s)))).
    - apply (d_minus (fun t => dot3 (v t) (v t) / 2) (fun t => MU / sqrt (dot3 (p t) (p t)))).
      + apply (d_eq _ _ ((dot3 (kep (p s)) (v s) + dot3 (v s) (kep (p s))) * / 2 + dot3 (v s) (v s) * 0)); [|ring]. apply (d_mult (fun t => dot3 (v t) (v t)) (fun _ => / 2)); [apply d_dot3; exact D2|apply d_const].
      + apply (derivable_pt_lim_comp (fun t => dot3 (p t) (p t)) (fun z => MU / sqrt z)); [apply d_dot3; exact D1|]. apply is_derive_Reals. auto_derive; [repeat split; lra|]. field. lra.
    - rewrite (dot3_comm' (kep (p s))), (dot3_comm' (v s) (p s)). unfold kep. rewrite central_power, norm3_dot. field. lra. }
  intros t Ht. split; [apply NP, Ht|]. split; [apply MC, Ht|]. assert (E := EC t Ht). rewrite <- !norm3_dot in E. unfold energy2. change earth_mu with MU. lra.
Qed.
Lemma trapped_momentum p0 v0 lo hi : 0 < lo -> trapped p0 v0 lo hi -> cross3 p0 v0 <> zero3.
Proof.
  intros HL ((L1 & L2) & TR) Z. assert (T := TR lo (or_introl eq_refl)). rewrite Z in T. replace (dot3 zero3 zero3 / (lo * lo)) with 0 in T by (unfold zero3, dot3; cbn [x3 y3 z3]; rnumg; unfold Rdiv; ring).
  unfold energy2 in T. change earth_mu with MU in T. assert (M := MU_pos). assert (D := dot3_pos' v0). assert (/ norm3 p0 < / lo) by (apply Rinv_lt_contravar; [apply Rmult_lt_0_compat; lra|lra]). assert (2 * MU * / norm3 p0 < 2 * MU * / lo) by (apply Rmult_lt_compat_l; lra). unfold Rdiv in T. lra.
Qed.
Lemma orbit_trapped p v len lo hi : 0 <= len -> 0 < lo -> orbit_motion (fun t => attraction (p t)) len p v -> trapped (p 0) (v 0) lo hi ->
  forall t, 0 <= t <= len -> lo < norm3 (p t) < hi /\ norm3 (v t) <= top_speed (p 0) (v 0) lo.
Proof.
  intros HL L0 OM TR. assert (HM := trapped_momentum _ _ _ _ L0 TR). assert (OC := orbit_conserved p v len HL OM HM). destruct TR as ((L1 & L2) & TR).
  assert (NE : forall r t, r = lo \/ r = hi -> 0 <= t <= len -> norm3 (p t) <> r).
  { intros r t Hr Ht E. assert (T := TR r Hr). destruct (OC t Ht) as (P & C & N). rewrite <- C, <- N in T. unfold energy2 in T. rewrite <- E, lagrange3 in T. assert (S := proj2 (norm3_sq (p t))). rewrite <- S in T.
    replace ((norm3 (p t) * norm3 (p t) * dot3 (v t) (v t) - dot3 (p t) (v t) * dot3 (p t) (v t)) / (norm3 (p t) * norm3 (p t))) with (dot3 (v t) (v t) - dot3 (p t) (v t) * dot3 (p t) (v t) / (norm3 (p t) * norm3 (p t))) in T by (field; lra).
    assert (0 <= dot3 (p t) (v t) * dot3 (p t) (v t) / (norm3 (p t) * norm3 (p t))). { apply Rmult_le_pos; [apply Rle_0_sqr|left; apply Rinv_0_lt_compat, Rmult_lt_0_compat; exact P]. } lra. }
  assert (CT : forall t, 0 <= t <= len -> continuity_pt (fun s => norm3 (p s)) t) by (intros t Ht; apply (norm_cont p v), OM, Ht).
  intros t Ht. assert (H2 : norm3 (p t) < hi). { apply (barrier (fun s => norm3 (p s)) len hi CT); [|exact L2|exact Ht]. intros s Hs. apply NE; [right; reflexivity|exact Hs]. }
  assert (H1 : - norm3 (p t) < - lo). { apply (barrier (fun s => - norm3 (p s)) len (- lo)); [| |lra|exact Ht]. - intros s Hs. apply continuity_pt_opp, CT, Hs. - intros s Hs E. apply (NE lo s (or_introl eq_refl) Hs). lra. }
  split; [lra|]. unfold top_speed. rewrite norm3_dot. apply sqrt_le_1_alt. destruct (OC t Ht) as (P & _ & N). rewrite <- N. unfold energy2. change earth_mu with MU. assert (M := MU_pos).
  assert (/ norm3 (p t) <= / lo) by (apply Rinv_le_contravar; lra). assert (2 * MU * / norm3 (p t) <= 2 * MU * / lo) by (apply Rmult_le_compat_l; lra). unfold Rdiv. lra.
Qed.
