(** * A pair of scalar equations with a Lipschitz right-hand side has a solution for all time (Picard iteration) *)
From Coq Require Import Reals Lra Psatz Lia.
From Coquelicot Require Import Coquelicot.
Local Open Scope R_scope.

Lemma cont_RInt (f : R -> R) a b : (forall t, continuous f t) -> ex_RInt f a b.
Proof. intros H. apply (ex_RInt_continuous (V := R_CompleteNormedModule)). intros z _. apply H. Qed.
Lemma rint_pow_pos (f : R -> R) C n t : (forall s, continuous f s) -> 0 <= t -> (forall s, Rabs s <= Rabs t -> Rabs (f s) <= C * Rabs s ^ n) ->
  Rabs (RInt f 0 t) <= C * (Rabs t ^ (S n) / INR (S n)).
Proof.
  intros Hc Ht Hb. rewrite (Rabs_right t) in * by lra. assert (NN : INR (S n) <> 0) by (apply not_0_INR; discriminate).
  assert (I : is_RInt (fun s => C * s ^ n) 0 t (C * (t ^ (S n) / INR (S n)))).
  { replace (C * (t ^ (S n) / INR (S n))) with (minus (C * (t ^ (S n) / INR (S n))) (C * (0 ^ (S n) / INR (S n)))) by (unfold minus, plus, opp; cbn [AbelianGroup.sort]; cbn; field; exact NN).
    apply (is_RInt_derive (fun s => C * (s ^ (S n) / INR (S n)))).
    - intros x _. auto_derive; [exact Logic.I|]. replace (Init.Nat.pred (S n)) with n by reflexivity. field. exact NN.
    - intros x _. apply (ex_derive_continuous (fun s => C * s ^ n)). auto_derive. exact Logic.I. }
  eapply Rle_trans; [apply (abs_RInt_le f 0 t Ht), cont_RInt, Hc|]. rewrite <- (is_RInt_unique _ _ _ _ I). apply RInt_le; [exact Ht| | |].
  - apply cont_RInt. intros s. apply (continuous_comp f Rabs); [apply Hc|apply continuous_Rabs].
  - eexists; exact I.
  - intros x Hx. rewrite <- (Rabs_right x) at 2 by lra. apply Hb. rewrite Rabs_right; lra.
Qed.
Lemma rint_pow (f : R -> R) C n t : (forall s, continuous f s) -> (forall s, Rabs s <= Rabs t -> Rabs (f s) <= C * Rabs s ^ n) ->
  Rabs (RInt f 0 t) <= C * (Rabs t ^ (S n) / INR (S n)).
Proof.
  intros Hc Hb. destruct (Rle_dec 0 t) as [P|N]; [apply rint_pow_pos; assumption|].
  assert (E : RInt f 0 t = RInt (fun y => scal (-1) (f (-1 * y + 0))) 0 (- t)).
  { transitivity (RInt f (-1 * 0 + 0) (-1 * - t + 0)); [f_equal; ring|]. symmetry. apply (RInt_comp_lin (V := R_CompleteNormedModule) f (-1) 0 0 (- t)). apply cont_RInt, Hc. }
  rewrite E, <- (Rabs_Ropp t). apply rint_pow_pos; [|lra|].
  - intros s. apply (continuous_scal_r (V := R_NormedModule) (-1)). apply (continuous_comp (fun y : R => -1 * y + 0) f); [|apply Hc]. apply (ex_derive_continuous (fun y : R => -1 * y + 0)). auto_derive. exact I.
  - intros s Hs. unfold scal; cbn. unfold mult; cbn. replace (-1 * f (-1 * s + 0)) with (- f (- s)) by (replace (-1 * s + 0) with (- s) by ring; ring). rewrite Rabs_Ropp, <- (Rabs_Ropp s). apply Hb. rewrite !Rabs_Ropp in *. exact Hs.
Qed.

Section PICARD.
Variables (F G : R -> R -> R) (K x0 y0 : R).
Hypothesis KP : 0 < K.
Hypothesis LF : forall a b c d, Rabs (F a b - F c d) <= K / 2 * (Rabs (a - c) + Rabs (b - d)).
Hypothesis LG : forall a b c d, Rabs (G a b - G c d) <= K / 2 * (Rabs (a - c) + Rabs (b - d)).

Lemma lip_cont (H : R -> R -> R) (f g : R -> R) t : (forall a b c d, Rabs (H a b - H c d) <= K / 2 * (Rabs (a - c) + Rabs (b - d))) ->
  continuous f t -> continuous g t -> continuous (fun s => H (f s) (g s)) t.
Proof.
  intros L Cf Cg. apply continuity_pt_filterlim. apply continuity_pt_filterlim in Cf. apply continuity_pt_filterlim in Cg.
  intros eps He. assert (E1 : 0 < eps / K) by (apply Rdiv_lt_0_compat; assumption).
  destruct (Cf _ E1) as (d1 & D1 & H1). destruct (Cg _ E1) as (d2 & D2 & H2). exists (Rmin d1 d2). split; [apply Rmin_pos; assumption|].
  intros s [Hs1 Hs2]. specialize (H1 s (conj Hs1 (Rlt_le_trans _ _ _ Hs2 (Rmin_l _ _)))). specialize (H2 s (conj Hs1 (Rlt_le_trans _ _ _ Hs2 (Rmin_r _ _)))).
  cbn in *. unfold R_dist in *. eapply Rle_lt_trans; [apply L|]. apply Rlt_le_trans with (K / 2 * (eps / K + eps / K)); [apply Rmult_lt_compat_l; lra|]. apply Req_le. field. lra.
Qed.
Fixpoint pic (n : nat) : (R -> R) * (R -> R) :=
  match n with
  | O => (fun _ => x0, fun _ => y0)
  | S n => let '(x, y) := pic n in (fun t => x0 + RInt (fun s => F (x s) (y s)) 0 t, fun t => y0 + RInt (fun s => G (x s) (y s)) 0 t)
  end.
Definition px n := fst (pic n).
Definition py n := snd (pic n).
Lemma px_S n t : px (S n) t = x0 + RInt (fun s => F (px n s) (py n s)) 0 t.
Proof. unfold px, py. cbn [pic]. destruct (pic n). reflexivity. Qed.
Lemma py_S n t : py (S n) t = y0 + RInt (fun s => G (px n s) (py n s)) 0 t.
Proof. unfold px, py. cbn [pic]. destruct (pic n). reflexivity. Qed.
Lemma prim_derive (f : R -> R) (c : R) : (forall t, continuous f t) -> forall t : R, is_derive (fun t => c + RInt f 0 t) t (f t).
Proof.
  intros H t. replace (f t) with (plus 0 (f t)) by (unfold plus; cbn; ring). apply (is_derive_plus (fun _ => c) (fun t => RInt f 0 t)); [apply (is_derive_const c)|].
  apply is_derive_RInt with 0; [|apply H]. apply filter_forall. intros y. apply (RInt_correct (V := R_CompleteNormedModule) f), cont_RInt, H.
Qed.
Lemma prim_cont (f : R -> R) c : (forall t, continuous f t) -> forall t, continuous (fun t => c + RInt f 0 t) t.
Proof. intros H t. apply (ex_derive_continuous (fun t => c + RInt f 0 t)). eexists. apply prim_derive, H. Qed.
Lemma pic_cont n : (forall t, continuous (px n) t) /\ (forall t, continuous (py n) t).
Proof.
  induction n as [|n [IX IY]]; [split; intros t; apply continuous_const|].
  split; intros t; [apply (continuous_ext (fun t => x0 + RInt (fun s => F (px n s) (py n s)) 0 t)); [intros s; symmetry; apply px_S|]|apply (continuous_ext (fun t => y0 + RInt (fun s => G (px n s) (py n s)) 0 t)); [intros s; symmetry; apply py_S|]];
    apply prim_cont; intros s; apply lip_cont; auto.
Qed.
Definition step (n : nat) (t : R) : R := Rabs (px (S n) t - px n t) + Rabs (py (S n) t - py n t).
Definition M0 : R := Rabs (F x0 y0) + Rabs (G x0 y0).
Lemma M0_nonneg : 0 <= M0. Proof. unfold M0. assert (A := Rabs_pos (F x0 y0)). assert (B := Rabs_pos (G x0 y0)). lra. Qed.
Lemma rint_diff (f g : R -> R) t : (forall s, continuous f s) -> (forall s, continuous g s) -> RInt f 0 t - RInt g 0 t = RInt (fun s => f s - g s) 0 t.
Proof. intros Hf Hg. symmetry. apply (RInt_minus (V := R_CompleteNormedModule) f g 0 t); apply cont_RInt; assumption. Qed.
Lemma step_bound n : forall t, step n t <= M0 * K ^ n * (Rabs t ^ (S n) / INR (fact (S n))).
Proof.
  induction n as [|n IH]; intros t.
  - unfold step.
    assert (EX : px 1 t - px 0 t = RInt (fun _ => F x0 y0) 0 t) by (rewrite px_S; change (px 0 t) with x0; change (fun s : R => F (px 0 s) (py 0 s)) with (fun _ : R => F x0 y0); ring).
    assert (EY : py 1 t - py 0 t = RInt (fun _ => G x0 y0) 0 t) by (rewrite py_S; change (py 0 t) with y0; change (fun s : R => G (px 0 s) (py 0 s)) with (fun _ : R => G x0 y0); ring).
    rewrite EX, EY, !RInt_const. unfold scal; cbn. unfold mult; cbn. rewrite !Rabs_mult, Rminus_0_r. unfold M0. apply Req_le. field.
  - unfold step. rewrite !px_S, !py_S. destruct (pic_cont n) as [CX CY]. destruct (pic_cont (S n)) as [CX' CY'].
    assert (CC : forall (H : R -> R -> R) (x y : R -> R), (forall a b c d, Rabs (H a b - H c d) <= K / 2 * (Rabs (a - c) + Rabs (b - d))) -> (forall t, continuous x t) -> (forall t, continuous y t) -> forall s, continuous (fun s => H (x s) (y s)) s) by (intros H x y L Hx Hy s; apply lip_cont; auto).
    assert (FB : INR (fact (S n)) <> 0) by apply INR_fact_neq_0. assert (FB' : INR (S (S n)) <> 0) by (apply not_0_INR; discriminate).
    assert (BB : forall (H : R -> R -> R) c, (forall a b c d, Rabs (H a b - H c d) <= K / 2 * (Rabs (a - c) + Rabs (b - d))) ->
      Rabs (c + RInt (fun s => H (px (S n) s) (py (S n) s)) 0 t - (c + RInt (fun s => H (px n s) (py n s)) 0 t)) <= K / 2 * (M0 * K ^ n / INR (fact (S n))) * (Rabs t ^ (S (S n)) / INR (S (S n)))).
    { intros H c L. match goal with |- Rabs (c + ?a - (c + ?b)) <= _ => replace (c + a - (c + b)) with (a - b) by ring end. rewrite rint_diff by (apply CC; assumption).
      apply rint_pow; [intros s; apply (continuous_minus (V := R_NormedModule)); apply CC; assumption|]. intros s _. eapply Rle_trans; [apply L|]. rewrite (Rmult_assoc (K / 2)). apply Rmult_le_compat_l; [lra|].
      assert (X := IH s). unfold step in X. eapply Rle_trans; [exact X|]. apply Req_le. field. exact FB. }
    assert (B1 := BB F x0 LF). assert (B2 := BB G y0 LG). eapply Rle_trans; [apply Rplus_le_compat; eassumption|]. apply Req_le.
    replace (fact (S (S n))) with (S (S n) * fact (S n))%nat by reflexivity. rewrite mult_INR. cbn [pow]. field. split; assumption.
Qed.
(** the partial sums that dominate the steps *)
Definition dom (T : R) (n : nat) : R := M0 / K * sum_f_R0 (fun i => / INR (fact i) * (K * T) ^ i) n.
Lemma dom_S T n : dom T (S n) - dom T n = M0 * K ^ n * (T ^ (S n) / INR (fact (S n))).
Proof. unfold dom. cbn [sum_f_R0]. rewrite Rpow_mult_distr. cbn [pow]. field. split; [apply INR_fact_neq_0|lra]. Qed.
Lemma dom_cv T : Un_cv (dom T) (M0 / K * exp (K * T)).
Proof.
  unfold dom. apply (CV_mult (fun _ => M0 / K) (fun n => sum_f_R0 (fun i => / INR (fact i) * (K * T) ^ i) n)).
  - intros e He. exists O. intros n _. unfold R_dist. rewrite Rminus_eq_0, Rabs_R0. exact He.
  - unfold exp. destruct (exist_exp (K * T)) as [l Hl]. exact Hl.
Qed.
Lemma dom_incr T n m : 0 <= T -> (n <= m)%nat -> dom T n <= dom T m.
Proof.
  intros HT Hm. induction Hm as [|m Hm IH]; [lra|]. assert (D := dom_S T m). assert (0 <= M0 * K ^ m * (T ^ (S m) / INR (fact (S m)))); [|lra].
  assert (A := M0_nonneg). apply Rmult_le_pos; [apply Rmult_le_pos; [exact A|apply pow_le; lra]|]. apply Rmult_le_pos; [apply pow_le, HT|]. left. apply Rinv_0_lt_compat, INR_fact_lt_0.
Qed.
Lemma pic_gap T t n m : Rabs t <= T -> (n <= m)%nat -> Rabs (px m t - px n t) + Rabs (py m t - py n t) <= dom T m - dom T n.
Proof.
  intros Ht Hm. assert (HT : 0 <= T) by (assert (A := Rabs_pos t); lra). induction Hm as [|m Hm IH]; [rewrite !Rminus_eq_0, Rabs_R0; lra|].
  assert (B := step_bound m t). unfold step in B. assert (D := dom_S T m).
  assert (C : M0 * K ^ m * (Rabs t ^ S m / INR (fact (S m))) <= M0 * K ^ m * (T ^ S m / INR (fact (S m)))).
  { apply Rmult_le_compat_l; [apply Rmult_le_pos; [apply M0_nonneg|apply pow_le; lra]|]. apply Rmult_le_compat_r; [left; apply Rinv_0_lt_compat, INR_fact_lt_0|]. apply pow_incr. split; [apply Rabs_pos|exact Ht]. }
  assert (T1 := Rabs_triang (px (S m) t - px m t) (px m t - px n t)). assert (T2 := Rabs_triang (py (S m) t - py m t) (py m t - py n t)).
  replace (px (S m) t - px m t + (px m t - px n t)) with (px (S m) t - px n t) in T1 by ring. replace (py (S m) t - py m t + (py m t - py n t)) with (py (S m) t - py n t) in T2 by ring. lra.
Qed.
Lemma tail T : 0 <= T -> forall eps, 0 < eps -> exists N, forall n m, (N <= n)%nat -> (n <= m)%nat -> dom T m - dom T n < eps.
Proof.
  intros HT eps He. assert (C := CV_Cauchy (dom T) (exist _ _ (dom_cv T))). destruct (C eps He) as (N & HN). exists N. intros n m Hn Hm. assert (X := HN m n ltac:(lia) ltac:(lia)). unfold R_dist in X. apply Rabs_def2 in X. lra.
Qed.
Lemma px_cauchy t : Cauchy_crit (fun n => px n t) /\ Cauchy_crit (fun n => py n t).
Proof.
  assert (W : forall f : nat -> R -> R, (forall n m, (n <= m)%nat -> Rabs (f m t - f n t) <= dom (Rabs t) m - dom (Rabs t) n) -> Cauchy_crit (fun n => f n t)).
  { intros f H eps He. destruct (tail (Rabs t) (Rabs_pos t) eps He) as (N & HN). exists N. intros n m Hn Hm. unfold R_dist. destruct (le_ge_dec n m) as [L|L].
    - rewrite Rabs_minus_sym. eapply Rle_lt_trans; [apply H, L|]. apply HN; lia.
    - eapply Rle_lt_trans; [apply H, L|]. apply HN; lia. }
  split; apply W; intros n m L; assert (X := pic_gap (Rabs t) t n m (Rle_refl _) L); assert (A := Rabs_pos (px m t - px n t)); assert (B := Rabs_pos (py m t - py n t)); lra.
Qed.
Definition sol_x (t : R) : R := proj1_sig (Rcomplete.R_complete _ (proj1 (px_cauchy t))).
Definition sol_y (t : R) : R := proj1_sig (Rcomplete.R_complete _ (proj2 (px_cauchy t))).
Lemma sol_x_cv t : Un_cv (fun n => px n t) (sol_x t). Proof. unfold sol_x. destruct (Rcomplete.R_complete _ _) as [l Hl]. exact Hl. Qed.
Lemma sol_y_cv t : Un_cv (fun n => py n t) (sol_y t). Proof. unfold sol_y. destruct (Rcomplete.R_complete _ _) as [l Hl]. exact Hl. Qed.
Lemma lim_close (f : nat -> R) l c d N : Un_cv f l -> (forall m, (N <= m)%nat -> Rabs (f m - c) <= d) -> Rabs (l - c) <= d.
Proof.
  intros H B. apply Rnot_lt_le. intros L. destruct (H (Rabs (l - c) - d) ltac:(lra)) as (M & HM). specialize (HM (max M N) ltac:(lia)). specialize (B (max M N) ltac:(lia)). unfold R_dist in HM.
  assert (T := Rabs_triang (l - f (max M N)) (f (max M N) - c)). replace (l - f (max M N) + (f (max M N) - c)) with (l - c) in T by ring. rewrite (Rabs_minus_sym l (f (max M N))) in T. lra.
Qed.
Lemma sol_uniform T : 0 <= T -> forall eps, 0 < eps -> exists N, forall n t, (N <= n)%nat -> Rabs t <= T -> Rabs (sol_x t - px n t) <= eps /\ Rabs (sol_y t - py n t) <= eps.
Proof.
  intros HT eps He. destruct (tail T HT eps He) as (N & HN). exists N. intros n t Hn Ht.
  assert (G1 : forall m, (n <= m)%nat -> Rabs (px m t - px n t) + Rabs (py m t - py n t) <= eps) by (intros m Hm; assert (X := pic_gap T t n m Ht Hm); assert (Y := HN n m Hn Hm); lra).
  split; [apply (lim_close _ _ _ _ n (sol_x_cv t))|apply (lim_close _ _ _ _ n (sol_y_cv t))]; intros m Hm; specialize (G1 m Hm); assert (A := Rabs_pos (px m t - px n t)); assert (B := Rabs_pos (py m t - py n t)); lra.
Qed.
Lemma unif_cont (f : nat -> R -> R) (g : R -> R) : (forall n t, continuous (f n) t) ->
  (forall T, 0 <= T -> forall eps, 0 < eps -> exists N, forall n t, (N <= n)%nat -> Rabs t <= T -> Rabs (g t - f n t) <= eps) -> forall t, continuous g t.
Proof.
  intros Hc Hu t. apply continuity_pt_filterlim. assert (A := Rabs_pos t).
  assert (TP : 0 < Rabs t + 1) by lra. set (r := mkposreal (Rabs t + 1) TP).
  apply (CVU_continuity f g 0 r).
  - intros eps He. destruct (Hu (Rabs t + 1) ltac:(lra) (eps / 2) ltac:(lra)) as (N & HN). exists N. intros n y Hn Hy. unfold Boule in Hy. rewrite Rminus_0_r in Hy. cbn in Hy. specialize (HN n y Hn ltac:(lra)). lra.
  - intros n y _. apply continuity_pt_filterlim, Hc.
  - unfold Boule. rewrite Rminus_0_r. cbn. lra.
Qed.
Lemma sol_cont : (forall t, continuous sol_x t) /\ (forall t, continuous sol_y t).
Proof.
  split; [apply (unif_cont px)|apply (unif_cont py)]; try (intros n t; apply pic_cont); intros T HT eps He; destruct (sol_uniform T HT eps He) as (N & HN); exists N; intros n t Hn Ht; apply (HN n t Hn Ht).
Qed.
Lemma sol_integral (H : R -> R -> R) : (forall a b c d, Rabs (H a b - H c d) <= K / 2 * (Rabs (a - c) + Rabs (b - d))) -> forall c t f l,
  (forall n, f (S n) = c + RInt (fun s => H (px n s) (py n s)) 0 t) -> Un_cv f l -> l = c + RInt (fun s => H (sol_x s) (sol_y s)) 0 t.
Proof.
  intros L c t f l Hf Hl. destruct sol_cont as [SX SY]. apply cond_eq. intros eps He. assert (AT := Rabs_pos t).
  set (d := eps / (2 * (K * (Rabs t + 1)))). assert (KT : 0 < K * (Rabs t + 1)) by (apply Rmult_lt_0_compat; lra). assert (DP : 0 < d) by (unfold d; apply Rdiv_lt_0_compat; lra).
  destruct (sol_uniform (Rabs t) AT d DP) as (N & HN).
  apply Rle_lt_trans with (eps / 2); [|lra]. apply (lim_close f l _ _ (S N) Hl). intros m Hm. destruct m as [|n]; [lia|]. assert (Hn : (N <= n)%nat) by lia. rewrite Hf.
  match goal with |- Rabs (c + ?a - (c + ?b)) <= _ => replace (c + a - (c + b)) with (a - b) by ring end. destruct (pic_cont n) as [CX CY].
  assert (C1 : forall s, continuous (fun s => H (px n s) (py n s)) s) by (intros s; apply lip_cont; auto). assert (C2 : forall s, continuous (fun s => H (sol_x s) (sol_y s)) s) by (intros s; apply lip_cont; auto).
  rewrite rint_diff by assumption. assert (B := rint_pow (fun s => H (px n s) (py n s) - H (sol_x s) (sol_y s)) (K * d) 0 t).
  eapply Rle_trans; [apply B|].
  - intros s. apply (continuous_minus (V := R_NormedModule)); [apply C1|apply C2].
  - intros s Hs. destruct (HN n s Hn Hs) as [H1 H2]. eapply Rle_trans; [apply L|]. rewrite (Rabs_minus_sym (px n s)), (Rabs_minus_sym (py n s)). replace (K * d * Rabs s ^ 0) with (K / 2 * (d + d)) by (cbn; field). apply Rmult_le_compat_l; lra.
  - cbn [INR pow]. replace (K * d * (Rabs t * 1 / 1)) with (K * Rabs t * d) by field. unfold d. apply Rle_trans with (K * (Rabs t + 1) * (eps / (2 * (K * (Rabs t + 1))))); [apply Rmult_le_compat_r; [exact (Rlt_le _ _ DP)|nra]|]. apply Req_le. field. lra.
Qed.
Lemma picard : exists x y : R -> R, x 0 = x0 /\ y 0 = y0 /\ (forall t, derivable_pt_lim x t (F (x t) (y t))) /\ (forall t, derivable_pt_lim y t (G (x t) (y t))).
Proof.
  exists sol_x, sol_y. destruct sol_cont as [SX SY].
  assert (EX : forall t, sol_x t = x0 + RInt (fun s => F (sol_x s) (sol_y s)) 0 t) by (intros t; apply (sol_integral F LF x0 t (fun n => px n t)); [intros n; apply px_S|apply sol_x_cv]).
  assert (EY : forall t, sol_y t = y0 + RInt (fun s => G (sol_x s) (sol_y s)) 0 t) by (intros t; apply (sol_integral G LG y0 t (fun n => py n t)); [intros n; apply py_S|apply sol_y_cv]).
  split; [rewrite EX, RInt_point; unfold zero; cbn; ring|]. split; [rewrite EY, RInt_point; unfold zero; cbn; ring|].
  split; intros t; apply is_derive_Reals.
  - apply (is_derive_ext (fun t => x0 + RInt (fun s => F (sol_x s) (sol_y s)) 0 t)); [intros s; symmetry; apply EX|]. apply (prim_derive (fun s => F (sol_x s) (sol_y s))). intros s. apply lip_cont; auto.
  - apply (is_derive_ext (fun t => y0 + RInt (fun s => G (sol_x s) (sol_y s)) 0 t)); [intros s; symmetry; apply EY|]. apply (prim_derive (fun s => G (sol_x s) (sol_y s))). intros s. apply lip_cont; auto.
Qed.
End PICARD.
