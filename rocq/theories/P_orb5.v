(** * Lemmas: perturbed Runge-Kutta runs of the two-body field, and the simulated orbit *)
From Coq Require Import Reals Lra Psatz List.
From Verif Require Import Num Vec M_vector M_quaternion M_jday M_frame M_struct M_env M_dyn M_sensor M_integ.
From Verif Require Import S_rot S_integ S_dyn S_orb P_integ2 P_dyn P_rk P_rk3 P_rk4 P_tot2 P_tot3 P_orb1 P_orb2 P_orb3 P_orb4.
Local Open Scope R_scope.

Definition ostep (delta h : R) (p v p' v' : v3) : Prop := exists c1 c2 c3 c4,
  n1 (sub3 c1 (kep p)) <= delta /\ n1 (sub3 c2 (kep (add3 p (scale3 (h / 2) v)))) <= delta /\
  n1 (sub3 c3 (kep (add3 p (scale3 (h / 2) (add3 v (scale3 (h / 2) c1)))))) <= delta /\
  n1 (sub3 c4 (kep (add3 p (scale3 h (add3 v (scale3 (h / 2) c2)))))) <= delta /\
  p' = newp h p v c1 c2 c3 /\ v' = newv h v c1 c2 c3 c4.
Lemma gap_add a b a' b' x y : n1 (sub3 a a') <= x -> n1 (sub3 b b') <= y -> n1 (sub3 (add3 a b) (add3 a' b')) <= x + y.
Proof.
  intros A B. replace (sub3 (add3 a b) (add3 a' b')) with (add3 (sub3 a a') (sub3 b b')) by (destruct a as [? ? ?], b as [? ? ?], a' as [? ? ?], b' as [? ? ?]; vunfoldg; rnumg; apply mk3_c; ring).
  eapply Rle_trans; [apply n1_add|]. lra.
Qed.
Lemma gap_scale k a a' x : 0 <= k -> n1 (sub3 a a') <= x -> n1 (sub3 (scale3 k a) (scale3 k a')) <= k * x.
Proof.
  intros K A. replace (sub3 (scale3 k a) (scale3 k a')) with (scale3 k (sub3 a a')) by (destruct a as [? ? ?], a' as [? ? ?]; vunfoldg; rnumg; apply mk3_c; ring).
  rewrite n1_scale, Rabs_pos_eq by exact K. apply Rmult_le_compat_l; assumption.
Qed.
Lemma n1_of_gap a b d : n1 (sub3 a b) <= d -> n1 a <= n1 b + d.
Proof. intros H. replace a with (add3 b (sub3 a b)) by (destruct a as [? ? ?], b as [? ? ?]; vunfoldg; rnumg; apply mk3_c; ring). eapply Rle_trans; [apply n1_add|]. lra. Qed.
(** the stage points stay away from the centre *)
Lemma stage_away rho M p v c h k g : 0 < rho -> region rho M p v -> n1 c <= g -> 0 <= g -> 0 <= h <= 1 -> 0 <= k <= h -> h * (3 * M + g) <= rho / 2 -> rho / 2 <= norm3 (add3 p (scale3 k (add3 v (scale3 (h / 2) c)))).
Proof.
  intros Hr (A & B & C) G G0 Hh Hk HH. assert (V0 := proj1 (norm3_sq v)). assert (N := n1_norm3 v). assert (Q := norm3_move p (scale3 k (add3 v (scale3 (h / 2) c)))).
  rewrite n1_scale, Rabs_pos_eq in Q by lra. assert (X := n1_add v (scale3 (h / 2) c)). rewrite n1_scale, Rabs_pos_eq in X by lra. assert (Y := n1_pos c). assert (h / 2 * n1 c <= 1 * g) by (apply Rmult_le_compat; lra).
  assert (k * n1 (add3 v (scale3 (h / 2) c)) <= h * (3 * M + g)). { apply Rmult_le_compat; try lra. apply n1_pos. } lra.
Qed.
Lemma add_zero v c : add3 v (scale3 c (mk3 0 0 0)) = v.
Proof. destruct v as [? ? ?]. vunfoldg; rnumg; apply mk3_c; ring. Qed.
Lemma n1_zero : n1 (mk3 0 0 0) = 0.
Proof. unfold n1. cbn [x3 y3 z3]. rewrite Rabs_R0. ring. Qed.
Lemma stable rho M : 0 < rho -> 0 <= M -> exists L r, 0 <= L /\ 0 < r <= 1 /\ forall p v q w h delta q' w', region rho M p v -> region rho M q w -> 0 <= h <= r -> 0 <= delta <= 1 -> ostep delta h q w q' w' ->
  n1 (sub3 q' (step_p p v h)) + n1 (sub3 w' (step_v p v h)) <= (1 + L * h) * (n1 (sub3 q p) + n1 (sub3 w v)) + L * (h * delta).
Proof.
  intros Hr HM. set (G := kepc (rho / 2) + 1). set (l := lipc (rho / 2)). assert (MP := MU_pos).
  assert (HG : 1 <= G) by (unfold G, kepc; assert (0 < 3 * MU / (rho / 2) ^ 2) by (apply Rdiv_lt_0_compat; [lra|apply pow_lt; lra]); lra). assert (HL : 0 <= l) by (unfold l, lipc; apply Rlt_le, Rdiv_lt_0_compat; [lra|apply pow_lt; lra]).
  set (Q := (1 + l) * (1 + l)). set (ra := rho / (2 * (3 * M + G))). assert (Hra : 0 < ra) by (unfold ra; apply Rdiv_lt_0_compat; lra).
  exists (1 + 2 * Q), (Rmin 1 ra). assert (R1 := Rmin_l 1 ra). assert (R2 := Rmin_r 1 ra). assert (HQ : 1 <= Q) by (unfold Q; nra). split; [lra|]. split; [split; [apply Rmin_pos; lra|lra]|].
  intros p v q w h delta q' w' RP RQ Hh Hd (c1 & c2 & c3 & c4 & C1 & C2 & C3 & C4 & -> & ->).
  assert (HH : h * (3 * M + G) <= rho / 2). { apply Rle_trans with (ra * (3 * M + G)); [apply Rmult_le_compat_r; lra|]. unfold ra. right. field. lra. }
  set (dp := n1 (sub3 q p)). set (dv := n1 (sub3 w v)). assert (Dp : 0 <= dp) by apply n1_pos. assert (Dv : 0 <= dv) by apply n1_pos. set (d := dp + dv).
  assert (SA : forall x y c k, region rho M x y -> n1 c <= G -> 0 <= k <= h -> rho / 2 <= norm3 (add3 x (scale3 k (add3 y (scale3 (h / 2) c))))) by (intros x y c k HX HC Hk; apply (stage_away rho M _ _ _ h _ G); try assumption; lra).
  assert (SB : forall x y k, region rho M x y -> 0 <= k <= h -> rho / 2 <= norm3 (add3 x (scale3 k y))). { intros x y k HX Hk. rewrite <- (add_zero y (h / 2)). apply SA; [exact HX|rewrite n1_zero; lra|exact Hk]. }
  assert (KG : forall x, rho / 2 <= norm3 x -> n1 (kep x) <= G - 1) by (intros x Hx; unfold G; assert (A := kep_le (rho / 2) x ltac:(lra) Hx); lra).
  assert (KL : forall x y z, rho / 2 <= norm3 x -> rho / 2 <= norm3 y -> n1 (sub3 x y) <= z -> n1 (sub3 (kep x) (kep y)) <= l * z). { intros x y z Hx Hy Hz. eapply Rle_trans; [apply (kep_lip (rho / 2)); lra|]. fold l. apply Rmult_le_compat_l; lra. }
  assert (P0 : rho / 2 <= norm3 p) by (destruct RP; lra). assert (Q0 : rho / 2 <= norm3 q) by (destruct RQ; lra).
  assert (K1 : n1 (sub3 c1 (kep p)) <= delta + l * d). { eapply Rle_trans; [apply (n1_sub_tri _ (kep q))|]. assert (A := KL q p dp Q0 P0 (Rle_refl _)). assert (l * dp <= l * d) by (apply Rmult_le_compat_l; unfold d; lra). lra. }
  assert (B1 : n1 c1 <= G) by (assert (A := n1_of_gap _ _ _ C1); assert (A' := KG q Q0); lra).
  assert (B1' : n1 (kep p) <= G) by (assert (A' := KG p P0); lra).
  assert (Hd2 : dp + h / 2 * dv <= d). { assert (h / 2 * dv <= 1 * dv) by (apply Rmult_le_compat_r; lra). unfold d. lra. }
  assert (Hd1 : dp + h * dv <= d). { assert (h * dv <= 1 * dv) by (apply Rmult_le_compat_r; lra). unfold d. lra. }
  assert (S2 := SB p v (h / 2) RP ltac:(lra)). assert (S2' := SB q w (h / 2) RQ ltac:(lra)).
  assert (K2 : n1 (sub3 c2 (k2 p v h)) <= delta + l * d).
  { eapply Rle_trans; [apply (n1_sub_tri _ (kep (add3 q (scale3 (h / 2) w))))|]. unfold k2. assert (A := KL _ _ d S2' S2). apply Rplus_le_compat; [exact C2|]. apply A. eapply Rle_trans; [apply gap_add; [apply Rle_refl|apply gap_scale; [lra|apply Rle_refl]]|]. fold dp dv. exact Hd2. }
  assert (B2 : n1 c2 <= G) by (assert (A := n1_of_gap _ _ _ C2); assert (A' := KG _ S2'); lra).
  assert (B2' : n1 (k2 p v h) <= G) by (assert (A' := KG _ S2); unfold k2; lra).
  assert (X0 : 0 <= l * d) by (apply Rmult_le_pos; [lra|unfold d; lra]).
  assert (ST : forall k a b, 0 <= k <= h -> n1 (sub3 a b) <= delta + l * d -> n1 (sub3 (add3 q (scale3 k (add3 w (scale3 (h / 2) a)))) (add3 p (scale3 k (add3 v (scale3 (h / 2) b))))) <= d + (delta + l * d)).
  { intros k a b Hk HA. eapply Rle_trans; [apply gap_add; [apply Rle_refl|apply gap_scale; [lra|apply gap_add; [apply Rle_refl|apply gap_scale; [lra|exact HA]]]]|]. fold dp dv.
    assert (h / 2 * (delta + l * d) <= 1 * (delta + l * d)) by (apply Rmult_le_compat_r; lra). assert (k * (dv + h / 2 * (delta + l * d)) <= 1 * (dv + h / 2 * (delta + l * d))). { apply Rmult_le_compat_r; [|lra]. assert (0 <= h / 2 * (delta + l * d)) by (apply Rmult_le_pos; lra). lra. } unfold d at 2. lra. }
  assert (K3 : n1 (sub3 c3 (k3 p v h)) <= delta + l * (d + (delta + l * d))).
  { eapply Rle_trans; [apply (n1_sub_tri _ (kep (add3 q (scale3 (h / 2) (add3 w (scale3 (h / 2) c1))))))|]. apply Rplus_le_compat; [exact C3|]. unfold k3. apply KL; [apply SA; [exact RQ|exact B1|lra]|apply SA; [exact RP|exact B1'|lra]|apply ST; [lra|exact K1]]. }
  assert (K4 : n1 (sub3 c4 (k4 p v h)) <= delta + l * (d + (delta + l * d))).
  { eapply Rle_trans; [apply (n1_sub_tri _ (kep (add3 q (scale3 h (add3 w (scale3 (h / 2) c2))))))|]. apply Rplus_le_compat; [exact C4|]. unfold k4. apply KL; [apply SA; [exact RQ|exact B2|lra]|apply SA; [exact RP|exact B2'|lra]|apply ST; [lra|exact K2]]. }
  assert (D0 : 0 <= d) by (unfold d; lra). assert (Z0 : 0 <= l * delta) by (apply Rmult_le_pos; lra). assert (Z1 : 0 <= l * (l * d)) by (apply Rmult_le_pos; lra). assert (Z2 : 0 <= l * (l * delta)) by (apply Rmult_le_pos; lra).
  set (b := Q * (delta + d)). assert (BB : delta + l * (d + (delta + l * d)) <= b) by (unfold b, Q; replace ((1 + l) * (1 + l) * (delta + d)) with (delta + d + 2 * (l * delta) + 2 * (l * d) + l * (l * delta) + l * (l * d)) by ring; lra).
  assert (BA : delta + l * d <= b) by (unfold b, Q; replace ((1 + l) * (1 + l) * (delta + d)) with (delta + d + 2 * (l * delta) + 2 * (l * d) + l * (l * delta) + l * (l * d)) by ring; lra).
  assert (E1 : n1 (sub3 c1 (kep p)) <= b) by lra. assert (E2 : n1 (sub3 c2 (k2 p v h)) <= b) by lra. assert (E3 : n1 (sub3 c3 (k3 p v h)) <= b) by lra. assert (E4 : n1 (sub3 c4 (k4 p v h)) <= b) by lra.
  assert (B0 : 0 <= b) by (unfold b; apply Rmult_le_pos; lra).
  assert (FP : n1 (sub3 (newp h q w c1 c2 c3) (step_p p v h)) <= dp + (h * dv + h * h / 6 * (b + (b + b)))).
  { unfold step_p, newp. apply gap_add; [apply Rle_refl|]. apply gap_add; [apply gap_scale; [lra|apply Rle_refl]|]. apply gap_scale; [nra|]. apply gap_add; [exact E1|]. apply gap_add; assumption. }
  assert (FV : n1 (sub3 (newv h w c1 c2 c3 c4) (step_v p v h)) <= dv + h / 6 * ((b + 2 * b) + (2 * b + b))).
  { unfold step_v, newv. apply gap_add; [apply Rle_refl|]. apply gap_scale; [lra|]. apply gap_add; [apply gap_add; [exact E1|apply gap_scale; [lra|exact E2]]|apply gap_add; [apply gap_scale; [lra|exact E3]|exact E4]]. }
  assert (H2 : h * h / 6 * (b + (b + b)) <= h * b). { assert (0 <= h * b) by (apply Rmult_le_pos; lra). assert (h * (h * b) <= 1 * (h * b)) by (apply Rmult_le_compat_r; lra). replace (h * h / 6 * (b + (b + b))) with (h * (h * b) / 2) by field. lra. }
  replace (h / 6 * (b + 2 * b + (2 * b + b))) with (h * b) in FV by field.
  replace ((1 + (1 + 2 * Q) * h) * d + (1 + 2 * Q) * (h * delta)) with (d + h * d + h * delta + 2 * (h * b)) by (unfold b; ring).
  assert (h * dv <= h * d) by (apply Rmult_le_compat_l; unfold d; lra). assert (0 <= h * delta) by (apply Rmult_le_pos; lra). unfold d at 1. lra.
Qed.

(** ** runs *)
Fixpoint orun (delta h : R) (n : nat) (p v p' v' : v3) : Prop :=
  match n with O => p' = p /\ v' = v | S n => exists q w, ostep delta h p v q w /\ orun delta h n q w p' v' end.
Lemma step_true rho M : 0 < rho -> 0 <= M -> exists C L r, 0 <= C /\ 0 <= L /\ 0 < r <= 1 /\ forall (p v acc : R -> v3) t0 h delta q w q' w', 0 <= h <= r -> 0 <= delta <= 1 ->
  (forall t, t0 <= t <= t0 + h -> deriv3 p t (v t) /\ deriv3 v t (acc t) /\ region rho M (p t) (v t) /\ n1 (sub3 (acc t) (kep (p t))) <= delta) -> region rho M q w -> ostep delta h q w q' w' ->
  n1 (sub3 q' (p (t0 + h))) + n1 (sub3 w' (v (t0 + h))) <= (1 + L * h) * (n1 (sub3 q (p t0)) + n1 (sub3 w (v t0))) + C * (h * (h ^ 4 + delta)).
Proof.
  intros Hr HM. destruct (stable rho M Hr HM) as (L & r1 & HL & Hr1 & ST). destruct (local_true rho M Hr HM) as (C2 & r2' & HC2 & Hr2 & LT). destruct (step_taylor rho M Hr HM) as (C3 & r3 & HC3 & Hr3 & SY).
  exists (L + 2 * C2 + 2 * C3), L, (Rmin r1 (Rmin r2' r3)). assert (A1 := Rmin_l r1 (Rmin r2' r3)). assert (A2 := Rmin_r r1 (Rmin r2' r3)). assert (A3 := Rmin_l r2' r3). assert (A4 := Rmin_r r2' r3).
  split; [lra|]. split; [exact HL|]. split; [split; [repeat apply Rmin_pos; lra|lra]|]. intros p v acc t0 h delta q w q' w' Hh Hd HT RQ OS.
  destruct (HT t0 ltac:(lra)) as (_ & _ & RG & _). assert (S1 := ST _ _ _ _ h delta _ _ RG RQ ltac:(lra) Hd OS). destruct (LT p v acc t0 h delta ltac:(lra) Hd HT) as [L1 L2]. destruct (SY _ _ h RG ltac:(lra)) as [Y1 Y2].
  rewrite n1_sub_sym in L1, L2. assert (T1 := n1_sub_tri q' (step_p (p t0) (v t0) h) (p (t0 + h))). assert (T2 := n1_sub_tri (step_p (p t0) (v t0) h) (tp (p t0) (v t0) h) (p (t0 + h))).
  assert (T3 := n1_sub_tri w' (step_v (p t0) (v t0) h) (v (t0 + h))). assert (T4 := n1_sub_tri (step_v (p t0) (v t0) h) (tv (p t0) (v t0) h) (v (t0 + h))).
  assert (h4 : 0 <= h ^ 4) by (apply pow_le; lra). assert (C3 * h ^ 5 <= C3 * (h * (h ^ 4 + delta))). { apply Rmult_le_compat_l; [lra|]. replace (h ^ 5) with (h * h ^ 4) by ring. apply Rmult_le_compat_l; lra. }
  assert (L * (h * delta) <= L * (h * (h ^ 4 + delta))) by (apply Rmult_le_compat_l; [lra|]; apply Rmult_le_compat_l; lra). lra.
Qed.
Lemma region_near rho M p v q w m : region rho M p v -> n1 (sub3 q p) + n1 (sub3 w v) <= m -> m <= rho / 2 -> m <= 1 -> region (rho / 2) (M + 1) q w.
Proof.
  intros (A & B & C) G H1 H2. assert (P := n1_pos (sub3 q p)). assert (Q := n1_pos (sub3 w v)). assert (X := abs_split _ _ (norm3_gap q p)). assert (Y := abs_split _ _ (norm3_gap w v)). split; [lra|]. split; lra.
Qed.
Lemma region_wide rho M p v : 0 < rho -> region rho M p v -> region (rho / 2) (M + 1) p v.
Proof. intros H (A & B & C). split; [lra|]. split; lra. Qed.
Lemma orun_true rho M len : 0 < rho -> 0 <= M -> 0 <= len -> exists C r, 0 < C /\ 0 < r <= 1 /\ forall (p v acc : R -> v3) h delta n q w q' w', 0 < h <= r -> 0 <= delta <= r -> INR n * h <= len ->
  (forall t, 0 <= t <= len -> deriv3 p t (v t) /\ deriv3 v t (acc t) /\ region rho M (p t) (v t) /\ n1 (sub3 (acc t) (kep (p t))) <= delta) ->
  n1 (sub3 q (p 0)) + n1 (sub3 w (v 0)) <= r -> orun delta h n q w q' w' ->
  n1 (sub3 q' (p (INR n * h))) + n1 (sub3 w' (v (INR n * h))) <= C * (n1 (sub3 q (p 0)) + n1 (sub3 w (v 0)) + h ^ 4 + delta).
Proof.
  intros Hr HM HLen. destruct (step_true (rho / 2) (M + 1) ltac:(lra) ltac:(lra)) as (C & L & r1 & HC & HL & Hr1 & ST).
  set (E := exp (L * len)). assert (E1 : 1 <= E). { unfold E. assert (X := exp_ineq1_le (L * len)). assert (0 <= L * len) by (apply Rmult_le_pos; lra). lra. }
  set (A := E * (1 + len * C)). assert (HA : 1 <= A). { unfold A. assert (0 <= len * C) by (apply Rmult_le_pos; lra). nra. }
  set (m := Rmin 1 (rho / 2)). assert (M1 := Rmin_l 1 (rho / 2)). assert (M2 := Rmin_r 1 (rho / 2)). fold m in M1, M2. assert (M0 : 0 < m) by (apply Rmin_pos; lra). clearbody m.
  set (r := Rmin r1 (m / (3 * A))). assert (R1 := Rmin_l r1 (m / (3 * A))). assert (R2 := Rmin_r r1 (m / (3 * A))). fold r in R1, R2. assert (R0 : 0 < r) by (apply Rmin_pos; [lra|apply Rdiv_lt_0_compat; lra]). clearbody r.
  exists A, r. split; [lra|]. split; [lra|]. intros p v acc h delta n q w q' w' Hh Hd HN HT H0 RUN.
  assert (h4 : 0 <= h ^ 4 <= h). { split; [apply pow_le; lra|]. replace (h ^ 4) with (h * h ^ 3) by ring. assert (X := pow_01 h 3 ltac:(lra)). nra. }
  set (g := C * (h ^ 4 + delta)). assert (G0 : 0 <= g) by (unfold g; apply Rmult_le_pos; lra).
  assert (IND : forall n t0 q w, 0 <= t0 -> t0 + INR n * h <= len -> exp (L * (INR n * h)) * (n1 (sub3 q (p t0)) + n1 (sub3 w (v t0)) + INR n * h * g) <= m -> orun delta h n q w q' w' ->
    n1 (sub3 q' (p (t0 + INR n * h))) + n1 (sub3 w' (v (t0 + INR n * h))) <= exp (L * (INR n * h)) * (n1 (sub3 q (p t0)) + n1 (sub3 w (v t0)) + INR n * h * g)).
  { clear n q w HN H0 RUN. induction n as [|n IH]; intros t0 q w T0 TN BM RUN.
    - simpl INR. cbn [orun] in RUN. destruct RUN as [-> ->]. rewrite Rmult_0_l, Rmult_0_r, exp_0, Rplus_0_r. lra.
    - cbn [orun] in RUN. destruct RUN as (q1 & w1 & OS & RUN). rewrite S_INR in *. assert (IN := pos_INR n). set (k := INR n) in *. assert (KH : 0 <= k * h) by (apply Rmult_le_pos; lra).
      set (d := n1 (sub3 q (p t0)) + n1 (sub3 w (v t0))) in *. assert (D0 : 0 <= d) by (unfold d; assert (X := n1_pos (sub3 q (p t0))); assert (Y := n1_pos (sub3 w (v t0))); lra).
      assert (X1 : 1 <= exp (L * ((k + 1) * h))). { assert (X := exp_ineq1_le (L * ((k + 1) * h))). assert (0 <= L * ((k + 1) * h)) by (apply Rmult_le_pos; lra). lra. }
      assert (KG : 0 <= (k + 1) * h * g) by (apply Rmult_le_pos; lra). assert (DM : d <= m) by nra.
      assert (RGT : region rho M (p t0) (v t0)) by (destruct (HT t0 ltac:(lra)) as (_ & _ & RG & _); exact RG).
      assert (S1 : n1 (sub3 q1 (p (t0 + h))) + n1 (sub3 w1 (v (t0 + h))) <= (1 + L * h) * d + C * (h * (h ^ 4 + delta))).
      { apply (ST p v acc t0 h delta q w q1 w1); [lra|lra| |apply (region_near rho M (p t0) (v t0) q w d RGT); [apply Rle_refl|lra|lra]|exact OS].
        intros t Ht. destruct (HT t ltac:(lra)) as (D1 & D2 & RG & AC). split; [exact D1|]. split; [exact D2|]. split; [apply region_wide; assumption|exact AC]. }
      replace (C * (h * (h ^ 4 + delta))) with (h * g) in S1 by (unfold g; ring). set (d1 := n1 (sub3 q1 (p (t0 + h))) + n1 (sub3 w1 (v (t0 + h)))) in *.
      assert (EX : exp (L * ((k + 1) * h)) = exp (L * (k * h)) * exp (L * h)) by (rewrite <- exp_plus; f_equal; ring).
      assert (EL : 1 + L * h <= exp (L * h)) by apply exp_ineq1_le. assert (LH : 0 <= L * h) by (apply Rmult_le_pos; lra). assert (EK := exp_pos (L * (k * h))).
      assert (BND : exp (L * (k * h)) * (d1 + k * h * g) <= exp (L * ((k + 1) * h)) * (d + (k + 1) * h * g)).
      { rewrite EX, (Rmult_assoc (exp (L * (k * h))) (exp (L * h))). apply Rmult_le_compat_l; [lra|]. assert (P1 : (1 + L * h) * d <= exp (L * h) * d) by (apply Rmult_le_compat_r; lra). assert (P2 : 1 * ((k + 1) * h * g) <= exp (L * h) * ((k + 1) * h * g)) by (apply Rmult_le_compat_r; lra). lra. }
      replace (t0 + (k + 1) * h) with (t0 + h + k * h) in * by ring. eapply Rle_trans; [apply (IH (t0 + h) q1 w1); [lra|lra| |exact RUN]|exact BND]. fold d1. lra. }
  set (d := n1 (sub3 q (p 0)) + n1 (sub3 w (v 0))) in *. assert (D0 : 0 <= d) by (unfold d; assert (X := n1_pos (sub3 q (p 0))); assert (Y := n1_pos (sub3 w (v 0))); lra).
  assert (IN := pos_INR n). assert (NH : 0 <= INR n * h) by (apply Rmult_le_pos; lra).
  assert (EN : 0 < exp (L * (INR n * h)) <= E). { split; [apply exp_pos|]. unfold E. destruct (Rle_lt_or_eq_dec (L * (INR n * h)) (L * len)) as [Q|Q]; [apply Rmult_le_compat_l; lra|left; apply exp_increasing, Q|rewrite Q; lra]. }
  assert (FIN : exp (L * (INR n * h)) * (d + INR n * h * g) <= A * (d + h ^ 4 + delta)).
  { apply Rle_trans with (E * (d + len * g)). { apply Rmult_le_compat; try lra. - assert (0 <= INR n * h * g) by (apply Rmult_le_pos; lra). lra. - assert (INR n * h * g <= len * g) by (apply Rmult_le_compat_r; lra). lra. }
    unfold A, g. replace (E * (1 + len * C) * (d + h ^ 4 + delta)) with (E * (d + len * (C * (h ^ 4 + delta)) + (h ^ 4 + delta) + len * C * d)) by ring. apply Rmult_le_compat_l; [lra|]. assert (0 <= len * C * d) by (apply Rmult_le_pos; [apply Rmult_le_pos|]; lra). lra. }
  assert (SM : A * (d + h ^ 4 + delta) <= m). { apply Rle_trans with (A * (3 * (m / (3 * A)))); [apply Rmult_le_compat_l; lra|]. right. field. lra. }
  assert (F := IND n 0 q w (Rle_refl 0)). rewrite !Rplus_0_l in F. fold d in F. eapply Rle_trans; [apply F; [exact HN|lra|exact RUN]|exact FIN].
Qed.

(** ** the simulation *)
Definition orbits (delta : R) (v d : SVec) : Prop := v_pos d = v_vel v /\ n1 (sub3 (v_vel d) (kep (v_pos v))) <= delta.
Lemma add_inv_pv (v d v' : SVec) c : sv_add v (sv_mul d c) = Ok v' -> v_pos v' = add3 (v_pos v) (scale3 c (v_pos d)) /\ v_vel v' = add3 (v_vel v) (scale3 c (v_vel d)).
Proof. intros H. apply sv_add_inv in H. destruct H as (_ & A & B & _). split; assumption. Qed.
Lemma rk4_ostep h f dt s s' delta : (forall s d, fresh h s -> f s = Ok d -> orbits delta (sv s) d) -> fresh h s -> RK4_sat h f dt s = Ok s' ->
  ostep delta dt (v_pos (sv s)) (v_vel (sv s)) (v_pos (sv s')) (v_vel (sv s')).
Proof.
  intros HF FR H. apply rk4_inv in H. destruct H as (s2 & s3 & s4 & k1 & k2 & k3 & k4 & a & b & c & (F1 & T2 & F2 & T3 & F3 & T4 & F4) & A & B & C & E).
  rewrite div_mul in T2, T3. apply state_add_inv in T2, T3, T4, E. destruct T2 as (T2 & _ & R2). destruct T3 as (T3 & _ & R3). destruct T4 as (T4 & _ & R4). destruct E as (E & _).
  destruct (HF _ _ FR F1) as [P1 V1]. destruct (HF _ _ R2 F2) as [P2 V2]. destruct (HF _ _ R3 F3) as [P3 V3]. destruct (HF _ _ R4 F4) as [P4 V4].
  destruct (add_inv_pv _ _ _ _ T2) as [X2 Y2]. destruct (add_inv_pv _ _ _ _ T3) as [X3 Y3]. destruct (add_inv_pv _ _ _ _ T4) as [X4 Y4].
  rewrite P1 in X2. rewrite P2, Y2 in X3. rewrite P3, Y3 in X4. rewrite X2 in V2. rewrite X3 in V3. rewrite X4 in V4.
  exists (v_vel k1), (v_vel k2), (v_vel k3), (v_vel k4). split; [exact V1|]. split; [exact V2|]. split; [exact V3|]. split; [exact V4|].
  apply sv_add_inv in A, B, C, E. destruct A as (_ & A1 & A2 & _), B as (_ & B1 & B2 & _), C as (_ & C1 & C2 & _), E as (_ & E1 & E2 & _). cbn [sv_mul sv_div v_pos v_vel] in *.
  rewrite E1, E2, C1, C2, B1, B2, A1, A2, P1, P2, P3, P4, Y2, Y3, Y4. unfold newp, newv.
  generalize (v_pos (sv s)) (v_vel (sv s)) (v_vel k1) (v_vel k2) (v_vel k3) (v_vel k4). clear. intros [? ? ?] [? ? ?] [? ? ?] [? ? ?] [? ? ?] [? ? ?]. split; vunfoldg; rnumg; apply mk3_c; field.
Qed.
Lemma updates_orun f stream sim dt delta N : (forall h s d, fresh h s -> f h s = Ok d -> orbits delta (sv s) d) -> forall w w', fresh (w_store w) (w_state w) -> updates f stream sim dt N w = Ok w' ->
  orun delta dt N (v_pos (sv (w_state w))) (v_vel (sv (w_state w))) (v_pos (sv (w_state w'))) (v_vel (sv (w_state w'))).
Proof.
  intros HF. induction N as [|N IH]; intros w w' FR H.
  - cbn [updates] in H. injection H as <-. split; reflexivity.
  - cbn [updates] in H. apply rbind_ok in H. destruct H as (w1 & H1 & H). destruct (update_inv _ _ _ _ _ _ H1) as (next & c & HR & _ & _ & _ & _ & FR1 & HS & _).
    cbn [orun]. exists (v_pos (sv (w_state w1))), (v_vel (sv (w_state w1))). split; [|apply (IH w1 w' FR1 H)].
    assert (Q := rk4_ostep _ _ _ _ _ delta (HF (w_store w)) FR HR). rewrite HS. destruct sim; exact Q.
Qed.
Lemma kep_attraction p : kep p = attraction p.
Proof. reflexivity. Qed.
Lemma fresh_length h s : fresh h s -> c_length s = norm3 (v_pos (sv s)).
Proof. unfold fresh, make_state. intros H. apply rbind_ok in H. destruct H as ([[lat lon] alt] & _ & H). injection H as H. rewrite <- H. reflexivity. Qed.
Lemma gravity_low p : gravity_accel false p (norm3 p) = attraction p.
Proof.
  unfold attraction. destruct (Req_dec (norm3 p) 0) as [Z|Z].
  - rewrite (norm3_0 p Z). rewrite scale_zero. unfold gravity_accel. vunfoldg. rnumg. apply mk3_c; unfold Rdiv; ring.
  - unfold gravity_accel. fold MU. change earth_mu with MU. destruct p as [x y z]. set (n := norm3 (mk3 x y z)) in *. clearbody n. vunfoldg. rnumg. apply mk3_c; field; exact Z.
Qed.
Lemma low_orbits sat mt h s cur accl d delta : s_mass sat <> 0 -> fresh h s -> vector_field false sat mt h s cur accl = Ok d ->
  exists Fd Td Fs Ts, drag_F_and_T sat s = Ok (Fd, Td) /\ solar_F_and_T sat h s = Ok (Fs, Ts) /\ v_pos d = v_vel (sv s) /\ (norm3 (add3 Fd Fs) <= delta * Rabs (s_mass sat) -> norm3 (sub3 (v_vel d) (attraction (v_pos (sv s)))) <= delta).
Proof.
  intros HM FR VF. apply vf_inv in VF. destruct VF as (m & F & T & _ & E & ->). cbn [derivative v_pos v_vel].
  unfold env_F_and_T in E. apply rbind_ok in E. destruct E as ([Fs Ts] & ES & E). apply rbind_ok in E. destruct E as ([Fd Td] & ED & E). exists Fd, Td, Fs, Ts. split; [exact ED|]. split; [exact ES|]. split; [reflexivity|].
  unfold add_FT, gravity_F_and_T, magnetic_F_and_T in E. cbn [fst snd] in E. rewrite (fresh_length _ _ FR), gravity_low in E. injection E as E _. intros HB.
  replace (sub3 (div3 F (s_mass sat)) (attraction (v_pos (sv s)))) with (scale3 (/ s_mass sat) (add3 Fd Fs)).
  2:{ rewrite <- E. generalize (attraction (v_pos (sv s))). clear - HM. generalize dependent (s_mass sat). intros m HM [x y z]. destruct Fd as [? ? ?], Fs as [? ? ?]. vunfoldg; rnumg; apply mk3_c; field; exact HM. }
  assert (NS : norm3 (scale3 (/ s_mass sat) (add3 Fd Fs)) = Rabs (/ s_mass sat) * norm3 (add3 Fd Fs)).
  { generalize (add3 Fd Fs) (/ s_mass sat). clear. intros v k. unfold norm3. rnumg. replace (dot3 (scale3 k v) (scale3 k v)) with (k * k * dot3 v v) by (destruct v as [? ? ?]; vunfoldg; rnumg; ring). rewrite sqrt_mult_alt by nra. f_equal. replace (k * k) with (Rsqr k) by reflexivity. apply sqrt_Rsqr_abs. }
  rewrite NS, Rabs_inv. assert (P : 0 < Rabs (s_mass sat)) by (apply Rabs_pos_lt, HM). apply Rmult_le_reg_l with (Rabs (s_mass sat)); [exact P|]. rewrite <- Rmult_assoc, Rinv_r by lra. lra.
Qed.
