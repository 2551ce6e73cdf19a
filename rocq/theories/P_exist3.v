(** * Lemmas: the true orbit exists and is unique *)
From Coq Require Import Reals List Arith Lra Psatz Lia.
From Coquelicot Require Import Coquelicot.
From Verif Require Import Num Vec M_env S_rot S_dyn S_orb P_quat P_dyn P_ode P_rk P_rk3 P_rk4 P_tot2 P_tot3 P_orb3 P_orb4 P_orb5 P_picard P_exist1 P_exist2.
Import ListNotations.
Local Open Scope R_scope.

Lemma const_on (f : R -> R) len : (forall t, 0 <= t <= len -> derivable_pt_lim f t 0) -> forall t, 0 <= t <= len -> f t = f 0.
Proof.
  intros H t Ht. destruct (Req_dec t 0) as [->|N]; [reflexivity|]. destruct (MVT_cor2 f (fun _ => 0) 0 t ltac:(lra)) as (c & E & _); [intros s Hs; apply H; lra|]. lra.
Qed.
Lemma dot3_comm' (a b : v3) : dot3 a b = dot3 b a. Proof. destruct a as [a b0 c], b as [d e f]. vunfoldg. rnumg. ring. Qed.
Lemma d3_cross f g t a b : deriv3 f t a -> deriv3 g t b -> deriv3 (fun u => cross3 (f u) (g u)) t (add3 (cross3 a (g t)) (cross3 (f t) b)).
Proof.
  intros (A & B & C) (A' & B' & C'). split; [|split].
  - eapply d_eq; [exact (d_minus _ _ _ _ _ (d_mult _ _ _ _ _ B C') (d_mult _ _ _ _ _ C B'))|]. cbv beta. generalize (f t) (g t). clear. intros [x y z] [x' y' z']. destruct a as [a1 a2 a3], b as [b1 b2 b3]. vunfoldg. rnumg. ring.
  - eapply d_eq; [exact (d_minus _ _ _ _ _ (d_mult _ _ _ _ _ C A') (d_mult _ _ _ _ _ A C'))|]. cbv beta. generalize (f t) (g t). clear. intros [x y z] [x' y' z']. destruct a as [a1 a2 a3], b as [b1 b2 b3]. vunfoldg. rnumg. ring.
  - eapply d_eq; [exact (d_minus _ _ _ _ _ (d_mult _ _ _ _ _ A B') (d_mult _ _ _ _ _ B A'))|]. cbv beta. generalize (f t) (g t). clear. intros [x y z] [x' y' z']. destruct a as [a1 a2 a3], b as [b1 b2 b3]. vunfoldg. rnumg. ring.
Qed.
(** Lagrange's identity bounds the angular momentum *)
Lemma momentum_le (p v : v3) : dot3 (cross3 p v) (cross3 p v) <= dot3 p p * dot3 v v.
Proof. assert (H := dot3_pos' (scale3 1 p)). destruct p as [a b c], v as [d e f]. clear H. vunfoldg. rnumg. assert (Z := Rle_0_sqr (a * d + b * e + c * f)). unfold Rsqr in Z. lra. Qed.
Lemma central_momentum (p v : v3) k : add3 (cross3 v v) (cross3 p (scale3 k p)) = zero3.
Proof. destruct p as [a b c], v as [d e f]. vunfoldg. rnumg. apply mk3_c; ring. Qed.
Lemma central_power (p v : v3) k : dot3 v (scale3 k p) = k * dot3 p v.
Proof. destruct p as [a b c], v as [d e f]. vunfoldg. rnumg. ring. Qed.
(** the least distance of an orbit with this momentum and speed is at least this *)
Definition peri (p0 v0 : v3) : R := Rmin (norm3 p0) (dot3 (cross3 p0 v0) (cross3 p0 v0) / (4 * MU + norm3 p0 * dot3 v0 v0)).
Lemma peri_spec p0 v0 : cross3 p0 v0 <> zero3 -> 0 < peri p0 v0 /\ peri p0 v0 <= norm3 p0 /\ peri p0 v0 ^ 2 * dot3 v0 v0 + 3 * MU * peri p0 v0 < dot3 (cross3 p0 v0) (cross3 p0 v0).
Proof.
  intros H. assert (HP : 0 < dot3 (cross3 p0 v0) (cross3 p0 v0)).
  { assert (A := dot3_pos' (cross3 p0 v0)). destruct (Rle_lt_or_eq_dec _ _ A) as [L|E]; [exact L|]. exfalso. apply H. apply dot3_zero. replace (sub3 (cross3 p0 v0) zero3) with (cross3 p0 v0) by (generalize (cross3 p0 v0); clear; intros [a b c]; vunfoldg; rnumg; apply mk3_c; ring). lra. }
  assert (L := momentum_le p0 v0). destruct (norm3_sq p0) as [N0 N1]. assert (V := dot3_pos' v0).
  assert (NP : 0 < norm3 p0). { destruct (Rle_lt_or_eq_dec _ _ N0) as [Q|E]; [exact Q|]. rewrite <- E in N1. rewrite <- N1 in L. lra. }
  assert (M := MU_pos). set (h2 := dot3 (cross3 p0 v0) (cross3 p0 v0)) in *. set (D := 4 * MU + norm3 p0 * dot3 v0 v0).
  assert (DP : 0 < D) by (unfold D; assert (0 <= norm3 p0 * dot3 v0 v0) by (apply Rmult_le_pos; lra); lra).
  assert (QP : 0 < h2 / D) by (apply Rdiv_lt_0_compat; assumption).
  unfold peri. fold h2. fold D. set (r := Rmin (norm3 p0) (h2 / D)). assert (R1 := Rmin_l (norm3 p0) (h2 / D)). assert (R2 := Rmin_r (norm3 p0) (h2 / D)). fold r in R1, R2.
  assert (RP : 0 < r) by (apply Rmin_pos; assumption). split; [exact RP|]. split; [exact R1|].
  assert (X : r * D <= h2). { apply Rle_trans with (h2 / D * D); [apply Rmult_le_compat_r; lra|]. right. field. lra. }
  assert (Y : r ^ 2 * dot3 v0 v0 <= r * (norm3 p0 * dot3 v0 v0)). { replace (r ^ 2 * dot3 v0 v0) with (r * (r * dot3 v0 v0)) by ring. apply Rmult_le_compat_l; [lra|]. apply Rmult_le_compat_r; lra. }
  assert (0 < r * MU) by (apply Rmult_lt_0_compat; lra). unfold D in X. lra.
Qed.

(** ** the attraction, made weaker near the centre so that it is Lipschitz everywhere *)
Section SOFT.
Context (sg : R) (SP : 0 < sg).
Definition soft (p : v3) : v3 := scale3 (- (MU / Rmax sg (norm3 p) ^ 3)) p.
Lemma soft_far p : sg <= norm3 p -> soft p = kep p.
Proof. intros H. unfold soft, kep. rewrite Rmax_right by exact H. reflexivity. Qed.
Lemma Rmax_gap a b : Rabs (Rmax sg a - Rmax sg b) <= Rabs (a - b).
Proof. unfold Rmax. destruct (Rle_dec sg a), (Rle_dec sg b); unfold Rabs; repeat destruct (Rcase_abs _); lra. Qed.
Lemma soft_lip x y : n1 (sub3 (soft x) (soft y)) <= lipc sg * n1 (sub3 x y).
Proof.
  unfold soft. rewrite kep_split. assert (G := norm3_gap x y). assert (MG := Rmax_gap (norm3 x) (norm3 y)). assert (A1 := Rmax_l sg (norm3 x)). assert (A2 := Rmax_l sg (norm3 y)). assert (A3 := Rmax_r sg (norm3 y)).
  set (a := Rmax sg (norm3 x)) in *. set (b := Rmax sg (norm3 y)) in *. assert (M := MU_pos). assert (N := n1_norm3 y). assert (P := n1_pos (sub3 x y)). assert (NY := proj1 (norm3_sq y)).
  eapply Rle_trans; [apply n1_add|]. rewrite !n1_scale, !Rabs_Ropp. unfold lipc.
  assert (sg3 : 0 < sg ^ 3) by (apply pow_lt, SP). assert (a3 : sg ^ 3 <= a ^ 3) by (apply pow_incr; lra).
  assert (T1 : Rabs (MU / a ^ 3) <= MU / sg ^ 3). { rewrite Rabs_pos_eq by (apply Rlt_le, Rdiv_lt_0_compat; lra). apply Rmult_le_compat_l; [lra|]. apply Rinv_le_contravar; lra. }
  assert (T2 : Rabs (MU / a ^ 3 - MU / b ^ 3) * n1 y <= 9 * MU / sg ^ 3 * n1 (sub3 x y)).
  { replace (MU / a ^ 3 - MU / b ^ 3) with ((MU / (a ^ 3 * b) + MU / (a ^ 2 * b ^ 2) + MU / (a * b ^ 3)) * (b - a)) by (field; split; lra).
    rewrite Rabs_mult. assert (BB : 0 < b) by lra. assert (AA : 0 < a) by lra.
    assert (I : forall u, 0 < u -> sg ^ 3 * b <= u -> MU / u <= MU / (sg ^ 3 * b)). { intros u U L. apply Rmult_le_compat_l; [lra|]. apply Rinv_le_contravar; [apply Rmult_lt_0_compat; lra|exact L]. }
    assert (s2 : 0 < sg ^ 2) by (apply pow_lt, SP). assert (a2 : sg ^ 2 <= a ^ 2) by (apply pow_incr; lra). assert (b2 : sg ^ 2 <= b ^ 2) by (apply pow_incr; lra). assert (b3 : 0 < b ^ 3) by (apply pow_lt, BB).
    assert (I1 := I (a ^ 3 * b) ltac:(apply Rmult_lt_0_compat; lra) ltac:(apply Rmult_le_compat_r; lra)).
    assert (I2 : MU / (a ^ 2 * b ^ 2) <= MU / (sg ^ 3 * b)). { apply I; [apply Rmult_lt_0_compat; lra|]. replace (sg ^ 3 * b) with (sg ^ 2 * (sg * b)) by ring. apply Rmult_le_compat; [lra|apply Rmult_le_pos; lra|exact a2|]. replace (b ^ 2) with (b * b) by ring. apply Rmult_le_compat_r; lra. }
    assert (I3 : MU / (a * b ^ 3) <= MU / (sg ^ 3 * b)). { apply I; [apply Rmult_lt_0_compat; lra|]. replace (sg ^ 3 * b) with (sg * (sg ^ 2 * b)) by ring. apply Rmult_le_compat; [lra|apply Rmult_le_pos; lra|lra|]. replace (b ^ 3) with (b ^ 2 * b) by ring. apply Rmult_le_compat_r; lra. }
    assert (J1 : 0 <= MU / (a ^ 3 * b)) by (apply Rlt_le, Rdiv_lt_0_compat; [lra|apply Rmult_lt_0_compat; lra]). assert (J2 : 0 <= MU / (a ^ 2 * b ^ 2)) by (apply Rlt_le, Rdiv_lt_0_compat; [lra|apply Rmult_lt_0_compat; lra]).
    assert (J3 : 0 <= MU / (a * b ^ 3)) by (apply Rlt_le, Rdiv_lt_0_compat; [lra|apply Rmult_lt_0_compat; lra]).
    rewrite (Rabs_pos_eq (_ + _ + _)) by lra. rewrite (Rabs_minus_sym b a).
    set (Q := MU / (a ^ 3 * b) + MU / (a ^ 2 * b ^ 2) + MU / (a * b ^ 3)) in *. assert (Q3 : Q <= 3 * (MU / (sg ^ 3 * b))) by (unfold Q; lra). assert (Q0 : 0 <= Q) by (unfold Q; lra).
    apply Rle_trans with (3 * (MU / (sg ^ 3 * b)) * n1 (sub3 x y) * (3 * b)).
    - apply Rmult_le_compat; [apply Rmult_le_pos; [lra|apply Rabs_pos]|apply n1_pos| |lra]. apply Rmult_le_compat; [lra|apply Rabs_pos|exact Q3|lra].
    - right. field. split; lra. }
  assert (T3 : Rabs (MU / a ^ 3) * n1 (sub3 x y) <= MU / sg ^ 3 * n1 (sub3 x y)) by (apply Rmult_le_compat_r; assumption).
  replace (10 * MU / sg ^ 3 * n1 (sub3 x y)) with (MU / sg ^ 3 * n1 (sub3 x y) + 9 * MU / sg ^ 3 * n1 (sub3 x y)) by (field; lra). lra.
Qed.
(** its potential, as a function of the squared distance *)
Definition pull (s : R) : R := MU / (2 * Rmax sg (sqrt s) ^ 3).
Lemma pull_cont s : continuous pull s.
Proof.
  unfold pull. assert (C : continuous (fun s => Rmax sg (sqrt s)) s).
  { apply continuity_pt_filterlim. assert (CS : continuity_pt sqrt s) by (apply continuity_pt_filterlim, continuous_sqrt). intros e He. destruct (CS e He) as (d & D & H). exists d. split; [exact D|]. intros x Hx. specialize (H x Hx). cbn in *. unfold R_dist in *. eapply Rle_lt_trans; [apply Rmax_gap|exact H]. }
  apply (continuous_comp (fun s => Rmax sg (sqrt s)) (fun r => MU / (2 * r ^ 3))); [exact C|]. apply (ex_derive_continuous (fun r => MU / (2 * r ^ 3))). auto_derive.
  assert (A := Rmax_l sg (sqrt s)). assert (Z := pow_nonzero (Rmax sg (sqrt s)) 3 ltac:(lra)). cbn [pow] in Z. apply Rmult_integral_contrapositive_currified; [lra|exact Z].
Qed.
Definition well (s : R) : R := 0 + RInt pull 0 s.
Lemma well_d s : derivable_pt_lim well s (pull s).
Proof. apply is_derive_Reals. apply (prim_derive pull 0 pull_cont). Qed.
Lemma pull_pos s : 0 <= pull s.
Proof. unfold pull. assert (A := Rmax_l sg (sqrt s)). assert (M := MU_pos). apply Rlt_le, Rdiv_lt_0_compat; [exact M|]. apply Rmult_lt_0_compat; [lra|apply pow_lt; lra]. Qed.
Lemma well_0 : well 0 = 0.
Proof. unfold well. rewrite RInt_point. unfold zero; cbn. ring. Qed.
Lemma well_pos s : 0 <= s -> 0 <= well s.
Proof.
  intros H. destruct (Req_dec s 0) as [->|N]; [rewrite well_0; lra|]. destruct (MVT_cor2 well pull 0 s ltac:(lra)) as (c & E & _); [intros x _; apply well_d|]. rewrite well_0 in E. assert (0 <= pull c * (s - 0)) by (apply Rmult_le_pos; [apply pull_pos|lra]). lra.
Qed.
Lemma well_far r : sg <= r -> well (r * r) <= 3 * MU / (2 * sg).
Proof.
  intros H. assert (M := MU_pos). assert (s2 : 0 < sg * sg) by (apply Rmult_lt_0_compat; lra).
  assert (A : well (sg * sg) <= MU / (2 * sg)).
  { destruct (MVT_cor2 well pull 0 (sg * sg) s2) as (c & E & _); [intros x _; apply well_d|]. rewrite well_0 in E. assert (P : pull c <= MU / (2 * sg ^ 3)). { unfold pull. apply Rmult_le_compat_l; [lra|]. apply Rinv_le_contravar; [apply Rmult_lt_0_compat; [lra|apply pow_lt; lra]|]. apply Rmult_le_compat_l; [lra|]. apply pow_incr. split; [lra|apply Rmax_l]. }
    assert (Q : pull c * (sg * sg) <= MU / (2 * sg ^ 3) * (sg * sg)) by (apply Rmult_le_compat_r; lra). replace (MU / (2 * sg ^ 3) * (sg * sg)) with (MU / (2 * sg)) in Q by (field; lra). lra. }
  destruct (Rle_lt_or_eq_dec _ _ H) as [L|<-]. 2:{ apply Rle_trans with (MU / (2 * sg)); [exact A|]. replace (3 * MU / (2 * sg)) with (MU / (2 * sg) + MU / sg) by (field; lra). assert (0 < MU / sg) by (apply Rdiv_lt_0_compat; lra). lra. }
  assert (rr : sg * sg < r * r) by (apply Rmult_le_0_lt_compat; lra).
  destruct (MVT_cor2 (fun s => well s + MU / sqrt s) (fun s => pull s + - (MU / (2 * sqrt s ^ 3))) (sg * sg) (r * r) rr) as (c & E & Hc).
  { intros s Hs. apply d_plus; [apply well_d|]. apply is_derive_Reals. assert (SS : 0 < sqrt s) by (apply sqrt_lt_R0; lra). auto_derive; [repeat split; lra|]. field. lra. }
  cbv beta in E. assert (Z : pull c + - (MU / (2 * sqrt c ^ 3)) = 0). { unfold pull. rewrite Rmax_right; [ring|]. rewrite <- (sqrt_square sg) by lra. apply sqrt_le_1_alt. lra. }
  rewrite Z, !sqrt_square in E by lra. assert (0 < MU / r) by (apply Rdiv_lt_0_compat; lra). replace (3 * MU / (2 * sg)) with (MU / (2 * sg) + MU / sg) by (field; lra). lra.
Qed.
End SOFT.

Lemma norm3_dot (v : v3) : norm3 v = sqrt (dot3 v v). Proof. reflexivity. Qed.
Lemma norm3_le_sq (v : v3) b : 0 <= b -> dot3 v v <= b * b -> norm3 v <= b.
Proof. intros B H. rewrite norm3_dot. rewrite <- (sqrt_square b B). apply sqrt_le_1_alt, H. Qed.
Lemma sub_unsub (a b : v3) : add3 b (sub3 a b) = a. Proof. vring. Qed.
(** ** existence *)
Lemma orbit_exists p0 v0 : cross3 p0 v0 <> zero3 -> exists p v, p 0 = p0 /\ v 0 = v0 /\ (forall t, deriv3 p t (v t) /\ deriv3 v t (kep (p t))).
Proof.
  intros HM. destruct (peri_spec p0 v0 HM) as (SP & R0 & HH). set (sg := peri p0 v0) in *. clearbody sg. assert (M := MU_pos).
  set (F := fun (x : nat -> R) (i : nat) => let p := mk3 (x 0%nat) (x 1%nat) (x 2%nat) in
    match i with 0%nat => x 3%nat | 1%nat => x 4%nat | 2%nat => x 5%nat | 3%nat => x3 (soft sg p) | 4%nat => y3 (soft sg p) | 5%nat => z3 (soft sg p) | _ => 0 end).
  assert (LS : forall pr : v3 -> R, (forall v, Rabs (pr v) <= n1 v) -> (forall a b, pr (sub3 a b) = pr a - pr b) -> lip 6 (fun x => pr (soft sg (mk3 (x 0%nat) (x 1%nat) (x 2%nat))))).
  { intros pr P1 P2. exists (lipc sg). assert (LP : 0 <= lipc sg) by (unfold lipc; apply Rlt_le, Rdiv_lt_0_compat; [lra|apply pow_lt; lra]). split; [exact LP|]. intros x y. rewrite <- P2. eapply Rle_trans; [apply P1|].
    eapply Rle_trans; [apply (soft_lip sg SP)|]. apply Rmult_le_compat_l; [exact LP|]. unfold n1. cbn [nrm]. unfold sub3. cbn [x3 y3 z3]. rnumg. assert (A1 := Rabs_pos (x 3%nat - y 3%nat)). assert (A2 := Rabs_pos (x 4%nat - y 4%nat)). assert (A3 := Rabs_pos (x 5%nat - y 5%nat)). lra. }
  assert (AB : forall v : v3, Rabs (x3 v) <= n1 v /\ Rabs (y3 v) <= n1 v /\ Rabs (z3 v) <= n1 v) by (intros v; unfold n1; assert (A1 := Rabs_pos (x3 v)); assert (A2 := Rabs_pos (y3 v)); assert (A3 := Rabs_pos (z3 v)); lra).
  destruct (lip_all 6 F 6) as (k & K & LF).
  { intros [|[|[|[|[|[|i]]]]]]; unfold F; cbv zeta; [apply (lip_coord 6 3); lia|apply (lip_coord 6 4); lia|apply (lip_coord 6 5); lia| | | |apply blip_lip, blip_const]; apply LS; intros; try apply AB; reflexivity. }
  { intros x i Hi. do 6 (destruct i as [|i]; [lia|]). reflexivity. }
  destruct (picard_system 6 F k (fun i => match i with 0%nat => x3 p0 | 1%nat => y3 p0 | 2%nat => z3 p0 | 3%nat => x3 v0 | 4%nat => y3 v0 | 5%nat => z3 v0 | _ => 0 end) ltac:(lia) K LF) as (x & X0 & XD).
  set (p := fun t => mk3 (x t 0%nat) (x t 1%nat) (x t 2%nat)). set (v := fun t => mk3 (x t 3%nat) (x t 4%nat) (x t 5%nat)).
  assert (P0 : p 0 = p0) by (unfold p; rewrite !X0; destruct p0; reflexivity). assert (V0 : v 0 = v0) by (unfold v; rewrite !X0; destruct v0; reflexivity).
  assert (DP : forall t, deriv3 p t (v t)) by (intros t; split; [|split]; [exact (XD t 0%nat ltac:(lia))|exact (XD t 1%nat ltac:(lia))|exact (XD t 2%nat ltac:(lia))]).
  assert (DV : forall t, deriv3 v t (soft sg (p t))) by (intros t; split; [|split]; [exact (XD t 3%nat ltac:(lia))|exact (XD t 4%nat ltac:(lia))|exact (XD t 5%nat ltac:(lia))]).
  assert (MC : forall t, cross3 (p t) (v t) = cross3 p0 v0).
  { intros t. assert (D : forall s, deriv3 (fun s => cross3 (p s) (v s)) s zero3). { intros s. eapply d3_eq; [apply d3_cross; [apply DP|apply DV]|]. cbv beta. unfold soft. apply central_momentum. }
    rewrite <- P0, <- V0. assert (E1 := const_all (fun s => x3 (cross3 (p s) (v s))) (fun s => proj1 (D s)) t). assert (E2 := const_all (fun s => y3 (cross3 (p s) (v s))) (fun s => proj1 (proj2 (D s))) t). assert (E3 := const_all (fun s => z3 (cross3 (p s) (v s))) (fun s => proj2 (proj2 (D s))) t). cbv beta in E1, E2, E3.
    destruct (cross3 (p t) (v t)) as [a b c], (cross3 (p 0) (v 0)) as [a' b' c']. cbn [x3 y3 z3] in *. congruence. }
  assert (EC : forall t, dot3 (v t) (v t) / 2 + well sg (dot3 (p t) (p t)) = dot3 v0 v0 / 2 + well sg (dot3 p0 p0)).
  { intros t. rewrite <- P0, <- V0. apply (const_all (fun t => dot3 (v t) (v t) / 2 + well sg (dot3 (p t) (p t)))). intros s.
    apply (d_eq _ _ ((dot3 (soft sg (p s)) (v s) + dot3 (v s) (soft sg (p s))) * / 2 + pull sg (dot3 (p s) (p s)) * (dot3 (v s) (p s) + dot3 (p s) (v s)))).
    - apply (d_plus (fun t => dot3 (v t) (v t) / 2) (fun t => well sg (dot3 (p t) (p t)))).
      + apply (d_eq _ _ ((dot3 (soft sg (p s)) (v s) + dot3 (v s) (soft sg (p s))) * / 2 + dot3 (v s) (v s) * 0)); [|ring]. apply (d_mult (fun t => dot3 (v t) (v t)) (fun _ => / 2)); [apply d_dot3; apply DV|apply d_const].
      + apply (derivable_pt_lim_comp (fun t => dot3 (p t) (p t)) (well sg)); [apply d_dot3; apply DP|apply well_d, SP].
    - rewrite (dot3_comm' (soft sg (p s))), (dot3_comm' (v s) (p s)). unfold soft, pull. rewrite central_power, <- norm3_dot. assert (A := Rmax_l sg (norm3 (p s))). field. lra. }
  assert (FAR : forall t, sg <= norm3 (p t)).
  { intros t. apply Rnot_lt_le. intros L. assert (N := norm3_sq (p t)). assert (N0 := norm3_sq p0). assert (E := EC t). assert (W := well_pos sg SP (dot3 (p t) (p t)) (dot3_pos' (p t))). assert (W0 := well_far sg SP (norm3 p0) R0). rewrite (proj2 N0) in W0.
    assert (MM := momentum_le (p t) (v t)). rewrite MC in MM. assert (V2 : dot3 (v t) (v t) <= dot3 v0 v0 + 3 * MU / sg) by (replace (3 * MU / sg) with (2 * (3 * MU / (2 * sg))) by (field; lra); lra).
    assert (PP : dot3 (p t) (p t) <= sg * sg) by (rewrite <- (proj2 N); apply Rmult_le_compat; lra). assert (QQ := dot3_pos' (v t)).
    assert (Z : dot3 (p t) (p t) * dot3 (v t) (v t) <= sg * sg * (dot3 v0 v0 + 3 * MU / sg)) by (apply Rmult_le_compat; [apply dot3_pos'|exact QQ|exact PP|exact V2]).
    replace (sg * sg * (dot3 v0 v0 + 3 * MU / sg)) with (sg ^ 2 * dot3 v0 v0 + 3 * MU * sg) in Z by (field; lra). lra. }
  exists p, v. split; [exact P0|]. split; [exact V0|]. intros t. split; [apply DP|]. rewrite <- (soft_far sg (p t) (FAR t)). apply DV.
Qed.
(** ** every true orbit with momentum stays away from the centre, and bounded *)
Lemma orbit_bounds p v len : 0 <= len -> orbit_motion (fun t => attraction (p t)) len p v -> cross3 (p 0) (v 0) <> zero3 ->
  forall t, 0 <= t <= len -> peri (p 0) (v 0) <= norm3 (p t) /\ norm3 (v t) <= 1 + dot3 (v 0) (v 0) + 2 * MU / peri (p 0) (v 0) /\ norm3 (p t) <= norm3 (p 0) + 3 * (len * (3 * (1 + dot3 (v 0) (v 0) + 2 * MU / peri (p 0) (v 0)))).
Proof.
  intros HL OM HM. destruct (peri_spec (p 0) (v 0) HM) as (SP & R0 & HH). set (sg := peri (p 0) (v 0)) in *. clearbody sg. assert (M := MU_pos).
  assert (OD : forall t, 0 <= t <= len -> deriv3 p t (v t) /\ deriv3 v t (kep (p t))) by (intros t Ht; rewrite kep_attraction; apply OM, Ht).
  assert (MC : forall t, 0 <= t <= len -> cross3 (p t) (v t) = cross3 (p 0) (v 0)).
  { intros t Ht. assert (D : forall s, 0 <= s <= len -> deriv3 (fun s => cross3 (p s) (v s)) s zero3). { intros s Hs. eapply d3_eq; [apply d3_cross; apply (OD s Hs)|]. cbv beta. unfold kep. apply central_momentum. }
    assert (E1 := const_on (fun s => x3 (cross3 (p s) (v s))) len (fun s Hs => proj1 (D s Hs)) t Ht). assert (E2 := const_on (fun s => y3 (cross3 (p s) (v s))) len (fun s Hs => proj1 (proj2 (D s Hs))) t Ht). assert (E3 := const_on (fun s => z3 (cross3 (p s) (v s))) len (fun s Hs => proj2 (proj2 (D s Hs))) t Ht). cbv beta in E1, E2, E3.
    destruct (cross3 (p t) (v t)) as [a b c], (cross3 (p 0) (v 0)) as [a' b' c']. cbn [x3 y3 z3] in *. congruence. }
  assert (HP : 0 < dot3 (cross3 (p 0) (v 0)) (cross3 (p 0) (v 0))). { assert (0 <= sg ^ 2 * dot3 (v 0) (v 0)) by (apply Rmult_le_pos; [apply pow_le; lra|apply dot3_pos']). assert (0 < MU * sg) by (apply Rmult_lt_0_compat; lra). lra. }
  assert (NZ : forall t, 0 <= t <= len -> 0 < dot3 (p t) (p t)).
  { intros t Ht. assert (MM := momentum_le (p t) (v t)). rewrite (MC t Ht) in MM. assert (A := dot3_pos' (p t)). destruct (Rle_lt_or_eq_dec _ _ A) as [L|E]; [exact L|]. rewrite <- E in MM. lra. }
  assert (EC : forall t, 0 <= t <= len -> dot3 (v t) (v t) / 2 - MU / sqrt (dot3 (p t) (p t)) = dot3 (v 0) (v 0) / 2 - MU / sqrt (dot3 (p 0) (p 0))).
  { intros t Ht. apply (const_on (fun t => dot3 (v t) (v t) / 2 - MU / sqrt (dot3 (p t) (p t))) len); [|exact Ht]. intros s Hs. destruct (OD s Hs) as [D1 D2]. assert (PS := NZ s Hs). assert (QS := sqrt_lt_R0 _ PS).
    apply (d_eq _ _ ((dot3 (kep (p s)) (v s) + dot3 (v s) (kep (p s))) * / 2 - (- (MU / (2 * sqrt (dot3 (p s) (p s)) ^ 3))) * (dot3 (v s) (p s) + dot3 (p s) (v s)))).
    - apply (d_minus (fun t => dot3 (v t) (v t) / 2) (fun t => MU / sqrt (dot3 (p t) (p t)))).
      + apply (d_eq _ _ ((dot3 (kep (p s)) (v s) + dot3 (v s) (kep (p s))) * / 2 + dot3 (v s) (v s) * 0)); [|ring]. apply (d_mult (fun t => dot3 (v t) (v t)) (fun _ => / 2)); [apply d_dot3; exact D2|apply d_const].
      + apply (derivable_pt_lim_comp (fun t => dot3 (p t) (p t)) (fun z => MU / sqrt z)); [apply d_dot3; exact D1|]. apply is_derive_Reals. auto_derive; [repeat split; lra|]. field. lra.
    - rewrite (dot3_comm' (kep (p s))), (dot3_comm' (v s) (p s)). unfold kep. rewrite central_power, norm3_dot. field. lra. }
  assert (V2 : forall t, 0 <= t <= len -> dot3 (v t) (v t) <= dot3 (v 0) (v 0) + 2 * (MU / norm3 (p t))).
  { intros t Ht. assert (E := EC t Ht). rewrite <- !norm3_dot in E. assert (0 < MU / norm3 (p 0)) by (apply Rdiv_lt_0_compat; lra). lra. }
  assert (FAR : forall t, 0 <= t <= len -> sg <= norm3 (p t)).
  { intros t Ht. apply Rnot_lt_le. intros L. assert (N := norm3_sq (p t)). assert (PN : 0 < norm3 (p t)) by (rewrite norm3_dot; apply sqrt_lt_R0, NZ, Ht). assert (E := V2 t Ht).
    assert (MM := momentum_le (p t) (v t)). rewrite (MC t Ht), <- (proj2 N) in MM. assert (D0 := dot3_pos' (v 0)).
    assert (Z : norm3 (p t) * norm3 (p t) * dot3 (v t) (v t) <= norm3 (p t) * norm3 (p t) * (dot3 (v 0) (v 0) + 2 * (MU / norm3 (p t)))) by (apply Rmult_le_compat_l; [apply Rmult_le_pos; lra|exact E]).
    replace (norm3 (p t) * norm3 (p t) * (dot3 (v 0) (v 0) + 2 * (MU / norm3 (p t)))) with (norm3 (p t) * norm3 (p t) * dot3 (v 0) (v 0) + 2 * MU * norm3 (p t)) in Z by (field; lra).
    assert (Z1 : norm3 (p t) * norm3 (p t) * dot3 (v 0) (v 0) <= sg * sg * dot3 (v 0) (v 0)) by (apply Rmult_le_compat_r; [exact D0|apply Rmult_le_compat; lra]). assert (Z2 : MU * norm3 (p t) <= MU * sg) by (apply Rmult_le_compat_l; lra). assert (0 < MU * sg) by (apply Rmult_lt_0_compat; lra).
    replace (sg ^ 2) with (sg * sg) in HH by ring. lra. }
  set (VB := 1 + dot3 (v 0) (v 0) + 2 * MU / sg). assert (D0 := dot3_pos' (v 0)). assert (MS : 0 < 2 * MU / sg) by (apply Rdiv_lt_0_compat; lra).
  assert (VV : forall t, 0 <= t <= len -> norm3 (v t) <= VB).
  { intros t Ht. assert (E := V2 t Ht). assert (F := FAR t Ht). assert (MU / norm3 (p t) <= MU / sg) by (apply Rmult_le_compat_l; [lra|apply Rinv_le_contravar; lra]). apply norm3_le_sq; [unfold VB; lra|].
    replace (2 * MU / sg) with (2 * (MU / sg)) in * by (field; lra). apply Rle_trans with (dot3 (v 0) (v 0) + 2 * (MU / sg)); [lra|]. assert (B1 : 1 <= VB) by (unfold VB; lra). apply Rle_trans with (1 * VB); [unfold VB; lra|]. apply Rmult_le_compat_r; lra. }
  intros t Ht. split; [apply FAR, Ht|]. split; [apply VV, Ht|].
  assert (LP : n1 (sub3 (p t) (p 0)) <= n1 (sub3 (p 0) (p 0)) + 3 * (t * (3 * VB))).
  { apply (lipschitz3 (fun s => sub3 (p s) (p 0)) v (3 * VB) t (proj1 Ht)); intros s Hs.
    - eapply d3_eq; [apply (d3_sub p (fun _ => p 0)); [apply OD; lra|apply d3_const]|]. generalize (v s). clear. intros [a b c]. vunfoldg. rnumg. apply mk3_c; ring.
    - eapply Rle_trans; [apply n1_norm3|]. assert (X := VV s ltac:(lra)). lra. }
  rewrite n1_self in LP. assert (X := proj2 (norm3_move (p 0) (sub3 (p t) (p 0)))). rewrite sub_unsub in X. assert (t * (3 * VB) <= len * (3 * VB)) by (apply Rmult_le_compat_r; [unfold VB; lra|lra]). lra.
Qed.
(** ** uniqueness *)
Lemma orbit_unique p v p' v' len : 0 <= len -> orbit_motion (fun t => attraction (p t)) len p v -> orbit_motion (fun t => attraction (p' t)) len p' v' -> cross3 (p 0) (v 0) <> zero3 -> p 0 = p' 0 -> v 0 = v' 0 ->
  forall t, 0 <= t <= len -> p t = p' t /\ v t = v' t.
Proof.
  intros HL OM OM' HM EP EV t Ht. assert (B := orbit_bounds p v len HL OM HM). assert (HM' := HM). rewrite EP, EV in HM'. assert (B' := orbit_bounds p' v' len HL OM' HM'). rewrite <- EP, <- EV in B'.
  destruct (peri_spec _ _ HM) as (SP & _). set (sg := peri (p 0) (v 0)) in *. clearbody sg. assert (M := MU_pos). assert (LP : 0 <= lipc sg) by (unfold lipc; apply Rlt_le, Rdiv_lt_0_compat; [lra|apply pow_lt; lra]).
  set (dp := fun s => sub3 (p s) (p' s)). set (dv := fun s => sub3 (v s) (v' s)). set (da := fun s => sub3 (kep (p s)) (kep (p' s))).
  assert (V : dot3 (dp t) (dp t) + dot3 (dv t) (dv t) = 0).
  { apply (vanishes (fun s => dot3 (dp s) (dp s) + dot3 (dv s) (dv s)) (fun s => dot3 (dv s) (dp s) + dot3 (dp s) (dv s) + (dot3 (da s) (dv s) + dot3 (dv s) (da s))) (3 + 3 * lipc sg) len); [lra| | | |exact Ht].
    - intros s Hs. destruct (OM s Hs) as [D1 D2]. destruct (OM' s Hs) as [D3 D4]. rewrite <- kep_attraction in D2, D4. apply d_plus; apply d_dot3; apply d3_sub; assumption.
    - intros s Hs. assert (P1 := dot3_pos' (dp s)). assert (P2 := dot3_pos' (dv s)). split; [lra|]. rewrite (dot3_comm' (dv s) (dp s)), (dot3_comm' (da s)).
      assert (S1 := n1_sq (dp s)). assert (S2 := n1_sq (dv s)). assert (N1 := n1_pos (dp s)). assert (N2 := n1_pos (dv s)).
      assert (K := kep_lip sg (p s) (p' s) SP (proj1 (B s Hs)) (proj1 (B' s Hs))). fold (da s) (dp s) in K.
      assert (Q1 := dot_le (dp s) (dv s)). assert (Q1' := Rle_abs (dot3 (dp s) (dv s))). assert (Q2 := dot_le (dv s) (da s)). assert (Q2' := Rle_abs (dot3 (dv s) (da s))).
      assert (Q3 : n1 (dv s) * n1 (da s) <= n1 (dv s) * (lipc sg * n1 (dp s))) by (apply Rmult_le_compat_l; assumption).
      assert (SQ := Rle_0_sqr (n1 (dp s) - n1 (dv s))). unfold Rsqr in SQ.
      assert (Q4 : 2 * (n1 (dp s) * n1 (dv s)) <= 3 * (dot3 (dp s) (dp s) + dot3 (dv s) (dv s))) by lra.
      assert (Q5 : lipc sg * (2 * (n1 (dp s) * n1 (dv s))) <= lipc sg * (3 * (dot3 (dp s) (dp s) + dot3 (dv s) (dv s)))) by (apply Rmult_le_compat_l; assumption). lra.
    - unfold dp, dv. rewrite EP, EV. generalize (p' 0) (v' 0). clear. intros [a b c] [d e f]. vunfoldg. rnumg. ring. }
  assert (P1 := dot3_pos' (dp t)). assert (P2 := dot3_pos' (dv t)). split; apply dot3_zero; fold (dp t) (dv t); lra.
Qed.
