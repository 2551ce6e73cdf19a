(** * Lemmas: the attitude estimate over several gyro steps and a measurement *)
From Coq Require Import Reals Lra Psatz Lia.
From Verif Require Import Num Vec Mat6 M_vector M_quaternion M_obs S_rot S_obs S_steady P_quat P_wheel P_dyn P_dyn2 P_obs P_obs3 P_steady Props_obs P_farr P_est1 P_est2 P_est3 P_tot3 P_orb3 P_tri1 P_tri2 P_tri3 P_tri4 P_tri5 P_mul1 P_mul2.
Local Open Scope R_scope.

(** a quaternion whose error from qs has vector part v up to e, and which is a unit quaternion up to e *)
Definition close_to (qs q : quat) (v : v3) (e : R) : Prop := norm3 (sub3 (vec (error_quat qs q)) v) <= e /\ Rabs (qw (error_quat qs q) - 1) <= e /\ Rabs (dotq q q - 1) <= e.
Lemma moved_size2 c psi q : dot3 psi psi = 1 - c * c -> dotq (moved_q c psi q) (moved_q c psi q) - dotq q q = (1 - c * c) * dot3 (vec q) (vec q) + 2 * (1 - c) * (qw q * dot3 psi (vec q)).
Proof.
  intros P. assert (E : dotq (moved_q c psi q) (moved_q c psi q) - dotq q q = (c * c + dot3 psi psi - 1) * (qw q * qw q) + dot3 psi psi * dot3 (vec q) (vec q) + 2 * (1 - c) * (qw q * dot3 psi (vec q))).
  { clear P. destruct q as [q0 qa qb qc], psi as [pa pb pc]. unfold moved_q, crossm, mkqv, vec. vunfoldg. cbn [qw qx qy qz x3 y3 z3]. rnumg. ring. }
  rewrite E, P. ring.
Qed.
Lemma v_split2 c e0 (U psi T X v : v3) : sub3 (add3 (sub3 (sub3 (scale3 c U) (scale3 e0 psi)) (cross3 psi U)) (scale3 (1 - c) T)) (sub3 v X) = add3 (sub3 U v) (add3 (add3 (scale3 (- (1 - c)) U) (scale3 (1 - e0) psi)) (add3 (scale3 (1 - c) T) (scale3 (-1) (add3 (sub3 psi X) (cross3 psi U))))).
Proof. vring. Qed.
Lemma abs3 x e : Rabs x <= e -> - e <= x <= e.
Proof. unfold Rabs. destruct (Rcase_abs x); lra. Qed.
(** one gyro step *)
Lemma close_move qs q v X c psi W e : dotq qs qs = 1 -> dot3 psi psi = 1 - c * c -> 0 <= 1 - c <= norm3 X * norm3 X / 2 -> norm3 psi <= norm3 X -> norm3 (sub3 psi X) <= norm3 X * norm3 X ->
  norm3 v <= W -> norm3 X <= W -> W <= 1 / 8 -> 0 <= e <= 1 -> close_to qs q v e -> close_to qs (moved_q c psi q) (sub3 v X) (3 * e + 4 * (W * W)).
Proof.
  intros Us Hpsi Hc Hp HpX Hv HX HW He (A1 & A2 & A3). destruct (moved_err c psi q qs) as [MV MW]. cbv zeta in MV, MW. unfold close_to. rewrite MV, MW. assert (MS := moved_size2 c psi q Hpsi).
  assert (DQ := dotq_parts q). apply abs3 in A3. assert (V0 := dot3_nonneg (vec q)). assert (W0 := sq0 (qw q)). assert (NV : norm3 (vec q) <= 2). { rewrite <- (sqrt_square 2) by lra. unfold norm3. rnumg. apply sqrt_le_1_alt. lra. } assert (NW : Rabs (qw q) <= 2) by (apply Rabs_le; nra).
  destruct (unit_parts qs Us) as [R1 R2]. set (T := vec (product (mkqv 0 (opp3 (vec q))) qs)). assert (TB : norm3 T <= 2).
  { unfold T. eapply Rle_trans; [apply vec_le|]. rewrite v_conj. fold (error_quat qs (mkqv 0 (vec q))). rewrite norm_prod. assert (NS : normq qs = 1) by (unfold normq; rnumg; rewrite Us; apply sqrt_1). rewrite NS, v_norm. lra. }
  clearbody T. clear MV MW R2. set (e0 := qw (error_quat qs q)) in *. set (U := vec (error_quat qs q)) in *. clearbody e0 U. assert (U0 := n3pos U). assert (X0 := n3pos X). assert (P0 := n3pos psi).
  assert (NU : norm3 U <= W + e). { rewrite (v_back U v). eapply Rle_trans; [apply nadd|]. lra. } apply abs3 in A2. set (nX := norm3 X) in *. assert (XX : nX * nX <= W * W) by (apply Rmult_le_compat; lra). assert (X2 := sq0 nX). assert (W2 := sq0 W). assert (WW8 : W * W <= 1 / 8 * W) by (apply Rmult_le_compat_r; lra). assert (We : W * e <= 1 / 8 * e) by (apply Rmult_le_compat_r; lra).
  assert (C1 : 0 <= 1 - c <= W * W / 2) by lra. split; [|split].
  - rewrite v_split2. eapply Rle_trans; [apply nadd|]. assert (A0 := nadd (add3 (scale3 (- (1 - c)) U) (scale3 (1 - e0) psi)) (add3 (scale3 (1 - c) T) (scale3 (-1) (add3 (sub3 psi X) (cross3 psi U))))). assert (A4 := nadd (scale3 (- (1 - c)) U) (scale3 (1 - e0) psi)). assert (A5 := nadd (scale3 (1 - c) T) (scale3 (-1) (add3 (sub3 psi X) (cross3 psi U)))). assert (A6 := nadd (sub3 psi X) (cross3 psi U)). assert (A7 := ncross psi U). rewrite !nscale, ?Rabs_Ropp in A4. rewrite !nscale in A5. rewrite (Rabs_pos_eq (1 - c)) in A4, A5 by lra. replace (Rabs (-1)) with 1 in A5 by (rewrite Rabs_left; lra).
    assert (B1 : (1 - c) * norm3 U <= W * W / 2 * 2) by (apply Rmult_le_compat; lra). assert (B2 : Rabs (1 - e0) * norm3 psi <= e * W) by (apply Rmult_le_compat; try apply Rabs_pos; try lra; apply Rabs_le; lra). assert (B3 : (1 - c) * norm3 T <= W * W / 2 * 2) by (apply Rmult_le_compat; try lra; apply n3pos). assert (B4 : norm3 psi * norm3 U <= W * (W + e)) by (apply Rmult_le_compat; lra). lra.
  - assert (B1 := ndot psi U). assert (B4 : norm3 psi * norm3 U <= W * (W + e)) by (apply Rmult_le_compat; lra). assert (B2 := ndot (vec q) (vec qs)). assert (B5 : norm3 (vec q) * norm3 (vec qs) <= 2 * 1) by (apply Rmult_le_compat; try assumption; apply n3pos). set (k := dot3 (vec q) (vec qs)) in *. assert (KA := abs3 k 2 ltac:(lra)). set (m := dot3 psi U) in *. assert (MA := abs3 m (W * (W + e)) ltac:(lra)).
    assert (K1 : (1 - c) * k <= (1 - c) * 2) by (apply Rmult_le_compat_l; lra). assert (K2 : (1 - c) * -2 <= (1 - c) * k) by (apply Rmult_le_compat_l; lra). assert (K3 : (1 - c) * e0 <= (1 - c) * 2) by (apply Rmult_le_compat_l; lra). assert (K4 : (1 - c) * 0 <= (1 - c) * e0) by (apply Rmult_le_compat_l; lra). replace (c * e0 + m + (1 - c) * k - 1) with ((e0 - 1) - (1 - c) * e0 + m + (1 - c) * k) by ring. apply Rabs_le. lra.
  - assert (B1 := ndot psi (vec q)). set (m := dot3 psi (vec q)) in *. assert (B4 : norm3 psi * norm3 (vec q) <= W * 2) by (apply Rmult_le_compat; try assumption; try apply n3pos; lra). assert (QM : Rabs (qw q * m) <= 2 * (W * 2)) by (rewrite Rabs_mult; apply Rmult_le_compat; try apply Rabs_pos; lra). apply abs3 in QM. set (k := qw q * m) in *.
    assert (CK : (1 - c) * k <= (1 - c) * 1) by (apply Rmult_le_compat_l; lra). assert (CK2 : (1 - c) * -1 <= (1 - c) * k) by (apply Rmult_le_compat_l; lra). assert (CC : 0 <= 1 - c * c <= W * W). { split; [rewrite <- Hpsi; apply dot3_nonneg|]. assert (Z := sq0 (1 - c)). lra. } set (vv := dot3 (vec q) (vec q)) in *. assert (VV : 0 <= (1 - c * c) * vv <= W * W * 2) by (split; [apply Rmult_le_pos; lra|apply Rmult_le_compat; lra]).
    apply Rabs_le. lra.
Qed.
(** n gyro steps *)
Fixpoint sumX (X : nat -> v3) (n : nat) : v3 := match n with O => zero3 | S n => add3 (sumX X n) (X n) end.
Fixpoint sumN (X : nat -> v3) (n : nat) : R := match n with O => 0 | S n => sumN X n + norm3 (X n) end.
Fixpoint grow (n : nat) : R := match n with O => 2 | S n => 3 * grow n + 4 end.
Lemma grow_ge n : 2 <= grow n. Proof. induction n; cbn [grow]; lra. Qed.
Lemma sum_le X n : norm3 (sumX X n) <= sumN X n.
Proof. induction n as [|n IH]; cbn [sumX sumN]; [rewrite nzero; lra|]. eapply Rle_trans; [apply nadd|]. lra. Qed.
Lemma sumN_mono X n N : (n <= N)%nat -> sumN X n <= sumN X N.
Proof. induction 1 as [|N L IH]; [lra|]. cbn [sumN]. assert (P := n3pos (X N)). lra. Qed.
Lemma sub_step (u s x : v3) : sub3 u (add3 s x) = sub3 (sub3 u s) x. Proof. vring. Qed.
Lemma steps_close dt w f qs N W : 0 < dt -> dotq (a_q f) (a_q f) = 1 -> dotq qs qs = 1 -> 0 <= qw (error_quat qs (a_q f)) ->
  let u := vec (error_quat qs (a_q f)) in let X := fun n => scale3 (dt / 2) (sub3 (w n) (a_b f)) in norm3 u + sumN X N <= W -> W <= 1 / 8 -> grow N * (W * W) <= 1 ->
  forall n, (n <= N)%nat -> close_to qs (a_q (gyro_steps dt w n f)) (sub3 u (sumX X n)) (grow n * (W * W)).
Proof.
  intros H Uq Us E0 u X HW W8 G1. assert (U0 := n3pos u). assert (S0 : forall n, 0 <= sumN X n) by (intros n; assert (X1 := sum_le X n); assert (X2 := n3pos (sumX X n)); lra). assert (W2 := sq0 W). assert (SN := S0 N).
  assert (GL : forall n m, (n <= m)%nat -> grow n <= grow m). { induction 1 as [|m L IH]; [lra|]. cbn [grow]. assert (Q := grow_ge m). lra. }
  induction n as [|n IH]; intros L.
  - cbn [gyro_steps sumX grow]. rewrite sub3_0_r. assert (EU : qw (error_quat qs (a_q f)) * qw (error_quat qs (a_q f)) + dot3 u u = 1) by (unfold u; rewrite <- dotq_parts, err_size, Uq, Us; ring). assert (UU : dot3 u u <= W * W) by (rewrite <- n3sq; apply Rmult_le_compat; lra). assert (D0 := dot3_nonneg u). set (e0 := qw (error_quat qs (a_q f))) in *. assert (E1 : e0 <= 1) by nra. assert (0 <= e0 * (1 - e0)) by (apply Rmult_le_pos; lra). split; [|split].
    + replace (sub3 (vec (error_quat qs (a_q f))) u) with (zero3 (T:=R)) by (unfold u; generalize (vec (error_quat qs (a_q f))); clear; vring). rewrite nzero. lra.
    + fold e0. apply Rabs_le. lra.
    + rewrite Uq, Rminus_diag_eq, Rabs_R0 by reflexivity. lra.
  - specialize (IH ltac:(lia)). cbn [gyro_steps sumX grow]. rewrite sub_step. destruct (steps_b dt w n f) as [EB _]. set (g := gyro_steps dt w n f) in *. unfold af_propagate. cbn [a_q]. rewrite EB. fold (X n). assert (SS := sumN_mono X (S n) N L). cbn [sumN] in SS. assert (XN := n3pos (X n)). assert (SN0 := S0 n).
    destruct (psi_facts (sub3 (w n) (a_b f)) dt H) as (F1 & F2 & F3 & F4); [fold (X n); lra|]. fold (X n) in F2, F3, F4. change (af_omega_mul (sub3 (w n) (a_b f)) dt (a_q g)) with (moved_q (cos (norm3 (sub3 (w n) (a_b f)) * dt * 0.5)) (af_psi (sub3 (w n) (a_b f)) dt) (a_q g)).
    replace ((3 * grow n + 4) * (W * W)) with (3 * (grow n * (W * W)) + 4 * (W * W)) by ring. assert (GN := GL n N ltac:(lia)). assert (Gn := grow_ge n). assert (grow n * (W * W) <= grow N * (W * W)) by (apply Rmult_le_compat_r; assumption). assert (0 <= grow n * (W * W)) by (apply Rmult_le_pos; lra).
    apply (close_move qs (a_q g) (sub3 u (sumX X n)) (X n) _ _ W (grow n * (W * W)) Us F1 F2 F3 F4); [|lra|lra|lra|exact IH]. eapply Rle_trans; [apply nsub|]. assert (SL := sum_le X n). lra.
Qed.
(** the measurement *)
Lemma v_fix2 a0 k1 (av del v Y : v3) : sub3 (sub3 (sub3 av (scale3 (a0 / 2) del)) (scale3 (/ 2) (cross3 del av))) (scale3 (1 - k1 / 2) v) =
  add3 (add3 (sub3 av v) (scale3 (- ((a0 - 1) / 2)) del)) (scale3 (- / 2) (add3 (add3 (sub3 del (scale3 k1 Y)) (scale3 k1 (sub3 Y v))) (cross3 del av))).
Proof. destruct av as [aa ab ac], del as [da db dc], v as [ua ub uc], Y as [ya yb yc]. vunfoldg. cbn [x3 y3 z3]. rnumg. f_equal; field. Qed.
Section Fix.
Context (q1 qs z : quat) (v : v3) (W E d : R).
Local Notation a := (error_quat qs q1).
Local Notation y := (vec (error_quat z q1)).
Local Notation e := (E * (W * W)).
Context (Us : dotq qs qs = 1) (CL : close_to qs q1 v e) (D0 : 0 <= d) (Hz : normq (subq z qs) <= d) (HE : 2 <= E) (HV : norm3 v + d <= W) (HW : W <= 1 / 8) (EW : E * W <= 1 / 8).
Lemma fix_facts : 0 <= W /\ 2 * (W * W) <= e /\ e <= W / 8 /\ e <= 1 / 64.
Proof. assert (V0 := n3pos v). assert (W2 := sq0 W). split; [lra|]. split; [apply Rmult_le_compat_r; assumption|]. assert (E * W * W <= 1 / 8 * W) by (apply Rmult_le_compat_r; lra). lra. Qed.
Lemma fix_y : norm3 (sub3 y v) <= e + 2 * d /\ norm3 y <= 4 * W /\ norm3 (vec a) <= 2 * W.
Proof.
  destruct CL as (A & _ & G). destruct fix_facts as (W0 & E1 & E2 & E3). assert (V0 := n3pos v). assert (ND : norm3 (vec (error_quat (subq z qs) q1)) <= 2 * d).
  { eapply Rle_trans; [apply vec_le|]. rewrite norm_prod. apply Rmult_le_compat; try apply normq0; [|exact Hz]. rewrite <- (sqrt_square 2) by lra. unfold normq. rnumg. apply sqrt_le_1_alt. apply abs3 in G. lra. }
  assert (Y1 : norm3 (sub3 y v) <= e + 2 * d). { rewrite (v_chain y (vec a) v). eapply Rle_trans; [apply nadd|]. rewrite err_sub. lra. }
  split; [exact Y1|]. split.
  - rewrite (v_back y v). eapply Rle_trans; [apply nadd|]. lra.
  - rewrite (v_back (vec a) v). eapply Rle_trans; [apply nadd|]. lra.
Qed.
Lemma fix_q (k1 sE : R) (del : v3) : 0 <= k1 <= 1 -> 0 <= sE <= 1 -> norm3 (sub3 del (scale3 k1 y)) <= sE * norm3 y ->
  let q' := normalizeq (fixed_q q1 del) in dotq q' q' = 1 /\ 0 <= qw (error_quat qs q') /\ norm3 (sub3 (vec (error_quat qs q')) (scale3 (1 - k1 / 2) v)) <= 60 * e + sE * norm3 y + d.
Proof.
  intros K1 SE HD q'. destruct CL as (A1 & A2 & A3). destruct fix_y as (Y1 & Y3 & Y4). destruct fix_facts as (W0 & E1 & E2 & E3). destruct (fixed_err q1 del qs) as [F1 F2]. cbv zeta in F1, F2. assert (FS := fixed_size q1 del). assert (V0 := n3pos v). assert (NP := err_scale (/ normq (fixed_q q1 del)) (fixed_q q1 del) qs).
  assert (ND : norm3 del <= 8 * W). { rewrite (v_back del (scale3 k1 y)). eapply Rle_trans; [apply nadd|]. rewrite nscale, Rabs_pos_eq by lra. assert (N := n3pos y). assert (sE * norm3 y <= 1 * norm3 y) by (apply Rmult_le_compat_r; lra). assert (k1 * norm3 y <= 1 * norm3 y) by (apply Rmult_le_compat_r; lra). lra. }
  set (qn := fixed_q q1 del) in *. set (G := dotq q1 q1) in *. set (Y := y) in *. set (a0 := qw a) in *. set (av := vec a) in *. set (ee := e) in *. clearbody G Y a0 av ee. assert (W2 : W * W <= 1 / 8 * W) by (apply Rmult_le_compat_r; lra). assert (W3 : 0 <= W * W) by apply sq0. apply abs3 in A2, A3.
  assert (DD : 0 <= dot3 del del <= 64 * (W * W)). { split; [apply dot3_nonneg|]. rewrite <- n3sq. assert (N := n3pos del). replace (64 * (W * W)) with (8 * W * (8 * W)) by ring. apply Rmult_le_compat; lra. }
  assert (MB : 1 - ee <= dotq qn qn <= 1 + 20 * ee).
  { rewrite FS. set (t := dot3 del del / 4). assert (T : 0 <= t <= 16 * (W * W)) by (unfold t; lra). assert (0 <= G * t) by (apply Rmult_le_pos; lra). assert (G * t <= (1 + 1 / 8) * (16 * (W * W))) by (apply Rmult_le_compat; lra). lra. }
  set (m := normq qn) in *. assert (M0 : 0 <= m) by apply normq0. assert (MM : m * m = dotq qn qn) by apply normq2. rewrite <- MM in MB. assert (MP : 1 / 2 < m) by nra. assert (MD : Rabs (m - 1) <= 20 * ee) by (apply Rabs_le; split; nra).
  assert (NZ : qn <> zeroq). { intros Z. assert (ZZ : m = 0) by (apply normq_zero, Z). lra. } assert (Q' : q' = scaleq (/ m) qn) by (apply normalizeq_nz, NZ). assert (IM : 0 < / m < 2). { split; [apply Rinv_0_lt_compat; lra|]. apply Rmult_lt_reg_l with m; [lra|]. rewrite Rinv_r by lra. lra. }
  assert (EQ : error_quat qs q' = scaleq (/ m) (error_quat qs qn)) by (rewrite Q'; exact NP). set (B := sub3 (sub3 av (scale3 (a0 / 2) del)) (scale3 (/ 2) (cross3 del av))) in *.
  split; [|split].
  - rewrite Q'. rewrite v_dot. rewrite <- MM. field. lra.
  - rewrite EQ. replace (qw (scaleq (/ m) (error_quat qs qn))) with (/ m * qw (error_quat qs qn)) by reflexivity. rewrite F2. apply Rmult_le_pos; [lra|]. assert (X3 := ndot del av). assert (norm3 del * norm3 av <= 8 * W * (2 * W)) by (apply Rmult_le_compat; try apply n3pos; lra). assert (X4 := abs3 _ _ X3). lra.
  - rewrite EQ. replace (vec (scaleq (/ m) (error_quat qs qn))) with (scale3 (/ m) (vec (error_quat qs qn))) by reflexivity. rewrite F1. fold B.
    assert (CB : norm3 (cross3 del av) <= 16 * (W * W)). { eapply Rle_trans; [apply ncross|]. apply Rle_trans with (8 * W * (2 * W)); [apply Rmult_le_compat; try apply n3pos; lra|lra]. }
    assert (AD : norm3 (scale3 (a0 / 2) del) <= 5 * W). { rewrite nscale, Rabs_pos_eq by lra. apply Rle_trans with (5 / 8 * (8 * W)); [apply Rmult_le_compat; try apply n3pos; lra|lra]. }
    assert (NB : norm3 B <= 8 * W). { unfold B. eapply Rle_trans; [apply nsub|]. assert (Z := nsub av (scale3 (a0 / 2) del)). rewrite (nscale (/ 2)), (Rabs_pos_eq (/ 2)) by lra. lra. }
    rewrite v_scal. eapply Rle_trans; [apply nadd|].
    assert (P1 : norm3 (scale3 (/ m - 1) B) <= 40 * ee). { rewrite nscale. replace (/ m - 1) with (- ((m - 1) * / m)) by (field; lra). rewrite Rabs_Ropp, Rabs_mult, (Rabs_pos_eq (/ m)) by lra. assert (N := n3pos B). assert (Rabs (m - 1) * / m <= 20 * ee * 2) by (apply Rmult_le_compat; try apply Rabs_pos; lra). apply Rle_trans with (20 * ee * 2 * 1); [apply Rmult_le_compat; try lra; apply Rmult_le_pos; [apply Rabs_pos|lra]|lra]. }
    assert (P2 : norm3 (sub3 B (scale3 (1 - k1 / 2) v)) <= 20 * ee + sE * norm3 Y + d).
    { unfold B. rewrite (v_fix2 a0 k1 av del v Y).
      eapply Rle_trans; [apply nadd|]. rewrite (nscale (- / 2)), Rabs_Ropp, (Rabs_pos_eq (/ 2)) by lra. assert (Z1 := nadd (sub3 av v) (scale3 (- ((a0 - 1) / 2)) del)). assert (Z2 := nadd (add3 (sub3 del (scale3 k1 Y)) (scale3 k1 (sub3 Y v))) (cross3 del av)). assert (Z3 := nadd (sub3 del (scale3 k1 Y)) (scale3 k1 (sub3 Y v))). rewrite (nscale k1), (Rabs_pos_eq k1) in Z3 by lra. rewrite nscale, Rabs_Ropp in Z1.
      assert (Z4 : Rabs ((a0 - 1) / 2) * norm3 del <= ee * 1). { unfold Rdiv. rewrite Rabs_mult, (Rabs_pos_eq (/ 2)) by lra. assert (Rabs (a0 - 1) <= ee) by (apply Rabs_le; lra). apply Rmult_le_compat; try apply n3pos; try lra. apply Rmult_le_pos; [apply Rabs_pos|lra]. }
      assert (Z5 : 0 <= sE * norm3 Y) by (apply Rmult_le_pos; [lra|apply n3pos]). assert (Z6 : k1 * norm3 (sub3 Y v) <= 1 * (ee + 2 * d)) by (apply Rmult_le_compat; try apply n3pos; lra). lra. }
    lra.
Qed.
End Fix.
