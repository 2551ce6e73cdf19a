(** * Lemmas: one cycle of filter, controller and satellite *)
From Coq Require Import Reals ZArith List Bool Lra Lia Psatz.
From Verif Require Import Num Vec Mat6 M_vector M_quaternion M_jday M_struct M_dyn M_ctrl M_obs S_rot S_dyn S_ctrl S_obs S_steady S_whole.
From Verif Require Import P_quat P_struct P_wheel P_dyn P_dyn2 P_obs P_obs3 P_ctrl P_ctrl2 P_ctrl3 P_ctrl4 P_ctrl5 P_conv P_ode P_tot3 P_orb3 P_posf P_detum P_samp P_samp2 Props_struct Props_ctrl2 Props_conv Props_samp Props_dist P_meas Props_meas.
From Verif Require Import P_steady Props_obs P_farr P_est1 P_est2 P_est3 Props_est P_tri1 P_tri2 P_tri3 P_tri4 P_tri5 Props_tri P_who1 P_who2 P_who3 P_who4.
Import ListNotations.
Local Open Scope R_scope.


(** the motion of a period *)
Lemma given_period w f qc F T y m t0 t1 w' : wc_sun w = Some f -> zone_free w -> spanning (s_rw (wc_sat w)) -> det3 (s_total_moment (wc_sat w)) <> 0 -> t0 < t1 -> unitq qc -> unitq (v_att (y t0)) ->
  held_given w m qc F T y t0 t1 w' ->
  w' = set_trig w (trig_step (qw (error_quat (v_att m) qc)) (wc_trig w)) /\
  exists z : R -> SVec, (forall t, t0 <= t <= t1 -> y t = z t) /\ forall t, t0 <= t <= t1 ->
    let E := fun u => error_quat (v_att (z u)) qc in let om := fun u => v_rate (z u) in let H := fun u => body_momentum (wc_sat w) (z u) in
    unitq (v_att (z t)) /\ derivq (fun u => v_att (z u)) t (scaleq 0.5 (product (v_att (z t)) (pure (om t)))) /\ unitq (E t) /\ derivq E t (scaleq 0.5 (product (E t) (pure (om t)))) /\
    deriv3 om t (add3 (add3 (sub3 (scale3 (- tr_mem (wc_trig w') * wc_alpha w) (vec (E t0))) (scale3 (wc_gamma w) (om t0))) (mv (s_inv_tot (wc_sat w)) (sub3 (cross3 (om t0) (H t0)) (cross3 (om t) (H t))))) (misled w qc (T t) (z t0) m)) /\
    deriv3 H t (sub3 (T t) (cross3 (om t) (H t))).
Proof.
  intros HS HZ SP DJ T01 UC U0 (u & acc & z & a & b & TR & US & WA & A0 & B0 & EQ & D).
  assert (OB : forall t, a < t < b -> obeys_given w qc F T z (fun _ => m) t) by (intros t Ht; exists w', u, acc; split; [exact TR|]; split; [exact US|]; split; [exact WA|apply D, Ht]).
  assert (GR := fun t Ht => given_rot w f qc F T z (fun _ => m) t HS HZ SP DJ (OB t Ht)). cbv zeta in GR.
  assert (EW : w' = set_trig w (trig_step (qw (error_quat (v_att m) qc)) (wc_trig w))). { destruct (GR t0 ltac:(lra)) as (_ & _ & _ & u' & X). rewrite TR in X. congruence. }
  split; [exact EW|]. assert (Z0 : y t0 = z t0) by (apply EQ; lra). exists z. split; [exact EQ|].
  assert (DQ : forall t, a < t < b -> derivq (fun u => v_att (z u)) t (scaleq 0.5 (product (v_att (z t)) (pure (v_rate (z t)))))) by (intros t Ht; apply (GR t Ht)).
  assert (UN : forall t, a < t < b -> unitq (v_att (z t))).
  { intros t Ht. unfold unitq. rewrite <- U0, Z0. apply (const_of_deriv (fun u => dotq (v_att (z u)) (v_att (z u))) a b); [|lra|lra].
    intros v Hv. eapply d_eq; [apply d_dotq; exact (DQ v Hv)|]. cbv beta. generalize (v_att (z v)) (v_rate (z v)). clear. intros [p q r s] [x y z]. unfold pure, product. replace 0.5 with (1/2) by lra. vunfoldg; cbn [x3 y3 z3 qw qx qy qz]; rnumg. field. }
  intros t Ht. assert (IT : a < t < b) by lra. cbv zeta. split; [apply UN, IT|]. split; [apply DQ, IT|]. split; [apply error_quat_unit; [apply UN, IT|exact UC]|]. split; [|split].
  - assert (X := dq_error (fun u => v_att (z u)) (fun _ => qc) t (v_rate (z t)) zero3 (DQ t IT) (dq_const qc t) (UN t IT) UC). cbv zeta in X. rewrite sandwich_0, sub3_0_r in X. exact X.
  - destruct (GR t IT) as (_ & X & _). eapply d3_eq; [exact X|]. unfold misled. rewrite EW. cbn [set_trig wc_trig].
    set (sg := tr_mem (trig_step _ _)). set (k := - sg * wc_alpha w). set (M := s_inv_tot (wc_sat w)).
    generalize (push (wc_sat w) (T t)) (cross3 (v_rate m) (body_momentum (wc_sat w) m)) (cross3 (v_rate (z t)) (body_momentum (wc_sat w) (z t))) (cross3 (v_rate (z t0)) (body_momentum (wc_sat w) (z t0))).
    generalize (vec (error_quat (v_att (z t)) qc)) (vec (error_quat (v_att (z t0)) qc)) (vec (error_quat (v_att m) qc)) (v_rate (z t)) (v_rate (z t0)) (v_rate m) (wc_gamma w) k M. clear.
    intros e1 e0 em o1 o0 om l k [[m1 m2 m3] [m4 m5 m6] [m7 m8 m9]] p gm gt g0. destruct e1 as [a1 a2 a3], e0 as [b1 b2 b3], em as [c1 c2 c3], o1 as [d1 d2 d3], o0 as [f1 f2 f3], om as [g1 g2 g3], p as [p1 p2 p3], gm as [i1 i2 i3], gt as [j1 j2 j3], g0 as [l1 l2 l3].
    unfold mv. vunfoldg. rnumg. cbn [x3 y3 z3]. apply mk3_c; ring.
  - apply (GR t IT).
Qed.
(** errors of the filter and of the tracking, in one number *)
Definition wz (al e s v p q r h : R) (bs : v3) (qc : quat) (u : SVec) (g : AttF) : R := fm3 p q r (fu (v_att u) g) (fx h bs g) + v * evw al e s (error_quat (v_att u) qc) (v_rate u).
Lemma sq_le (a b : R) : 0 <= b -> a * a <= b * b -> a <= b. Proof. intros B H. destruct (Rle_dec a b) as [L|L]; [exact L|nra]. Qed.

Lemma whole_cycle al ga mi mj N : 0 < al -> 0 < ga -> 0 <= mi -> 0 <= mj -> 0 <= N -> exists e h0, 0 < e /\ e * (/ (2 * al) + 1) <= 1 / 2 /\ 0 < h0 /\
  forall h lam mu nu, 0 < h <= h0 -> psd lam mu nu -> exists p q r m m2 eta la B n0 v z0 Kd Kv, 0 < m /\ m <= m2 /\ 0 < eta /\ 0 < la < 1 /\ 1 <= B /\ 0 < v /\ 0 < z0 /\ 0 < Kd /\ 0 < Kv /\
  (forall u x : v3, 0 <= fm3 p q r u x) /\
  (forall u x, m * ((norm3 u + norm3 x) * (norm3 u + norm3 x)) <= 2 * fm3 p q r u x) /\ (forall u x, fm3 p q r u x <= m2 * ((norm3 u + norm3 x) * (norm3 u + norm3 x))) /\
  forall w f qc F T y k t0 mm g g' w' bs d, wc_alpha w = al -> wc_gamma w = ga -> 0 < tr_hw (wc_trig w) -> pm1 (tr_mem (wc_trig w)) -> wc_sun w = Some f -> zone_free w -> spanning (s_rw (wc_sat w)) -> det3 (s_total_moment (wc_sat w)) <> 0 ->
  (forall v, norm3 (mv (s_inv_tot (wc_sat w)) v) <= mi * norm3 v) -> (forall v, norm3 (mv (s_total_moment (wc_sat w)) v) <= mj * norm3 v) ->
  unitq qc -> unitq (v_att (y t0)) -> 0 <= d -> d * d <= z0 -> (forall t, t0 <= t <= t0 + h -> norm3 (body_momentum (wc_sat w) (y t)) <= N) ->
  loop_cycle qc F T y bs d t0 (t0 + h) w w' mm g g' -> fit h lam mu nu eta k (v_att (y t0)) g ->
  let s := tr_mem (wc_trig w) in let Z := wz al e s v p q r h bs qc in Z (y t0) g <= z0 ->
  w' = w /\ unitq (v_att (y (t0 + h))) /\ fit h lam mu nu eta (S k) (v_att (y (t0 + h))) g' /\
  Z (y (t0 + h)) g' <= (if (k <? n0)%nat then B else la) * Z (y t0) g + Kd * (d * d) /\
  forall t, t0 <= t <= t0 + h -> unitq (v_att (y t)) /\ ev al s (error_quat (v_att (y t)) qc) (v_rate (y t)) <= Kv * (Z (y t0) g + d * d).
Proof.
  intros A G MI MJ HN. destruct (hold_period al ga mi N A G MI HN) as (e & l & h0 & r0 & C & E0 & EK & L0 & H0 & R0 & C0 & HOLD).
  exists e, h0. split; [exact E0|]. split; [exact EK|]. split; [lra|]. intros h lam mu nu Hh PS.
  destruct (filter_step h lam mu nu (proj1 Hh) PS) as (p & q & r & m & m2 & la & B & n0 & e1 & Cf & eta & M0 & M2 & LA & B1 & E1 & CF & ET & POS & LO2 & UP & FS).
  assert (HP : 0 < h) by apply Hh. set (a1 := 2 + 2 / h). assert (A1 : 2 < a1) by (unfold a1; assert (0 < 2 / h) by (apply Rdiv_lt_0_compat; lra); lra).
  set (Cm := mi * (2 * (mj + 1) + N + (mj + 1)) + al + ga). assert (CM : 0 < Cm). { unfold Cm. assert (0 <= mi * (2 * (mj + 1) + N + (mj + 1))) by (apply Rmult_le_pos; lra). lra. }
  set (Cq := 1 + mi + Cm). assert (CQ : 1 <= Cq) by (unfold Cq; lra).
  set (cD := 4 * (a1 * a1) / m + 2). assert (CD : 2 < cD). { unfold cD. assert (0 < 4 * (a1 * a1) / m) by (apply Rdiv_lt_0_compat; [assert (0 < a1 * a1) by (apply Rmult_lt_0_compat; lra); lra|lra]). lra. }
  set (cE := Cq * Cq * cD). assert (CQ2 : 0 < Cq * Cq) by (apply Rmult_lt_0_compat; lra). assert (CE : 0 < cE) by (apply Rmult_lt_0_compat; lra).
  set (cT := h * h * (8 + 2 * cE)). assert (HH0 : 0 < h * h) by (apply Rmult_lt_0_compat; lra). assert (CT : 0 < cT) by (apply Rmult_lt_0_compat; lra).
  set (v := (1 - la) / (4 * (C * h * cE))). assert (CHE : 0 < C * h * cE) by (apply Rmult_lt_0_compat; [apply Rmult_lt_0_compat; lra|exact CE]). assert (V0 : 0 < v) by (apply Rdiv_lt_0_compat; lra). assert (VE : v * (C * h * cE) = (1 - la) / 4) by (unfold v; field; split; [|split]; apply Rgt_not_eq; lra || exact CE).
  assert (LH : 0 < l * h) by (apply Rmult_lt_0_compat; lra). set (ka := Rmin ((1 - la) / 4) (v * (l * h) / 3)). assert (VLH : 0 < v * (l * h)) by (apply Rmult_lt_0_compat; assumption). assert (KA0 : 0 < ka) by (apply Rmin_pos; lra). assert (KA1 : ka <= (1 - la) / 4) by apply Rmin_l. assert (KA2 : ka <= v * (l * h) / 3) by apply Rmin_r.
  set (h1 := (1 + h) * (1 + h)). assert (H1p : 0 < h1) by (apply Rmult_lt_0_compat; lra). assert (E1S : 0 < e1 * e1) by (apply Rmult_lt_0_compat; lra).
  destruct (below [(2, r0); (2, 1); (2, al); (cE, r0); (cD, 1 / 16); (2, m * (e1 * e1)); (cT, e1 * e1 / 16); (h1, e1 * e1 / 16); (Cf * (cT * cT), ka)]) as (Am & AM0 & AMS).
  { assert (0 < m * (e1 * e1)) by (apply Rmult_lt_0_compat; lra). assert (0 < cT * cT) by (apply Rmult_lt_0_compat; lra). assert (0 < Cf * (cT * cT)) by (apply Rmult_lt_0_compat; lra).
    repeat (apply Forall_cons; [cbn [fst snd]; split; lra|]). apply Forall_nil. }
  repeat (apply Forall_cons_iff in AMS; let X := fresh "AX" in destruct AMS as (X & AMS); cbn [fst snd] in X). clear AMS.
  set (la2 := Rmax ((1 + la) / 2) (1 - l * h / 3)). assert (L2a := Rmax_l ((1 + la) / 2) (1 - l * h / 3)). assert (L2b := Rmax_r ((1 + la) / 2) (1 - l * h / 3)). fold la2 in L2a, L2b. assert (L2 : 0 < la2 < 1) by (split; [lra|apply Rmax_lub_lt; lra]).
  set (iv := / v). assert (IV : 0 < iv) by (apply Rinv_0_lt_compat, V0). set (z0 := Am / (2 + iv)). assert (Z0 : 0 < z0) by (apply Rdiv_lt_0_compat; lra). assert (ZA : (2 + iv) * z0 = Am) by (unfold z0; field; lra).
  set (Kd := Cf * h1 + 1). set (Kv := 4 * iv + cE + 4). exists p, q, r, m, m2, eta, la2, (B + 1), n0, v, z0, Kd, Kv.
  assert (CFH : 0 < Cf * h1) by (apply Rmult_lt_0_compat; lra).
  split; [exact M0|]. split; [exact M2|]. split; [apply ET|]. split; [exact L2|]. split; [lra|]. split; [exact V0|]. split; [exact Z0|]. split; [unfold Kd; lra|]. split; [unfold Kv; lra|]. split; [exact POS|]. split; [exact LO2|]. split; [exact UP|].
  intros w f qc F T y k t0 mm g g' w' bs d EA EG HW PM HS HZ SP DJ BI BJ UC U0 D0 DZ NH LC FIT s Z ZZ.
  assert (SS := pm1_sq _ PM). fold s in SS. destruct LC as (MA & (gs & GS & MR) & MW & HG & HT & (gm & zt & RM & ZT & AF)). replace (t0 + h - t0) with h in AF by ring.
  (* sizes at the start *)
  set (Fk := fm3 p q r (fu (v_att (y t0)) g) (fx h bs g)). set (Ek := error_quat (v_att (y t0)) qc). set (V := ev al s Ek (v_rate (y t0))). set (W := evw al e s Ek (v_rate (y t0))).
  assert (UE : unitq Ek) by (apply error_quat_unit; assumption). assert (ZW : Z (y t0) g = Fk + v * W) by reflexivity. assert (F0 : 0 <= Fk) by apply POS.
  destruct (ev_facts al s Ek (v_rate (y t0)) A SS UE) as (X1 & X2 & _ & X4 & _ & X6). fold V in X4, X6. assert (NE := evw_near al e s Ek (v_rate (y t0)) A E0 SS UE). fold V W in NE. apply rabs_b in NE.
  assert (EKV : e * (/ (2 * al) + 1) * V <= 1 / 2 * V) by (apply Rmult_le_compat_r; lra). assert (VW : V <= 2 * W) by lra. assert (WV : 2 / 3 * W <= V) by lra. assert (W0 : 0 <= W) by lra.
  assert (VWZ : v * W <= z0) by lra. assert (WZ : W <= iv * (v * W)) by (right; unfold iv; field; lra). assert (WZ2 : iv * (v * W) <= iv * z0) by (apply Rmult_le_compat_l; lra). assert (FZ : Fk <= z0) by (assert (0 <= v * W) by (apply Rmult_le_pos; lra); lra).
  set (S := W + Fk + d * d). assert (DD0 : 0 <= d * d) by (apply Rmult_le_pos; lra). assert (SA : S <= Am) by (unfold S; lra). assert (S0 : 0 <= S) by (unfold S; lra).
  assert (V1 : V <= 1) by lra. assert (Vr : V <= r0) by lra. assert (Va : V <= al) by lra.
  set (sk := norm3 (fu (v_att (y t0)) g) + norm3 (fx h bs g)). assert (NU := norm3_pos (fu (v_att (y t0)) g)). assert (NX := norm3_pos (fx h bs g)). assert (SK0 : 0 <= sk) by (unfold sk; lra).
  assert (SK2 := LO2 (fu (v_att (y t0)) g) (fx h bs g)). fold sk in SK2. fold Fk in SK2.
  assert (SKE : sk <= e1). { apply sq_le; [lra|]. apply (Rmult_le_reg_l m); [exact M0|]. assert (Fk <= Am) by (unfold S in SA; lra). lra. }
  set (dk := a1 * sk + d). assert (DK0 : 0 <= dk) by (unfold dk; assert (0 <= a1 * sk) by (apply Rmult_le_pos; lra); lra).
  assert (DK2 : dk * dk <= cD * (Fk + d * d)).
  { assert (X := pow2_ge_0 (a1 * sk - d)). assert (Y : sk * sk <= 2 * Fk / m) by (apply (Rmult_le_reg_l m); [exact M0|]; replace (m * (2 * Fk / m)) with (2 * Fk) by (field; lra); exact SK2).
    assert (Y2 : a1 * a1 * (sk * sk) <= a1 * a1 * (2 * Fk / m)) by (apply Rmult_le_compat_l; [apply Rmult_le_pos; lra|exact Y]). assert (P1 : 0 <= 4 * (a1 * a1) / m) by (unfold cD in CD; lra). assert (P2 : 0 <= 4 * (a1 * a1) / m * (d * d)) by (apply Rmult_le_pos; assumption).
    replace (cD * (Fk + d * d)) with (2 * (a1 * a1 * (2 * Fk / m)) + 2 * Fk + 4 * (a1 * a1) / m * (d * d) + 2 * (d * d)) by (unfold cD; field; lra). unfold dk. lra. }
  assert (FD : Fk + d * d <= Am) by (unfold S in SA; lra). assert (FD0 : 0 <= Fk + d * d) by lra.
  assert (DK1 : dk <= 1 / 4). { apply sq_le; [lra|]. assert (cD * (Fk + d * d) <= cD * Am) by (apply Rmult_le_compat_l; lra). lra. }
  set (d' := Cq * dk). assert (D'0 : 0 <= d') by (apply Rmult_le_pos; lra). assert (D'2 : d' * d' <= cE * (Fk + d * d)). { unfold d', cE. replace (Cq * dk * (Cq * dk)) with (Cq * Cq * (dk * dk)) by ring. rewrite (Rmult_assoc (Cq * Cq)). apply Rmult_le_compat_l; lra. }
  assert (D'r : d' * d' <= r0). { assert (cE * (Fk + d * d) <= cE * Am) by (apply Rmult_le_compat_l; lra). lra. }
  assert (DDK : d <= dk) by (unfold dk; assert (0 <= a1 * sk) by (apply Rmult_le_pos; lra); lra).
  (* the state given to the controller *)
  destruct FIT as (FU & FE & FQ & FC). assert (FE' := FE). rewrite err_parts in FE'. destruct (err_dist _ _ FU U0 FE') as [_ ED].
  assert (BX : norm3 (sub3 bs (a_b g)) = 2 / h * norm3 (fx h bs g)) by (unfold fx; rewrite norm3_scal, Rabs_pos_eq by lra; field; lra).
  assert (I2H : 0 < 2 / h) by (apply Rdiv_lt_0_compat; lra). assert (PX1 : 0 <= 2 / h * norm3 (fu (v_att (y t0)) g)) by (apply Rmult_le_pos; lra). assert (PX2 : 0 <= 2 / h * norm3 (fx h bs g)) by (apply Rmult_le_pos; lra).
  assert (AS : astray (wc_sat w) dk (y t0) mm).
  { split; [|split].
    - rewrite MA. rewrite <- normq2. fold (fu (v_att (y t0)) g) in ED. assert (N1 := normq0 (subq (a_q g) (v_att (y t0)))). assert (N2 : normq (subq (a_q g) (v_att (y t0))) <= dk) by (unfold dk, a1, sk; lra). replace (dk ^ 2) with (dk * dk) by ring. apply Rmult_le_compat; assumption.
    - rewrite MR. replace (sub3 (sub3 gs (a_b g)) (v_rate (y t0))) with (add3 (sub3 gs (add3 (v_rate (y t0)) bs)) (sub3 bs (a_b g))) by (generalize (a_b g) (v_rate (y t0)); clear; vring).
      eapply Rle_trans; [apply norm3_triangle|]. rewrite BX. unfold dk, a1, sk. lra.
    - lra. }
  (* the controller's period *)
  destruct (given_period w f qc F T y mm t0 (t0 + h) w' HS HZ SP DJ ltac:(lra) UC U0 HG) as (EW & z & EQ & PER). cbv zeta in PER.
  assert (I0 : t0 <= t0 <= t0 + h) by lra. assert (I1 : t0 <= t0 + h <= t0 + h) by lra. assert (Y0 : z t0 = y t0) by (symmetry; apply EQ, I0). assert (Y1 : z (t0 + h) = y (t0 + h)) by (symmetry; apply EQ, I1).
  assert (XH : 1 / 2 <= s * qw Ek). { assert (K : V = 2 * al * (1 - s * qw Ek) + dot3 (v_rate (y t0)) (v_rate (y t0)) / 2) by reflexivity. assert (K2 : al * (1 - s * qw Ek) <= al * (1 / 2)) by lra. apply Rmult_le_reg_l in K2; lra. }
  assert (TK : trig_step (qw (error_quat (v_att mm) qc)) (wc_trig w) = wc_trig w).
  { destruct AS as (A1' & _). destruct (err_shift _ _ qc dk DK0 UC A1') as (QE & _). fold Ek in QE. apply rabs_b in QE. apply trig_keep. fold s. destruct PM as [PM|PM]; fold s in PM; rewrite PM in *; lra. }
  assert (WW : w' = w) by (rewrite EW, TK; apply set_trig_id). split; [exact WW|].
  set (E := fun u => error_quat (v_att (z u)) qc). set (om := fun u => v_rate (z u)). set (H := fun u => body_momentum (wc_sat w) (z u)).
  assert (MS : forall t, t0 <= t <= t0 + h -> norm3 (misled w qc (T t) (z t0) mm) <= d').
  { intros t Ht. rewrite Y0. assert (R2 : norm3 (v_rate (y t0)) <= 2) by (apply P_exist3.norm3_le_sq; lra).
    assert (PU : norm3 (push (wc_sat w) (T t)) <= mi * d) by (unfold push; eapply Rle_trans; [apply BI|]; apply Rmult_le_compat_l; [exact MI|apply HT, Ht]).
    assert (X := misled_size w qc (T t) (y t0) mm mi mj N 2 dk (mi * d) ltac:(lra) ltac:(lra) HW PM UC MI MJ BI BJ (NH t0 I0) R2 ltac:(lra) AS PU). rewrite EA, EG in X. fold Cm in X. eapply Rle_trans; [exact X|]. unfold d', Cq. assert (mi * d <= mi * dk) by (apply Rmult_le_compat_l; lra). lra. }
  destruct (HOLD s h t0 (s_inv_tot (wc_sat w)) E om H (fun t => add3 (add3 (sub3 (scale3 (- s * al) (vec (E t0))) (scale3 ga (om t0))) (mv (s_inv_tot (wc_sat w)) (sub3 (cross3 (om t0) (H t0)) (cross3 (om t) (H t))))) (misled w qc (T t) (z t0) mm)) (fun t => misled w qc (T t) (z t0) mm) T d' SS Hh D'0) as (PV & PW).
  { intros t Ht. destruct (PER t Ht) as (_ & _ & Q1 & Q2 & Q3 & Q4). split; [exact Q1|]. split; [exact Q2|]. split; [rewrite WW, EA, EG in Q3; exact Q3|]. split; [exact Q4|]. split; [unfold H; rewrite <- (EQ t Ht); apply NH, Ht|]. split; [assert (Q5 := HT t Ht); unfold d'; assert (1 * dk <= Cq * dk) by (apply Rmult_le_compat_r; lra); lra|]. split; [apply MS, Ht|reflexivity]. }
  { exact BI. }
  { unfold E, om. rewrite Y0. exact Vr. }
  { exact D'r. }
  assert (EV0 : ev al s (E t0) (om t0) = V) by (unfold E, om; rewrite Y0; reflexivity). assert (EW0 : evw al e s (E t0) (om t0) = W) by (unfold E, om; rewrite Y0; reflexivity). rewrite EV0, EW0 in PW.
  assert (W'E : evw al e s (E (t0 + h)) (om (t0 + h)) = evw al e s (error_quat (v_att (y (t0 + h))) qc) (v_rate (y (t0 + h)))) by (unfold E, om; rewrite Y1; reflexivity). set (W' := evw al e s (error_quat (v_att (y (t0 + h))) qc) (v_rate (y (t0 + h)))) in *. rewrite W'E in PW.
  assert (U1 : unitq (v_att (y (t0 + h)))) by (rewrite <- Y1; apply (PER _ I1)). split; [exact U1|].
  assert (PVt : forall t, t0 <= t <= t0 + h -> ev al s (error_quat (v_att (y t)) qc) (v_rate (y t)) <= 2 * V + d' * d'). { intros t Ht. destruct (PV t Ht) as (X & _). rewrite EV0 in X. rewrite (EQ t Ht). exact X. }
  (* the turn over the period *)
  set (O := sqrt (2 * (2 * V + d' * d'))). assert (OO : O * O = 2 * (2 * V + d' * d')) by (apply sqrt_sqrt; assert (0 <= d' * d') by (apply Rmult_le_pos; assumption); lra). assert (O0 : 0 <= O) by apply sqrt_pos.
  set (th := O * h). assert (TH0 : 0 <= th) by (apply Rmult_le_pos; lra). assert (TH2 : th * th <= cT * S).
  { unfold th. replace (O * h * (O * h)) with (h * h * (O * O)) by ring. rewrite OO. unfold cT. rewrite (Rmult_assoc (h * h)). apply Rmult_le_compat_l; [lra|]. unfold S. assert (0 <= cE * W) by (apply Rmult_le_pos; lra). lra. }
  assert (TH3 : cT * S <= cT * Am) by (apply Rmult_le_compat_l; lra). assert (TH1 : th <= e1 / 4) by (apply sq_le; lra).
  destruct RM as (an & DA & GM).
  destruct (turn_over (fun u => v_att (z u)) om an t0 h O HP O0) as (c & Tv & QT & TU).
  { fold th. lra. }
  { intros t Ht. destruct (PER t Ht) as (Q1 & Q2 & _). split; [exact Q1|]. split; [exact Q2|]. split; [|unfold om; rewrite <- (EQ t Ht); apply DA, Ht].
    apply P_exist3.norm3_le_sq; [exact O0|]. rewrite OO. unfold om. rewrite <- (EQ t Ht). assert (X := PVt t Ht). assert (UT : unitq (v_att (y t))) by (rewrite (EQ t Ht); exact Q1).
    destruct (ev_facts al s (error_quat (v_att (y t)) qc) (v_rate (y t)) A SS ltac:(apply error_quat_unit; assumption)) as (_ & _ & _ & X5 & _). lra. }
  fold th in TU. rewrite Y0, Y1 in QT. set (mn := scale3 (/ h) (sub3 (an (t0 + h)) (an t0))).
  assert (TM : scale3 (h / 2) mn = scale3 (1 / 2) (sub3 (an (t0 + h)) (an t0))) by (unfold mn; rewrite scale_scale; f_equal; field; lra). rewrite <- TM in TU.
  replace (t0 + h - t0) with h in GM by ring. fold mn in GM.
  set (dd := (1 + h) * d). assert (HD0 : 0 <= h * d) by (apply Rmult_le_pos; lra). assert (DDp : 0 <= dd) by (unfold dd; lra). assert (DDs : dd * dd = h1 * (d * d)) by (unfold dd, h1; ring).
  assert (DD4 : dd <= e1 / 4). { apply sq_le; [lra|]. assert (h1 * (d * d) <= h1 * Am) by (apply Rmult_le_compat_l; lra). lra. }
  destruct (FS k (v_att (y t0)) bs mn c Tv gm zt g g' dd th U0 (conj FU (conj FE (conj FQ FC))) SKE ltac:(lra) ltac:(lra) TU) as (FIT' & FF).
  { rewrite <- QT. unfold dd. lra. }
  { rewrite norm3_scal, Rabs_pos_eq by lra. assert (h / 2 * norm3 (sub3 gm (add3 mn bs)) <= h / 2 * d) by (apply Rmult_le_compat_l; lra). unfold dd. lra. }
  { exact AF. }
  rewrite <- QT in FIT', FF. split; [exact FIT'|]. fold Fk in FF. set (F' := fm3 p q r (fu (v_att (y (t0 + h))) g') (fx h bs g')) in *.
  assert (Z'W : Z (y (t0 + h)) g' = F' + v * W') by reflexivity. split.
  - rewrite Z'W, ZW.
    assert (T4 : th * th * (th * th) <= cT * cT * Am * S). { apply (Rle_trans _ (cT * S * (cT * Am))); [apply Rmult_le_compat; try (apply Rmult_le_pos; assumption); lra|right; ring]. }
    assert (T5 : Cf * (th * th * (th * th)) <= ka * S). { apply (Rle_trans _ (Cf * (cT * cT * Am * S))); [apply Rmult_le_compat_l; lra|]. replace (Cf * (cT * cT * Am * S)) with (Cf * (cT * cT) * Am * S) by ring. apply Rmult_le_compat_r; assumption. }
    assert (T6 : C * h * (d' * d') <= C * h * (cE * (Fk + d * d))) by (apply Rmult_le_compat_l; [apply Rmult_le_pos; lra|exact D'2]).
    assert (T7 : l * h * (2 / 3 * W) <= l * h * V) by (apply Rmult_le_compat_l; lra).
    assert (T8 : v * W' <= v * (W - l * h * (2 / 3 * W) + C * h * (cE * (Fk + d * d)))) by (apply Rmult_le_compat_l; lra).
    replace (v * (W - l * h * (2 / 3 * W) + C * h * (cE * (Fk + d * d)))) with (v * W - 2 / 3 * (v * (l * h)) * W + v * (C * h * cE) * (Fk + d * d)) in T8 by ring. rewrite VE in T8. rewrite DDs in FF.
    assert (T9 : ka * Fk <= (1 - la) / 4 * Fk) by (apply Rmult_le_compat_r; lra). assert (T10 : ka * (d * d) <= (1 - la) / 4 * (d * d)) by (apply Rmult_le_compat_r; lra). assert (T11 : ka * W <= v * (l * h) / 3 * W) by (apply Rmult_le_compat_r; lra).
    assert (T12 : (1 - la) / 2 * (d * d) <= 1 * (d * d)) by (apply Rmult_le_compat_r; lra). unfold S in T5.
    assert (TOT : F' + v * W' <= (if (k <? n0)%nat then B else la) * Fk + (1 - la) / 2 * Fk + v * (1 - l * h / 3) * W + Kd * (d * d)) by (unfold Kd; lra).
    eapply Rle_trans; [exact TOT|]. apply Rplus_le_compat_r. assert (VW0 : 0 <= v * W) by (apply Rmult_le_pos; lra). replace (v * (1 - l * h / 3) * W) with ((1 - l * h / 3) * (v * W)) by ring.
    destruct (k <? n0)%nat.
    + assert ((1 - l * h / 3) * (v * W) <= (B + 1) * (v * W)) by (apply Rmult_le_compat_r; lra). assert ((1 - la) / 2 * Fk <= 1 * Fk) by (apply Rmult_le_compat_r; lra). lra.
    + assert ((1 - l * h / 3) * (v * W) <= la2 * (v * W)) by (apply Rmult_le_compat_r; lra). assert ((1 + la) / 2 * Fk <= la2 * Fk) by (apply Rmult_le_compat_r; lra). lra.
  - intros t Ht. split; [rewrite (EQ t Ht); apply (PER t Ht)|]. eapply Rle_trans; [apply PVt, Ht|]. rewrite ZW. unfold Kv. assert (VW0 : 0 <= v * W) by (apply Rmult_le_pos; lra). assert (0 <= cE * (v * W)) by (apply Rmult_le_pos; lra). assert (0 <= iv * Fk) by (apply Rmult_le_pos; lra). assert (0 <= iv * (d * d)) by (apply Rmult_le_pos; lra). lra.
Qed.
