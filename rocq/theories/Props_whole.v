(** * Property C116: the whole feedback loop *)
From Coq Require Import Reals ZArith List Bool Lra Lia Psatz.
From Verif Require Import Num Vec Mat6 M_vector M_quaternion M_jday M_struct M_dyn M_ctrl M_obs S_rot S_dyn S_ctrl S_obs S_steady S_whole.
From Verif Require Import P_quat P_struct P_wheel P_dyn P_dyn2 P_obs P_obs3 P_ctrl P_ctrl2 P_ctrl3 P_ctrl4 P_ctrl5 P_conv P_ode P_tot3 P_orb3 P_posf P_detum P_samp P_samp2 Props_struct Props_ctrl2 Props_conv Props_samp Props_dist P_meas Props_meas.
From Verif Require Import P_steady Props_obs P_farr P_est1 P_est2 P_est3 Props_est P_tri1 P_tri2 P_tri3 P_tri4 P_tri5 Props_tri P_loop3 P_who1 P_who2 P_who3 P_who4 P_who5 P_who6 P_who7 P_who8.
Import ListNotations.
Local Open Scope R_scope.

(** how far the body is from rest at the target *)
Definition astir (s : R) (qc : quat) (v : SVec) : R := sqrt (off_target s qc v + rate2 v).

Lemma off_pos s qc v : 0 <= off_target s qc v + rate2 v.
Proof. unfold off_target, rate2. cbv zeta. assert (X := dot3_nonneg (v_rate v)). assert (Y : 0 <= dotq (subq (v_att v) (scaleq s qc)) (subq (v_att v) (scaleq s qc))) by (rewrite <- normq2; apply sq0). lra. Qed.

(** for all gains, bounds on the inertia, its inverse and the momentum there is a longest period; for every shorter period and every even covariance at the start there are a size, a factor and a rate:
    if the body starts within that size of rest at the target, the filter within it of the true attitude and gyro bias, and every sensor and torque stays within d, then the errors of pointing, rate,
    estimated attitude and estimated bias all fall exponentially to a size given by d, at and between the calls of the controller, and the trigger never flips *)
Theorem C116_whole : forall al ga mi mj N, 0 < al -> 0 < ga -> 0 <= mi -> 0 <= mj -> 0 <= N -> exists h0, 0 < h0 /\
  forall h lam mu nu, 0 < h <= h0 -> (forall x y, 0 <= lam * (x * x) + 2 * mu * (x * y) + nu * (y * y)) -> exists eps K rho, 0 < eps /\ 0 < K /\ 0 < rho < 1 /\
  forall w f qc F T y bs d c m fl, wc_alpha w = al -> wc_gamma w = ga -> 0 < tr_hw (wc_trig w) -> pm1 (tr_mem (wc_trig w)) -> wc_sun w = Some f -> zone_free w -> spanning (s_rw (wc_sat w)) -> det3 (s_total_moment (wc_sat w)) <> 0 ->
  (forall v, norm3 (mv (s_inv_tot (wc_sat w)) v) <= mi * norm3 v) -> (forall v, norm3 (mv (s_total_moment (wc_sat w)) v) <= mj * norm3 v) ->
  unitq qc -> unitq (v_att (y 0)) -> unitq (a_q (fl O)) -> a_dq (fl O) = zero3 -> even_cov (a_P (fl O)) lam mu nu ->
  (forall t, 0 <= t -> norm3 (body_momentum (wc_sat w) (y t)) <= N) -> c O = w -> whole_loop qc F T y bs d h c m fl -> 0 <= d <= eps ->
  let s := tr_mem (wc_trig w) in let e0 := astir s qc (y 0) + missed (v_att (y 0)) bs (fl O) in e0 <= eps ->
  forall k, c k = w /\ missed (v_att (y (INR k * h))) bs (fl k) <= K * (rho ^ k * e0 + d) /\
    forall t, INR k * h <= t <= INR (S k) * h -> astir s qc (y t) <= K * (rho ^ k * e0 + d).
Proof.
  intros al ga mi mj N A G MI MJ HN. destruct (whole_cycle al ga mi mj N A G MI MJ HN) as (e & h0 & E0 & EK & H0 & WC). exists h0. split; [exact H0|].
  intros h lam mu nu Hh PS0. assert (PS : psd lam mu nu). { intros x y. unfold fm. assert (X := PS0 x y). lra. } clear PS0.
  destruct (WC h lam mu nu Hh PS) as (p & q & r & m0 & m2 & eta & la & B & n0 & v & z0 & Kd & Kv & M0 & M2 & ET & LA & B1 & V0 & Z0 & KD & KV & POS & LO2 & UP & STEP). clear WC.
  destruct (fade la B n0 z0 LA B1 Z0) as (ep & K1 & EP & K10 & FADE).
  set (cZ := m2 * ((1 + h) * (1 + h)) + v * (3 / 2 * (al + 1))). assert (HP : 0 < h) by apply Hh. assert (CZ : 0 < cZ). { unfold cZ. assert (0 < m2 * ((1 + h) * (1 + h))) by (apply Rmult_lt_0_compat; [lra|apply Rmult_lt_0_compat; lra]). assert (0 < v * (3 / 2 * (al + 1))) by (apply Rmult_lt_0_compat; lra). lra. }
  destruct (below [(1, 1); (cZ, ep); (Kd, ep); (1, z0)]) as (eps & EPS & AMS). { repeat (apply Forall_cons; [cbn [fst snd]; split; lra|]). apply Forall_nil. }
  repeat (apply Forall_cons_iff in AMS; let X := fresh "AX" in destruct AMS as (X & AMS); cbn [fst snd] in X). clear AMS.
  set (KZ := K1 * (cZ + Kd)). assert (KZ0 : 0 < KZ) by (apply Rmult_lt_0_compat; lra).
  set (Ka := (2 + 2 / h) * sqrt (2 * KZ / m0)). set (Kb := sqrt ((/ al + 2) * (Kv * (KZ + 1)))). assert (I2H : 0 < 2 / h) by (apply Rdiv_lt_0_compat; lra). assert (IA : 0 < / al) by (apply Rinv_0_lt_compat, A).
  assert (KA0 : 0 <= Ka) by (apply Rmult_le_pos; [lra|apply sqrt_pos]). assert (KB0 : 0 <= Kb) by apply sqrt_pos.
  exists eps, (Ka + Kb + 1), (sqrt la). split; [exact EPS|]. split; [lra|]. assert (RH : 0 < sqrt la < 1) by (split; [apply sqrt_lt_R0; lra|rewrite <- sqrt_1; apply sqrt_lt_1; lra]). split; [exact RH|]. set (rho := sqrt la) in *. assert (RR : rho * rho = la) by (apply sqrt_sqrt; lra).
  intros w f qc F T y bs d c m fl EA EG HW PM HS HZ SP DJ BI BJ UC U0 UF FQ FC NH C0 LOOP HD s e0 HE0.
  assert (SS := pm1_sq _ PM). fold s in SS. set (X0 := astir s qc (y 0)) in *. set (Y0 := missed (v_att (y 0)) bs (fl O)) in *.
  assert (X00 : 0 <= X0) by apply sqrt_pos. assert (NQ0 := normq0 (subq (a_q (fl O)) (v_att (y 0)))). assert (NB0 := n3pos (sub3 (a_b (fl O)) bs)). assert (Y00 : 0 <= Y0) by (unfold Y0, missed; lra). assert (E00 : 0 <= e0) by (unfold e0; lra).
  assert (SD : 0 <= dotq (a_q (fl O)) (v_att (y 0))) by (apply near_side; [exact UF|exact U0|unfold e0, Y0, missed in HE0; lra]). destruct (err_dist _ _ UF U0 SD) as [ED1 _].
  set (Z := wz al e s v p q r h bs qc). set (zk := fun k => Rmax 0 (Z (y (INR k * h)) (fl k))).
  assert (ZP : forall u g, unitq (v_att u) -> fm3 p q r (fu (v_att u) g) (fx h bs g) <= Z u g /\ 0 <= Z u g).
  { intros u g U. assert (X1 := POS (fu (v_att u) g) (fx h bs g)). assert (UE : unitq (error_quat (v_att u) qc)) by (apply error_quat_unit; assumption). destruct (ev_facts al s _ (v_rate u) A SS UE) as (_ & _ & _ & _ & _ & X6). assert (NE := evw_near al e s _ (v_rate u) A E0 SS UE). apply rabs_b in NE.
    set (V := ev al s (error_quat (v_att u) qc) (v_rate u)) in *. assert (EKV : e * (/ (2 * al) + 1) * V <= 1 / 2 * V) by (apply Rmult_le_compat_r; lra). assert (0 <= v * evw al e s (error_quat (v_att u) qc) (v_rate u)) by (apply Rmult_le_pos; lra). unfold Z, wz. lra. }
  set (D := Kd * (d * d)). assert (DD0 : 0 <= d * d) by (apply Rmult_le_pos; lra). assert (DDE : d * d <= eps) by (assert (d * d <= eps * 1) by (apply Rmult_le_compat; lra); lra). assert (HDD : 0 <= D <= ep). { unfold D. split; [apply Rmult_le_pos; lra|]. assert (Kd * (d * d) <= Kd * eps) by (apply Rmult_le_compat_l; lra). lra. }
  assert (ZO : zk O <= cZ * (e0 * e0)).
  { unfold zk. cbn [INR]. rewrite Rmult_0_l. apply Rmax_lub; [apply Rmult_le_pos; [lra|apply Rmult_le_pos; lra]|]. unfold Z, wz, cZ. rewrite Rmult_plus_distr_r. apply Rplus_le_compat.
    - eapply Rle_trans; [apply UP|]. rewrite Rmult_assoc. apply Rmult_le_compat_l; [lra|]. set (sk := norm3 (fu (v_att (y 0)) (fl O)) + norm3 (fx h bs (fl O))). assert (N1 := n3pos (fu (v_att (y 0)) (fl O))). assert (N2 := n3pos (fx h bs (fl O))). assert (SK : sk <= (1 + h) * e0).
      { assert (BX : norm3 (fx h bs (fl O)) = h / 2 * norm3 (sub3 (a_b (fl O)) bs)). { unfold fx. replace (scale3 (h / 2) (sub3 bs (a_b (fl O)))) with (scale3 (- (h / 2)) (sub3 (a_b (fl O)) bs)) by (generalize (a_b (fl O)); clear; vring). rewrite nscale, Rabs_Ropp, Rabs_pos_eq by lra. reflexivity. }
        unfold sk. rewrite BX. change (norm3 (fu (v_att (y 0)) (fl O)) <= normq (subq (a_q (fl O)) (v_att (y 0)))) in ED1. unfold e0, Y0, missed. assert (0 <= h * normq (subq (a_q (fl O)) (v_att (y 0)))) by (apply Rmult_le_pos; lra). assert (0 <= h * norm3 (sub3 (a_b (fl O)) bs)) by (apply Rmult_le_pos; lra). assert (0 <= h * X0) by (apply Rmult_le_pos; lra). lra. }
      replace ((1 + h) * (1 + h) * (e0 * e0)) with ((1 + h) * e0 * ((1 + h) * e0)) by ring. assert (0 <= sk) by (unfold sk; lra). apply Rmult_le_compat; assumption.
    - rewrite Rmult_assoc. apply Rmult_le_compat_l; [lra|]. assert (UE : unitq (error_quat (v_att (y 0)) qc)) by (apply error_quat_unit; assumption). destruct (ev_facts al s _ (v_rate (y 0)) A SS UE) as (_ & _ & _ & _ & _ & X6). assert (NE := evw_near al e s _ (v_rate (y 0)) A E0 SS UE). apply rabs_b in NE.
      assert (EO := en_off al s qc (y 0) SS U0 UC). change (en al s qc (y 0)) with (ev al s (error_quat (v_att (y 0)) qc) (v_rate (y 0))) in EO. set (V := ev al s (error_quat (v_att (y 0)) qc) (v_rate (y 0))) in *. assert (EKV : e * (/ (2 * al) + 1) * V <= 1 / 2 * V) by (apply Rmult_le_compat_r; lra).
      assert (XX : X0 * X0 = off_target s qc (y 0) + rate2 (y 0)) by (apply sqrt_sqrt, off_pos). assert (O1 : 0 <= off_target s qc (y 0)) by (unfold off_target; cbv zeta; rewrite <- normq2; apply sq0). assert (O2 : 0 <= rate2 (y 0)) by apply dot3_nonneg.
      assert (VX : V <= (al + 1) * (X0 * X0)). { rewrite XX, EO. assert (0 <= al * rate2 (y 0)) by (apply Rmult_le_pos; lra). lra. } assert (XE : X0 * X0 <= e0 * e0) by (apply Rmult_le_compat; unfold e0; lra). assert ((al + 1) * (X0 * X0) <= (al + 1) * (e0 * e0)) by (apply Rmult_le_compat_l; lra). lra. }
  assert (E0E : e0 * e0 <= eps) by (assert (e0 * e0 <= eps * 1) by (apply Rmult_le_compat; lra); lra). assert (ZOE : zk O <= ep). { eapply Rle_trans; [exact ZO|]. assert (cZ * (e0 * e0) <= cZ * eps) by (apply Rmult_le_compat_l; lra). lra. }
  set (I := fun k => c k = w /\ unitq (v_att (y (INR k * h))) /\ fit h lam mu nu eta k (v_att (y (INR k * h))) (fl k)).
  assert (I0 : I O). { unfold I. cbn [INR]. rewrite Rmult_0_l. split; [exact C0|]. split; [exact U0|]. split; [exact UF|]. split; [rewrite err_parts; exact SD|]. split; [exact FQ|]. cbn [covs]. apply even_within; [lra|exact PS|exact FC]. }
  assert (ST : forall k, INR (S k) * h = INR k * h + h) by (intros k; rewrite S_INR; ring). assert (KH : forall k, 0 <= INR k * h) by (intros k; apply Rmult_le_pos; [apply pos_INR|lra]).
  assert (CYC : forall k, I k -> zk k <= z0 -> I (S k) /\ zk (S k) <= (if (k <? n0)%nat then B else la) * zk k + D /\ forall t, INR k * h <= t <= INR (S k) * h -> unitq (v_att (y t)) /\ ev al s (error_quat (v_att (y t)) qc) (v_rate (y t)) <= Kv * (zk k + d * d)).
  { intros k (Ck & Uk & Fk) Lk. destruct (ZP (y (INR k * h)) (fl k) Uk) as (_ & Zp). assert (ZE : zk k = Z (y (INR k * h)) (fl k)) by (apply Rmax_right, Zp). rewrite ZE in *. assert (LK := LOOP k). rewrite Ck, ST in LK.
    destruct (STEP w f qc F T y k (INR k * h) (m k) (fl k) (fl (S k)) (c (S k)) bs d EA EG HW PM HS HZ SP DJ BI BJ UC Uk (proj1 HD) ltac:(lra) ltac:(intros t Ht; apply NH; assert (X := KH k); lra) LK Fk) as (S1 & S2 & S3 & S4 & S5); [exact Lk|]. fold s in S4, S5. fold Z in S4, S5. rewrite <- ST in S2, S3, S4, S5.
    split; [split; [exact S1|]; split; [exact S2|exact S3]|]. split; [|exact S5]. destruct (ZP (y (INR (S k) * h)) (fl (S k)) S2) as (_ & Zp'). unfold zk at 1. rewrite Rmax_right by exact Zp'. exact S4. }
  assert (FIN := FADE I zk D HDD (fun k => Rmax_l 0 _) ZOE I0 (fun k Ik Zk => let '(conj a (conj b _)) := CYC k Ik Zk in conj a b)).
  intros k. destruct (FIN k) as (Ik & Zk & ZB). destruct (CYC k Ik Zk) as (_ & _ & PT). destruct Ik as (Ck & Uk & Fk). split; [exact Ck|].
  set (b := rho ^ k * e0 + d). assert (RK : 0 <= rho ^ k) by (apply pow_le; lra). assert (RE : 0 <= rho ^ k * e0) by (apply Rmult_le_pos; assumption). assert (B0 : 0 <= b) by (unfold b; lra).
  assert (LK : la ^ k = rho ^ k * rho ^ k) by (rewrite <- Rpow_mult_distr, RR; reflexivity).
  assert (BB : la ^ k * (e0 * e0) + d * d <= b * b). { rewrite LK. unfold b. assert (0 <= rho ^ k * e0 * d) by (apply Rmult_le_pos; lra). lra. }
  assert (ZKB : zk k <= KZ * (b * b)).
  { eapply Rle_trans; [exact ZB|]. unfold KZ. rewrite Rmult_assoc. apply Rmult_le_compat_l; [lra|]. assert (LK0 : 0 <= la ^ k) by (apply pow_le; lra). assert (P1 : la ^ k * zk O <= la ^ k * (cZ * (e0 * e0))) by (apply Rmult_le_compat_l; assumption). assert (P2 : 0 <= la ^ k * (e0 * e0)) by (apply Rmult_le_pos; [assumption|apply Rmult_le_pos; lra]).
    assert (P3 : (cZ + Kd) * (la ^ k * (e0 * e0) + d * d) <= (cZ + Kd) * (b * b)) by (apply Rmult_le_compat_l; lra). assert (0 <= Kd * (la ^ k * (e0 * e0))) by (apply Rmult_le_pos; lra). assert (0 <= cZ * (d * d)) by (apply Rmult_le_pos; lra). unfold D. lra. }
  assert (KK : Ka * b <= (Ka + Kb + 1) * b /\ Kb * b <= (Ka + Kb + 1) * b) by (split; apply Rmult_le_compat_r; lra). split.
  - destruct Fk as (FU & FE & _). rewrite err_parts in FE. destruct (err_dist _ _ FU Uk FE) as [_ ED]. destruct (ZP (y (INR k * h)) (fl k) Uk) as (FZ & Zp). assert (ZE : zk k = Z (y (INR k * h)) (fl k)) by (apply Rmax_right, Zp). rewrite <- ZE in FZ.
    assert (LO := LO2 (fu (v_att (y (INR k * h))) (fl k)) (fx h bs (fl k))). set (sk := norm3 (fu (v_att (y (INR k * h))) (fl k)) + norm3 (fx h bs (fl k))) in *. assert (N1 := n3pos (fu (v_att (y (INR k * h))) (fl k))). assert (N2 := n3pos (fx h bs (fl k))). assert (SK0 : 0 <= sk) by (unfold sk; lra).
    assert (Q0 : 0 <= 2 * KZ / m0) by (apply Rmult_le_pos; [lra|left; apply Rinv_0_lt_compat, M0]). assert (SKB : sk <= sqrt (2 * KZ / m0) * b).
    { apply sq_le; [apply Rmult_le_pos; [apply sqrt_pos|exact B0]|]. replace (sqrt (2 * KZ / m0) * b * (sqrt (2 * KZ / m0) * b)) with (sqrt (2 * KZ / m0) * sqrt (2 * KZ / m0) * (b * b)) by ring. rewrite sqrt_sqrt by exact Q0. apply (Rmult_le_reg_l m0); [exact M0|]. replace (m0 * (2 * KZ / m0 * (b * b))) with (2 * (KZ * (b * b))) by (field; lra). lra. }
    assert (BX : norm3 (sub3 (a_b (fl k)) bs) = 2 / h * norm3 (fx h bs (fl k))). { unfold fx. replace (scale3 (h / 2) (sub3 bs (a_b (fl k)))) with (scale3 (- (h / 2)) (sub3 (a_b (fl k)) bs)) by (generalize (a_b (fl k)); clear; vring). rewrite nscale, Rabs_Ropp, Rabs_pos_eq by lra. field. lra. }
    unfold missed. rewrite BX. fold (fu (v_att (y (INR k * h))) (fl k)) in ED. assert (MS : (2 + 2 / h) * sk <= Ka * b). { unfold Ka. rewrite Rmult_assoc. apply Rmult_le_compat_l; lra. } assert (0 <= 2 / h * norm3 (fu (v_att (y (INR k * h))) (fl k))) by (apply Rmult_le_pos; lra). unfold sk in MS. lra.
  - intros t Ht. destruct (PT t Ht) as (Ut & Vt). assert (EO := en_off al s qc (y t) SS Ut UC). change (en al s qc (y t)) with (ev al s (error_quat (v_att (y t)) qc) (v_rate (y t))) in EO. rewrite EO in Vt.
    assert (O1 : 0 <= off_target s qc (y t)) by (unfold off_target; cbv zeta; rewrite <- normq2; apply sq0). assert (O2 : 0 <= rate2 (y t)) by apply dot3_nonneg. set (x := off_target s qc (y t)) in *. set (n := rate2 (y t)) in *.
    apply (Rle_trans _ (Kb * b)); [|apply KK]. unfold astir. fold x. fold n. assert (KB2 : 0 <= (/ al + 2) * (Kv * (KZ + 1))) by (apply Rmult_le_pos; [lra|apply Rmult_le_pos; lra]).
    apply sq_le; [apply Rmult_le_pos; assumption|]. rewrite sqrt_sqrt by lra. unfold Kb. replace (sqrt ((/ al + 2) * (Kv * (KZ + 1))) * b * (sqrt ((/ al + 2) * (Kv * (KZ + 1))) * b)) with (sqrt ((/ al + 2) * (Kv * (KZ + 1))) * sqrt ((/ al + 2) * (Kv * (KZ + 1))) * (b * b)) by ring. rewrite sqrt_sqrt by exact KB2.
    assert (DB : d * d <= b * b) by (apply Rmult_le_compat; unfold b; lra). assert (VB : al * x + n / 2 <= Kv * (KZ + 1) * (b * b)). { eapply Rle_trans; [exact Vt|]. rewrite Rmult_assoc. apply Rmult_le_compat_l; lra. }
    rewrite Rmult_assoc. apply (Rle_trans _ ((/ al + 2) * (al * x + n / 2))); [|apply Rmult_le_compat_l; lra]. assert (0 <= / al * n) by (apply Rmult_le_pos; lra). assert (0 <= al * x) by (apply Rmult_le_pos; lra). replace ((/ al + 2) * (al * x + n / 2)) with (x + / al * n / 2 + 2 * (al * x) + n) by (field; lra). lra.
Qed.
Print Assumptions C116_whole.

(** and there is such a loop from every start, for every sequence of errors: from the filter's own start state, with no torque but the wheels', it settles *)
Theorem C116_runs : forall al ga mi mj N, 0 < al -> 0 < ga -> 0 <= mi -> 0 <= mj -> 0 <= N -> exists h0, 0 < h0 /\
  forall h, 0 < h <= h0 -> exists eps K rho, 0 < eps /\ 0 < K /\ 0 < rho < 1 /\
  forall w g qc F v0 q0 bs d e, wc_alpha w = al -> wc_gamma w = ga -> 0 < tr_hw (wc_trig w) -> pm1 (tr_mem (wc_trig w)) -> wc_sun w = Some g -> zone_free w -> spanning (s_rw (wc_sat w)) -> rw_limited (s_rw (wc_sat w)) = false -> det3 (s_total_moment (wc_sat w)) <> 0 ->
  (forall v, norm3 (mv (s_inv_tot (wc_sat w)) v) <= mi * norm3 v) -> (forall v, norm3 (mv (s_total_moment (wc_sat w)) v) <= mj * norm3 v) ->
  cont3 F -> unitq qc -> unitq (v_att v0) -> unitq q0 -> (length (rw_wheels (s_rw (wc_sat w))) <= length (v_whl v0))%nat -> norm3 (body_momentum (wc_sat w) v0) <= N ->
  0 <= d <= eps -> (forall k, quiet (e k) (length (v_whl v0)) (wc_sat w) d) ->
  let s := tr_mem (wc_trig w) in let e0 := astir s qc v0 + (normq (subq q0 (v_att v0)) + norm3 bs) in e0 <= eps ->
  exists y c m fl, y 0 = v0 /\ c O = w /\ fl O = af_init q0 /\ whole_loop qc F (fun _ => zero3) y bs d h c m fl /\ (forall k, errs bs (e k) y (INR k * h) (INR (S k) * h) (m k) (fl k) (fl (S k))) /\
  forall k, c k = w /\ normq (subq (a_q (fl k)) (v_att (y (INR k * h)))) <= K * (rho ^ k * e0 + d) /\ norm3 (sub3 (a_b (fl k)) bs) <= K * (rho ^ k * e0 + d) /\
    forall t, INR k * h <= t <= INR (S k) * h -> astir s qc (y t) <= K * (rho ^ k * e0 + d).
Proof.
  intros al ga mi mj N A G MI MJ HN. destruct (C116_whole al ga mi mj N A G MI MJ HN) as (h0 & H0 & TH). exists h0. split; [exact H0|]. intros h Hh.
  destruct (TH h (SENSOR_SIGMA ^ 2) 0 (INITIAL_BIAS ^ 2) Hh) as (eps & K & rho & E0 & K0 & R0 & T).
  { intros x y. assert (0 <= SENSOR_SIGMA ^ 2 * (x * x)) by (apply Rmult_le_pos; [left; apply R_pos|apply sq0]). assert (0 <= INITIAL_BIAS ^ 2 * (y * y)) by (apply Rmult_le_pos; [apply pow2_ge_0|apply sq0]). lra. }
  exists eps, K, rho. split; [exact E0|]. split; [exact K0|]. split; [exact R0|]. intros w g qc F v0 q0 bs d e EA EG HW PM HS HZ SP NL DJ BI BJ CF UC U0 UQ LW NH HD QU s e0 HE.
  destruct (run_exists qc F bs h e w v0 (af_init q0) g (length (v_whl v0)) d ltac:(lra) CF ltac:(lra)) as (RUN & ERR & Y0 & NM).
  { split; [exact HS|]. split; [exact HZ|]. split; [exact SP|]. split; [exact NL|]. split; [exact DJ|]. split; [exact U0|]. split; [exact LW|]. split; [reflexivity|apply init_cov]. } { exact QU. }
  set (y := wl_y qc F bs h e w v0 (af_init q0)) in *. set (c := wl_w qc F bs h e w v0 (af_init q0)) in *. set (fl := wl_f qc F bs h e w v0 (af_init q0)) in *.
  exists y, c, (fun k => wl_given bs (e k) (wl_v qc F bs h e w v0 (af_init q0) k) (fl k)), fl. assert (F0 : fl O = af_init q0) by reflexivity. split; [exact Y0|]. split; [reflexivity|]. split; [exact F0|]. split; [exact RUN|]. split; [exact ERR|].
  assert (EV : even_cov (a_P (fl O)) (SENSOR_SIGMA ^ 2) 0 (INITIAL_BIAS ^ 2)). { rewrite F0. unfold even_cov, af_init. cbn [a_P]. unfold diag6. f_equal; generalize (id3 (T:=R)); clear; vring. }
  assert (EM : astir s qc (y 0) + missed (v_att (y 0)) bs (fl O) = e0). { rewrite F0, Y0. unfold missed, e0, af_init. cbn [a_q a_b]. f_equal. f_equal. replace (sub3 zero3 bs) with (scale3 (-1) bs) by vring. rewrite nscale, Rabs_left by lra. ring. }
  assert (X := T w g qc F (fun _ => zero3) y bs d c _ fl EA EG HW PM HS HZ SP DJ BI BJ UC ltac:(rewrite Y0; exact U0) ltac:(rewrite F0; exact UQ) ltac:(rewrite F0; reflexivity) EV ltac:(intros t Ht; rewrite NM by exact Ht; exact NH) eq_refl RUN HD).
  cbv zeta in X. fold s in X. rewrite EM in X. specialize (X HE). intros k. destruct (X k) as (X1 & X2 & X3). split; [exact X1|]. unfold missed in X2. assert (N1 := n3pos (sub3 (a_b (fl k)) bs)). assert (N2 := normq0 (subq (a_q (fl k)) (v_att (y (INR k * h))))). split; [lra|]. split; [lra|exact X3].
Qed.
Print Assumptions C116_runs.

(** a tilted body, a biased gyro and errors in every sensor: everything settles to within the size of the errors *)
Example C116_ex : exists th d K h y c m fl, 0 < th /\ 0 < d /\ 0 < h /\ y 0 = axis_state th 0 /\ c O = axis_ctl /\ fl O = af_init q1 /\ astir 1 q1 (y 0) <> 0 /\ whole_loop q1 (fun _ => zero3) (fun _ => zero3) y (mk3 0 d 0) d h c m fl /\
  (forall k, errs (mk3 0 d 0) (Build_Noise (mk3 d 0 0) (mk3 0 0 d) (mkq 0 d 0 0) []) y (INR k * h) (INR (S k) * h) (m k) (fl k) (fl (S k))) /\ exists k0, forall k, (k0 <= k)%nat -> c k = axis_ctl /\ normq (subq (a_q (fl k)) (v_att (y (INR k * h)))) <= 2 * K * d /\ norm3 (sub3 (a_b (fl k)) (mk3 0 d 0)) <= 2 * K * d /\
    forall t, INR k * h <= t <= INR (S k) * h -> astir 1 q1 (y t) <= 2 * K * d.
Proof.
  assert (NS : forall k (v : v3), 0 <= k -> norm3 (scale3 k v) = k * norm3 v) by (intros k v Hk; rewrite nscale, Rabs_pos_eq by exact Hk; reflexivity).
  destruct (C116_runs (2 * 0.1 ^ 2) (2 * 0.707 * 0.1) (/ 4) 4 1) as (h & H0 & TH); [lra|lra|lra|lra|lra|]. destruct (TH h ltac:(lra)) as (eps & K & rho & E0 & K0 & R0 & T). clear TH.
  set (d := Rmin 1 (eps / 4)). assert (D0 : 0 < d) by (apply Rmin_pos; lra). assert (D1 : d <= 1) by apply Rmin_l. assert (D2 : d <= eps / 4) by apply Rmin_r.
  set (n := Build_Noise (mk3 d 0 0) (mk3 0 0 d) (mkq 0 d 0 0) []). set (v0 := axis_state d 0). assert (UN : unitq (q1 : quat)) by (unfold unitq, q1; vunfoldg; cbn [qw qx qy qz]; rnumg; ring).
  assert (S4 : 0 < sin (d / 4)) by (apply sin_gt_0; [lra|assert (X := PI2_1); lra]). assert (S5 : sin (d / 4) <= d / 4) by (apply Rlt_le, sin_lt_x; lra). assert (CS : 2 * (1 - cos (d / 2)) = 2 * sin (d / 4) * (2 * sin (d / 4))) by (replace (d / 2) with (2 * (d / 4)) by field; rewrite cos_2a_sin; ring).
  assert (AS : astir 1 q1 v0 = 2 * sin (d / 4)). { unfold astir, v0. rewrite ax_off, CS. replace (rate2 (axis_state d 0)) with 0 by (unfold rate2, axis_state; cbn [v_rate]; vunfoldg; cbn [x3 y3 z3]; rnumg; ring). rewrite Rplus_0_r. apply sqrt_square. lra. }
  assert (NQ : normq (subq q1 (v_att v0)) = 2 * sin (d / 4)). { unfold normq. rnumg. replace (dotq (subq q1 (v_att v0)) (subq q1 (v_att v0))) with (2 * sin (d / 4) * (2 * sin (d / 4))); [apply sqrt_square; lra|]. rewrite <- CS. unfold v0, axis_state, q1. cbn [v_att]. vunfoldg. cbn [qw qx qy qz]. rnumg. assert (X := sin2_cos2 (d / 2)). unfold Rsqr in X. lra. }
  assert (NB : norm3 (mk3 0 d 0) = d). { unfold norm3. replace (dot3 (mk3 0 d 0) (mk3 0 d 0)) with (d * d) by (vunfoldg; cbn [x3 y3 z3]; rnumg; ring). rnumg. apply sqrt_square. lra. }
  destruct (T axis_ctl (fun _ => ex) q1 (fun _ => zero3) v0 q1 (mk3 0 d 0) d (fun _ => n)) as (y & c & m & fl & Y0 & C0 & F0 & LP & ER & CV).
  - reflexivity.
  - reflexivity.
  - cbn. lra.
  - left. reflexivity.
  - reflexivity.
  - right. reflexivity.
  - exact free_ball_spanning.
  - reflexivity.
  - exact ball_det.
  - intros v. change (wc_sat axis_ctl) with free_ball. change (s_inv_tot free_ball) with (inv3 (s_total_moment free_ball)). rewrite free_ball_total. right. rewrite <- NS by lra. f_equal. destruct v as [a b e]. vunfoldg; cbn [x3 y3 z3 row1 row2 row3]; rnumg. apply mk3_c; field.
  - intros v. change (wc_sat axis_ctl) with free_ball. rewrite free_ball_total. right. rewrite <- NS by lra. f_equal. destruct v as [a b e]. vunfoldg; cbn [x3 y3 z3 row1 row2 row3]; rnumg. apply mk3_c; ring.
  - apply (deriv3_cont _ (fun _ => zero3)). intros t. apply (d3_const zero3 t).
  - exact UN.
  - apply ax_unit.
  - exact UN.
  - cbn. lia.
  - change (wc_sat axis_ctl) with free_ball. unfold v0. rewrite ax_still. rewrite P_obs3.norm3_zero. lra.
  - lra.
  - intros k. unfold quiet, n. cbn [e_rate e_mean e_att e_whl length]. split; [right; unfold norm3; replace (dot3 (mk3 d 0 0) (mk3 d 0 0)) with (d * d) by (vunfoldg; cbn [x3 y3 z3]; rnumg; ring); rnumg; apply sqrt_square; lra|]. split; [right; unfold norm3; replace (dot3 (mk3 0 0 d) (mk3 0 0 d)) with (d * d) by (vunfoldg; cbn [x3 y3 z3]; rnumg; ring); rnumg; apply sqrt_square; lra|].
    split; [right; unfold normq; replace (dotq (mkq 0 d 0 0) (mkq 0 d 0 0)) with (d * d) by (vunfoldg; cbn [qw qx qy qz]; rnumg; ring); rnumg; apply sqrt_square; lra|]. split; [|lia]. replace (rw_torque (s_rw (wc_sat axis_ctl)) []) with (zero3 (T:=R)) by reflexivity. rewrite P_obs3.norm3_zero. lra.
  - change (tr_mem (wc_trig axis_ctl)) with 1. rewrite AS, NQ, NB. lra.
  - change (tr_mem (wc_trig axis_ctl)) with 1 in CV. rewrite AS, NQ, NB in CV. set (e0 := 2 * sin (d / 4) + (2 * sin (d / 4) + d)) in CV.
    exists d, d, K, h, y, c, m, fl. split; [exact D0|]. split; [exact D0|]. split; [exact H0|]. split; [exact Y0|]. split; [exact C0|]. split; [exact F0|]. split; [rewrite Y0; fold v0; rewrite AS; lra|]. split; [exact LP|]. split; [exact ER|].
    assert (EP : 0 < e0) by (unfold e0; lra). destruct (pow_lt_1_zero rho ltac:(rewrite Rabs_pos_eq; lra) (d / e0) ltac:(apply Rdiv_lt_0_compat; lra)) as (k0 & HK). exists k0. intros k Hk. assert (X := HK k Hk). assert (P : 0 < rho ^ k) by (apply pow_lt; lra). rewrite Rabs_pos_eq in X by lra.
    assert (Y : rho ^ k * e0 <= d). { assert (Z : rho ^ k * e0 <= d / e0 * e0) by (apply Rmult_le_compat_r; lra). replace (d / e0 * e0) with d in Z by (field; lra). exact Z. }
    assert (W : K * (rho ^ k * e0 + d) <= 2 * K * d). { replace (2 * K * d) with (K * (d + d)) by ring. apply Rmult_le_compat_l; lra. }
    destruct (CV k) as (C1 & C2 & C3 & C4). split; [exact C1|]. split; [lra|]. split; [lra|]. intros t Ht. assert (Z := C4 t Ht). lra.
Qed.
