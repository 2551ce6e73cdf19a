(** * C110: turning with the reference and dumping the wheels' momentum through the torquers *)
From Coq Require Import Reals ZArith List Bool Arith Lra Psatz Lia.
From Coquelicot Require Import Coquelicot.
From Verif Require Import Num Vec M_vector M_quaternion M_jday M_struct M_env M_dyn M_ctrl S_rot S_dyn S_ctrl.
From Verif Require Import P_quat P_wheel P_dyn P_dyn2 P_obs P_sat P_ctrl P_ctrl2 P_ctrl3 P_ctrl4 P_ctrl5 P_conv P_detum P_detum2 Props_ctrl Props_ctrl2 Props_ctrl3 Props_conv Props_detum P_dump P_dump2.
Import ListNotations.
Local Open Scope R_scope.

(** at time t the wheels are driven by track_and_desaturate for the reference attitude qc turning at the body rate wc, told the moment m
    that the torquers really give, and the satellite moves by the code's equations in the field B (inertial axes) *)
Definition follows (w : WhlCtl) (m : R -> v3) (B : R -> v3) (qc : R -> quat) (wc : v3) (F : R -> v3) (y : R -> SVec) (t : R) : Prop :=
  exists w' u acc, tracking w (y t) wc zero3 (qc t) = Ok (w', u) /\ unsaturated (s_rw (wc_sat w)) (opp3 (add3 u (cross3 (seen B y t) (m t)))) /\
    track_and_desaturate w (mkCS (y t) (seen B y t)) (m t) wc zero3 (qc t) = Ok (w', acc) /\
    deriv_sv y t (derivative (wc_sat w) (y t) (F t) (cross3 (m t) (seen B y t)) (rw_torque (s_rw (wc_sat w)) acc) (rw_momentum (s_rw (wc_sat w)) (v_whl (y t))) acc).
(** a reference turning steadily at the body rate wc (at rest if wc = 0) *)
Definition steady (qc : R -> quat) (wc : v3) : Prop := forall t, unitq (qc t) /\ derivq qc t (scaleq 0.5 (product (qc t) (pure wc))).
(** the satellite's rate less the reference's, both in body axes *)
Definition slip (qc : quat) (wc : v3) (v : SVec) : v3 := sub3 (v_rate v) (sandwich (v_att v) (sandwich_opp qc wc)).
(** the moment that desaturate asks for, before distribute *)
Definition dumping (c : MagCtl) (ref : list R) (B : R -> v3) (m : R -> v3) (y : R -> SVec) : Prop :=
  forall t, exists T, desaturate_torque c (mkCS (y t) (seen B y t)) ref = Ok T /\ m t = mag_moment_cmd (seen B y t) T.

Lemma tracking_sat w v rc rcd qc w' u : tracking w v rc rcd qc = Ok (w', u) -> wc_sat w' = wc_sat w.
Proof.
  intros TR. unfold tracking in TR. destruct (objects _ _); [|discriminate]. cbn [rbind] in TR. destruct (rw_momentum_r _ (v_whl _)); [|discriminate]. cbn [rbind] in TR.
  match type of TR with rbind ?A _ = _ => destruct A as [[tr z]|] end; [|discriminate]. cbn [rbind] in TR. injection TR as <- _. reflexivity.
Qed.
(** the wheels' torque: it takes the magnetic torque out again *)
Lemma follows_torque w m B qc wc F y t : spanning (s_rw (wc_sat w)) -> follows w m B qc wc F y t -> exists w' u acc, tracking w (y t) wc zero3 (qc t) = Ok (w', u) /\
  rw_torque (s_rw (wc_sat w)) acc = sub3 (cross3 (m t) (seen B y t)) u /\
  deriv_sv y t (derivative (wc_sat w) (y t) (F t) (cross3 (m t) (seen B y t)) (rw_torque (s_rw (wc_sat w)) acc) (rw_momentum (s_rw (wc_sat w)) (v_whl (y t))) acc).
Proof.
  intros SP (w' & u & acc & TR & US & TD & D). exists w', u, acc. split; [exact TR|]. split; [|exact D]. unfold track_and_desaturate in TD. cbn [cs_v cs_mag] in TD. rewrite TR in TD. cbn [rbind] in TD.
  unfold whl_actuator_commands in TD. rewrite (tracking_sat _ _ _ _ _ _ _ TR) in TD. destruct (unsat_torque _ _ SP US) as (a' & EA & _ & TA). rewrite EA in TD. cbn [rbind] in TD. assert (E : a' = acc) by congruence. rewrite <- E, TA.
  generalize u (seen B y t) (m t). clear. vring.
Qed.
Lemma follows_rot w f m B qc wc F y t : wc_sun w = Some f -> zone_free w -> spanning (s_rw (wc_sat w)) -> det3 (s_total_moment (wc_sat w)) <> 0 -> follows w m B qc wc F y t ->
  let e := error_quat (v_att (y t)) (qc t) in let wcB := sandwich e wc in
  derivq (fun u => v_att (y u)) t (scaleq 0.5 (product (v_att (y t)) (pure (v_rate (y t))))) /\
  deriv3 (fun u => v_rate (y u)) t (sub3 (sub3 (scale3 (- tr_mem (trig_step (qw e) (wc_trig w)) * wc_alpha w) (vec e)) (scale3 (wc_gamma w) (sub3 (v_rate (y t)) wcB))) (cross3 (v_rate (y t)) wcB)).
Proof.
  intros HS HZ SP DJ FO e wcB. destruct (follows_torque _ _ _ _ _ _ _ _ SP FO) as (w' & u & acc & TR & TA & D). assert (HL := tracking_len _ _ _ _ _ _ TR).
  assert (T := tracking_free w (y t) wc zero3 (qc t) f HS HZ HL). cbv zeta in T. rewrite TR in T. fold e in T. fold wcB in T. assert (EU := f_equal (fun r => match r with Ok (_, x) => x | _ => zero3 end) T). cbv beta iota in EU. clear T.
  destruct D as (_ & _ & D1 & D2 & _). split; [exact D1|]. eapply d3_eq; [exact D2|]. cbn [derivative v_rate]. rewrite TA, EU. rewrite sandwich_0, add3_0_r.
  set (z := sub3 (sub3 (scale3 (- tr_mem (trig_step (qw e) (wc_trig w)) * wc_alpha w) (vec e)) (scale3 (wc_gamma w) (sub3 (v_rate (y t)) wcB))) (cross3 (v_rate (y t)) wcB)).
  set (J := s_total_moment (wc_sat w)) in *. set (h := rw_momentum (s_rw (wc_sat w)) (v_whl (y t))).
  rewrite <- (inv3_mv J z DJ). change (s_inv_tot (wc_sat w)) with (inv3 J). f_equal.
  rewrite inv3_mv by exact DJ. generalize (mv J z) (mv J (v_rate (y t))) (v_rate (y t)) h (cross3 (m t) (seen B y t)). clear. vring.
Qed.

Section Followed.
Variables (w : WhlCtl) (f : v3 -> v3) (m B : R -> v3) (qc : R -> quat) (wc : v3) (F : R -> v3) (y : R -> SVec) (a : R).
Hypothesis HA : a < 0.
Hypothesis HS : wc_sun w = Some f.
Hypothesis HZ : zone_free w.
Hypothesis SP : spanning (s_rw (wc_sat w)).
Hypothesis DJ : det3 (s_total_moment (wc_sat w)) <> 0.
Hypothesis ST : steady qc wc.
Hypothesis FO : forall t, a < t -> follows w m B qc wc F y t.
Hypothesis U0 : unitq (v_att (y 0)).
Let e t := error_quat (v_att (y t)) (qc t).
Let d t := sub3 (v_rate (y t)) (sandwich (e t) wc).
Lemma fo_unit t : a < t -> unitq (v_att (y t)).
Proof.
  intros Ht. unfold unitq in *. rewrite <- U0. apply (const_of_deriv (fun u => dotq (v_att (y u)) (v_att (y u))) a (Rmax t 0 + 1)).
  - intros u Hu. destruct (follows_rot w f m B qc wc F y u HS HZ SP DJ (FO u ltac:(lra))) as [D _]. eapply d_eq; [apply d_dotq; exact D|].
    cbv beta. generalize (v_att (y u)) (v_rate (y u)). clear. intros [p q r s] [x y z]. unfold pure, product. replace 0.5 with (1/2) by lra. vunfoldg; cbn [x3 y3 z3 qw qx qy qz]; rnumg. field.
  - assert (M := Rmax_l t 0). lra.
  - assert (M := Rmax_r t 0). lra.
Qed.
Lemma fo_slip t : sandwich (v_att (y t)) (sandwich_opp (qc t) wc) = sandwich (e t) wc.
Proof. unfold e, error_quat. rewrite sandwich_product. reflexivity. Qed.
Lemma fo_e_unit t : a < t -> unitq (e t). Proof. intros Ht. apply error_quat_unit; [apply fo_unit, Ht|apply ST]. Qed.
Lemma fo_de t : a < t -> derivq e t (scaleq 0.5 (product (e t) (pure (d t)))).
Proof.
  intros Ht. destruct (follows_rot w f m B qc wc F y t HS HZ SP DJ (FO t Ht)) as [D _]. destruct (ST t) as (UC & DC).
  exact (dq_error (fun u => v_att (y u)) qc t (v_rate (y t)) wc D DC (fo_unit t Ht) UC).
Qed.
Lemma fo_dd t : a < t -> deriv3 d t (sub3 (scale3 (- tr_mem (trig_step (qw (e t)) (wc_trig w)) * wc_alpha w) (vec (e t))) (scale3 (wc_gamma w) (d t))).
Proof.
  intros Ht. destruct (follows_rot w f m B qc wc F y t HS HZ SP DJ (FO t Ht)) as [_ D]. fold (e t) in D. fold (d t) in D.
  assert (S := d3_sandwich e (fun _ => wc) t zero3 (d t) (fo_de t Ht) (d3_const wc t)). cbv beta in S.
  eapply d3_eq; [exact (d3_sub _ _ t _ _ D S)|]. rewrite sandwich_0.
  assert (E : v_rate (y t) = add3 (d t) (sandwich (e t) wc)) by (unfold d; generalize (v_rate (y t)) (sandwich (e t) wc); clear; vring).
  rewrite E. generalize (- tr_mem (trig_step (qw (e t)) (wc_trig w)) * wc_alpha w) (wc_gamma w) (vec (e t)) (d t) (sandwich (e t) wc). clear. vring.
Qed.
Lemma fo_off s t : s * s = 1 -> a < t -> off_target s (qc t) (y t) = 2 * (1 - s * qw (e t)).
Proof. intros SS Ht. apply off_eq; [exact SS|apply fo_unit, Ht|apply ST]. Qed.
End Followed.

(** ** C110 *)
(** whatever moment the torquers give in whatever field, a satellite that is told of it keeps to a steadily turning reference as it
    keeps to a fixed target without torquers: attitude and rate errors vanish exponentially at a rate fixed by the gains and the band alone *)
Theorem C110_tracks : forall al ga hw, 0 < al -> 0 < ga -> 0 < hw < 1 -> exists lam, 0 < lam /\
  forall w f m B qc wc F y a, wc_alpha w = al -> wc_gamma w = ga -> tr_hw (wc_trig w) = hw -> pm1 (tr_mem (wc_trig w)) ->
  wc_sun w = Some f -> zone_free w -> spanning (s_rw (wc_sat w)) -> det3 (s_total_moment (wc_sat w)) <> 0 ->
  steady qc wc -> unitq (v_att (y 0)) -> a < 0 -> (forall t, a < t -> follows w m B qc wc F y t) ->
  let s := tr_mem (wc_trig w) in let off := fun t => off_target s (qc t) (y t) in let d := fun t => slip (qc t) wc (y t) in
  al * off 0 + dot3 (d 0) (d 0) / 2 < 2 * al * (1 + hw) ->
  forall t, 0 <= t ->
    (exists u, tracking w (y t) wc zero3 (qc t) = Ok (w, u)) /\
    2 * al * off t + dot3 (d t) (d t) <= (6 * al * off 0 + 4 * dot3 (d 0) (d 0)) * exp (- lam * t).
Proof.
  intros al ga hw A G HW. exists (cv_rate al ga (1 - hw)). split; [apply cv_rate_spec; lra|].
  intros w f m B qc wc F y a EA EG EH PM HS HZ SP DJ ST U0 HA FO s off d HE t Ht. assert (SS := pm1_sq _ PM). fold s in SS.
  assert (OF : forall t, 0 <= t -> off t = 2 * (1 - s * qw (error_quat (v_att (y t)) (qc t)))) by (intros u Hu; apply (fo_off w f m B qc wc F y a HA HS HZ SP DJ ST FO U0 s u SS); lra).
  assert (ED : forall t, d t = sub3 (v_rate (y t)) (sandwich (error_quat (v_att (y t)) (qc t)) wc)) by (intros u; unfold d, slip; rewrite (fo_slip qc wc y u); reflexivity).
  assert (X := error_converges al ga (wc_trig w) (fun t => error_quat (v_att (y t)) (qc t)) (fun t => sub3 (v_rate (y t)) (sandwich (error_quat (v_att (y t)) (qc t)) wc)) a A G
    ltac:(rewrite EH; exact HW) PM HA (fo_e_unit w f m B qc wc F y a HA HS HZ SP DJ ST FO U0) (fo_de w f m B qc wc F y a HA HS HZ SP DJ ST FO U0)).
  assert (DD := fo_dd w f m B qc wc F y a HA HS HZ SP DJ ST FO U0). rewrite EA, EG in DD. specialize (X DD). cbv zeta beta in X. fold s in X. rewrite EH in X.
  rewrite <- (ED 0) in X. specialize (X ltac:(rewrite (OF 0 (Rle_refl 0)) in HE; lra) t Ht). rewrite <- (ED t) in X. destruct X as (X1 & X2). split.
  - destruct (FO t ltac:(lra)) as (w' & u & acc & TR & _). exists u. assert (HL := tracking_len _ _ _ _ _ _ TR). assert (T := tracking_free w (y t) wc zero3 (qc t) f HS HZ HL). cbv zeta in T. rewrite X1 in T.
    rewrite TR in T |- *. assert (E1 : w' = set_trig w (wc_trig w)) by congruence. rewrite E1. f_equal. f_equal. destruct w. reflexivity.
  - rewrite (OF t Ht), (OF 0 (Rle_refl 0)). set (E := exp _) in *. lra.
Qed.
Print Assumptions C110_tracks.
(** the momentum of body and wheels, and what it would be with the wheels at their reference, in inertial axes *)
Definition whole (sat : Satellite) (h : v3) (v : SVec) : v3 := sandwich_opp (v_att v) (add3 (mv (s_total_moment sat) (v_rate v)) h).
Definition held (sat : Satellite) (v : SVec) : v3 := rw_momentum (s_rw sat) (v_whl v).
Lemma sopp_sub (q : quat) (u v : v3) : unitq q -> sandwich_opp q (sub3 u v) = sub3 (sandwich_opp q u) (sandwich_opp q v).
Proof.
  intros U. destruct (sandwich_opp_rigid q U) as (_ & _ & R3 & R4). assert (E : sub3 u v = add3 u (scale3 (-1) v)) by (clear; revert u v; vring). rewrite E, R3, R4. generalize (sandwich_opp q u) (sandwich_opp q v). clear. vring.
Qed.
Lemma seen_nz B y t : unitq (v_att (y t)) -> B t <> zero3 -> seen B y t <> zero3.
Proof. intros U N E. apply N. rewrite <- (sandwich_opp_sandwich (v_att (y t)) (B t) U). change (sandwich (v_att (y t)) (B t)) with (seen B y t). rewrite E. apply opp_zero. Qed.
Lemma whole_law w m B qc wc F y t c ref hr : unitq (v_att (y t)) -> spanning (s_rw (wc_sat w)) -> det3 (s_total_moment (wc_sat w)) <> 0 -> B t <> zero3 ->
  s_rw (mc_sat c) = s_rw (wc_sat w) -> rw_momentum_r (s_rw (wc_sat w)) ref = Ok hr -> dumping c ref B m y -> follows w m B qc wc F y t ->
  deriv3 (fun u => whole (wc_sat w) (held (wc_sat w) (y u)) (y u)) t (scale3 (- K_BBQ) (rej (B t) (sub3 (whole (wc_sat w) (held (wc_sat w) (y t)) (y t)) (whole (wc_sat w) hr (y t))))).
Proof.
  intros U SP DJ NB ES HR DU FO. assert (NS := seen_nz B y t U NB). destruct (follows_torque _ _ _ _ _ _ _ _ SP FO) as (w' & u & acc & _ & TA & (_ & _ & DQ & DW & DL)). cbn [derivative v_att v_rate v_whl] in DQ, DW, DL.
  assert (ET : m t = mag_moment_cmd (seen B y t) (scale3 (- K_BBQ) (sub3 (held (wc_sat w) (y t)) hr))).
  { destruct (DU t) as (T & HT & ->). f_equal. unfold desaturate_torque in HT. cbn [cs_v] in HT. rewrite ES in HT. unfold rw_momentum_r at 1 in HT. destruct (Nat.ltb (length (v_whl (y t))) _); [discriminate|].
    cbn [rbind] in HT. rewrite HR in HT. cbn [rbind] in HT. unfold held. congruence. }
  assert (DH : deriv3 (fun u => held (wc_sat w) (y u)) t (rw_torque (s_rw (wc_sat w)) acc)) by exact (d3_momentum (s_rw (wc_sat w)) (fun u => v_whl (y u)) t acc DL).
  assert (DM := d3_mv (s_total_moment (wc_sat w)) _ t _ DW). unfold s_inv_tot in DM. rewrite mv_inv3 in DM by exact DJ. cbv beta in DM.
  assert (DS := d3_add _ _ t _ _ DM DH). cbv beta in DS.
  eapply d3_eq; [exact (d3_sandwich_opp (fun u => v_att (y u)) _ t _ (v_rate (y t)) DQ DS)|]. cbv beta. unfold whole. rewrite <- sopp_sub by exact U.
  assert (Q : sub3 (add3 (mv (s_total_moment (wc_sat w)) (v_rate (y t))) (held (wc_sat w) (y t))) (add3 (mv (s_total_moment (wc_sat w)) (v_rate (y t))) hr) = sub3 (held (wc_sat w) (y t)) hr) by (generalize (mv (s_total_moment (wc_sat w)) (v_rate (y t))) (held (wc_sat w) (y t)); clear; intros p q; destruct p as [p1 p2 p3], q as [q1 q2 q3], hr as [r1 r2 r3]; vunfoldg; cbn [x3 y3 z3]; rnumg; apply mk3_c; ring).
  rewrite Q. rewrite <- rej_turn, <- sopp_scale by exact U. change (sandwich (v_att (y t)) (B t)) with (seen B y t). f_equal.
  assert (MT := mag_torque (seen B y t) (scale3 (- K_BBQ) (sub3 (held (wc_sat w) (y t)) hr)) NS). rewrite <- ET in MT.
  assert (P := dpos _ NS). transitivity (cross3 (m t) (seen B y t)).
  - fold (held (wc_sat w) (y t)). generalize (cross3 (m t) (seen B y t)) (mv (s_total_moment (wc_sat w)) (v_rate (y t))) (held (wc_sat w) (y t)) (v_rate (y t)) (rw_torque (s_rw (wc_sat w)) acc). clear. vring.
  - rewrite MT. unfold rej. generalize (sub3 (held (wc_sat w) (y t)) hr) (seen B y t) K_BBQ P. clear. intros h b k. destruct h as [h1 h2 h3], b as [b1 b2 b3]. vunfoldg. cbn [x3 y3 z3]. rnumg. intros P. apply mk3_c; field; lra.
Qed.
(** a reference turning about its own momentum keeps that momentum in inertial axes *)
Lemma steady_keeps qc wc (k : v3) : steady qc wc -> cross3 wc k = zero3 -> forall t, sandwich_opp (qc t) k = sandwich_opp (qc 0) k.
Proof.
  intros ST X t. assert (D : forall u, deriv3 (fun v => sandwich_opp (qc v) k) u zero3).
  { intros u. destruct (ST u) as (U & DQ). eapply d3_eq; [exact (d3_sandwich_opp qc (fun _ => k) u zero3 wc DQ (d3_const k u))|]. cbv beta. rewrite X. rewrite add3_0_r. apply opp_zero. }
  assert (K : forall g : R -> R, (forall u, derivable_pt_lim g u 0) -> g t = g 0) by (intros g Dg; apply (const_of_deriv g (Rmin t 0 - 1) (Rmax t 0 + 1)); [intros; apply Dg| |]; assert (M1 := Rmax_l t 0); assert (M2 := Rmax_r t 0); assert (M3 := Rmin_l t 0); assert (M4 := Rmin_r t 0); lra).
  assert (E1 := K (fun v => x3 (sandwich_opp (qc v) k)) (fun u => proj1 (D u))). assert (E2 := K (fun v => y3 (sandwich_opp (qc v) k)) (fun u => proj1 (proj2 (D u)))). assert (E3 := K (fun v => z3 (sandwich_opp (qc v) k)) (fun u => proj2 (proj2 (D u)))). cbv beta in E1, E2, E3.
  destruct (sandwich_opp (qc t) k) as [p1 p2 p3], (sandwich_opp (qc 0) k) as [r1 r2 r3]. cbn [x3 y3 z3] in *. congruence.
Qed.
(** how far the held momentum can be from the reference's, by the errors *)
Lemma whole_near (J : m3) (q qc : quat) (wr wc hr : v3) CJ : unitq q -> unitq qc -> (forall v, dot3 (mv J v) (mv J v) <= CJ * dot3 v v) -> 0 <= CJ ->
  let e := error_quat q qc in let d := sub3 wr (sandwich e wc) in let k := add3 (mv J wc) hr in
  let l := sub3 (sandwich_opp q (add3 (mv J wr) hr)) (sandwich_opp qc k) in
  dot3 l l <= 4 * CJ * dot3 d d + (16 * CJ * dot3 wc wc + 8 * dot3 k k) * dot3 (vec e) (vec e).
Proof.
  intros U UC HJ CJp e d k l. assert (UE : unitq e) by (apply error_quat_unit; assumption).
  assert (EQ : q = product qc e) by (symmetry; apply error_quat_back, UC).
  assert (E1 : l = sandwich_opp q (sub3 (add3 (mv J wr) hr) (sandwich e k))).
  { unfold l. rewrite sopp_sub by exact U. f_equal. rewrite EQ at 1. rewrite sandwich_opp_product, sandwich_opp_sandwich by exact UE. reflexivity. }
  rewrite E1. rewrite (turned_norm q _ U).
  set (A := sub3 (sandwich e wc) wc). set (D := sub3 (sandwich e k) k).
  assert (E2 : sub3 (add3 (mv J wr) hr) (sandwich e k) = add3 (mv J (add3 d A)) (scale3 (-1) D)).
  { unfold d, A, D, k. rewrite mv_add3, !mv_sub3. generalize (mv J wr) (mv J wc) (mv J (sandwich e wc)) (sandwich e (add3 (mv J wc) hr)). clear. intros p q r s. destruct p as [p1 p2 p3], q as [q1 q2 q3], r as [r1 r2 r3], s as [s1 s2 s3], hr as [t1 t2 t3]. vunfoldg. cbn [x3 y3 z3]. rnumg. apply mk3_c; ring. }
  rewrite E2. eapply Rle_trans; [apply sum2_sq|]. assert (X1 := HJ (add3 d A)). assert (X2 := sum2_sq d A). assert (X3 := sandwich_move_le e wc UE). assert (X4 := sandwich_move_le e k UE). cbv zeta in X3, X4. fold A in X3. fold D in X4.
  assert (X5 : dot3 (scale3 (-1) D) (scale3 (-1) D) = dot3 D D) by (generalize D; clear; intros v; destruct v as [v1 v2 v3]; vunfoldg; cbn [x3 y3 z3]; rnumg; ring). rewrite X5.
  assert (X6 : CJ * dot3 (add3 d A) (add3 d A) <= CJ * (2 * dot3 d d + 2 * (4 * dot3 (vec e) (vec e) * dot3 wc wc))) by (apply Rmult_le_compat_l; lra). nra.
Qed.
Lemma expo_lim C lam : 0 < lam -> is_lim (fun t => C * exp (- lam * t)) p_infty 0.
Proof.
  intros L. apply is_lim_spec. intros [e ep]. cbn [pos]. exists (Rabs C / (lam * e)). intros t Ht. rewrite Rminus_0_r, Rabs_mult, (Rabs_pos_eq (exp _)) by (left; apply exp_pos).
  assert (CP := Rabs_pos C). assert (tp : 0 < t) by (apply Rle_lt_trans with (2 := Ht); apply Rdiv_le_0_compat; [exact CP|nra]).
  assert (Q : Rabs C < e * (lam * t)). { apply Rmult_lt_compat_r with (r := lam * e) in Ht; [|nra]. replace (Rabs C / (lam * e) * (lam * e)) with (Rabs C) in Ht by (field; split; lra). lra. }
  assert (E := exp_ineq1 (lam * t) ltac:(apply Rgt_not_eq; nra)). replace (- lam * t) with (- (lam * t)) by ring. rewrite exp_Ropp. assert (P := exp_pos (lam * t)).
  apply Rmult_lt_reg_r with (exp (lam * t)); [exact P|]. rewrite Rmult_assoc, Rinv_l by lra. nra.
Qed.
(** the hypotheses of C110: the controllers, the reference, and a start inside the trigger's band *)
Definition standby (w : WhlCtl) (c : MagCtl) (f : v3 -> v3) (ref : list R) (hr : v3) (m B : R -> v3) (qc : R -> quat) (wc : v3) (F : R -> v3) (y : R -> SVec) (a : R) : Prop :=
  0 < wc_alpha w /\ 0 < wc_gamma w /\ 0 < tr_hw (wc_trig w) < 1 /\ pm1 (tr_mem (wc_trig w)) /\
  wc_sun w = Some f /\ zone_free w /\ spanning (s_rw (wc_sat w)) /\ det3 (s_total_moment (wc_sat w)) <> 0 /\ s_rw (mc_sat c) = s_rw (wc_sat w) /\
  rw_momentum_r (s_rw (wc_sat w)) ref = Ok hr /\
  unitq (v_att (y 0)) /\ a < 0 /\ (forall t, a < t -> follows w m B qc wc F y t) /\ dumping c ref B m y /\
  wc_alpha w * off_target (tr_mem (wc_trig w)) (qc 0) (y 0) + dot3 (slip (qc 0) wc (y 0)) (slip (qc 0) wc (y 0)) / 2 < 2 * wc_alpha w * (1 + tr_hw (wc_trig w)).

Lemma standby_core w c f ref hr m B qc wc F y a : (forall t, B t <> zero3) -> steady qc wc -> cross3 wc (add3 (mv (s_total_moment (wc_sat w)) wc) hr) = zero3 -> standby w c f ref hr m B qc wc F y a ->
  let N := sandwich_opp (qc 0) (add3 (mv (s_total_moment (wc_sat w)) wc) hr) in
  let H := fun t => sub3 (whole (wc_sat w) (held (wc_sat w) (y t)) (y t)) N in let L := fun t => sub3 (whole (wc_sat w) hr (y t)) N in
  exists C lam, 0 <= C /\ 0 < lam /\ (forall t, 0 <= t -> unitq (v_att (y t)) /\
    sub3 (H t) (L t) = sandwich_opp (v_att (y t)) (sub3 (held (wc_sat w) (y t)) hr) /\
    deriv3 H t (scale3 (- K_BBQ) (rej (B t) (sub3 (H t) (L t)))) /\ dot3 (L t) (L t) <= C * exp (- lam * t)).
Proof.
  intros NB ST XK (A & G & HW & PM & HS & HZ & SP & DJ & ES & HR & U0 & HA & FO & DU & HE) N H L.
  destruct (C110_tracks (wc_alpha w) (wc_gamma w) (tr_hw (wc_trig w)) A G HW) as (lam & lp & TRK).
  specialize (TRK w f m B qc wc F y a eq_refl eq_refl eq_refl PM HS HZ SP DJ ST U0 HA FO). cbv zeta in TRK. specialize (TRK HE).
  destruct (mv_bounded (s_total_moment (wc_sat w))) as (CJ & CJp & HJ). set (s := tr_mem (wc_trig w)) in *. assert (SS := pm1_sq _ PM). fold s in SS.
  set (al := wc_alpha w) in *. set (K0 := 6 * al * off_target s (qc 0) (y 0) + 4 * dot3 (slip (qc 0) wc (y 0)) (slip (qc 0) wc (y 0))) in *.
  set (k := add3 (mv (s_total_moment (wc_sat w)) wc) hr) in *. set (c2 := 16 * CJ * dot3 wc wc + 8 * dot3 k k).
  assert (c2p : 0 <= c2) by (unfold c2; assert (X1 := dot3_nonneg wc); assert (X2 := dot3_nonneg k); nra).
  assert (K0p : 0 <= K0) by (unfold K0; assert (X1 : 0 <= off_target s (qc 0) (y 0)) by (unfold off_target; cbv zeta; generalize (subq (v_att (y 0)) (scaleq s (qc 0))); clear; intros [p q r s]; vunfoldg; cbn [qw qx qy qz]; rnumg; nra); assert (X2 := dot3_nonneg (slip (qc 0) wc (y 0))); nra).
  exists ((4 * CJ + c2 / (2 * al)) * K0), lam. split; [apply Rmult_le_pos; [|exact K0p]; assert (0 <= c2 / (2 * al)) by (apply Rdiv_le_0_compat; lra); lra|]. split; [exact lp|]. intros t Ht.
  assert (U : unitq (v_att (y t))) by (apply (fo_unit w f m B qc wc F y a HA HS HZ SP DJ FO U0); lra). split; [exact U|].
  assert (EHL : sub3 (H t) (L t) = sub3 (whole (wc_sat w) (held (wc_sat w) (y t)) (y t)) (whole (wc_sat w) hr (y t))) by (unfold H, L; generalize (whole (wc_sat w) (held (wc_sat w) (y t)) (y t)) (whole (wc_sat w) hr (y t)) N; clear; vring).
  split; [|split].
  - rewrite EHL. unfold whole. rewrite <- sopp_sub by exact U. f_equal. generalize (mv (s_total_moment (wc_sat w)) (v_rate (y t))) (held (wc_sat w) (y t)) hr. clear. vring.
  - rewrite EHL. unfold H. eapply d3_eq; [exact (d3_sub _ _ t _ _ (whole_law w m B qc wc F y t c ref hr U SP DJ (NB t) ES HR DU (FO t ltac:(lra))) (d3_const N t))|]. cbv beta. apply sub3_0_r.
  - destruct (TRK t Ht) as (_ & X). destruct (ST t) as (UC & _). assert (EN : N = sandwich_opp (qc t) k) by (unfold N; symmetry; apply (steady_keeps qc wc k ST XK)).
    assert (Y := whole_near (s_total_moment (wc_sat w)) (v_att (y t)) (qc t) (v_rate (y t)) wc hr CJ U UC HJ ltac:(lra)). cbv zeta in Y. fold k in Y. fold c2 in Y. rewrite <- EN in Y. change (sandwich_opp (v_att (y t)) (add3 (mv (s_total_moment (wc_sat w)) (v_rate (y t))) hr)) with (whole (wc_sat w) hr (y t)) in Y. fold (L t) in Y.
    rewrite <- (fo_slip qc wc y t) in Y. fold (slip (qc t) wc (y t)) in Y.
    assert (OF := fo_off w f m B qc wc F y a HA HS HZ SP DJ ST FO U0 s t SS ltac:(lra)). set (e := error_quat (v_att (y t)) (qc t)) in *.
    assert (UE : unitq e) by (apply error_quat_unit; assumption). unfold unitq in UE.
    assert (Q : qw e ^ 2 + dot3 (vec e) (vec e) = 1) by (rewrite <- UE; generalize e; clear; intros [p q r s]; vunfoldg; cbn [x3 y3 z3 qw qx qy qz]; rnumg; ring).
    assert (Z : dot3 (vec e) (vec e) <= off_target s (qc t) (y t)).
    { rewrite OF. change (error_quat (v_att (y t)) (qc t)) with e. assert (S1 := Rle_0_sqr (1 - s * qw e)). unfold Rsqr in S1. assert (s * qw e * (s * qw e) = qw e ^ 2) by (replace (s * qw e * (s * qw e)) with (s * s * qw e ^ 2) by ring; rewrite SS; ring). lra. }
    set (E := exp (- lam * t)) in *. set (D2 := dot3 (slip (qc t) wc (y t)) (slip (qc t) wc (y t))) in *. assert (D2p : 0 <= D2) by apply dot3_nonneg. set (of := off_target s (qc t) (y t)) in *. assert (V0 := dot3_nonneg (vec e)).
    assert (R1 : D2 <= K0 * E) by nra. assert (R2 : of <= K0 * E / (2 * al)) by (apply Rmult_le_reg_r with (2 * al); [lra|]; unfold Rdiv; rewrite Rmult_assoc, Rinv_l by lra; lra).
    eapply Rle_trans; [exact Y|]. replace ((4 * CJ + c2 / (2 * al)) * K0 * E) with (4 * CJ * (K0 * E) + c2 * (K0 * E / (2 * al))) by (field; lra).
    apply Rplus_le_compat; apply Rmult_le_compat_l; lra.
Qed.
Lemma norm_lim (g : R -> v3) : is_lim (fun t => dot3 (g t) (g t)) p_infty 0 -> is_lim (fun t => norm3 (g t)) p_infty 0.
Proof.
  intros X. apply is_lim_spec. apply is_lim_spec in X. intros [e ep]. cbn [pos]. destruct (X (mkposreal (e * e) ltac:(nra))) as (M & HM). cbn [pos] in HM. exists M. intros t Ht. specialize (HM t Ht).
  rewrite Rminus_0_r in *. rewrite Rabs_pos_eq in HM by apply dot3_nonneg. unfold norm3. rnumg. rewrite Rabs_pos_eq by apply sqrt_pos. rewrite <- (sqrt_square e) by lra. apply sqrt_lt_1_alt. split; [apply dot3_nonneg|exact HM].
Qed.

(** in a field that strays from each fixed direction on every window, the wheels' momentum goes to the one asked for, while the
    satellite turns to its reference: at rest, or turning about the axis of the momentum it is to have *)
Theorem C110_dumps : forall w c f ref hr m B qc wc F y a T k, field B -> 0 < T -> 0 < k ->
  (forall t v, 0 <= t -> unit3 v -> k <= RInt (fun s => dot3 (cross3 v (B s)) (cross3 v (B s)) / dot3 (B s) (B s)) t (t + T)) ->
  steady qc wc -> cross3 wc (add3 (mv (s_total_moment (wc_sat w)) wc) hr) = zero3 -> standby w c f ref hr m B qc wc F y a ->
  is_lim (fun t => norm3 (sub3 (held (wc_sat w) (y t)) hr)) p_infty 0.
Proof.
  intros w c f ref hr m B qc wc F y a T k (NB & CB) Tp kp TU SQ XK ST. destruct (standby_core w c f ref hr m B qc wc F y a NB SQ XK ST) as (C & lam & Cp & lp & X). cbv zeta in X.
  set (N := sandwich_opp (qc 0) _) in X. set (H := fun t => sub3 (whole (wc_sat w) (held (wc_sat w) (y t)) (y t)) N) in *. set (L := fun t => sub3 (whole (wc_sat w) hr (y t)) N) in *.
  apply norm_lim. assert (V := offset_lim H L B K_BBQ C lam K_pos Cp lp NB CB (fun t Ht => proj1 (proj2 (proj2 (X t Ht)))) (fun t Ht => proj2 (proj2 (proj2 (X t Ht)))) T k Tp kp TU).
  assert (E := expo_lim C lam lp). apply is_lim_spec in V. apply is_lim_spec in E. apply is_lim_spec. intros [ep epp]. cbn [pos].
  destruct (V (mkposreal (ep / 4) ltac:(lra))) as (M1 & H1). destruct (E (mkposreal (ep / 4) ltac:(lra))) as (M2 & H2). cbn [pos] in H1, H2. exists (Rmax 0 (Rmax M1 M2)). intros t Ht.
  assert (A0 := Rmax_l 0 (Rmax M1 M2)). assert (A1 := Rmax_r 0 (Rmax M1 M2)). assert (A2 := Rmax_l M1 M2). assert (A3 := Rmax_r M1 M2).
  specialize (H1 t ltac:(lra)). specialize (H2 t ltac:(lra)). destruct (X t ltac:(lra)) as (U & EQ & _ & LB). change (sub3 (H t) (L t) = sandwich_opp (v_att (y t)) (sub3 (held (wc_sat w) (y t)) hr)) in EQ. change (dot3 (L t) (L t) <= C * exp (- lam * t)) in LB. rewrite Rminus_0_r in *. rewrite Rabs_pos_eq in H1 by apply dot3_nonneg. rewrite Rabs_pos_eq by apply dot3_nonneg.
  assert (H2' := Rle_abs (C * exp (- lam * t))). rewrite <- (turned_norm (v_att (y t)) _ U), <- EQ. assert (Z := sum2_sq (H t) (scale3 (-1) (L t))).
  assert (E1 : add3 (H t) (scale3 (-1) (L t)) = sub3 (H t) (L t)) by (generalize (H t) (L t); clear; vring). rewrite E1 in Z.
  assert (E2 : dot3 (scale3 (-1) (L t)) (scale3 (-1) (L t)) = dot3 (L t) (L t)) by (generalize (L t); clear; intros v; destruct v as [v1 v2 v3]; vunfoldg; cbn [x3 y3 z3]; rnumg; ring). lra.
Qed.
Print Assumptions C110_dumps.
(** so the standby roll (induce_bbq_roll_attitude on a clock whose absolute time runs, desaturate towards resting wheels) empties the
    wheels in every periodic field that does not keep one line, if the satellite's z axis is a principal axis *)
Theorem C110_bbq : forall w c f m B clock F y a P t1 t2 j, field B -> 0 < P -> (forall t, B (t + P) = B t) -> cross3 (B t1) (B t2) <> zero3 ->
  (forall u, clk_absolute (clock u) = u) -> mv (s_total_moment (wc_sat w)) ez = scale3 j ez ->
  standby w c f [0; 0; 0; 0] zero3 m B (fun t => ecliptic_attitude (clock t) true) BBQ F y a ->
  (forall t, a < t -> exists acc, induce_bbq_roll_attitude w (clock t) (mkCS (y t) (seen B y t)) (m t) = Ok acc) /\
  is_lim (fun t => norm3 (held (wc_sat w) (y t))) p_infty 0.
Proof.
  intros w c f m B clock F y a P t1 t2 j (NB & CB) Pp PB X CK PR ST. split.
  - destruct ST as (_ & _ & _ & _ & _ & _ & _ & _ & _ & _ & _ & _ & FO & _). intros t Ht. destruct (FO t Ht) as (w' & u & acc & _ & _ & TD & _). exists (w', acc). exact TD.
  - destruct (periodic_turning B P t1 t2 CB NB Pp PB X) as (T & k & Tp & kp & TU).
    assert (SQ : steady (fun t => ecliptic_attitude (clock t) true) BBQ) by (intros t; split; [apply C56_unit|rewrite BBQ_eq; apply (C56_rate clock t CK)]).
    assert (XK : cross3 BBQ (add3 (mv (s_total_moment (wc_sat w)) BBQ) zero3) = zero3).
    { assert (EB : BBQ = scale3 (4 * 0.00733) ez) by (rewrite BBQ_eq; unfold ez; vunfoldg; cbn [x3 y3 z3]; rnumg; apply mk3_c; lra). rewrite EB, mv_scale3, PR. generalize (4 * 0.00733). clear. intros b. unfold ez. vunfoldg. cbn [x3 y3 z3]. rnumg. apply mk3_c; ring. }
    assert (L := C110_dumps w c f [0; 0; 0; 0] zero3 m B _ BBQ F y a T k (conj NB CB) Tp kp TU SQ XK ST). apply is_lim_ext with (2 := L). intros t. rewrite sub3_0_r. reflexivity.
Qed.
Print Assumptions C110_bbq.
(** but in a field that keeps to one line of inertial space the momentum along that line stays: what is left along it at the end is
    the whole momentum along it at the start, less the reference's *)
Theorem C110_fixed_refuted : forall w c f ref hr m B qc wc F y a n, field B -> n <> zero3 -> (forall t, cross3 (B t) n = zero3) ->
  steady qc wc -> cross3 wc (add3 (mv (s_total_moment (wc_sat w)) wc) hr) = zero3 -> standby w c f ref hr m B qc wc F y a ->
  let p := dot3 (whole (wc_sat w) (held (wc_sat w) (y 0)) (y 0)) n - dot3 (sandwich_opp (qc 0) (add3 (mv (s_total_moment (wc_sat w)) wc) hr)) n in
  is_lim (fun t => dot3 (sandwich_opp (v_att (y t)) (sub3 (held (wc_sat w) (y t)) hr)) n) p_infty p /\
  (p <> 0 -> ~ is_lim (fun t => norm3 (sub3 (held (wc_sat w) (y t)) hr)) p_infty 0).
Proof.
  intros w c f ref hr m B qc wc F y a n (NB & CB) Nn PN SQ XK ST p. destruct (standby_core w c f ref hr m B qc wc F y a NB SQ XK ST) as (C & lam & Cp & lp & X). cbv zeta in X.
  set (N := sandwich_opp (qc 0) _) in *. set (H := fun t => sub3 (whole (wc_sat w) (held (wc_sat w) (y t)) (y t)) N) in *. set (L := fun t => sub3 (whole (wc_sat w) hr (y t)) N) in *.
  assert (K := offset_kept H L B K_BBQ NB (fun t Ht => proj1 (proj2 (proj2 (X t Ht)))) n PN). assert (EP : dot3 (H 0) n = p) by (unfold H, p; rewrite dot_sub_l; reflexivity). rewrite EP in K.
  assert (nn := dpos n Nn). set (g := fun t => sandwich_opp (v_att (y t)) (sub3 (held (wc_sat w) (y t)) hr)).
  assert (E : forall t, 0 <= t -> dot3 (g t) n = p - dot3 (L t) n) by (intros t Ht; destruct (X t Ht) as (_ & EQ & _); change (sub3 (H t) (L t) = g t) in EQ; rewrite <- EQ, dot_sub_l, K by exact Ht; reflexivity).
  assert (LM : is_lim (fun t => dot3 (g t) n) p_infty p).
  { assert (EL := expo_lim (C * dot3 n n) lam lp). apply is_lim_spec in EL. apply is_lim_spec. intros [e ep]. cbn [pos]. destruct (EL (mkposreal (e * e) ltac:(nra))) as (M & HM). cbn [pos] in HM. exists (Rmax 0 M). intros t Ht.
    assert (A0 := Rmax_l 0 M). assert (A1 := Rmax_r 0 M). specialize (HM t ltac:(lra)). rewrite Rminus_0_r in HM. destruct (X t ltac:(lra)) as (_ & _ & _ & LB). change (dot3 (L t) (L t) <= C * exp (- lam * t)) in LB. rewrite (E t ltac:(lra)). replace (p - dot3 (L t) n - p) with (- dot3 (L t) n) by ring. rewrite Rabs_Ropp.
    assert (CS := cs3 (L t) n). assert (HM' := Rle_abs (C * dot3 n n * exp (- lam * t))). assert (Q : dot3 (L t) (L t) * dot3 n n <= C * exp (- lam * t) * dot3 n n) by (apply Rmult_le_compat_r; lra).
    assert (Z : Rsqr (dot3 (L t) n) < Rsqr e) by (unfold Rsqr; nra). apply Rsqr_lt_abs_0 in Z. rewrite (Rabs_pos_eq e) in Z by lra. exact Z. }
  split; [exact LM|]. intros Np L0.
  apply is_lim_spec in LM. apply is_lim_spec in L0. assert (pp : 0 < Rabs p) by (apply Rabs_pos_lt, Np). assert (np : 0 < norm3 n) by (unfold norm3; rnumg; apply sqrt_lt_R0, nn).
  destruct (LM (mkposreal (Rabs p / 2) ltac:(lra))) as (M1 & H1). destruct (L0 (mkposreal (Rabs p / 2 / norm3 n) ltac:(apply Rdiv_lt_0_compat; lra))) as (M2 & H2). cbn [pos] in H1, H2.
  set (t := Rmax 0 (Rmax M1 M2) + 1). assert (A0 := Rmax_l 0 (Rmax M1 M2)). assert (A1 := Rmax_r 0 (Rmax M1 M2)). assert (A2 := Rmax_l M1 M2). assert (A3 := Rmax_r M1 M2).
  specialize (H1 t ltac:(unfold t; lra)). specialize (H2 t ltac:(unfold t; lra)). destruct (X t ltac:(unfold t; lra)) as (U & _). rewrite Rminus_0_r in H2.
  set (h := sub3 (held (wc_sat w) (y t)) hr) in *. assert (NP : 0 <= norm3 h) by (unfold norm3; rnumg; apply sqrt_pos). rewrite Rabs_pos_eq in H2 by exact NP.
  assert (CS := cs3 (g t) n). assert (TN : dot3 (g t) (g t) = dot3 h h) by exact (turned_norm (v_att (y t)) h U). rewrite TN in CS.
  assert (S1 : norm3 h * norm3 h = dot3 h h) by (unfold norm3; rnumg; apply sqrt_sqrt, dot3_nonneg). assert (S2 : norm3 n * norm3 n = dot3 n n) by (unfold norm3; rnumg; apply sqrt_sqrt, dot3_nonneg).
  assert (B1 : Rabs (dot3 (g t) n) <= norm3 h * norm3 n).
  { rewrite <- (Rabs_pos_eq (norm3 h * norm3 n)) by nra. apply Rsqr_le_abs_0. unfold Rsqr. replace (norm3 h * norm3 n * (norm3 h * norm3 n)) with (norm3 h * norm3 h * (norm3 n * norm3 n)) by ring. rewrite S1, S2. lra. }
  assert (B2 : norm3 h * norm3 n < Rabs p / 2). { apply Rmult_lt_compat_r with (r := norm3 n) in H2; [|exact np]. replace (Rabs p / 2 / norm3 n * norm3 n) with (Rabs p / 2) in H2 by (field; lra). exact H2. }
  assert (B3 := Rabs_triang_inv p (p - dot3 (g t) n)). replace (p - (p - dot3 (g t) n)) with (dot3 (g t) n) in B3 by ring. change (Rabs (dot3 (g t) n - p) < Rabs p / 2) in H1. rewrite Rabs_minus_sym in H1. lra.
Qed.
Print Assumptions C110_fixed_refuted.
(** nor does any of this touch the one pattern of the four wheels' speeds that carries no momentum: it is the same for ever, so wheels
    whose momentum is dumped need not be at rest *)
Definition pattern (l : list R) : R := - nth 0 l 0 + nth 1 l 0 - nth 2 l 0 + nth 3 l 0.
Lemma saturation_scaled (l : list R) x l' : saturation l x = Ok l' -> exists k, l' = map (Rmult k) l.
Proof.
  intros E. assert (I : l = map (Rmult 1) l) by (symmetry; rewrite (map_ext (Rmult 1) (fun x => x)) by (intros; ring); apply map_id).
  destruct l as [|z l0]; [unfold saturation in E; cbn in E; exists 1; destruct l'; [reflexivity|discriminate]|].
  destruct (greatest_exists (map Rabs (z :: l0)) ltac:(discriminate)) as (g & G). rewrite (saturation_eq _ _ g G) in E. destruct (Rltb x g); [|exists 1; rewrite <- I; congruence]. exists (x / g). assert (E' : map (fun xi => x * xi / g) (z :: l0) = l') by congruence. rewrite <- E'. apply map_ext. intros u. unfold Rdiv. ring.
Qed.
Lemma pyr_pattern inc az par orth maxT lim T acc : rw_accelerations (mkRWS (pyramid inc az par orth) maxT lim) T = Ok acc -> pattern acc = 0.
Proof.
  intros E. unfold rw_accelerations in E. cbn [rw_limited rw_wheels rw_maxT] in E. set (s := mkRWS (pyramid inc az par orth) maxT lim) in *.
  assert (S : exists k, acc = zip_with w_acceleration (pyramid inc az par orth) (map (Rmult k) (rw_distribute s T))).
  { destruct lim; cbn [rbind] in E.
    - destruct (saturation (rw_distribute s T) maxT) as [l|] eqn:ES; [|discriminate]. cbn [rbind] in E. destruct (saturation_scaled _ _ _ ES) as (k & ->). exists k. congruence.
    - exists 1. rewrite (map_ext (Rmult 1) (fun x => x)) by (intros; ring). rewrite map_id. congruence. }
  destruct S as (k & ->). unfold rw_distribute. set (v := mv (inv3 (rw_gram s)) T). clearbody v. cbn [rw_wheels s]. assert (X := pyr_axes inc az par orth). unfold pyramid in *. cbn [map zip_with w_axis] in *. 
  assert (LI : forall (a b c d a' b' c' d' : v3), [a; b; c; d] = [a'; b'; c'; d'] -> a = a' /\ b = b' /\ c = c' /\ d = d') by (intros * Q; repeat split; congruence).
  apply LI in X. destruct X as (A0 & A1 & A2 & A3). rewrite A0, A1, A2, A3. unfold pattern, w_acceleration. cbn [nth w_par]. destruct v as [v1 v2 v3]. vunfoldg. cbn [x3 y3 z3]. rnumg. unfold Rdiv. ring.
Qed.
Theorem C110_null_refuted : forall w m B qc wc F y a inc az par orth maxT lim, s_rw (wc_sat w) = mkRWS (pyramid inc az par orth) maxT lim -> a < 0 ->
  (forall t, a < t -> follows w m B qc wc F y t) -> forall t, 0 <= t ->
  pattern (v_whl (y t)) = pattern (v_whl (y 0)) /\ exists i, (i < 4)%nat /\ Rabs (pattern (v_whl (y 0))) / 4 <= Rabs (nth i (v_whl (y t)) 0).
Proof.
  intros w m B qc wc F y a inc az par orth maxT lim ES HA FO t Ht.
  assert (E : pattern (v_whl (y t)) = pattern (v_whl (y 0))).
  { apply (d_pos_const (fun u => pattern (v_whl (y u))) a HA); [|exact Ht]. intros u Hu. destruct (FO u Hu) as (w' & z & acc & TR & _ & TD & (_ & _ & _ & _ & DL)). cbn [derivative v_whl] in DL.
    unfold track_and_desaturate in TD. cbn [cs_v cs_mag] in TD. rewrite TR in TD. cbn [rbind] in TD. unfold whl_actuator_commands in TD. rewrite (tracking_sat _ _ _ _ _ _ _ TR), ES in TD.
    destruct (rw_accelerations _ _) as [acc'|] eqn:EA; [|discriminate]. cbn [rbind] in TD. assert (acc' = acc) by congruence. subst acc'. assert (P := pyr_pattern _ _ _ _ _ _ _ _ EA).
    eapply d_eq; [unfold pattern; apply d_plus; [apply d_minus; [apply d_plus; [apply d_opp|]|]|]; apply DL|]. exact P. }
  split; [exact E|]. rewrite <- E. set (l := v_whl (y t)). unfold pattern.
  destruct (Rle_lt_dec (Rabs (pattern l) / 4) (Rabs (nth 0 l 0))) as [|Z0]; [exists 0%nat; split; [lia|assumption]|].
  destruct (Rle_lt_dec (Rabs (pattern l) / 4) (Rabs (nth 1 l 0))) as [|Z1]; [exists 1%nat; split; [lia|assumption]|].
  destruct (Rle_lt_dec (Rabs (pattern l) / 4) (Rabs (nth 2 l 0))) as [|Z2]; [exists 2%nat; split; [lia|assumption]|].
  exists 3%nat. split; [lia|]. fold (pattern l). assert (T1 : Rabs (pattern l) <= Rabs (nth 0 l 0) + Rabs (nth 1 l 0) + Rabs (nth 2 l 0) + Rabs (nth 3 l 0)).
  { unfold pattern. generalize (nth 0 l 0) (nth 1 l 0) (nth 2 l 0) (nth 3 l 0). clear. intros p q r s. unfold Rabs. repeat destruct Rcase_abs; lra. }
  lra.
Qed.
Print Assumptions C110_null_refuted.
(** and the torquers do not get the moment asked for: after distribute, whenever one of its components is negative, the torque they
    give works to pile the wheels' momentum up *)
Theorem C110_sign_refuted : forall sat p q r x ref hr ctl cmds, 0 < p -> 0 < q -> 0 < r -> cs_mag x <> zero3 -> rw_momentum_r (s_rw sat) ref = Ok hr ->
  ctl = mag_new sat (lin3 p q r) false -> let e := sub3 (held sat (cs_v x)) hr in let m := mag_moment_cmd (cs_mag x) (scale3 (- K_BBQ) e) in
  x3 m < 0 \/ y3 m < 0 \/ z3 m < 0 -> desaturate ctl x ref = Ok (ctl, cmds) ->
  exists M, sys_actuate (lin3 p q r) cmds = Ok M /\ 0 < dot3 e (cross3 M (cs_mag x)).
Proof.
  intros sat p q r x ref hr ctl cmds A1 A2 A3 NB HR EC e m N D. unfold desaturate, desaturate_torque in D. rewrite EC in D. cbn [mag_new mc_sat] in D. unfold rw_momentum_r at 1 in D. destruct (Nat.ltb (length (v_whl (cs_v x))) _); [discriminate|]. cbn [rbind] in D. rewrite HR in D. cbn [rbind] in D.
  change (sub3 (rw_momentum (s_rw sat) (v_whl (cs_v x))) hr) with e in D. rewrite C53_commands in D by reflexivity. cbn [mc_torquers mag_new] in D. change (mag_moment_cmd (cs_mag x) (scale3 (- K_BBQ) e)) with m in D.
  destruct (lin3_reversed p q r m A1 A2 A3 N) as (cur & s & E & Hs & EM). rewrite E in D. assert (cur = cmds) by congruence. subst cur. exists (scale3 s m). split; [exact EM|].
  assert (P := mag_power K_BBQ e (cs_mag x) NB). change (mag_moment_cmd (cs_mag x) (scale3 (- K_BBQ) e)) with m in P.
  assert (Q : dot3 e (cross3 (scale3 s m) (cs_mag x)) = s * dot3 e (cross3 m (cs_mag x))) by (generalize e m (cs_mag x); clear; intros a b c; destruct a as [a1 a2 a3], b as [b1 b2 b3], c as [c1 c2 c3]; vunfoldg; cbn [x3 y3 z3]; rnumg; ring).
  rewrite Q, P. assert (K := K_pos). assert (AP := across_pos e (cs_mag x) NB). destruct (Rle_lt_or_eq_dec _ _ AP) as [AP'|AP0]; [assert (0 < K_BBQ * across e (cs_mag x)) by nra; nra|]. exfalso.
  assert (Z : m = zero3).
  { assert (CZ : cross3 e (cs_mag x) = zero3) by (apply dot3_zero; unfold across in AP0; assert (BP := dpos _ NB); apply (f_equal (fun z => z * dot3 (cs_mag x) (cs_mag x))) in AP0; unfold Rdiv in AP0; rewrite Rmult_assoc, Rinv_l in AP0 by lra; lra).
    unfold m, mag_moment_cmd. assert (C2 : cross3 (cs_mag x) (scale3 (- K_BBQ) e) = scale3 K_BBQ (cross3 e (cs_mag x))) by (generalize e (cs_mag x) K_BBQ; clear; intros a b k; destruct a as [a1 a2 a3], b as [b1 b2 b3]; vunfoldg; cbn [x3 y3 z3]; rnumg; apply mk3_c; ring).
    rewrite C2, CZ. assert (BP := dpos _ NB). generalize (dot3 (cs_mag x) (cs_mag x)) BP K_BBQ. clear. intros b H k. vunfoldg. cbn [x3 y3 z3]. rnumg. apply mk3_c; unfold Rdiv; ring. }
  rewrite Z in N. cbn in N. destruct N as [N|[N|N]]; lra.
Qed.
Print Assumptions C110_sign_refuted.
(** the hypotheses are met: three wheels, the shipped roll of the reference, one wheel spinning about the roll axis; in a field that the
    satellite sees along its x axis it slows down, in a field along the roll axis it never does *)
Definition running (u : R) : AClock := CClock (mkClock u 2022%Z 1%Z 1%Z 0%Z 0%Z 0 false false).
Definition rolled (t : R) : quat := ecliptic_attitude (running t) true.
Definition bfield (b : v3) (t : R) : v3 := sandwich_opp (rolled t) b.
Definition spun (sg : R -> R) (t : R) : SVec := mkSV zero3 zero3 (rolled t) BBQ [0; 0; sg t].
Definition dump_ctl : MagCtl := mag_new free_ball (lin3 1 1 1) false.
Definition asked (b : v3) (sg : R -> R) (t : R) : v3 := mag_moment_cmd b (scale3 (- K_BBQ) (scale3 (sg t) ez)).
Lemma rolled_unit t : unitq (rolled t). Proof. apply C56_unit. Qed.
Lemma rolled_steady : steady rolled BBQ. Proof. intros t. split; [apply rolled_unit|]. rewrite BBQ_eq. exact (C56_rate running t (fun u => eq_refl)). Qed.
Lemma spun_seen b sg t : seen (bfield b) (spun sg) t = b.
Proof. unfold seen, bfield. cbn [spun v_att]. apply sandwich_sandwich_opp, rolled_unit. Qed.
Lemma spun_held sg t : held free_ball (spun sg t) = scale3 (sg t) ez.
Proof. unfold held, rw_momentum, w_momentum, ez. cbn [free_ball s_rw rw_wheels zip_with spun v_whl sum3 fold_right w_par w_axis]. vunfoldg. cbn [x3 y3 z3]. rnumg. apply mk3_c; ring. Qed.
Lemma spun_dumping b sg : dumping dump_ctl [0; 0; 0; 0] (bfield b) (asked b sg) (spun sg).
Proof.
  intros t. exists (scale3 (- K_BBQ) (scale3 (sg t) ez)). rewrite spun_seen. split; [|reflexivity]. unfold desaturate_torque. cbn [dump_ctl mag_new mc_sat cs_v spun v_whl]. unfold rw_momentum_r. cbn [free_ball s_rw rw_wheels length Nat.ltb Nat.leb rbind].
  f_equal. f_equal. unfold rw_momentum, w_momentum, ez. cbn [rw_wheels zip_with sum3 fold_right w_par w_axis]. vunfoldg. cbn [x3 y3 z3]. rnumg. apply mk3_c; ring.
Qed.
Lemma spun_error sg t : error_quat (v_att (spun sg t)) (rolled t) = q1.
Proof. cbn [spun v_att]. assert (U := rolled_unit t). unfold unitq in U. unfold error_quat. transitivity (mkq (dotq (rolled t) (rolled t)) 0 0 0); [|rewrite U; reflexivity]. generalize (rolled t). clear. intros [a b c d]. unfold conjugate, product. vunfoldg. cbn [x3 y3 z3 qw qx qy qz]. rnumg. apply mkq_c; ring. Qed.
Lemma axis_kept : set_trig axis_ctl (trig_step (qw (q1 : quat)) (wc_trig axis_ctl)) = axis_ctl.
Proof. rewrite trig_keep; [reflexivity|]. unfold q1. cbn [axis_ctl wc_trig tr_hw tr_mem qw]. rnumg. lra. Qed.
Lemma spun_tracking sg t : tracking axis_ctl (spun sg t) BBQ zero3 (rolled t) = Ok (axis_ctl, zero3).
Proof.
  assert (T := tracking_free axis_ctl (spun sg t) BBQ zero3 (rolled t) (fun _ => ex) eq_refl (or_intror eq_refl) ltac:(cbn; lia)). cbv zeta in T. rewrite spun_error, axis_kept in T. rewrite T. f_equal. f_equal.
  cbn [axis_ctl wc_sat wc_trig wc_alpha wc_gamma]. rewrite free_ball_total. change (rw_momentum (s_rw free_ball) (v_whl (spun sg t))) with (held free_ball (spun sg t)). rewrite spun_held. cbn [spun v_rate].
  assert (E : sandwich q1 BBQ = BBQ) by (generalize BBQ; intros [p q r]; unfold sandwich, q1, conjugate, product; vunfoldg; cbn [x3 y3 z3 qw qx qy qz]; rnumg; apply mk3_c; ring). rewrite E, sandwich_0, BBQ_eq.
  generalize (4 * 0.00733) (- tr_mem (trig_step (qw q1) (mkTr 1 0.3)) * (2 * 0.1 ^ 2)) (2 * 0.707 * 0.1) (sg t). clear. intros b k g s. unfold ez, q1, vec. vunfoldg. cbn [x3 y3 z3 row1 row2 row3 qx qy qz]. rnumg. apply mk3_c; ring.
Qed.
Lemma spun_follows b sg r t : derivable_pt_lim sg t r -> cross3 (asked b sg t) b = scale3 r ez -> follows axis_ctl (asked b sg) (bfield b) rolled BBQ (fun _ => zero3) (spun sg) t.
Proof.
  intros D X. assert (X' : cross3 b (asked b sg t) = mk3 0 0 (- r)) by (transitivity (scale3 (-1) (cross3 (asked b sg t) b)); [generalize (asked b sg t) b; clear; vring|rewrite X; unfold ez; vunfoldg; cbn [x3 y3 z3]; rnumg; apply mk3_c; ring]).
  assert (AC : whl_actuator_commands axis_ctl (add3 zero3 (mk3 0 0 (- r))) = Ok [0; 0; r]).
  { unfold whl_actuator_commands, rw_accelerations. cbn [axis_ctl wc_sat free_ball s_rw rw_limited rbind]. f_equal. unfold rw_distribute, rw_gram.
    cbn [rw_wheels map summ fold_right w_axis zip_with]. unfold w_acceleration. cbn [w_par]. vunfoldg; cbn [x3 y3 z3 row1 row2 row3]; rnumg. apply (f_equal2 (@cons R)); [|apply (f_equal2 (@cons R)); [|apply (f_equal2 (@cons R)); [|reflexivity]]]; field. }
  exists axis_ctl, zero3, [0; 0; r]. split; [apply spun_tracking|]. split; [left; reflexivity|]. split.
  { unfold track_and_desaturate. cbn [cs_v cs_mag]. rewrite spun_tracking. cbn [rbind]. rewrite spun_seen, X', AC. reflexivity. }
  rewrite spun_seen, X. change (rw_momentum (s_rw (wc_sat axis_ctl)) (v_whl (spun sg t))) with (held free_ball (spun sg t)). rewrite spun_held. unfold derivative. cbn [axis_ctl wc_sat].
  split; [|split; [|split; [|split]]]; cbn [spun v_pos v_vel v_att v_rate v_whl].
  - exact (d3_const zero3 t).
  - eapply d3_eq; [exact (d3_const zero3 t)|]. vunfoldg; cbn [x3 y3 z3]; rnumg. apply mk3_c; unfold Rdiv; ring.
  - exact (proj2 (rolled_steady t)).
  - eapply d3_eq; [exact (d3_const BBQ t)|]. change (s_inv_tot free_ball) with (inv3 (s_total_moment free_ball)). rewrite free_ball_total, BBQ_eq. unfold rw_torque, w_torque, ez. cbn [free_ball s_rw rw_wheels zip_with sum3 fold_right w_par w_axis]. generalize (4 * 0.00733). intros k. vunfoldg; cbn [x3 y3 z3 row1 row2 row3]; rnumg. apply mk3_c; field.
  - intros i. destruct i as [|[|[|i]]]; cbn [nth]; [apply d_const|apply d_const|exact D|destruct i; apply d_const].
Qed.
Lemma spun_standby b sg r : (forall t, derivable_pt_lim sg t (r t)) -> (forall t, cross3 (asked b sg t) b = scale3 (r t) ez) ->
  standby axis_ctl dump_ctl (fun _ => ex) [0; 0; 0; 0] zero3 (asked b sg) (bfield b) rolled BBQ (fun _ => zero3) (spun sg) (-1).
Proof.
  intros D X. unfold standby. cbn [axis_ctl wc_alpha wc_gamma wc_trig tr_hw tr_mem wc_sun wc_sat]. split; [lra|]. split; [lra|]. split; [lra|]. split; [left; reflexivity|]. split; [reflexivity|]. split; [right; reflexivity|]. split; [exact free_ball_spanning|]. split; [exact ball_det|]. split; [reflexivity|].
  split. { unfold rw_momentum_r. cbn [free_ball s_rw rw_wheels length Nat.ltb Nat.leb]. f_equal. unfold rw_momentum, w_momentum. cbn [rw_wheels zip_with sum3 fold_right w_par w_axis]. vunfoldg. cbn [x3 y3 z3]. rnumg. apply mk3_c; ring. }
  split; [exact (rolled_unit 0)|]. split; [lra|]. split; [intros t _; exact (spun_follows b sg (r t) t (D t) (X t))|]. split; [apply spun_dumping|].
  assert (O : off_target 1 (rolled 0) (spun sg 0) = 0) by (unfold off_target; cbn [spun v_att]; generalize (rolled 0); clear; intros [p q s u]; vunfoldg; cbn [qw qx qy qz]; rnumg; ring).
  assert (Z : slip (rolled 0) BBQ (spun sg 0) = zero3) by (unfold slip; cbn [spun v_att v_rate]; rewrite sandwich_sandwich_opp by apply rolled_unit; generalize BBQ; clear; vring). rewrite O, Z. vunfoldg. cbn [x3 y3 z3]. rnumg. lra.
Qed.
Lemma d_continuous (g : R -> R) (t l : R) : derivable_pt_lim g t l -> continuous g t.
Proof. intros D. apply continuity_pt_filterlim, derivable_continuous_pt. exists l. exact D. Qed.
Lemma bfield_field b : b <> zero3 -> field (bfield b).
Proof.
  intros N. split.
  - intros t E. apply N. rewrite <- (sandwich_sandwich_opp (rolled t) b (rolled_unit t)). change (sandwich_opp (rolled t) b) with (bfield b t). rewrite E. apply sandwich_0.
  - intros t. assert (D := d3_sandwich_opp rolled (fun _ => b) t zero3 BBQ (proj2 (rolled_steady t)) (d3_const b t)). destruct D as (D1 & D2 & D3).
    split; [exact (d_continuous _ t _ D1)|]. split; [exact (d_continuous _ t _ D2)|exact (d_continuous _ t _ D3)].
Qed.
Lemma roll_x al : sandwich_opp (mkq (cos (al / 2)) 0 0 (sin (al / 2))) ex = mk3 (cos al) (sin al) 0.
Proof.
  unfold ex, sandwich_opp, sandwich, conjugate, product. vunfoldg. cbn [x3 y3 z3 qw qx qy qz]. rnumg. assert (C := cos_2a (al / 2)). assert (S := sin_2a (al / 2)). replace (2 * (al / 2)) with al in C, S by field. apply mk3_c; [rewrite C|rewrite S|]; ring.
Qed.
Lemma bfield_x t : bfield ex t = sandwich_opp ECL (mk3 (cos (0.02932 * t)) (sin (0.02932 * t)) 0).
Proof.
  unfold bfield, rolled, ecliptic_attitude. rewrite sandwich_opp_product, BBQ_eq. cbn [running clk_absolute absolute z3]. f_equal. rewrite <- roll_x. replace (0.5 * (4 * 0.00733 * t)) with (0.02932 * t / 2) by lra. reflexivity.
Qed.
Example C110_ex : exists sg : R -> R, sg 0 <> 0 /\ field (bfield ex) /\ (exists P t1 t2, 0 < P /\ (forall t, bfield ex (t + P) = bfield ex t) /\ cross3 (bfield ex t1) (bfield ex t2) <> zero3) /\
  mv (s_total_moment free_ball) ez = scale3 4 ez /\ (forall u, clk_absolute (running u) = u) /\
  standby axis_ctl dump_ctl (fun _ => ex) [0; 0; 0; 0] zero3 (asked ex sg) (bfield ex) (fun t => ecliptic_attitude (running t) true) BBQ (fun _ => zero3) (spun sg) (-1).
Proof.
  exists (fun t => 1 * exp (- K_BBQ * t)). split; [rewrite Rmult_0_r, exp_0; lra|]. split; [apply bfield_field; unfold ex; intros E; injection E; rnumg; lra|]. split; [|split; [|split; [reflexivity|]]].
  - exists (2 * PI / 0.02932), 0, (PI / 2 / 0.02932). assert (PP := PI_RGT_0). split; [apply Rdiv_lt_0_compat; lra|]. split.
    + intros t. rewrite !bfield_x. replace (0.02932 * (t + 2 * PI / 0.02932)) with (0.02932 * t + 2 * PI) by (assert (k0 : 0.02932 <> 0) by lra; revert k0; generalize 0.02932; intros k k0; field; exact k0). rewrite cos_plus, sin_plus, cos_2PI, sin_2PI. f_equal. apply mk3_c; ring.
    + rewrite !bfield_x. replace (0.02932 * 0) with 0 by lra. replace (0.02932 * (PI / 2 / 0.02932)) with (PI / 2) by (assert (k0 : 0.02932 <> 0) by lra; revert k0; generalize 0.02932; intros k k0; field; exact k0). rewrite cos_0, sin_0, cos_PI2, sin_PI2. intros E. assert (U := ECL_unit). assert (RG := sandwich_opp_rigid ECL U). destruct RG as (R1 & R2 & _).
      assert (Z : dot3 (sandwich_opp ECL (mk3 0 0 1)) (sandwich_opp ECL (mk3 0 0 1)) = 1) by (rewrite R1; vunfoldg; cbn [x3 y3 z3]; rnumg; ring).
      assert (CE : cross3 (mk3 1 0 0) (mk3 0 1 0) = mk3 0 0 1) by (vunfoldg; cbn [x3 y3 z3]; rnumg; apply mk3_c; ring). rewrite R2, CE in E. rewrite E in Z. revert Z. vunfoldg. cbn [x3 y3 z3]. rnumg. lra.
  - rewrite free_ball_total. unfold ez. vunfoldg. cbn [x3 y3 z3 row1 row2 row3]. rnumg. apply mk3_c; ring.
  - apply (spun_standby ex _ (fun t => - K_BBQ * 1 * exp (- K_BBQ * t))); [intros t; apply d_expo|]. intros t. unfold asked, ex, ez, mag_moment_cmd. generalize K_BBQ (exp (- K_BBQ * t)). clear. intros k x. vunfoldg. cbn [x3 y3 z3]. rnumg. apply mk3_c; field.
Qed.
Example C110_fixed_ex : field (bfield ez) /\ (forall t, bfield ez t = bfield ez 0) /\
  standby axis_ctl dump_ctl (fun _ => ex) [0; 0; 0; 0] zero3 (asked ez (fun _ => 1)) (bfield ez) rolled BBQ (fun _ => zero3) (spun (fun _ => 1)) (-1) /\
  dot3 (whole free_ball (held free_ball (spun (fun _ => 1) 0)) (spun (fun _ => 1) 0)) (bfield ez 0) - dot3 (sandwich_opp (rolled 0) (add3 (mv (s_total_moment free_ball) BBQ) zero3)) (bfield ez 0) = 1.
Proof.
  split; [apply bfield_field; unfold ez; intros E; injection E; rnumg; lra|]. split; [intros t; unfold bfield, rolled; rewrite !C56_pole; reflexivity|]. split.
  - apply (spun_standby ez _ (fun _ => 0)); [intros t; apply d_const|]. intros t. unfold asked, ez, mag_moment_cmd. generalize K_BBQ. clear. intros k. vunfoldg. cbn [x3 y3 z3]. rnumg. apply mk3_c; field.
  - unfold whole, bfield. cbn [spun v_att v_rate]. destruct (sandwich_opp_rigid (rolled 0) (rolled_unit 0)) as (R1 & _). rewrite !R1, spun_held. generalize (mv (s_total_moment free_ball) BBQ). clear. intros v. destruct v as [v1 v2 v3]. unfold ez. vunfoldg. cbn [x3 y3 z3]. rnumg. ring.
Qed.
Definition pyr_sat : Satellite := mkSat 0 0 0 0.8 2 5 (mkRWS (pyramid (PI / 4) 0 1 1) 1 false) (mk3 1 1 1) zero3 false.
Definition pyr_ctl : WhlCtl := mkWC pyr_sat (2 * 0.1 ^ 2) (2 * 0.707 * 0.1) (mkTr 1 0.3) true [] (Some (fun _ => ex)).
Definition idle (_ : R) : SVec := mkSV zero3 zero3 q1 zero3 [-1; 1; -1; 1].
Lemma mv_0 (M : m3) : mv M zero3 = zero3. Proof. destruct M as [[a b c] [d e f] [g h i]]. vunfoldg. cbn [x3 y3 z3 row1 row2 row3]. rnumg. apply mk3_c; ring. Qed.
Example C110_null_ex : pattern (v_whl (idle 0)) = 4 /\ forall t, follows pyr_ctl (fun _ => zero3) (fun _ => ex) (fun _ => q1) zero3 (fun _ => zero3) idle t.
Proof.
  split; [unfold pattern, idle; cbn [v_whl nth]; lra|]. intros t.
  assert (EE : error_quat (q1 : quat) q1 = q1) by (unfold error_quat, q1, conjugate, product; vunfoldg; cbn [x3 y3 z3 qw qx qy qz]; rnumg; apply mkq_c; ring).
  assert (TR : tracking pyr_ctl (idle t) zero3 zero3 q1 = Ok (pyr_ctl, zero3)).
  { assert (T := tracking_free pyr_ctl (idle t) zero3 zero3 q1 (fun _ => ex) eq_refl (or_intror eq_refl) ltac:(cbn; lia)). cbv zeta in T. cbn [idle v_att v_rate] in T. rewrite EE in T.
    assert (TK : trig_step (qw (q1 : quat)) (wc_trig pyr_ctl) = wc_trig pyr_ctl) by (apply trig_keep; unfold q1; cbn [pyr_ctl wc_trig tr_hw tr_mem qw]; rnumg; lra). rewrite TK in T. rewrite T. f_equal. f_equal. rewrite !sandwich_0.
    assert (Z : sub3 (sub3 (scale3 (- tr_mem (wc_trig pyr_ctl) * wc_alpha pyr_ctl) (vec q1)) (scale3 (wc_gamma pyr_ctl) (sub3 zero3 zero3))) (add3 (cross3 zero3 zero3) zero3) = zero3) by (generalize (- tr_mem (wc_trig pyr_ctl) * wc_alpha pyr_ctl) (wc_gamma pyr_ctl); clear; intros a b; unfold q1, vec; vunfoldg; cbn [x3 y3 z3 qx qy qz]; rnumg; apply mk3_c; ring).
    rewrite Z, !mv_0. generalize (rw_momentum (s_rw (wc_sat pyr_ctl)) (v_whl (mkSV zero3 zero3 q1 zero3 [-1; 1; -1; 1]))). clear. vring. }
  assert (X : add3 zero3 (cross3 (seen (fun _ => ex) idle t) zero3) = zero3) by (generalize (seen (fun _ => ex) idle t); clear; vring).
  assert (AC : whl_actuator_commands pyr_ctl (add3 zero3 (cross3 (seen (fun _ => ex) idle t) zero3)) = Ok [0; 0; 0; 0]).
  { rewrite X. unfold whl_actuator_commands, rw_accelerations. cbn [pyr_ctl wc_sat pyr_sat s_rw rw_limited rbind]. f_equal. unfold rw_distribute. assert (O : opp3 (zero3 (T:=R)) = zero3) by (vunfoldg; cbn [x3 y3 z3]; rnumg; apply mk3_c; ring). rewrite O, mv_0.
    unfold pyramid. cbn [rw_wheels map zip_with w_axis]. unfold w_acceleration. cbn [w_par]. generalize (pyramid_axis (PI / 4) 0 0) (pyramid_axis (PI / 4) 0 1) (pyramid_axis (PI / 4) 0 2) (pyramid_axis (PI / 4) 0 3). clear. intros a b c d.
    assert (Z : forall v : v3, dot3 v zero3 / 1 = 0) by (intros v; destruct v as [v1 v2 v3]; vunfoldg; cbn [x3 y3 z3]; rnumg; field). rewrite !Z. reflexivity. }
  exists pyr_ctl, zero3, [0; 0; 0; 0]. split; [exact TR|]. split; [left; reflexivity|]. split; [unfold track_and_desaturate; cbn [cs_v cs_mag]; rewrite TR; cbn [rbind]; rewrite AC; reflexivity|].
  unfold derivative. split; [|split; [|split; [|split]]]; cbn [idle v_pos v_vel v_att v_rate v_whl].
  - exact (d3_const zero3 t).
  - eapply d3_eq; [exact (d3_const zero3 t)|]. vunfoldg; cbn [x3 y3 z3]; rnumg. apply mk3_c; unfold Rdiv; ring.
  - eapply dq_eq; [exact (dq_const q1 t)|]. unfold product, q1, pure. vunfoldg. cbn [x3 y3 z3 qw qx qy qz]. rnumg. apply mkq_c; unfold Rdiv; ring.
  - eapply d3_eq; [exact (d3_const zero3 t)|]. symmetry. match goal with |- mv ?M ?v = _ => replace v with (zero3 (T:=R)); [apply mv_0|] end.
    assert (TZ : rw_torque (s_rw (wc_sat pyr_ctl)) [0; 0; 0; 0] = zero3) by (unfold rw_torque, pyr_ctl, pyr_sat, pyramid; cbn [wc_sat s_rw rw_wheels map zip_with sum3 fold_right]; unfold w_torque; cbn [w_par w_axis]; generalize (pyramid_axis (PI / 4) 0 0) (pyramid_axis (PI / 4) 0 1) (pyramid_axis (PI / 4) 0 2) (pyramid_axis (PI / 4) 0 3); clear; vring).
    rewrite TZ. generalize (seen (fun _ => ex) idle t) (rw_momentum (s_rw (wc_sat pyr_ctl)) [-1; 1; -1; 1]) (mv (s_total_moment (wc_sat pyr_ctl)) zero3). clear. vring.
  - intros i. destruct i as [|[|[|[|i]]]]; cbn [nth]; try apply d_const. destruct i; apply d_const.
Qed.
Example C110_sign_ex : let x := mkCS (spun (fun _ => -1) 0) ex in let m := mag_moment_cmd (cs_mag x) (scale3 (- K_BBQ) (sub3 (held free_ball (cs_v x)) zero3)) in
  y3 m < 0 /\ exists cmds, desaturate dump_ctl x [0; 0; 0; 0] = Ok (dump_ctl, cmds).
Proof.
  intros x m. assert (M : m = mk3 0 (- K_BBQ) 0).
  { unfold m, x. cbn [cs_mag cs_v]. rewrite spun_held. unfold mag_moment_cmd, ex, ez. generalize K_BBQ. clear. intros k. vunfoldg. cbn [x3 y3 z3]. rnumg. apply mk3_c; field. }
  assert (K := K_pos). split; [rewrite M; cbn [y3]; lra|]. destruct (lin3_reversed 1 1 1 m ltac:(lra) ltac:(lra) ltac:(lra)) as (cur & s & E & _ & _); [right; left; rewrite M; cbn [y3]; lra|]. exists cur.
  unfold desaturate, desaturate_torque. cbn [dump_ctl mag_new mc_sat cs_v x]. unfold rw_momentum_r at 1. cbn [free_ball s_rw rw_wheels length spun v_whl Nat.ltb Nat.leb rbind]. unfold rw_momentum_r. cbn [rw_wheels length Nat.ltb Nat.leb rbind].
  rewrite C53_commands by reflexivity. change (mc_torquers dump_ctl) with (lin3 (1:R) 1 1). match goal with |- context [mag_moment_cmd ?b ?T] => replace (mag_moment_cmd b T) with m end; [rewrite E; reflexivity|].
  unfold m, x. cbn [cs_mag cs_v]. f_equal. f_equal. f_equal. unfold rw_momentum, w_momentum. cbn [rw_wheels zip_with sum3 fold_right w_par w_axis]. vunfoldg. cbn [x3 y3 z3]. rnumg. apply mk3_c; ring.
Qed.
