(** * Lemmas: the closed-loop motion is unique *)
From Coq Require Import Reals ZArith List Bool Arith Lra Psatz Lia.
From Coquelicot Require Import Coquelicot.
From Verif Require Import Num Vec M_vector M_quaternion M_struct M_dyn M_ctrl S_rot S_dyn S_ctrl P_rk P_rk4 P_exist1 P_exist2 P_loop1.
From Verif Require Import P_quat P_wheel P_dyn P_dyn2 P_obs P_sat P_ctrl P_ctrl2 P_ctrl3 P_ctrl4 P_ctrl5 P_conv P_detum P_detum2 Props_ctrl Props_ctrl2 Props_ctrl3 Props_conv Props_detum P_dump P_dump2 Props_dump P_loop2 P_loop3.
Import ListNotations.
Local Open Scope R_scope.

(** two states the dynamics cannot tell apart (the code stores the wheels' speeds in an array) *)
Definition same (u v : SVec) : Prop := v_pos u = v_pos v /\ v_vel u = v_vel v /\ v_att u = v_att v /\ v_rate u = v_rate v /\ forall i, nth i (v_whl u) 0 = nth i (v_whl v) 0.
Lemma same_slope (f g h : R -> R) t : 0 <= t -> (forall s, 0 <= s <= t -> derivable_pt_lim f s (h s)) -> (forall s, 0 <= s <= t -> derivable_pt_lim g s (h s)) -> f 0 = g 0 -> f t = g t.
Proof.
  intros Ht Df Dg E. assert (L1 := le_of_deriv (fun s => f s - g s) (fun s => h s - h s) 0 t Ht (fun s Hs => d_minus f g s _ _ (Df s Hs) (Dg s Hs)) ltac:(intros; lra)). assert (L2 := le_of_deriv (fun s => g s - f s) (fun s => h s - h s) 0 t Ht (fun s Hs => d_minus g f s _ _ (Dg s Hs) (Df s Hs)) ltac:(intros; lra)). cbv beta in *. lra.
Qed.
Lemma same_slope3 (f g h : R -> v3) t : 0 <= t -> (forall s, 0 <= s <= t -> deriv3 f s (h s)) -> (forall s, 0 <= s <= t -> deriv3 g s (h s)) -> f 0 = g 0 -> f t = g t.
Proof.
  intros Ht Df Dg E.
  assert (X : x3 (f t) = x3 (g t)) by (apply (same_slope (fun s => x3 (f s)) (fun s => x3 (g s)) (fun s => x3 (h s)) t Ht); [intros s Hs; exact (proj1 (Df s Hs))|intros s Hs; exact (proj1 (Dg s Hs))|rewrite E; reflexivity]).
  assert (Y : y3 (f t) = y3 (g t)) by (apply (same_slope (fun s => y3 (f s)) (fun s => y3 (g s)) (fun s => y3 (h s)) t Ht); [intros s Hs; exact (proj1 (proj2 (Df s Hs)))|intros s Hs; exact (proj1 (proj2 (Dg s Hs)))|rewrite E; reflexivity]).
  assert (Z : z3 (f t) = z3 (g t)) by (apply (same_slope (fun s => z3 (f s)) (fun s => z3 (g s)) (fun s => z3 (h s)) t Ht); [intros s Hs; exact (proj2 (proj2 (Df s Hs)))|intros s Hs; exact (proj2 (proj2 (Dg s Hs)))|rewrite E; reflexivity]).
  destruct (f t) as [p q r], (g t) as [p' q' r']. cbn in X, Y, Z. congruence.
Qed.
(** ** attitude and rate errors *)
Lemma turn_gap (q q' : quat) (w w' : v3) : unitq q' -> dotq (subq q q') (subq (scaleq (1 / 2) (product q (pure w))) (scaleq (1 / 2) (product q' (pure w')))) <= 8 * dotq (subq q q') (subq q q') + 3 * dot3 (sub3 w w') (sub3 w w').
Proof.
  intros U. rewrite turn_apart. set (dq := subq q q'). set (dw := sub3 w w'). assert (A1 := dotq_le dq (product q' (pure dw))). assert (A2 := nq_product q' (pure dw)). rewrite pure_nq in A2. assert (A3 := unit_nq q' U).
  assert (A4 := nq_sq dq). assert (A5 := n1_sq dw). assert (A6 := Rle_abs (dotq dq (product q' (pure dw)))). assert (P1 := nq_pos dq). assert (P2 := n1_pos dw).
  assert (A7 : nq q' * n1 dw <= 4 * n1 dw) by (apply Rmult_le_compat_r; assumption).
  assert (A8 : nq dq * nq (product q' (pure dw)) <= nq dq * (4 * n1 dw)) by (apply Rmult_le_compat_l; lra).
  assert (A9 := Rle_0_sqr (nq dq - n1 dw)). unfold Rsqr in A9. assert (PQ := dotq_pos dq). assert (PW := dot3_pos' dw). lra.
Qed.
Lemma rate_gap (e e' : quat) (d d' : v3) k ga : 0 <= ga -> dot3 (sub3 d d') (sub3 (sub3 (scale3 k (vec e)) (scale3 ga d)) (sub3 (scale3 k (vec e')) (scale3 ga d'))) <= k * k * dotq (subq e e') (subq e e') + dot3 (sub3 d d') (sub3 d d').
Proof.
  intros G. set (x := vec (subq e e')). set (dd := sub3 d d').
  assert (E : dot3 dd (sub3 (sub3 (scale3 k (vec e)) (scale3 ga d)) (sub3 (scale3 k (vec e')) (scale3 ga d'))) = k * dot3 dd x - ga * dot3 dd dd) by (unfold dd, x; destruct e as [e1 e2 e3 e4], e' as [f1 f2 f3 f4], d as [d1 d2 d3], d' as [g1 g2 g3]; vunfoldg; rnumg; ring).
  rewrite E. assert (Q := dot3_nonneg (sub3 dd (scale3 k x))). assert (Q1 : dot3 (sub3 dd (scale3 k x)) (sub3 dd (scale3 k x)) = dot3 dd dd - 2 * (k * dot3 dd x) + k * k * dot3 x x) by (generalize dd x; clear; intros [p q r] [p' q' r']; vunfoldg; rnumg; ring).
  assert (X : dot3 x x <= dotq (subq e e') (subq e e')) by (unfold x; generalize (subq e e'); clear; intros [p q r s]; vunfoldg; rnumg; assert (Z := Rle_0_sqr p); unfold Rsqr in Z; lra).
  assert (KX := Rmult_le_compat_l (k * k) _ _ (Rle_0_sqr k) X). assert (D0 := dot3_nonneg dd). assert (GD : 0 <= ga * dot3 dd dd) by (apply Rmult_le_pos; assumption). assert (Q0 := dotq_pos (subq e e')). assert (KQ : 0 <= k * k * dotq (subq e e') (subq e e')) by (apply Rmult_le_pos; [apply Rle_0_sqr|exact Q0]). lra.
Qed.
Lemma errors_unique k ga (e e' : R -> quat) (d d' : R -> v3) : 0 <= ga -> (forall t, 0 <= t -> unitq (e' t)) ->
  (forall t, 0 <= t -> derivq e t (scaleq 0.5 (product (e t) (pure (d t))))) -> (forall t, 0 <= t -> derivq e' t (scaleq 0.5 (product (e' t) (pure (d' t))))) ->
  (forall t, 0 <= t -> deriv3 d t (sub3 (scale3 k (vec (e t))) (scale3 ga (d t)))) -> (forall t, 0 <= t -> deriv3 d' t (sub3 (scale3 k (vec (e' t))) (scale3 ga (d' t)))) ->
  e 0 = e' 0 -> d 0 = d' 0 -> forall t, 0 <= t -> e t = e' t /\ d t = d' t.
Proof.
  intros G UE DE DE' DD DD' E0 D0 t Ht. rewrite half_05 in DE, DE'.
  set (dq := fun s => subq (e s) (e' s)). set (dd := fun s => sub3 (d s) (d' s)). set (tq := fun s => subq (scaleq (1 / 2) (product (e s) (pure (d s)))) (scaleq (1 / 2) (product (e' s) (pure (d' s))))).
  set (td := fun s => sub3 (sub3 (scale3 k (vec (e s))) (scale3 ga (d s))) (sub3 (scale3 k (vec (e' s))) (scale3 ga (d' s)))).
  assert (V : dotq (dq t) (dq t) + dot3 (dd t) (dd t) = 0).
  { apply (vanishes (fun s => dotq (dq s) (dq s) + dot3 (dd s) (dd s)) (fun s => dotq (tq s) (dq s) + dotq (dq s) (tq s) + (dot3 (td s) (dd s) + dot3 (dd s) (td s))) (16 + 2 * (k * k)) t); [assert (Z := Rle_0_sqr k); unfold Rsqr in Z; lra| | | |lra].
    - intros s Hs. apply d_plus; [apply d_dotq; (apply dq_sub; [apply DE|apply DE']; lra)|apply d_dot3; (apply P_exist2.d3_sub; [apply DD|apply DD']; lra)].
    - intros s Hs. assert (PQ := dotq_pos (dq s)). assert (PW := dot3_pos' (dd s)). split; [lra|]. assert (T1 := turn_gap (e s) (e' s) (d s) (d' s) (UE s (proj1 Hs))). assert (T2 := rate_gap (e s) (e' s) (d s) (d' s) k ga G). fold (dq s) (dd s) (tq s) in T1. fold (dq s) (dd s) (td s) in T2.
      assert (C1 : dotq (tq s) (dq s) = dotq (dq s) (tq s)) by (generalize (dq s) (tq s); clear; intros [a b c d] [e f g h]; vunfoldg; rnumg; ring). assert (C2 := dot_comm3 (td s) (dd s)).
      rewrite C1, C2. assert (KP : 0 <= k * k) by apply Rle_0_sqr. assert (KW : 0 <= k * k * dot3 (dd s) (dd s)) by (apply Rmult_le_pos; assumption). lra.
    - unfold dq, dd. rewrite E0, D0. generalize (e' 0) (d' 0). clear. intros [a b c d] [e f g]. vunfoldg. rnumg. ring. }
  assert (PQ := dotq_pos (dq t)). assert (PW := dot3_pos' (dd t)). split; [apply P_exist2.dotq_zero|apply P_exist2.dot3_zero]; fold (dq t) (dd t); lra.
Qed.
(** ** momentum *)
Lemma rej_same_unique kap (B p p' x : R -> v3) : 0 <= kap -> (forall t, B t <> zero3) ->
  (forall t, 0 <= t -> deriv3 p t (scale3 (- kap) (rej (B t) (sub3 (p t) (x t))))) -> (forall t, 0 <= t -> deriv3 p' t (scale3 (- kap) (rej (B t) (sub3 (p' t) (x t))))) -> p 0 = p' 0 -> forall t, 0 <= t -> p t = p' t.
Proof.
  intros K NB D D' E t Ht. set (dp := fun s => sub3 (p s) (p' s)).
  assert (DD : forall s, 0 <= s -> deriv3 dp s (scale3 (- kap) (rej (B s) (dp s)))).
  { intros s Hs. eapply d3_eq; [exact (P_exist2.d3_sub _ _ s _ _ (D s Hs) (D' s Hs))|]. rewrite !rej_over by apply NB. rewrite !over_sub. unfold dp. rewrite over_sub. generalize (over (normalize3 (B s)) (p s)) (over (normalize3 (B s)) (p' s)) (over (normalize3 (B s)) (x s)). clear. vring. }
  assert (L := le_of_deriv (fun s => dot3 (dp s) (dp s)) (fun s => 2 * dot3 (dp s) (scale3 (- kap) (rej (B s) (dp s)))) 0 t Ht (fun s Hs => d_square dp s _ (DD s (proj1 Hs)))). cbv beta in L. apply P_exist2.dot3_zero. fold (dp t). eapply Rle_trans; [apply L|].
  - intros s Hs. assert (Q : dot3 (dp s) (scale3 (- kap) (rej (B s) (dp s))) = - kap * dot3 (dp s) (rej (B s) (dp s))) by (generalize (dp s) (rej (B s) (dp s)); clear; intros [a b c] [d e f]; vunfoldg; rnumg; ring). rewrite Q, rej_dot by apply NB.
    assert (P : 0 <= across (dp s) (B s)) by (apply across_nonneg, NB). assert (0 <= kap * across (dp s) (B s)) by (apply Rmult_le_pos; assumption). lra.
  - unfold dp. rewrite E. right. apply dot_self0.
Qed.
Lemma moment_law w kap hr B qc wc F y t : unitq (v_att (y t)) -> spanning (s_rw (wc_sat w)) -> det3 (s_total_moment (wc_sat w)) <> 0 -> B t <> zero3 -> follows w (moment kap hr (wc_sat w) B y) B qc wc F y t ->
  deriv3 (fun u => whole (wc_sat w) (held (wc_sat w) (y u)) (y u)) t (scale3 (- kap) (rej (B t) (sub3 (whole (wc_sat w) (held (wc_sat w) (y t)) (y t)) (whole (wc_sat w) hr (y t))))).
Proof.
  intros U SP DJ NB FO. assert (NS := seen_nz B y t U NB). destruct (follows_torque _ _ _ _ _ _ _ _ SP FO) as (w' & u & acc & _ & TA & (_ & _ & DQ & DW & DL)). cbn [derivative v_att v_rate v_whl] in DQ, DW, DL.
  set (m := moment kap hr (wc_sat w) B y) in *.
  assert (DH : deriv3 (fun u => held (wc_sat w) (y u)) t (rw_torque (s_rw (wc_sat w)) acc)) by exact (d3_momentum (s_rw (wc_sat w)) (fun u => v_whl (y u)) t acc DL).
  assert (DM := d3_mv (s_total_moment (wc_sat w)) _ t _ DW). unfold s_inv_tot in DM. rewrite mv_inv3 in DM by exact DJ. cbv beta in DM.
  assert (DS := d3_add _ _ t _ _ DM DH). cbv beta in DS.
  eapply d3_eq; [exact (d3_sandwich_opp (fun u => v_att (y u)) _ t _ (v_rate (y t)) DQ DS)|]. cbv beta. unfold whole. rewrite <- sopp_sub by exact U.
  assert (Q : sub3 (add3 (mv (s_total_moment (wc_sat w)) (v_rate (y t))) (held (wc_sat w) (y t))) (add3 (mv (s_total_moment (wc_sat w)) (v_rate (y t))) hr) = sub3 (held (wc_sat w) (y t)) hr) by (generalize (mv (s_total_moment (wc_sat w)) (v_rate (y t))) (held (wc_sat w) (y t)) hr; clear; vring).
  rewrite Q. rewrite <- rej_turn, <- sopp_scale by exact U. change (sandwich (v_att (y t)) (B t)) with (seen B y t). f_equal.
  assert (MT := mag_torque (seen B y t) (scale3 (- kap) (sub3 (held (wc_sat w) (y t)) hr)) NS). change (mag_moment_cmd (seen B y t) (scale3 (- kap) (sub3 (held (wc_sat w) (y t)) hr))) with (m t) in MT.
  assert (P := dpos _ NS). transitivity (cross3 (m t) (seen B y t)).
  - fold (held (wc_sat w) (y t)). generalize (cross3 (m t) (seen B y t)) (mv (s_total_moment (wc_sat w)) (v_rate (y t))) (held (wc_sat w) (y t)) (v_rate (y t)) (rw_torque (s_rw (wc_sat w)) acc). clear. vring.
  - rewrite MT, <- rej_scale. reflexivity.
Qed.
Lemma same_law w kap hr B qc wc F y y' t f w1 u a1 w2 u' a2 d1 d2 : wc_sun w = Some f -> zone_free w -> v_att (y t) = v_att (y' t) -> v_rate (y t) = v_rate (y' t) -> held (wc_sat w) (y t) = held (wc_sat w) (y' t) ->
  (tracking w (y t) wc zero3 (qc t) = Ok (w1, u) /\ unsaturated (s_rw (wc_sat w)) (opp3 (add3 u (cross3 (seen B y t) (moment kap hr (wc_sat w) B y t)))) /\
    track_and_desaturate w (mkCS (y t) (seen B y t)) (moment kap hr (wc_sat w) B y t) wc zero3 (qc t) = Ok (w1, a1) /\ deriv_sv y t (derivative (wc_sat w) (y t) (F t) d1 (rw_torque (s_rw (wc_sat w)) a1) (rw_momentum (s_rw (wc_sat w)) (v_whl (y t))) a1)) ->
  (tracking w (y' t) wc zero3 (qc t) = Ok (w2, u') /\ unsaturated (s_rw (wc_sat w)) (opp3 (add3 u' (cross3 (seen B y' t) (moment kap hr (wc_sat w) B y' t)))) /\
    track_and_desaturate w (mkCS (y' t) (seen B y' t)) (moment kap hr (wc_sat w) B y' t) wc zero3 (qc t) = Ok (w2, a2) /\ deriv_sv y' t (derivative (wc_sat w) (y' t) (F t) d2 (rw_torque (s_rw (wc_sat w)) a2) (rw_momentum (s_rw (wc_sat w)) (v_whl (y' t))) a2)) ->
  a1 = a2.
Proof.
  intros HS HZ EA ER EH (TR & _ & TD & _) (TR' & _ & TD' & _). assert (HL := tracking_len _ _ _ _ _ _ TR). assert (HL' := tracking_len _ _ _ _ _ _ TR').
  assert (T := tracking_free w (y t) wc zero3 (qc t) f HS HZ HL). assert (T' := tracking_free w (y' t) wc zero3 (qc t) f HS HZ HL'). cbv zeta in T, T'.
  change (rw_momentum (s_rw (wc_sat w)) (v_whl (y t))) with (held (wc_sat w) (y t)) in T. change (rw_momentum (s_rw (wc_sat w)) (v_whl (y' t))) with (held (wc_sat w) (y' t)) in T'.
  rewrite EA, ER, EH, <- T' in T. clear T'. unfold track_and_desaturate in TD, TD'. cbn [cs_v cs_mag] in TD, TD'. rewrite T in TD. rewrite TR' in TD, TD'. cbn [rbind] in TD, TD'.
  assert (ES : seen B y t = seen B y' t) by (unfold seen; rewrite EA; reflexivity). assert (EM : moment kap hr (wc_sat w) B y t = moment kap hr (wc_sat w) B y' t) by (unfold moment; rewrite ES, EH; reflexivity).
  rewrite ES, EM in TD. rewrite TD' in TD || (destruct (whl_actuator_commands w2 _) as [x|]; cbn [rbind] in TD, TD'; [|discriminate]). congruence.
Qed.
Lemma loop_unique w f kap hr B qc wc F y y' a a' : 0 < wc_alpha w -> 0 < wc_gamma w -> 0 < tr_hw (wc_trig w) < 1 -> pm1 (tr_mem (wc_trig w)) ->
  wc_sun w = Some f -> zone_free w -> spanning (s_rw (wc_sat w)) -> det3 (s_total_moment (wc_sat w)) <> 0 -> 0 <= kap -> (forall t, B t <> zero3) -> steady qc wc -> unitq (v_att (y 0)) ->
  wc_alpha w * off_target (tr_mem (wc_trig w)) (qc 0) (y 0) + dot3 (slip (qc 0) wc (y 0)) (slip (qc 0) wc (y 0)) / 2 < 2 * wc_alpha w * (1 + tr_hw (wc_trig w)) ->
  a < 0 -> a' < 0 -> (forall t, a < t -> follows w (moment kap hr (wc_sat w) B y) B qc wc F y t) -> (forall t, a' < t -> follows w (moment kap hr (wc_sat w) B y') B qc wc F y' t) ->
  same (y 0) (y' 0) -> forall t, 0 <= t -> same (y t) (y' t).
Proof.
  intros A G HW PM HS HZ SP DJ KP NB ST U0 HE HA HA' FO FO' (E1 & E2 & E3 & E4 & E5).
  assert (U0' : unitq (v_att (y' 0))) by (rewrite <- E3; exact U0). set (tr := wc_trig w) in *. assert (SS := pm1_sq _ PM).
  set (e := fun t => error_quat (v_att (y t)) (qc t)). set (d := fun t => sub3 (v_rate (y t)) (sandwich (e t) wc)). set (e' := fun t => error_quat (v_att (y' t)) (qc t)). set (d' := fun t => sub3 (v_rate (y' t)) (sandwich (e' t) wc)).
  assert (e00 : e 0 = e' 0) by (unfold e, e'; rewrite E3; reflexivity). assert (d00 : d 0 = d' 0) by (unfold d, d'; rewrite E4, e00; reflexivity).
  assert (ES : slip (qc 0) wc (y 0) = d 0) by (unfold slip, d, e, error_quat; rewrite sandwich_product; reflexivity).
  assert (HE' : 2 * wc_alpha w * (1 - tr_mem tr * qw (e 0)) + dot3 (d 0) (d 0) / 2 < 2 * wc_alpha w * (1 + tr_hw tr)). { rewrite ES in HE. rewrite (off_eq _ _ _ SS U0 (proj1 (ST 0))) in HE. fold (e 0) in HE. lra. }
  set (m := moment kap hr (wc_sat w) B y) in *. set (m' := moment kap hr (wc_sat w) B y') in *.
  assert (C1 := error_converges (wc_alpha w) (wc_gamma w) tr e d a A G HW PM HA (fo_e_unit w f m B qc wc F y a HA HS HZ SP DJ ST FO U0) (fo_de w f m B qc wc F y a HA HS HZ SP DJ ST FO U0) (fo_dd w f m B qc wc F y a HA HS HZ SP DJ ST FO U0)). cbv zeta in C1. specialize (C1 HE').
  assert (C2 := error_converges (wc_alpha w) (wc_gamma w) tr e' d' a' A G HW PM HA' (fo_e_unit w f m' B qc wc F y' a' HA' HS HZ SP DJ ST FO' U0') (fo_de w f m' B qc wc F y' a' HA' HS HZ SP DJ ST FO' U0') (fo_dd w f m' B qc wc F y' a' HA' HS HZ SP DJ ST FO' U0')). cbv zeta in C2. rewrite <- e00, <- d00 in C2. specialize (C2 HE').
  assert (ED : forall t, 0 <= t -> e t = e' t /\ d t = d' t).
  { apply (errors_unique (- tr_mem tr * wc_alpha w) (wc_gamma w) e e' d d'); [lra| | | | | |exact e00|exact d00]; intros t Ht.
    - exact (fo_e_unit w f m' B qc wc F y' a' HA' HS HZ SP DJ ST FO' U0' t ltac:(lra)).
    - exact (fo_de w f m B qc wc F y a HA HS HZ SP DJ ST FO U0 t ltac:(lra)).
    - exact (fo_de w f m' B qc wc F y' a' HA' HS HZ SP DJ ST FO' U0' t ltac:(lra)).
    - assert (Z : deriv3 d t (sub3 (scale3 (- tr_mem (trig_step (qw (e t)) tr) * wc_alpha w) (vec (e t))) (scale3 (wc_gamma w) (d t)))) by exact (fo_dd w f m B qc wc F y a HA HS HZ SP DJ ST FO U0 t ltac:(lra)). rewrite (proj1 (C1 t Ht)) in Z. exact Z.
    - assert (Z : deriv3 d' t (sub3 (scale3 (- tr_mem (trig_step (qw (e' t)) tr) * wc_alpha w) (vec (e' t))) (scale3 (wc_gamma w) (d' t)))) by exact (fo_dd w f m' B qc wc F y' a' HA' HS HZ SP DJ ST FO' U0' t ltac:(lra)). rewrite (proj1 (C2 t Ht)) in Z. exact Z. }
  assert (EA : forall t, 0 <= t -> v_att (y t) = v_att (y' t)). { intros t Ht. rewrite <- (error_quat_back (v_att (y t)) (qc t) (proj1 (ST t))), <- (error_quat_back (v_att (y' t)) (qc t) (proj1 (ST t))). f_equal. exact (proj1 (ED t Ht)). }
  assert (ER : forall t, 0 <= t -> v_rate (y t) = v_rate (y' t)). { intros t Ht. destruct (ED t Ht) as (Z1 & Z2). unfold d, d' in Z2. rewrite Z1 in Z2. rewrite <- (va1 (v_rate (y t)) (sandwich (e' t) wc)), Z2. apply va1. }
  assert (UT : forall t, 0 <= t -> unitq (v_att (y t))) by (intros t Ht; exact (fo_unit w f m B qc wc F y a HA HS HZ SP DJ FO U0 t ltac:(lra))).
  set (sat := wc_sat w) in *. assert (EW : forall t, 0 <= t -> whole sat hr (y t) = whole sat hr (y' t)) by (intros t Ht; unfold whole; rewrite (EA t Ht), (ER t Ht); reflexivity).
  assert (H00 : held sat (y 0) = held sat (y' 0)).
  { unfold held, rw_momentum. rewrite !zip_msum by exact w_momentum_0. generalize 0%nat. induction (rw_wheels (s_rw sat)) as [|x xs IH]; intros i; cbn [msum]; [reflexivity|]. rewrite IH, E5. reflexivity. }
  assert (EP : forall t, 0 <= t -> whole sat (held sat (y t)) (y t) = whole sat (held sat (y' t)) (y' t)).
  { apply (rej_same_unique kap B (fun t => whole sat (held sat (y t)) (y t)) (fun t => whole sat (held sat (y' t)) (y' t)) (fun t => whole sat hr (y t)) KP NB).
    - intros t Ht. exact (moment_law w kap hr B qc wc F y t (UT t Ht) SP DJ (NB t) (FO t ltac:(lra))).
    - intros t Ht. rewrite (EW t Ht). refine (moment_law w kap hr B qc wc F y' t _ SP DJ (NB t) (FO' t ltac:(lra))). rewrite <- (EA t Ht). exact (UT t Ht).
    - unfold whole. rewrite E3, E4, H00. reflexivity. }
  assert (EH : forall t, 0 <= t -> held sat (y t) = held sat (y' t)).
  { intros t Ht. assert (Z := EP t Ht). unfold whole in Z. rewrite (EA t Ht), (ER t Ht) in Z. assert (U := UT t Ht). rewrite (EA t Ht) in U. apply (f_equal (sandwich (v_att (y' t)))) in Z. rewrite !sandwich_sandwich_opp in Z by exact U.
    rewrite <- (va2 (mv (s_total_moment sat) (v_rate (y' t))) (held sat (y t))), Z. apply va2. }
  (* positions, velocities and wheel speeds have equal slopes *)
  assert (EV : forall t, 0 <= t -> v_vel (y t) = v_vel (y' t)).
  { intros t Ht. apply (same_slope3 (fun s => v_vel (y s)) (fun s => v_vel (y' s)) (fun s => div3 (F s) (s_mass sat)) t Ht); [| |exact E2]; intros s Hs.
    - destruct (FO s ltac:(lra)) as (w1 & u1 & a1 & _ & _ & _ & (_ & Z & _)). exact Z.
    - destruct (FO' s ltac:(lra)) as (w1 & u1 & a1 & _ & _ & _ & (_ & Z & _)). exact Z. }
  assert (EX : forall t, 0 <= t -> v_pos (y t) = v_pos (y' t)).
  { intros t Ht. apply (same_slope3 (fun s => v_pos (y s)) (fun s => v_pos (y' s)) (fun s => v_vel (y s)) t Ht); [| |exact E1]; intros s Hs.
    - destruct (FO s ltac:(lra)) as (w1 & u1 & a1 & _ & _ & _ & (Z & _)). exact Z.
    - destruct (FO' s ltac:(lra)) as (w1 & u1 & a1 & _ & _ & _ & (Z & _)). rewrite (EV s ltac:(lra)). exact Z. }
  intros t Ht. split; [exact (EX t Ht)|]. split; [exact (EV t Ht)|]. split; [exact (EA t Ht)|]. split; [exact (ER t Ht)|]. intros i.
  assert (L1 := le_of_deriv (fun s => nth i (v_whl (y s)) 0 - nth i (v_whl (y' s)) 0) (fun _ => 0) 0 t Ht). assert (L2 := le_of_deriv (fun s => nth i (v_whl (y' s)) 0 - nth i (v_whl (y s)) 0) (fun _ => 0) 0 t Ht). cbv beta in L1, L2.
  assert (DS : forall s, 0 <= s <= t -> exists x, derivable_pt_lim (fun s => nth i (v_whl (y s)) 0) s x /\ derivable_pt_lim (fun s => nth i (v_whl (y' s)) 0) s x).
  { intros s Hs. destruct (FO s ltac:(lra)) as (w1 & u1 & a1 & X1 & X2 & X3 & X4). destruct (FO' s ltac:(lra)) as (w2 & u2 & a2 & Y1 & Y2 & Y3 & Y4).
    assert (Z := same_law w kap hr B qc wc F y y' s f w1 u1 a1 w2 u2 a2 _ _ HS HZ (EA s (proj1 Hs)) (ER s (proj1 Hs)) (EH s (proj1 Hs)) (conj X1 (conj X2 (conj X3 X4))) (conj Y1 (conj Y2 (conj Y3 Y4)))).
    exists (nth i a1 0). destruct X4 as (_ & _ & _ & _ & X5). destruct Y4 as (_ & _ & _ & _ & Y5). split; [exact (X5 i)|]. rewrite Z. exact (Y5 i). }
  assert (K1 := L1 ltac:(intros s Hs; destruct (DS s Hs) as (x & X & Y); eapply d_eq; [exact (d_minus _ _ s _ _ X Y)|ring]) ltac:(intros; lra)). assert (K2 := L2 ltac:(intros s Hs; destruct (DS s Hs) as (x & X & Y); eapply d_eq; [exact (d_minus _ _ s _ _ Y X)|ring]) ltac:(intros; lra)).
  assert (Z := E5 i). lra.
Qed.
