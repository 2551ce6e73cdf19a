(** * Property C85: the tracking law brings the satellite to its target *)
From Coq Require Import Reals ZArith List Bool Lra Lia Psatz.
From Verif Require Import Num Vec M_vector M_quaternion M_jday M_struct M_dyn M_ctrl S_rot S_dyn S_ctrl.
From Verif Require Import P_quat P_struct P_wheel P_dyn P_dyn2 P_obs P_ctrl P_ctrl2 P_ctrl3 P_ctrl4 P_ctrl5 P_conv P_ode Props_ctrl2.
Import ListNotations.
Local Open Scope R_scope.

(** at time t the wheels obey the command the controller computes for the target attitude qc at rest, and the satellite moves by
    the code's equations under that command, with no external torque *)
Definition obeys (w : WhlCtl) (qc : quat) (F : R -> v3) (y : R -> SVec) (t : R) : Prop :=
  exists w' u acc, tracking w (y t) zero3 zero3 qc = Ok (w', u) /\ unsaturated (s_rw (wc_sat w)) (opp3 u) /\ whl_actuator_commands w' u = Ok acc /\
    deriv_sv y t (derivative (wc_sat w) (y t) (F t) zero3 (rw_torque (s_rw (wc_sat w)) acc) (rw_momentum (s_rw (wc_sat w)) (v_whl (y t))) acc).
(** squared distance of the attitude from the target (qc and its opposite are the same attitude) and squared rate *)
Definition off_target (s : R) (qc : quat) (v : SVec) : R := let d := subq (v_att v) (scaleq s qc) in dotq d d.
Definition rate2 (v : SVec) : R := dot3 (v_rate v) (v_rate v).

Lemma tracking_len w v rc rcd qc r : tracking w v rc rcd qc = Ok r -> (length (rw_wheels (s_rw (wc_sat w))) <= length (v_whl v))%nat.
Proof.
  unfold tracking. destruct (objects (wc_sun w) v); cbn [rbind]; [|discriminate]. unfold rw_momentum_r. destruct (Nat.ltb_spec (length (v_whl v)) (length (rw_wheels (s_rw (wc_sat w))))); cbn [rbind]; [discriminate|]. intros _. assumption.
Qed.
Lemma obeys_rot w f qc F y t : wc_sun w = Some f -> zone_free w -> spanning (s_rw (wc_sat w)) -> det3 (s_total_moment (wc_sat w)) <> 0 -> obeys w qc F y t ->
  derivq (fun u => v_att (y u)) t (scaleq 0.5 (product (v_att (y t)) (pure (v_rate (y t))))) /\
  deriv3 (fun u => v_rate (y u)) t (sub3 (scale3 (- tr_mem (trig_step (qw (error_quat (v_att (y t)) qc)) (wc_trig w)) * wc_alpha w) (vec (error_quat (v_att (y t)) qc))) (scale3 (wc_gamma w) (v_rate (y t)))).
Proof.
  intros HS HZ SP DJ (w' & u & acc & TR & US & WA & D). assert (HL := tracking_len _ _ _ _ _ _ TR).
  destruct (closed_loop w (y t) zero3 zero3 qc f HS HZ HL SP DJ) as (u' & TR' & H). rewrite TR' in TR. assert (EW : set_trig w (trig_step (qw (error_quat (v_att (y t)) qc)) (wc_trig w)) = w') by congruence. assert (EU : u' = u) by congruence. subst w' u'.
  destruct (H US) as (a' & WA' & _ & K). rewrite WA' in WA. assert (EA : a' = acc) by congruence. subst a'. destruct D as (_ & _ & D1 & D2 & _). rewrite K in D2. split; [exact D1|].
  eapply d3_eq; [exact D2|]. rewrite mv_zero3, !sandwich_0, cross_0_r, sub3_0_r. set (a := - _ * wc_alpha w). generalize (vec (error_quat (v_att (y t)) qc)) (v_rate (y t)) a (wc_gamma w). vring.
Qed.
Lemma d_pos_const f a : a < 0 -> (forall t, a < t -> derivable_pt_lim f t 0) -> forall t, 0 <= t -> f t = f 0.
Proof. intros A D t Ht. apply (const_of_deriv f a (t + 1)); [intros u Hu; apply D; lra|lra|lra]. Qed.
Lemma att_unit w f qc F y a : a < 0 -> wc_sun w = Some f -> zone_free w -> spanning (s_rw (wc_sat w)) -> det3 (s_total_moment (wc_sat w)) <> 0 ->
  (forall t, a < t -> obeys w qc F y t) -> unitq (v_att (y 0)) -> forall t, a < t -> unitq (v_att (y t)).
Proof.
  intros A HS HZ SP DJ HO U t Ht. unfold unitq in *. rewrite <- U. apply (const_of_deriv (fun u => dotq (v_att (y u)) (v_att (y u))) a (Rmax t 0 + 1)).
  - intros u Hu. destruct (obeys_rot w f qc F y u HS HZ SP DJ (HO u ltac:(lra))) as [D _]. eapply d_eq; [apply d_dotq; exact D|].
    cbv beta. generalize (v_att (y u)) (v_rate (y u)). clear. intros [p q r s] [x y z]. unfold pure, product. replace 0.5 with (1/2) by lra. vunfoldg; cbn [x3 y3 z3 qw qx qy qz]; rnumg. field.
  - assert (M := Rmax_l t 0). lra.
  - assert (M := Rmax_r t 0). lra.
Qed.
Lemma off_eq s qc v : s * s = 1 -> unitq (v_att v) -> unitq qc -> off_target s qc v = 2 * (1 - s * qw (error_quat (v_att v) qc)).
Proof.
  intros S U UC. unfold off_target. unfold unitq in *.
  transitivity (dotq (v_att v) (v_att v) + s * s * dotq qc qc - 2 * s * dotq (v_att v) qc).
  - destruct (v_att v) as [a b c d], qc as [a' b' c' d']. vunfoldg; cbn [qw qx qy qz]; rnumg. ring.
  - rewrite U, UC, S. replace (qw (error_quat (v_att v) qc)) with (dotq (v_att v) qc); [ring|]. destruct (v_att v) as [a b c d], qc as [a' b' c' d']. unfold error_quat, conjugate, product. vunfoldg; cbn [qw qx qy qz]; rnumg. ring.
Qed.
Lemma trig_keep x tr : - tr_hw tr < x * tr_mem tr -> trig_step x tr = tr.
Proof. intros H. unfold trig_step. cbn [nmul nleb nopp RNum]. replace (Rleb (x * tr_mem tr) (- tr_hw tr)) with false by (symmetry; apply Rleb_false; lra). reflexivity. Qed.
Lemma pm1_sq s : pm1 s -> s * s = 1. Proof. intros [->| ->]; ring. Qed.
Lemma cs3 (u v : v3) : dot3 u v ^ 2 <= dot3 u u * dot3 v v.
Proof.
  assert (H := dot3_nonneg (cross3 u v)). assert (E : dot3 (cross3 u v) (cross3 u v) = dot3 u u * dot3 v v - dot3 u v ^ 2) by (destruct u as [a b c], v as [d e f]; vunfoldg; cbn [x3 y3 z3]; rnumg; ring). lra.
Qed.

(** from every state whose energy is below that of a turn at the edge of the trigger's band, the trigger never flips and the
    attitude and the rate go to the target and to zero exponentially, at a rate fixed by the gains and the band alone *)
Theorem C85_converges : forall al ga hw, 0 < al -> 0 < ga -> 0 < hw < 1 -> exists lam, 0 < lam /\
  forall w f qc F y a, wc_alpha w = al -> wc_gamma w = ga -> tr_hw (wc_trig w) = hw -> pm1 (tr_mem (wc_trig w)) ->
  wc_sun w = Some f -> zone_free w -> spanning (s_rw (wc_sat w)) -> det3 (s_total_moment (wc_sat w)) <> 0 ->
  unitq qc -> unitq (v_att (y 0)) -> a < 0 -> (forall t, a < t -> obeys w qc F y t) ->
  let s := tr_mem (wc_trig w) in
  al * off_target s qc (y 0) + rate2 (y 0) / 2 < 2 * al * (1 + hw) ->
  forall t, 0 <= t ->
    (exists u, tracking w (y t) zero3 zero3 qc = Ok (w, u)) /\
    2 * al * off_target s qc (y t) + rate2 (y t) <= (6 * al * off_target s qc (y 0) + 4 * rate2 (y 0)) * exp (- lam * t).
Proof.
  intros al ga hw A G HW. exists (cv_rate al ga (1 - hw)). split; [apply cv_rate_spec; lra|].
  intros w f qc F y a EA EG EH PM HS HZ SP DJ UC U0 HA HO s HE. assert (SS := pm1_sq _ PM). fold s in SS.
  assert (UN := att_unit w f qc F y a HA HS HZ SP DJ HO U0).
  set (e := fun t => error_quat (v_att (y t)) qc).
  assert (UE : forall t, a < t -> unitq (e t)) by (intros t Ht; apply error_quat_unit; [apply UN, Ht|exact UC]).
  set (x := fun t => s * qw (e t)). set (n := fun t => rate2 (y t)). set (r := fun t => s * dot3 (vec (e t)) (v_rate (y t))).
  set (sg := fun t => tr_mem (trig_step (qw (e t)) (wc_trig w))).
  assert (DE : forall t, a < t -> derivq e t (scaleq 0.5 (product (e t) (pure (v_rate (y t)))))).
  { intros t Ht. destruct (obeys_rot w f qc F y t HS HZ SP DJ (HO t Ht)) as [D _].
    assert (E := dq_error (fun u => v_att (y u)) (fun _ => qc) t (v_rate (y t)) zero3 D (dq_const qc t) (UN t Ht) UC). cbv zeta in E. rewrite sandwich_0, sub3_0_r in E. exact E. }
  assert (DW : forall t, a < t -> deriv3 (fun u => v_rate (y u)) t (sub3 (scale3 (- sg t * al) (vec (e t))) (scale3 ga (v_rate (y t))))).
  { intros t Ht. destruct (obeys_rot w f qc F y t HS HZ SP DJ (HO t Ht)) as [_ D]. rewrite EA, EG in D. exact D. }
  assert (DX : forall t, a < t -> derivable_pt_lim x t (- r t / 2)).
  { intros t Ht. unfold x. eapply d_eq; [apply d_scal; exact (proj1 (DE t Ht))|]. unfold r. generalize (e t) (v_rate (y t)). clear. intros [p q r' s'] [b c d]. unfold pure, product. replace 0.5 with (1/2) by lra. vunfold; rnum. field. }
  assert (DN : forall t, a < t -> derivable_pt_lim n t (- 2 * al * (sg t * s) * r t - 2 * ga * n t)).
  { intros t Ht. unfold n, rate2. eapply d_eq; [apply d_dot3; exact (DW t Ht)|]. unfold r. replace (- 2 * al * (sg t * s) * (s * dot3 (vec (e t)) (v_rate (y t)))) with (- 2 * al * sg t * dot3 (vec (e t)) (v_rate (y t)) * (s * s)) by ring. rewrite SS. generalize (vec (e t)) (v_rate (y t)) (sg t). clear. intros [p q r'] [b c d] k. vunfoldg; cbn [x3 y3 z3]; rnumg. ring. }
  assert (NR : forall t, a < t -> -1 <= x t <= 1 /\ 0 <= n t /\ r t ^ 2 <= (1 - x t ^ 2) * n t).
  { intros t Ht. assert (U := UE t Ht). unfold unitq in U. assert (Q : qw (e t) ^ 2 + dot3 (vec (e t)) (vec (e t)) = 1) by (rewrite <- U; destruct (e t) as [p q r' s']; vunfoldg; cbn [x3 y3 z3 qw qx qy qz]; rnumg; ring).
    assert (V0 := dot3_nonneg (vec (e t))). assert (X2 : x t ^ 2 = qw (e t) ^ 2) by (unfold x; replace ((s * qw (e t)) ^ 2) with (s * s * qw (e t) ^ 2) by ring; rewrite SS; ring).
    split; [nra|]. split; [apply dot3_nonneg|]. unfold r. replace ((s * dot3 (vec (e t)) (v_rate (y t))) ^ 2) with (s * s * dot3 (vec (e t)) (v_rate (y t)) ^ 2) by ring. rewrite SS, X2. assert (C := cs3 (vec (e t)) (v_rate (y t))). unfold n, rate2. replace (1 - qw (e t) ^ 2) with (dot3 (vec (e t)) (vec (e t))) by lra. lra. }
  assert (OF : forall t, 0 <= t -> off_target s qc (y t) = 2 * (1 - x t)) by (intros t Ht; apply off_eq; [exact SS|apply UN; lra|exact UC]).
  rewrite (OF 0 (Rle_refl 0)) in HE. fold (n 0) in HE.
  assert (KEEP : forall t, - hw < x t -> sg t = s /\ trig_step (qw (e t)) (wc_trig w) = wc_trig w).
  { intros t Hx. assert (K : trig_step (qw (e t)) (wc_trig w) = wc_trig w) by (apply trig_keep; rewrite EH; unfold x in Hx; fold s; lra). split; [unfold sg; rewrite K; reflexivity|exact K]. }
  assert (X0 : - hw < x 0) by (destruct (NR 0 HA) as (_ & N0 & _); nra).
  assert (STAY : forall t, 0 <= t -> - hw < x t).
  { intros t Ht. destruct (Rlt_dec (- hw) (x t)) as [|NX]; [assumption|]. exfalso.
    destruct (first_time (fun u => - x u) hw t) as (t1 & H1 & H2 & H3).
    - intros u Hu. apply derivable_continuous_pt. exists (- (- r u / 2)). apply d_opp. apply DX. lra.
    - exact Ht.
    - lra.
    - lra.
    - cbv beta in H2, H3. assert (T1 : 0 < t1) by (destruct (Req_dec t1 0) as [->|]; lra).
      set (V := fun t => 2 * al * (1 - x t) + n t / 2).
      assert (DV : forall u, 0 <= u < t1 -> derivable_pt_lim V u (- ga * n u)).
      { intros u Hu. destruct (KEEP u ltac:(specialize (H3 u Hu); lra)) as [SG _]. unfold V. eapply d_eq.
        { apply d_plus; [apply d_mult; [apply d_const|apply d_minus; [apply d_const|apply DX; lra]]|unfold Rdiv; apply d_mult; [apply DN; lra|apply d_const]]. }
        cbv beta. rewrite SG, SS. field. }
      assert (CV : forall u, a < u -> continuity_pt V u).
      { intros u Hu. apply derivable_continuous_pt. eexists. apply d_plus; [apply d_mult; [apply d_const|apply d_minus; [apply d_const|apply DX; lra]]|unfold Rdiv; apply d_mult; [apply DN; lra|apply d_const]]. }
      assert (LE : V t1 <= V 0).
      { apply (falls V (fun u => - ga * Rabs (n u)) t1 T1).
        - intros u Hu. rewrite Rabs_right; [apply DV, Hu|]. apply Rle_ge. apply (NR u). lra.
        - intros u Hu. apply CV. lra.
        - intros u. assert (P := Rabs_pos (n u)). nra. }
      unfold V in LE. destruct (NR t1 ltac:(lra)) as (_ & N1 & _). nra. }
  assert (DN' : forall t, 0 <= t -> derivable_pt_lim n t (- 2 * al * r t - 2 * ga * n t)).
  { intros t Ht. eapply d_eq; [apply DN; lra|]. destruct (KEEP t (STAY t Ht)) as [-> _]. rewrite SS. ring. }
  assert (DR : forall t, 0 <= t -> derivable_pt_lim r t (x t * n t / 2 - al * (1 - x t ^ 2) - ga * r t)).
  { intros t Ht. assert (At : a < t) by lra. assert (D := d_dot3 _ _ t _ _ (d3_vec _ t _ (DE t At)) (DW t At)). cbv beta in D. unfold r. eapply d_eq; [apply d_scal; exact D|].
    destruct (KEEP t (STAY t Ht)) as [-> _]. assert (U := UE t At). unfold unitq in U. unfold x, n, rate2.
    replace (1 - (s * qw (e t)) ^ 2) with (s * s * dot3 (vec (e t)) (vec (e t))).
    - generalize (e t) (v_rate (y t)). clear. intros [p q r' s'] [b c d]. unfold pure, product. replace 0.5 with (1/2) by lra. vunfold; rnum. field.
    - replace ((s * qw (e t)) ^ 2) with (s * s * qw (e t) ^ 2) by ring. rewrite SS. assert (Q : qw (e t) ^ 2 + dot3 (vec (e t)) (vec (e t)) = 1) by (rewrite <- U; destruct (e t) as [p q r' s']; vunfoldg; cbn [x3 y3 z3 qw qx qy qz]; rnumg; ring). lra. }
  intros t Ht. split.
  - destruct (HO t ltac:(lra)) as (w' & u & acc & TR & _). exists u. assert (HL := tracking_len _ _ _ _ _ _ TR).
    destruct (closed_loop w (y t) zero3 zero3 qc f HS HZ HL SP DJ) as (u' & TR' & _). fold (e t) in TR'. destruct (KEEP t (STAY t Ht)) as [_ K]. rewrite K in TR'.
    rewrite TR'. assert (u' = u) by congruence. subst u'. f_equal. f_equal. destruct w. reflexivity.
  - assert (C := cv_scalar al ga (1 - hw) x n r A G ltac:(lra)). rewrite !OF by lra. fold (n t) (n 0).
    assert (C' : al * (1 - x t) + n t / 4 <= (3 * al * (1 - x 0) + n 0) * exp (- cv_rate al ga (1 - hw) * t)).
    { apply C; try assumption.
      - intros u Hu. destruct (NR u ltac:(lra)) as (B1 & B2 & B3). assert (B4 := STAY u Hu). split; [lra|]. split; assumption.
      - intros u Hu. apply DX. lra. }
    set (E := exp _) in *. lra.
Qed.
Print Assumptions C85_converges.
(** the trigger after a call stands on the side of the error, or the error is inside its band *)
Lemma trig_after x tr : pm1 (tr_mem tr) -> 0 < tr_hw tr -> let tr' := trig_step x tr in pm1 (tr_mem tr') /\ tr_hw tr' = tr_hw tr /\ - tr_hw tr < tr_mem tr' * x.
Proof.
  intros PM HW. cbv zeta. unfold trig_step. cbn [nmul nleb nopp RNum]. destruct (Rleb_spec (x * tr_mem tr) (- tr_hw tr)) as [L|L]; [|split; [exact PM|]; split; [reflexivity|lra]].
  unfold nsign. cbn [nltb neqb n0 n1 nopp RNum tr_mem tr_hw].
  destruct PM as [M|M]; rewrite M in *.
  - destruct (Rltb_spec 0 x) as [P|P]; [lra|]. destruct (Rltb_spec x 0) as [Q|Q]; [|lra]. destruct (Reqb_spec (- (1)) 0) as [Z|Z]; [lra|]. cbn [negb]. split; [right; reflexivity|]. split; [reflexivity|]. lra.
  - destruct (Rltb_spec 0 x) as [P|P]; [|lra]. destruct (Rltb_spec x 0) as [Q|Q]; [lra|]. destruct (Reqb_spec 1 0) as [Z|Z]; [lra|]. cbn [negb]. split; [left; reflexivity|]. split; [reflexivity|]. lra.
Qed.
(** a controller built by the constructor with positive damping and frequency, whatever calls it has had before (memory s): from
    rest in any attitude whatever, after its first call, the satellite turns to the target and stays *)
Theorem C85_rest : forall sat sun damping freq w0, 0 < damping -> 0 < freq -> whl_new sat [] (Some sun) damping freq = Ok w0 ->
  spanning (s_rw sat) -> det3 (s_total_moment sat) <> 0 -> exists lam, 0 < lam /\
  forall s qc F y a w u, pm1 s -> unitq qc -> unitq (v_att (y 0)) -> v_rate (y 0) = zero3 -> a < 0 ->
  tracking (set_trig w0 (mkTr s 0.3)) (y 0) zero3 zero3 qc = Ok (w, u) -> (forall t, a < t -> obeys w qc F y t) ->
  let s' := tr_mem (wc_trig w) in pm1 s' /\ forall t, 0 <= t ->
    (exists u, tracking w (y t) zero3 zero3 qc = Ok (w, u)) /\
    4 * freq ^ 2 * off_target s' qc (y t) + rate2 (y t) <= 12 * freq ^ 2 * off_target s' qc (y 0) * exp (- lam * t).
Proof.
  intros sat sun damping freq w0 HD HF HN SP DJ. unfold whl_new in HN. cbn [forallb] in HN. injection HN as <-.
  assert (F2 : 0 < freq ^ 2) by (apply pow_lt; exact HF).
  destruct (C85_converges (2 * freq ^ 2) (2 * damping * freq) 0.3) as (lam & L & C); [lra|apply Rmult_lt_0_compat; lra|lra|].
  exists lam. split; [exact L|]. intros s qc F y a w u PM UC U0 W0 HA TR HO s'.
  set (w1 := set_trig _ (mkTr s 0.3)) in TR. assert (HL := tracking_len _ _ _ _ _ _ TR).
  destruct (closed_loop w1 (y 0) zero3 zero3 qc sun eq_refl (or_intror eq_refl) HL SP DJ) as (u' & TR' & _). rewrite TR' in TR.
  set (e := error_quat (v_att (y 0)) qc) in *. assert (EW : set_trig w1 (trig_step (qw e) (wc_trig w1)) = w) by congruence.
  destruct (trig_after (qw e) (wc_trig w1)) as (T1 & T2 & T3); [exact PM|cbn; lra|]. change (tr_hw (wc_trig w1)) with 0.3 in T2, T3.
  assert (ES : wc_trig w = trig_step (qw e) (wc_trig w1)) by (rewrite <- EW; reflexivity).
  rewrite <- ES in T1, T2, T3. fold s' in T1, T3. split; [exact T1|].
  assert (EF := off_eq s' qc (y 0) (pm1_sq _ T1) U0 UC). fold e in EF.
  assert (R0 : rate2 (y 0) = 0) by (unfold rate2; rewrite W0; vunfoldg; rnumg; ring).
  intros t Ht.
  assert (K : (exists u, tracking w (y t) zero3 zero3 qc = Ok (w, u)) /\
    2 * (2 * freq ^ 2) * off_target s' qc (y t) + rate2 (y t) <= (6 * (2 * freq ^ 2) * off_target s' qc (y 0) + 4 * rate2 (y 0)) * exp (- lam * t)).
  { apply (C w sun qc F y a); try assumption; try (rewrite <- EW; (reflexivity || assumption)).
    - right. rewrite <- EW. reflexivity.
    - fold s'. rewrite EF, R0. nra. }
  destruct K as [K1 K2]. split; [exact K1|]. rewrite R0 in K2. lra.
Qed.
Print Assumptions C85_rest.
(** a motion that meets the hypotheses exists: three wheels, no torque limit, a slew of two radians about one axis *)
Definition free_ball : Satellite := mkSat 0 0 0 0.8 2 5 (mkRWS [mkW (mk3 1 0 0) 1 1; mkW (mk3 0 1 0) 1 1; mkW (mk3 0 0 1) 1 1] 1 false) (mk3 1 1 1) zero3 false.
Lemma free_ball_total : s_total_moment free_ball = scalem 4 id3.
Proof. exact ball_total. Qed.
Lemma free_ball_spanning : spanning (s_rw free_ball). Proof. exact ball_spanning. Qed.
Definition axis_state (th p : R) : SVec := mkSV zero3 zero3 (mkq (cos (th / 2)) (sin (th / 2)) 0 0) (mk3 p 0 0) [-4 * p; 0; 0].
Definition axis_ctl : WhlCtl := mkWC free_ball (2 * 0.1 ^ 2) (2 * 0.707 * 0.1) (mkTr 1 0.3) true [] (Some (fun _ => ex)).
Lemma axis_error th p : error_quat (v_att (axis_state th p)) q1 = mkq (cos (th / 2)) (sin (th / 2)) 0 0.
Proof. unfold axis_state. cbn [v_att]. unfold q1, error_quat, conjugate, product. vunfold; rnum. apply mkq_c; ring. Qed.
Lemma axis_tracking th p : - 0.3 < cos (th / 2) -> tracking axis_ctl (axis_state th p) zero3 zero3 q1 = Ok (axis_ctl, mk3 (- 4 * (2 * 0.1 ^ 2 * sin (th / 2) + 2 * 0.707 * 0.1 * p)) 0 0).
Proof.
  intros H. assert (T := tracking_free axis_ctl (axis_state th p) zero3 zero3 q1 (fun _ => ex) eq_refl (or_intror eq_refl) ltac:(cbn; lia)). cbv zeta in T. rewrite axis_error in T. cbn [qw] in T.
  rewrite (trig_keep (cos (th / 2)) (wc_trig axis_ctl)) in T by (cbn [axis_ctl wc_trig tr_mem tr_hw]; lra). rewrite T. f_equal. f_equal.
  cbn [axis_ctl wc_sat wc_trig wc_alpha wc_gamma tr_mem]. rewrite free_ball_total, !sandwich_0, cross_0_r, sub3_0_r.
  unfold rw_momentum, w_momentum. cbn [free_ball s_rw rw_wheels zip_with axis_state v_whl v_rate sum3 fold_right w_par w_axis vec qx qy qz]. vunfoldg; cbn [x3 y3 z3 row1 row2 row3]; rnumg. apply mk3_c; ring.
Qed.
Lemma axis_accel x : whl_actuator_commands axis_ctl (mk3 x 0 0) = Ok [- x; 0; 0].
Proof.
  unfold whl_actuator_commands, rw_accelerations. cbn [axis_ctl wc_sat free_ball s_rw rw_limited rbind]. f_equal. unfold rw_distribute, rw_gram.
  cbn [rw_wheels map summ fold_right w_axis zip_with]. unfold w_acceleration. cbn [w_par]. vunfoldg; cbn [x3 y3 z3 row1 row2 row3]; rnumg. apply (f_equal2 (@cons R)); [|apply (f_equal2 (@cons R)); [|apply (f_equal2 (@cons R)); [|reflexivity]]]; field.
Qed.
Lemma axis_obeys (th p : R -> R) t : - 0.3 < cos (th t / 2) -> derivable_pt_lim th t (p t) ->
  derivable_pt_lim p t (- (2 * 0.1 ^ 2) * sin (th t / 2) - 2 * 0.707 * 0.1 * p t) -> obeys axis_ctl q1 (fun _ => zero3) (fun t => axis_state (th t) (p t)) t.
Proof.
  intros HC DT DP. exists axis_ctl. eexists. eexists. split; [apply axis_tracking, HC|]. split; [left; reflexivity|]. split; [apply axis_accel|].
  assert (H2 : derivable_pt_lim (fun u => th u / 2) t (p t / 2)) by (eapply d_eq; [unfold Rdiv; apply d_mult; [exact DT|apply d_const]|]; cbv beta; field).
  assert (DC : derivable_pt_lim (fun u => cos (th u / 2)) t (- sin (th t / 2) * (p t / 2))) by (apply (derivable_pt_lim_comp (fun u => th u / 2) cos); [exact H2|apply derivable_pt_lim_cos]).
  assert (DS : derivable_pt_lim (fun u => sin (th u / 2)) t (cos (th t / 2) * (p t / 2))) by (apply (derivable_pt_lim_comp (fun u => th u / 2) sin); [exact H2|apply derivable_pt_lim_sin]).
  unfold derivative. cbn [axis_ctl wc_sat axis_state v_pos v_vel v_att v_rate v_whl]. split; [|split; [|split; [|split]]]; unfold axis_state; cbn [v_pos v_vel v_att v_rate v_whl].
  - exact (d3_const zero3 t).
  - eapply d3_eq; [exact (d3_const zero3 t)|]. vunfoldg; cbn [x3 y3 z3]; rnumg. apply mk3_c; unfold Rdiv; ring.
  - unfold derivq, product, scaleq. cbn [qw qx qy qz x3 y3 z3]. vunfoldg; cbn [x3 y3 z3 qw qx qy qz]; rnumg. replace 0.5 with (1 / 2) by lra.
    split; [|split; [|split]]; (eapply d_eq; [first [exact DC|exact DS|exact (d_const 0 t)]|]); field.
  - eapply (d3_eq _ _ (mk3 (- (2 * 0.1 ^ 2) * sin (th t / 2) - 2 * 0.707 * 0.1 * p t) 0 0)); [split; [exact DP|split; exact (d_const 0 t)]|].
    change (s_inv_tot free_ball) with (inv3 (s_total_moment free_ball)). rewrite free_ball_total. unfold rw_torque, rw_momentum, w_momentum, w_torque.
    cbn [free_ball s_rw rw_wheels zip_with sum3 fold_right w_par w_axis]. generalize (2 * 0.1 ^ 2) (2 * 0.707 * 0.1). intros b1 b2. vunfoldg; cbn [x3 y3 z3 row1 row2 row3]; rnumg. apply mk3_c; field.
  - intros i. destruct i as [|[|[|i]]]; cbn [nth].
    + eapply d_eq; [apply d_scal; exact DP|]. ring.
    + exact (d_const 0 t).
    + exact (d_const 0 t).
    + destruct i; exact (d_const 0 t).
Qed.
Example C85_ex : exists w0 y w u a, whl_new free_ball [] (Some (fun _ => ex)) 0.707 0.1 = Ok w0 /\ spanning (s_rw free_ball) /\ det3 (s_total_moment free_ball) <> 0 /\
  unitq (q1 : quat) /\ unitq (v_att (y 0)) /\ v_rate (y 0) = zero3 /\ off_target 1 q1 (y 0) <> 0 /\ a < 0 /\
  tracking (set_trig w0 (mkTr 1 0.3)) (y 0) zero3 zero3 q1 = Ok (w, u) /\ forall t, a < t -> obeys w q1 (fun _ => zero3) y t.
Proof.
  set (al := 2 * 0.1 ^ 2). set (ga := 2 * 0.707 * 0.1). assert (AL : 0 < al) by (unfold al; lra). assert (GA : 0 < ga < 1) by (unfold ga; lra). assert (AL1 : al < 1) by (unfold al; lra).
  destruct (picard (fun _ p => p) (fun th p => - al * sin (th / 2) - ga * p) 4 2 0) as (th & p & T0 & P0 & DT & DP); [lra| | |].
  - intros a b c d. assert (X := Rabs_pos (a - c)). assert (Y := Rabs_pos (b - d)). lra.
  - intros a b c d. replace (- al * sin (a / 2) - ga * b - (- al * sin (c / 2) - ga * d)) with (- (al * (sin (a / 2) - sin (c / 2))) + - (ga * (b - d))) by ring.
    eapply Rle_trans; [apply Rabs_triang|]. rewrite !Rabs_Ropp, !Rabs_mult, (Rabs_right al), (Rabs_right ga) by lra.
    assert (S : Rabs (sin (a / 2) - sin (c / 2)) <= Rabs (a - c)).
    { assert (Q : forall u v, u <= v -> Rabs (sin v - sin u) <= v - u).
      { intros u v H. destruct (Req_dec u v) as [->|N]; [rewrite Rminus_eq_0, Rabs_R0; lra|]. destruct (MVT_cor2 sin cos u v) as (z & E & _); [lra|intros; apply derivable_pt_lim_sin|].
        rewrite E, Rabs_mult, (Rabs_right (v - u)) by lra. assert (C := COS_bound z). assert (Rabs (cos z) <= 1) by (apply Rabs_le; lra). assert (0 <= v - u) by lra. nra. }
      destruct (Rle_dec c a) as [L|L].
      - assert (K := Q (c / 2) (a / 2) ltac:(lra)). rewrite (Rabs_right (a - c)) by lra. lra.
      - assert (K := Q (a / 2) (c / 2) ltac:(lra)). rewrite Rabs_minus_sym, (Rabs_left (a - c)) by lra. lra. }
    assert (X := Rabs_pos (sin (a / 2) - sin (c / 2))). assert (Y := Rabs_pos (b - d)). nra.
  - assert (C1 : 1 / 2 < cos 1). { rewrite <- cos_PI3. apply cos_decreasing_1; assert (P1 := PI2_3_2); assert (P2 := PI_4); lra. }
    assert (H2 : forall t, derivable_pt_lim (fun u => th u / 2) t (p t / 2)) by (intros t; eapply d_eq; [unfold Rdiv; apply d_mult; [apply DT|apply d_const]|]; cbv beta; field).
    assert (DC : forall t, derivable_pt_lim (fun u => cos (th u / 2)) t (- sin (th t / 2) * (p t / 2))) by (intros t; apply (derivable_pt_lim_comp (fun u => th u / 2) cos); [apply H2|apply derivable_pt_lim_cos]).
    assert (FWD : forall t, 0 <= t -> 1 / 2 < cos (th t / 2)).
    { intros t Ht. destruct (Req_dec t 0) as [->|N]; [rewrite T0; replace (2 / 2) with 1 by lra; exact C1|].
      assert (L := falls (fun u => 2 * al * (1 - cos (th u / 2)) + p u * p u / 2) (fun u => - ga * (p u * p u)) t).
      assert (D : forall u, derivable_pt_lim (fun u => 2 * al * (1 - cos (th u / 2)) + p u * p u / 2) u (- ga * (p u * p u))).
      { intros u. eapply d_eq. { apply d_plus; [apply d_mult; [apply d_const|apply d_minus; [apply d_const|apply DC]]|unfold Rdiv; apply d_mult; [apply d_mult; apply DP|apply d_const]]. } cbv beta. field. }
      assert (K : 2 * al * (1 - cos (th t / 2)) + p t * p t / 2 <= 2 * al * (1 - cos (th 0 / 2)) + p 0 * p 0 / 2).
      { apply L; [lra|intros; apply D|intros u _; apply derivable_continuous_pt; eexists; apply D|intros u; nra]. }
      rewrite P0, T0 in K. replace (2 / 2) with 1 in K by lra. nra. }
    assert (NEAR : exists a, a < 0 /\ forall t, a < t -> - 0.3 < cos (th t / 2)).
    { assert (CT : continuity_pt (fun u => cos (th u / 2)) 0) by (apply derivable_continuous_pt; eexists; apply DC).
      destruct (CT (1 / 2) ltac:(lra)) as (d & Hd & HD). cbn [dist R_met] in HD. unfold R_dist in HD. exists (- d). split; [lra|]. intros t Ht.
      destruct (Rle_dec 0 t) as [L|L]; [assert (K := FWD t L); lra|]. assert (K := HD t). rewrite T0 in K. replace (2 / 2) with 1 in K by lra.
      assert (Q : Rabs (cos (th t / 2) - cos 1) < 1 / 2). { apply K. split; [split; [exact I|lra]|]. rewrite Rminus_0_r, Rabs_left; lra. } apply Rabs_def2 in Q. lra. }
    destruct NEAR as (a & HA & HN). exists axis_ctl, (fun t => axis_state (th t) (p t)), axis_ctl. eexists. exists a.
    split. { unfold whl_new, axis_ctl. cbn [forallb map]. f_equal. f_equal. rewrite trig_new_eq. destruct (Rlt_dec 1 0); [lra|reflexivity]. }
    split; [exact free_ball_spanning|]. split; [exact ball_det|]. split; [unfold unitq, q1; vunfoldg; cbn [qw qx qy qz]; rnumg; ring|].
    split. { unfold axis_state. cbn [v_att]. unfold unitq, dotq; cbn [qw qx qy qz]; rnumg. assert (H := sin2_cos2 (th 0 / 2)). unfold Rsqr in H. lra. }
    split. { unfold axis_state. cbn [v_rate]. rewrite P0. reflexivity. }
    split. { unfold off_target, axis_state. cbn [v_att]. rewrite T0. replace (2 / 2) with 1 by lra. unfold q1. vunfoldg; cbn [qw qx qy qz]; rnumg. assert (H := sin2_cos2 1). unfold Rsqr in H.
      assert (K : cos 1 < cos 0) by (apply cos_decreasing_1; assert (P1 := PI2_3_2); lra). rewrite cos_0 in K. intros E. nra. }
    split; [exact HA|]. split; [apply axis_tracking; apply HN, HA|].
    intros t Ht. apply axis_obeys; [apply HN, Ht|apply DT|apply DP].
Qed.
