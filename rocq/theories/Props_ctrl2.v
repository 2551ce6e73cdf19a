(** * Properties C54-C56 and C73-C76: the controllers, second part *)
From Coq Require Import Reals ZArith List Bool Lra Lia Psatz.
From Verif Require Import Num Vec M_vector M_quaternion M_jday M_struct M_dyn M_ctrl S_rot S_dyn S_ctrl.
From Verif Require Import P_quat P_struct P_wheel P_dyn P_dyn2 P_obs P_ctrl P_ctrl2 P_ctrl3 P_ctrl4 P_ctrl5.
Import ListNotations.
Local Open Scope R_scope.

(** ** C54: tracking *)
(** the gyroscopic term cancels: whatever the state, reference and environment torque T, the body rate changes by J^-1 T plus a
    spring on the attitude error, a damper on the rate error and the feed-forward *)
Theorem C54_cancels : forall w v rc rcd qc f, wc_sun w = Some f -> zone_free w -> (length (rw_wheels (s_rw (wc_sat w))) <= length (v_whl v))%nat ->
  spanning (s_rw (wc_sat w)) -> det3 (s_total_moment (wc_sat w)) <> 0 ->
  let e := error_quat (v_att v) qc in let wcB := sandwich e rc in
  exists w' u, tracking w v rc rcd qc = Ok (w', u) /\
  (unsaturated (s_rw (wc_sat w)) (opp3 u) ->
   exists a, whl_actuator_commands w' u = Ok a /\
   forall F T, v_rate (derivative (wc_sat w) v F T (rw_torque (s_rw (wc_sat w)) a) (rw_momentum (s_rw (wc_sat w)) (v_whl v)) a) =
     add3 (mv (inv3 (s_total_moment (wc_sat w))) T)
          (sub3 (sub3 (scale3 (- tr_mem (wc_trig w') * wc_alpha w) (vec e)) (scale3 (wc_gamma w) (sub3 (v_rate v) wcB))) (add3 (cross3 (v_rate v) wcB) (sandwich e rcd)))).
Proof.
  intros w v rc rcd qc f HS HZ HL SP DJ e wcB. destruct (closed_loop w v rc rcd qc f HS HZ HL SP DJ) as (u & TR & H). fold e in TR, H.
  eexists. exists u. split; [exact TR|]. intros US. destruct (H US) as (a & A & _ & D). exists a. split; [exact A|]. exact D.
Qed.
Print Assumptions C54_cancels.
(** moving reference (attitude qc turning at wc, itself changing at wcd): what the energy does *)
Lemma closed_energy w f (y : R -> SVec) qc wc wcd t F w' u a : wc_sun w = Some f -> zone_free w -> (length (rw_wheels (s_rw (wc_sat w))) <= length (v_whl (y t)))%nat ->
  spanning (s_rw (wc_sat w)) -> det3 (s_total_moment (wc_sat w)) <> 0 -> unitq (v_att (y t)) -> unitq (qc t) ->
  derivq qc t (scaleq 0.5 (product (qc t) (pure (wc t)))) -> deriv3 wc t wcd ->
  tracking w (y t) (wc t) wcd (qc t) = Ok (w', u) -> unsaturated (s_rw (wc_sat w)) (opp3 u) -> whl_actuator_commands w' u = Ok a ->
  deriv_sv y t (derivative (wc_sat w) (y t) F zero3 (rw_torque (s_rw (wc_sat w)) a) (rw_momentum (s_rw (wc_sat w)) (v_whl (y t))) a) ->
  let e := fun x => error_quat (v_att (y x)) (qc x) in
  let dl := fun x => sub3 (v_rate (y x)) (sandwich (e x) (wc x)) in
  let s := tr_mem (wc_trig w') in
  derivable_pt_lim (fun x => 2 * wc_alpha w * (1 - s * qw (e x)) + dot3 (dl x) (dl x) / 2) t (- wc_gamma w * dot3 (dl t) (dl t) - 2 * dot3 (dl t) (sandwich (e t) wcd)).
Proof.
  intros HS HZ HL SP DJ UQ UC QC WC TR US WA D e dl s.
  destruct (closed_loop w (y t) (wc t) wcd (qc t) f HS HZ HL SP DJ) as (u' & TR' & H). rewrite TR' in TR. assert (EW : set_trig w (trig_step (qw (error_quat (v_att (y t)) (qc t))) (wc_trig w)) = w') by congruence. assert (EU : u' = u) by congruence. subst w' u'.
  destruct (H US) as (a' & WA' & _ & K). rewrite WA' in WA. assert (EA : a' = a) by congruence. subst a'. destruct D as (_ & _ & D1 & D2 & _). rewrite K in D2.
  apply (lyapunov (fun x => v_att (y x)) qc (fun x => v_rate (y x)) wc wcd t s (wc_alpha w) (wc_gamma w)); try assumption.
  eapply d3_eq; [exact D2|]. rewrite mv_zero3. apply add3_0_l.
Qed.
(** fixed target, no external torque: the energy falls at the rate gamma |w|^2 *)
Theorem C54_lyapunov : forall w f (y : R -> SVec) qc t F w' u a, wc_sun w = Some f -> zone_free w -> (length (rw_wheels (s_rw (wc_sat w))) <= length (v_whl (y t)))%nat ->
  spanning (s_rw (wc_sat w)) -> det3 (s_total_moment (wc_sat w)) <> 0 -> unitq (v_att (y t)) -> unitq qc ->
  tracking w (y t) zero3 zero3 qc = Ok (w', u) -> unsaturated (s_rw (wc_sat w)) (opp3 u) -> whl_actuator_commands w' u = Ok a ->
  deriv_sv y t (derivative (wc_sat w) (y t) F zero3 (rw_torque (s_rw (wc_sat w)) a) (rw_momentum (s_rw (wc_sat w)) (v_whl (y t))) a) ->
  let s := tr_mem (wc_trig w') in
  derivable_pt_lim (fun x => 2 * wc_alpha w * (1 - s * qw (error_quat (v_att (y x)) qc)) + dot3 (v_rate (y x)) (v_rate (y x)) / 2) t
    (- wc_gamma w * dot3 (v_rate (y t)) (v_rate (y t))).
Proof.
  intros w f y qc t F w' u a HS HZ HL SP DJ UQ UC TR US WA D s.
  assert (E := closed_energy w f y (fun _ => qc) (fun _ => zero3) zero3 t F w' u a HS HZ HL SP DJ UQ UC (dq_const qc t) (d3_const _ _) TR US WA D).
  cbv zeta in E. eapply d_eq; [eapply d_ext; [|exact E]|].
  - intros x. cbv beta. rewrite sandwich_0, sub3_0_r. reflexivity.
  - cbv beta. rewrite !sandwich_0, sub3_0_r. generalize (v_rate (y t)). vring.
Qed.
Print Assumptions C54_lyapunov.
Lemma ball_spanning : spanning (s_rw ball).
Proof.
  split; [|cbn [ball s_rw rw_wheels]; repeat (apply Forall_cons; [cbn; lra|]); apply Forall_nil].
  unfold rw_gram. cbn [ball s_rw rw_wheels map summ fold_right w_axis]. vunfoldg; cbn [x3 y3 z3 row1 row2 row3]; rnumg. lra.
Qed.
(** the hypotheses are met by a tumbling satellite with its wheels turning *)
Example C54_ex : exists w u w' a, wc_sun w = Some (fun _ => ex) /\ zone_free w /\ wc_sat w = ball /\
  let v := mkSV ey zero3 (mkq 1 0 0 0) (mk3 0.1 0 0) [0.1; 0; 0] in
  tracking w v zero3 zero3 (mkq 1 0 0 0) = Ok (w', u) /\ unsaturated (s_rw ball) (opp3 u) /\ whl_actuator_commands w' u = Ok a.
Proof.
  set (w := mkWC ball 0.02 0.1414 (trig_new 1 0.3) true [] (Some (fun _ => ex))). set (v := mkSV ey zero3 (mkq 1 0 0 0) (mk3 0.1 0 0) [0.1; 0; 0]).
  destruct (closed_loop w v zero3 zero3 (mkq 1 0 0 0) (fun _ => ex)) as (u & TR & H); try reflexivity.
  - right. reflexivity.
  - apply ball_spanning.
  - apply ball_det.
  - assert (TF := tracking_free w v zero3 zero3 (mkq 1 0 0 0) (fun _ => ex) eq_refl (or_intror eq_refl) ltac:(cbn; lia)). cbv zeta in TF. rewrite TF in TR.
    assert (EU := f_equal (fun r => match r with Ok (_, z) => z | _ => zero3 end) TR). cbv beta iota in EU. clear TR.
    assert (US : unsaturated (s_rw (wc_sat w)) (opp3 u)).
    { right. rewrite <- EU. cbn [w wc_sat]. rewrite ball_total. unfold rw_distribute, rw_gram, rw_momentum, w_momentum, error_quat, sandwich, conjugate, product.
      cbn [ball s_rw rw_wheels map summ fold_right w_axis zip_with sum3 v_rate v_whl v_att v w wc_alpha wc_gamma w_par rw_maxT].
      vunfoldg; cbn [x3 y3 z3 row1 row2 row3 qw qx qy qz]; rnumg. repeat (apply Forall_cons; [apply Rabs_le; lra|]). apply Forall_nil. }
    destruct (H US) as (a & A & _). exists w, u. eexists. exists a. split; [reflexivity|]. split; [right; reflexivity|]. split; [reflexivity|]. cbv zeta. fold v.
    split; [rewrite TF; f_equal; f_equal; exact EU|]. split; [exact US|exact A].
Qed.
