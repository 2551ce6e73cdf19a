(** * C138: wheels that are strong enough never saturate in slews from rest, and then every slew from rest arrives *)
From Coq Require Import Reals ZArith List Bool Lra Lia Psatz.
From Verif Require P_vec2 Props_agile.
From Verif Require Import Num Vec M_vector M_quaternion M_jday M_struct M_dyn M_ctrl S_rot S_dyn S_ctrl.
From Verif Require Import P_quat P_sat P_struct P_wheel P_dyn P_dyn2 P_obs P_ctrl P_ctrl2 P_ctrl5 P_tot3 P_conv P_samp P_posf P_ode Props_struct Props_ctrl2 Props_conv Props_samp Props_sated Props_sated2.
Import ListNotations.
Local Open Scope R_scope.

(** the torque a wheel is asked for is at most D times the torque asked for on the body *)
Definition spread (s : RWS) (D : R) : Prop := 0 <= D /\ forall v x, In x (rw_distribute s v) -> Rabs x <= D * norm3 v.
(** the fastest a slew from rest can be (C137), and the wheel torque that it can need when the total momentum is at most L *)
Definition top_rate (damping freq jl jm : R) : R := freq / damping * sqrt (jm / jl).
Definition needed (damping freq jl jm D L : R) : R := let W := top_rate damping freq jl jm in D * (W * L + jm * (2 * freq ^ 2 + 2 * damping * freq * W)).

Lemma J_norm J jm v : symm J -> pdm J -> 0 < jm -> (forall v, dot3 v (mv J v) <= jm * dot3 v v) -> norm3 (mv J v) <= jm * norm3 v.
Proof.
  intros SY PD JM B. set (z := mv J v). set (b := scale3 (/ jm) z). assert (IJ := Rinv_0_lt_compat _ JM).
  assert (Q : 0 <= dot3 (sub3 v b) (mv J (sub3 v b))). { destruct (zero3_dec (sub3 v b)) as [->|NZ]; [right; vunfoldg; cbn [x3 y3 z3]; rnumg; ring|left; apply PD, NZ]. }
  assert (E : dot3 (sub3 v b) (mv J (sub3 v b)) = dot3 v z + dot3 b (mv J b) - 2 * (/ jm * dot3 z z)).
  { assert (S1 : dot3 v (mv J b) = dot3 b z) by (unfold z; apply sym_dot, SY). replace (mv J (sub3 v b)) with (sub3 z (mv J b)) by (unfold z; generalize J v b; clear; vring).
    transitivity (dot3 v z - dot3 v (mv J b) - dot3 b z + dot3 b (mv J b)); [generalize z (mv J b) b; clear; destruct v as [?a ?b ?c]; intros [?a ?b ?c] [?a ?b ?c] [?a ?b ?c]; vunfoldg; cbn [x3 y3 z3]; rnumg; ring|]. rewrite S1.
    assert (S2 : dot3 b z = / jm * dot3 z z) by (unfold b; generalize z (/ jm); clear; vring). rewrite S2. ring. }
  assert (B1 := B v). fold z in B1. assert (B2 := B b). assert (S3 : dot3 b b = / jm * / jm * dot3 z z) by (unfold b; generalize z (/ jm); clear; vring). rewrite S3 in B2. replace (jm * (/ jm * / jm * dot3 z z)) with (/ jm * dot3 z z) in B2 by (field; lra).
  assert (R1 : / jm * dot3 z z <= jm * dot3 v v) by lra. assert (R2 : dot3 z z <= jm * jm * dot3 v v).
  { apply (Rmult_le_compat_l jm) in R1; [|lra]. replace (jm * (/ jm * dot3 z z)) with (dot3 z z) in R1 by (field; lra). lra. }
  assert (N1 := P_quat.norm3_sq z). assert (N2 := P_quat.norm3_sq v). assert (N3 := P_quat.norm3_pos z). assert (N4 := P_quat.norm3_pos v). apply Rsqr_incr_0_var; [unfold Rsqr; clear - N1 N2 R2; nra|apply Rmult_le_pos; lra].
Qed.
Lemma asked_small sat al ga D jm W L w qc v w' u : tracker sat al ga w -> 0 < jm -> pdm (s_total_moment sat) -> (forall v, dot3 v (mv (s_total_moment sat) v) <= jm * dot3 v v) -> 0 < ga -> 0 <= al ->
  spread (s_rw sat) D -> D * (W * L + jm * (al + ga * W)) <= rw_maxT (s_rw sat) -> tracking w v zero3 zero3 qc = Ok (w', u) -> unitq (v_att v) -> unitq qc -> norm3 (v_rate v) <= W -> norm3 (total_momentum sat v) <= L ->
  Forall (fun x => Rabs x <= rw_maxT (s_rw sat)) (rw_distribute (s_rw sat) (opp3 u)).
Proof.
  intros (<- & <- & <- & (f & HS) & HZ & PM) JM PD B GA AL [D0 SD] BD TR U UC HW HL. assert (LN := tracking_len _ _ _ _ _ _ TR).
  assert (T := tracking_free w v zero3 zero3 qc f HS HZ LN). cbv zeta in T. rewrite T in TR. injection TR as _ EU. rewrite !sandwich_0, cross_0_r in EU.
  set (s := tr_mem (trig_step (qw (error_quat (v_att v) qc)) (wc_trig w))) in *. assert (SS : Rabs s = 1) by (destruct (trig_pm (qw (error_quat (v_att v) qc)) _ PM) as [E|E]; fold s in E; rewrite E; [apply Rabs_R1|rewrite Rabs_left; lra]).
  assert (EV : norm3 (vec (error_quat (v_att v) qc)) <= 1). { assert (X := vec_unit_le _ (error_quat_unit _ _ U UC)). assert (SQ := P_quat.norm3_sq (vec (error_quat (v_att v) qc))). assert (N0 := P_quat.norm3_pos (vec (error_quat (v_att v) qc))). clear - X SQ N0. nra. }
  set (e := vec (error_quat (v_att v) qc)) in *. set (om := v_rate v) in *. set (J := s_total_moment (wc_sat w)) in *.
  assert (NU : norm3 u <= W * L + jm * (wc_alpha w + wc_gamma w * W)).
  { rewrite <- EU. eapply Rle_trans; [apply norm3_triangle|]. apply Rplus_le_compat.
    - eapply Rle_trans; [apply cross_norm|]. apply Rmult_le_compat; [apply P_quat.norm3_pos|apply P_quat.norm3_pos|exact HW|]. replace (add3 (mv J om) (rw_momentum (s_rw (wc_sat w)) (v_whl v))) with (total_momentum (wc_sat w) v) by (unfold total_momentum; fold J om; generalize (mv J om) (rw_momentum (s_rw (wc_sat w)) (v_whl v)); vring). exact HL.
    - eapply Rle_trans; [apply (J_norm J jm _ (total_symm (wc_sat w)) PD JM B)|]. apply Rmult_le_compat_l; [lra|].
      replace (sub3 (sub3 (scale3 (- s * wc_alpha w) e) (scale3 (wc_gamma w) (sub3 om zero3))) (add3 zero3 zero3)) with (sub3 (scale3 (- s * wc_alpha w) e) (scale3 (wc_gamma w) om)) by (generalize e om s (wc_alpha w) (wc_gamma w); vring).
      eapply Rle_trans; [apply sub_norm|]. rewrite !norm3_scal, Rabs_mult, Rabs_Ropp, SS, (Rabs_right (wc_gamma w)), (Rabs_right (wc_alpha w)) by lra.
      assert (T1 := Rmult_le_compat_l _ _ _ AL EV). assert (T2 := Rmult_le_compat_l (wc_gamma w) _ _ ltac:(lra) HW). lra. }
  apply Forall_forall. intros x Hx. eapply Rle_trans; [apply (SD _ _ Hx)|]. rewrite P_vec2.norm3_opp. eapply Rle_trans; [apply Rmult_le_compat_l; [exact D0|exact NU]|exact BD].
Qed.
(** unit attitude and total momentum are kept at every time of the motion *)
Lemma limited_kept sat al ga (w : R -> WhlCtl) (qc : R -> quat) F y a : spanning (s_rw sat) -> (rw_limited (s_rw sat) = true -> 0 < rw_maxT (s_rw sat)) -> det3 (s_total_moment sat) <> 0 -> a < 0 ->
  (forall t, a < t -> tracker sat al ga (w t) /\ unitq (qc t) /\ obeys_limited (w t) (qc t) F y t) -> unitq (v_att (y 0)) ->
  forall t, a < t -> unitq (v_att (y t)) /\ norm3 (total_momentum sat (y t)) = norm3 (total_momentum sat (y 0)).
Proof.
  intros SP LM DJ A O UQ t Ht. destruct (fraction (s_rw sat) SP LM) as (D & D0 & FR).
  assert (ROT : forall u, a < u -> _) by (intros u Hu; destruct (O u Hu) as (TK & _ & OB); exact (limited_step sat al ga D (w u) (qc u) F y u TK DJ FR OB)).
  assert (M1 := Rmax_l t 0). assert (M2 := Rmax_r t 0). split.
  - unfold unitq in *. rewrite <- UQ. apply (const_of_deriv (fun u => dotq (v_att (y u)) (v_att (y u))) a (Rmax t 0 + 1)); [|lra|lra].
    intros x Hx. destruct (ROT x ltac:(lra)) as [D1 _]. eapply d_eq; [apply d_dotq; exact D1|].
    cbv beta. generalize (v_att (y x)) (v_rate (y x)). clear. intros [p q r s] [x y z]. unfold pure, product. replace 0.5 with (1/2) by lra. vunfoldg; cbn [x3 y3 z3 qw qx qy qz]; rnumg. field.
  - assert (E : dot3 (total_momentum sat (y t)) (total_momentum sat (y t)) = dot3 (total_momentum sat (y 0)) (total_momentum sat (y 0))).
    { apply (const_of_deriv (fun u => dot3 (total_momentum sat (y u)) (total_momentum sat (y u))) a (Rmax t 0 + 1)); [|lra|lra]. intros x Hx. destruct (ROT x ltac:(lra)) as (_ & D2 & _). eapply d_eq; [apply d_dot3; exact D2|].
      cbv beta. generalize (total_momentum sat (y x)) (v_rate (y x)). clear. intros [?a ?b ?c] [?a ?b ?c]. vunfoldg; cbn [x3 y3 z3]; rnumg. ring. }
    assert (S1 := P_quat.norm3_sq (total_momentum sat (y t))). assert (S2 := P_quat.norm3_sq (total_momentum sat (y 0))). assert (P1 := P_quat.norm3_pos (total_momentum sat (y t))). assert (P2 := P_quat.norm3_pos (total_momentum sat (y 0))). clear - S1 S2 P1 P2 E. nra.
Qed.

(** from rest, whatever the targets: no command ever exceeds the wheels' torque *)
Theorem C138_unsaturated : forall sat instr sun damping freq w0 jl jm D L, 0 < damping -> 0 < freq -> whl_new sat instr sun damping freq = Ok w0 ->
  0 < jl -> (forall v, jl * dot3 v v <= dot3 v (mv (s_total_moment sat) v) <= jm * dot3 v v) ->
  spanning (s_rw sat) -> (rw_limited (s_rw sat) = true -> 0 < rw_maxT (s_rw sat)) -> spread (s_rw sat) D -> needed damping freq jl jm D L <= rw_maxT (s_rw sat) ->
  forall (w : R -> WhlCtl) (qc : R -> quat) F y a, a < 0 ->
  (forall t, a < t -> tracker sat (wc_alpha w0) (wc_gamma w0) (w t) /\ unitq (qc t) /\ obeys_limited (w t) (qc t) F y t) -> unitq (v_att (y 0)) -> v_rate (y 0) = zero3 ->
  norm3 (rw_momentum (s_rw sat) (v_whl (y 0))) <= L ->
  exists b, a <= b < 0 /\ forall t, b < t -> exists w' u, tracking (w t) (y t) zero3 zero3 (qc t) = Ok (w', u) /\ Forall (fun x => Rabs x <= rw_maxT (s_rw sat)) (rw_distribute (s_rw sat) (opp3 u)).
Proof.
  intros sat instr sun damping freq w0 jl jm D L HD HF WN JL B SP LM SD ND w qc F y a A O U R0 HL.
  assert (PD : pdm (s_total_moment sat)). { intros v NV. destruct (B v) as [Y _]. assert (P : 0 < dot3 v v). { destruct (dot3_nonneg v) as [Q|E]; [exact Q|]. exfalso. apply NV, dot3_zero. lra. } assert (X2 := Rmult_lt_0_compat _ _ JL P). lra. }
  assert (DP := pd_det _ (total_symm sat) PD).
  assert (JM : 0 < jm). { assert (Y := B (mk3 1 0 0)). replace (dot3 (mk3 1 0 0) (mk3 1 0 0)) with 1 in Y by (vunfoldg; cbn [x3 y3 z3]; rnumg; ring). lra. }
  assert (G : wc_alpha w0 = 2 * freq ^ 2 /\ wc_gamma w0 = 2 * damping * freq). { unfold whl_new in WN. destruct (forallb _ instr); [|discriminate]. injection WN as <-. split; reflexivity. } destruct G as [GA GG].
  assert (GP : 0 < wc_gamma w0) by (rewrite GG; nra). assert (AP : 0 <= wc_alpha w0) by (rewrite GA; assert (F2 := pow2_ge_0 freq); lra).
  set (W := top_rate damping freq jl jm). assert (W0 : 0 < W) by (unfold W, top_rate; apply Rmult_lt_0_compat; [apply Rdiv_lt_0_compat; assumption|apply sqrt_lt_R0, Rdiv_lt_0_compat; assumption]).
  assert (KEEP := limited_kept sat _ _ w qc F y a SP LM ltac:(lra) A O U).
  assert (L0 : norm3 (total_momentum sat (y 0)) <= L). { unfold total_momentum. rewrite R0. replace (add3 (rw_momentum (s_rw sat) (v_whl (y 0))) (mv (s_total_moment sat) zero3)) with (rw_momentum (s_rw sat) (v_whl (y 0))); [exact HL|]. generalize (rw_momentum (s_rw sat) (v_whl (y 0))) (s_total_moment sat). clear. intros [?a ?b ?c] [[?a ?b ?c] [?a ?b ?c] [?a ?b ?c]]. vunfoldg. cbn [x3 y3 z3 row1 row2 row3]. rnumg. apply mk3_c; ring. }
  assert (FWD : forall t, 0 <= t -> norm3 (v_rate (y t)) <= W) by (intros t Ht; apply (C137_rate sat instr sun damping freq w0 jl jm w qc F y a HD HF WN JL B SP LM A O U 0 t); [lra|exact R0]).
  assert (NEAR : exists b, a <= b < 0 /\ forall t, b < t -> norm3 (v_rate (y t)) <= W).
  { destruct (limited_rot sat (wc_alpha w0) (wc_gamma w0) (w 0) (qc 0) F y 0 (proj1 (O 0 A)) SP LM ltac:(lra) (proj2 (proj2 (O 0 A)))) as (_ & k & s & h & d & _ & _ & DR & _).
    assert (DD : derivable_pt_lim (fun u => dot3 (v_rate (y u)) (v_rate (y u))) 0 (dot3 d (v_rate (y 0)) + dot3 (v_rate (y 0)) d)) by (apply d_dot3; exact DR).
    assert (CT : continuity_pt (fun u => dot3 (v_rate (y u)) (v_rate (y u))) 0) by (apply derivable_continuous_pt; eexists; exact DD).
    destruct (CT (W * W) ltac:(nra)) as (dl & Hd & HDl). cbn [dist R_met] in HDl. unfold R_dist in HDl. exists (Rmax a (- dl)). split; [split; [apply Rmax_l|apply Rmax_lub_lt; lra]|]. intros t Ht.
    destruct (Rle_dec 0 t) as [Q|Q]; [apply FWD, Q|]. assert (M1 := Rmax_r a (- dl)).
    assert (X : Rabs (dot3 (v_rate (y t)) (v_rate (y t)) - dot3 (v_rate (y 0)) (v_rate (y 0))) < W * W). { apply HDl. split; [split; [exact I|lra]|]. rewrite Rminus_0_r, Rabs_left; lra. }
    rewrite R0 in X. replace (dot3 (zero3 (T:=R)) zero3) with 0 in X by (vunfoldg; cbn [x3 y3 z3]; rnumg; ring). apply Rabs_def2 in X. assert (SQ := P_quat.norm3_sq (v_rate (y t))). assert (N0 := P_quat.norm3_pos (v_rate (y t))). apply Rsqr_incr_0_var; [unfold Rsqr; clear - X SQ; nra|lra]. }
  destruct NEAR as (b & HB & NB). exists b. split; [exact HB|]. intros t Ht. destruct (O t ltac:(lra)) as (TK & UC & w' & u & acc & TR & _). exists w', u. split; [exact TR|].
  destruct (KEEP t ltac:(lra)) as [UT LT].
  apply (asked_small sat (wc_alpha w0) (wc_gamma w0) D jm W L (w t) (qc t) (y t) w' u TK JM PD (fun v => proj2 (B v)) GP AP SD); try assumption; [|apply NB, Ht|rewrite LT; exact L0].
  rewrite GA, GG. exact ND.
Qed.
Print Assumptions C138_unsaturated.

(** so the controller the constructor makes turns a satellite with such wheels from rest in any attitude to any fixed target, without
    the assumption of C85 that no wheel saturates *)
Theorem C138_arrives : forall sat sun damping freq w0 jl jm D L, 0 < damping -> 0 < freq -> whl_new sat [] (Some sun) damping freq = Ok w0 ->
  0 < jl -> (forall v, jl * dot3 v v <= dot3 v (mv (s_total_moment sat) v) <= jm * dot3 v v) ->
  spanning (s_rw sat) -> (rw_limited (s_rw sat) = true -> 0 < rw_maxT (s_rw sat)) -> spread (s_rw sat) D -> needed damping freq jl jm D L <= rw_maxT (s_rw sat) ->
  exists lam, 0 < lam /\ forall s qc F y a w u, pm1 s -> unitq qc -> unitq (v_att (y 0)) -> v_rate (y 0) = zero3 -> norm3 (rw_momentum (s_rw sat) (v_whl (y 0))) <= L -> a < 0 ->
  tracking (set_trig w0 (mkTr s 0.3)) (y 0) zero3 zero3 qc = Ok (w, u) -> (forall t, a < t -> obeys_limited w qc F y t) ->
  let s' := tr_mem (wc_trig w) in pm1 s' /\ forall t, 0 <= t ->
    4 * freq ^ 2 * off_target s' qc (y t) + rate2 (y t) <= 12 * freq ^ 2 * off_target s' qc (y 0) * exp (- lam * t).
Proof.
  intros sat sun damping freq w0 jl jm D L HD HF WN JL B SP LM SD ND.
  assert (PD : pdm (s_total_moment sat)). { intros v NV. destruct (B v) as [Y _]. assert (P : 0 < dot3 v v). { destruct (dot3_nonneg v) as [Q|E]; [exact Q|]. exfalso. apply NV, dot3_zero. lra. } assert (X2 := Rmult_lt_0_compat _ _ JL P). lra. }
  assert (DP := pd_det _ (total_symm sat) PD).
  destruct (C85_rest sat sun damping freq w0 HD HF WN SP ltac:(lra)) as (lam & L0 & H). exists lam. split; [exact L0|].
  intros s qc F y a w u PM UC U R0 HL A TR O s'.
  assert (W0 : w0 = mkWC sat (2 * freq ^ 2) (2 * damping * freq) (trig_new 1 0.3) true [] (Some sun)) by (unfold whl_new in WN; cbn [forallb map] in WN; injection WN as <-; reflexivity).
  assert (TW : tracker sat (wc_alpha w0) (wc_gamma w0) w).
  { assert (HLn := tracking_len _ _ _ _ _ _ TR). assert (T := tracking_free (set_trig w0 (mkTr s 0.3)) (y 0) zero3 zero3 qc sun ltac:(rewrite W0; reflexivity) ltac:(right; rewrite W0; reflexivity) HLn). cbv zeta in T. rewrite T in TR. injection TR as <- _. subst w0.
    split; [reflexivity|]. split; [reflexivity|]. split; [reflexivity|]. split; [eexists; reflexivity|]. split; [right; reflexivity|]. apply trig_pm. exact PM. }
  destruct (C138_unsaturated sat [] (Some sun) damping freq w0 jl jm D L HD HF WN JL B SP LM SD ND (fun _ => w) (fun _ => qc) F y a A) as (b & HB & UN); [intros t Ht; split; [exact TW|]; split; [exact UC|apply O, Ht]|exact U|exact R0|exact HL|].
  assert (ES : wc_sat w = sat) by apply TW.
  destruct (H s qc F y b w u PM UC U R0 ltac:(lra) TR) as [H1 H2].
  - intros t Ht. destruct (O t ltac:(lra)) as (w' & u' & acc & T1 & T2 & T3). destruct (UN t Ht) as (w'' & u'' & T1' & FA). rewrite T1 in T1'. injection T1' as <- <-. exists w', u', acc. split; [exact T1|]. split; [right; rewrite ES; exact FA|]. split; [exact T2|exact T3].
  - split; [exact H1|]. intros t Ht. apply H2, Ht.
Qed.
Print Assumptions C138_arrives.

Lemma weak_spread : spread (s_rw weak_ball) 1.
Proof.
  split; [lra|]. intros v x H. assert (E : rw_distribute (s_rw weak_ball) v = [x3 v; y3 v; z3 v]).
  { destruct v as [?a ?b ?c]. unfold rw_distribute, rw_gram. cbn [weak_ball s_rw rw_wheels map summ fold_right w_axis zip_with]. vunfoldg; cbn [x3 y3 z3 row1 row2 row3]; rnumg. apply (f_equal2 (@cons R)); [|apply (f_equal2 (@cons R)); [|apply (f_equal2 (@cons R)); [|reflexivity]]]; field. }
  rewrite E in H. assert (SQ := P_quat.norm3_sq v). assert (N0 := P_quat.norm3_pos v). assert (DV : dot3 v v = x3 v * x3 v + y3 v * y3 v + z3 v * z3 v) by (destruct v as [?a ?b ?c]; vunfoldg; cbn [x3 y3 z3]; rnumg; ring).
  assert (X : x * x <= dot3 v v). { rewrite DV. assert (A1 := Rle_0_sqr (x3 v)). assert (A2 := Rle_0_sqr (y3 v)). assert (A3 := Rle_0_sqr (z3 v)). unfold Rsqr in *. destruct H as [<-|[<-|[<-|[]]]]; lra. }
  apply Rsqr_incr_0_var; [|lra]. rewrite <- Rsqr_abs. unfold Rsqr. clear - X SQ. nra.
Qed.
(** the sphere of C137, whose wheels give one newton metre each, turning from rest: what it needs is a sixth of that *)
Example C138_ex : exists w0 y w u a, whl_new weak_ball [] (Some (fun _ => ex)) 0.707 0.1 = Ok w0 /\ spanning (s_rw weak_ball) /\ rw_limited (s_rw weak_ball) = true /\ 0 < rw_maxT (s_rw weak_ball) /\
  (forall v, 4 * dot3 v v <= dot3 v (mv (s_total_moment weak_ball) v) <= 4 * dot3 v v) /\ spread (s_rw weak_ball) 1 /\ needed 0.707 0.1 4 4 1 0 <= rw_maxT (s_rw weak_ball) /\
  unitq (roll_quat 0) /\ unitq (v_att (y 0)) /\ v_rate (y 0) = zero3 /\ norm3 (rw_momentum (s_rw weak_ball) (v_whl (y 0))) <= 0 /\ off_target 1 (roll_quat 0) (y 0) <> 0 /\ a < 0 /\
  tracking (set_trig w0 (mkTr 1 0.3)) (y 0) zero3 zero3 (roll_quat 0) = Ok (w, u) /\ forall t, a < t -> obeys_limited w (roll_quat 0) (fun _ => zero3) y t.
Proof.
  set (al := 2 * 0.1 ^ 2). set (ga := 2 * 0.707 * 0.1). assert (AL : 0 < al) by (unfold al; lra). assert (GA : 0 < ga < 1) by (unfold ga; lra). assert (AL1 : al < 1) by (unfold al; lra).
  destruct (picard (fun _ p => p) (fun th p => - al * sin (th / 2) - ga * p) 4 2 0) as (th & p & T0 & P0 & DT & DP); [lra| | |].
  - intros a b c d. assert (X := Rabs_pos (a - c)). assert (Y := Rabs_pos (b - d)). lra.
  - intros a b c d. replace (- al * sin (a / 2) - ga * b - (- al * sin (c / 2) - ga * d)) with (- (al * (sin (a / 2) - sin (c / 2))) + - (ga * (b - d))) by ring.
    eapply Rle_trans; [apply Rabs_triang|]. rewrite !Rabs_Ropp, !Rabs_mult, (Rabs_right al), (Rabs_right ga) by lra.
    assert (S : Rabs (sin (a / 2) - sin (c / 2)) <= Rabs (a - c)).
    { assert (Q : forall u v, u <= v -> Rabs (sin v - sin u) <= v - u).
      { intros u v H. destruct (Req_dec u v) as [->|N]; [rewrite Rminus_eq_0, Rabs_R0; lra|]. destruct (MVT_cor2 sin cos u v) as (z & E & _); [lra|intros; apply derivable_pt_lim_sin|].
        rewrite E, Rabs_mult, (Rabs_right (v - u)) by lra. assert (C := COS_bound z). assert (Rabs (cos z) <= 1) by (apply Rabs_le; lra). assert (0 <= v - u) by lra. nra. }
      destruct (Rle_dec c a) as [L|L].
      - assert (K := Q (c / 2) (a / 2) ltac:(lra)). rewrite (Rabs_right (a - c)) by lra. lra.
      - assert (K := Q (a / 2) (c / 2) ltac:(lra)). rewrite Rabs_minus_sym, (Rabs_left (a - c)) by lra. lra. }
    assert (X := Rabs_pos (sin (a / 2) - sin (c / 2))). assert (Y := Rabs_pos (b - d)). nra.
  - assert (C1 : 1 / 2 < cos 1). { rewrite <- cos_PI3. apply cos_decreasing_1; assert (P1 := PI2_3_2); assert (P2 := PI_4); lra. }
    assert (H2 : forall t, derivable_pt_lim (fun u => th u / 2) t (p t / 2)) by (intros t; eapply d_eq; [unfold Rdiv; apply d_mult; [apply DT|apply d_const]|]; cbv beta; field).
    assert (DC : forall t, derivable_pt_lim (fun u => cos (th u / 2)) t (- sin (th t / 2) * (p t / 2))) by (intros t; apply (derivable_pt_lim_comp (fun u => th u / 2) cos); [apply H2|apply derivable_pt_lim_cos]).
    assert (FWD : forall t, 0 <= t -> 1 / 2 < cos (th t / 2) /\ p t * p t <= 1).
    { intros t Ht. destruct (Req_dec t 0) as [->|N]; [rewrite T0, P0; replace (2 / 2) with 1 by lra; split; [exact C1|lra]|].
      assert (L := falls (fun u => 2 * al * (1 - cos (th u / 2)) + p u * p u / 2) (fun u => - ga * (p u * p u)) t).
      assert (D : forall u, derivable_pt_lim (fun u => 2 * al * (1 - cos (th u / 2)) + p u * p u / 2) u (- ga * (p u * p u))).
      { intros u. eapply d_eq. { apply d_plus; [apply d_mult; [apply d_const|apply d_minus; [apply d_const|apply DC]]|unfold Rdiv; apply d_mult; [apply d_mult; apply DP|apply d_const]]. } cbv beta. field. }
      assert (K : 2 * al * (1 - cos (th t / 2)) + p t * p t / 2 <= 2 * al * (1 - cos (th 0 / 2)) + p 0 * p 0 / 2).
      { apply L; [lra|intros; apply D|intros u _; apply derivable_continuous_pt; eexists; apply D|intros u; nra]. }
      rewrite P0, T0 in K. replace (2 / 2) with 1 in K by lra. split; [nra|]. assert (CB := COS_bound (th t / 2)). assert (A3 : al <= 0.02) by (unfold al; lra). nra. }
    assert (NEAR : exists a, a < 0 /\ forall t, a < t -> - 0.3 < cos (th t / 2) /\ Rabs (p t) <= 1).
    { assert (CT : continuity_pt (fun u => cos (th u / 2)) 0) by (apply derivable_continuous_pt; eexists; apply DC). assert (CP : continuity_pt p 0) by (apply derivable_continuous_pt; eexists; apply DP).
      destruct (CT (1 / 2) ltac:(lra)) as (d & Hd & HD). destruct (CP 1 ltac:(lra)) as (d' & Hd' & HD'). cbn [dist R_met] in HD, HD'. unfold R_dist in HD, HD'. exists (Rmax (- d) (- d')). split; [apply Rmax_lub_lt; lra|]. intros t Ht.
      assert (M1 := Rmax_l (- d) (- d')). assert (M2 := Rmax_r (- d) (- d')).
      destruct (Rle_dec 0 t) as [L|L]; [destruct (FWD t L) as [K1 K2]; split; [lra|apply Rabs_le; split; nra]|]. assert (K := HD t). rewrite T0 in K. replace (2 / 2) with 1 in K by lra. assert (K' := HD' t). rewrite P0, !Rminus_0_r in K'.
      assert (Q : Rabs (cos (th t / 2) - cos 1) < 1 / 2). { apply K. split; [split; [exact I|lra]|]. rewrite Rminus_0_r, Rabs_left; lra. } apply Rabs_def2 in Q. split; [lra|]. left. apply K'. split; [split; [exact I|lra]|]. rewrite Rabs_left; lra. }
    destruct NEAR as (a & HA & HN). exists weak_ctl, (fun t => axis_state (th t) (p t)), weak_ctl. eexists. exists a.
    assert (ER : forall x, roll_quat 0 = roll_quat (x - x)) by (intros x; rewrite Rminus_eq_0; reflexivity).
    split. { unfold whl_new, weak_ctl. cbn [forallb map]. f_equal. f_equal. rewrite trig_new_eq. destruct (Rlt_dec 1 0); [lra|reflexivity]. }
    split; [exact weak_spanning|]. split; [reflexivity|]. split; [cbn; lra|]. split; [intros v; rewrite weak_bound; lra|]. split; [exact weak_spread|].
    split. { unfold needed, top_rate. cbv zeta. replace (4 / 4) with 1 by field. rewrite sqrt_1. cbn [weak_ball s_rw rw_maxT]. replace (1 * (0.1 / 0.707 * 1 * 0 + 4 * (2 * 0.1 ^ 2 + 2 * 0.707 * 0.1 * (0.1 / 0.707 * 1)))) with (4 * (2 * 0.1 ^ 2 + 2 * 0.1 ^ 2 * (0.707 / 0.707))) by (unfold Rdiv; ring). replace (0.707 / 0.707) with 1 by (field; lra). lra. }
    split; [apply roll_unit|]. split; [apply roll_unit|].
    split. { unfold axis_state. cbn [v_rate]. rewrite P0. reflexivity. }
    split. { right. unfold axis_state. cbn [v_whl]. rewrite P0. replace (rw_momentum (s_rw weak_ball) [-4 * 0; 0; 0]) with (zero3 (T:=R)); [apply Props_agile.norm_zero3|]. unfold rw_momentum, w_momentum. cbn [weak_ball s_rw rw_wheels zip_with sum3 fold_right w_par w_axis]. vunfoldg; cbn [x3 y3 z3]; rnumg. apply mk3_c; ring. }
    split. { unfold off_target, axis_state, roll_quat. cbn [v_att]. rewrite T0. replace (2 / 2) with 1 by lra. replace (0 / 2) with 0 by field. rewrite cos_0, sin_0. vunfoldg; cbn [qw qx qy qz]; rnumg. assert (H := sin2_cos2 1). unfold Rsqr in H.
      assert (K : cos 1 < cos 0) by (apply cos_decreasing_1; assert (P1 := PI2_3_2); lra). rewrite cos_0 in K. intros E. nra. }
    split; [exact HA|]. split. { rewrite (ER (th 0)). apply weak_tracking. apply HN, HA. }
    intros t Ht. destruct (HN t Ht) as [N1 N2]. rewrite (ER (th t)). apply (weak_obeys th p (th t) t); [exact N1|apply DT|].
    eapply d_eq; [apply DP|]. fold al ga. assert (SB := SIN_bound (th t / 2)). assert (A2 := Rle_abs (p t)). assert (A3 := Rle_abs (- p t)). rewrite Rabs_Ropp in A3. assert (A4 : al <= 0.02) by (unfold al; lra). assert (A5 : ga <= 0.15) by (unfold ga; lra).
    assert (CL : -1 < 4 * (al * sin (th t / 2) + ga * p t) < 1) by (split; nra). unfold clip. destruct (Rle_dec 1 _); [lra|]. destruct (Rle_dec _ (-1)); [lra|]. field.
Qed.
