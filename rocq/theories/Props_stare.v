(** * C124: POINT mode with the satellite it turns: the boresight goes to the target, unless the trigger remembers the other side *)
From Coq Require Import Reals ZArith List Bool Lra Lia Psatz.
From Coquelicot Require Import Coquelicot.
From Verif Require Import Num Vec M_vector M_quaternion M_jday M_struct M_dyn M_ctrl S_rot S_dyn S_ctrl.
From Verif Require Import P_quat P_vec2 P_struct P_wheel P_dyn P_dyn2 P_obs P_obs3 P_ctrl P_ctrl2 P_ctrl3 P_ctrl4 P_ctrl5 P_conv P_ode P_tot3 P_orb3 P_posf P_detum P_samp P_samp2 Props_struct Props_ctrl2 Props_conv Props_samp Props_dist P_stare.
Import ListNotations.
Local Open Scope R_scope.

(** the satellite driven by the wheels of [point_and_stare], under an external force F and torque T *)
Definition obeys_stare (w : WhlCtl) (b tgt : v3) (F T : R -> v3) (y : R -> SVec) (t : R) : Prop :=
  exists w' u acc, tracking w (y t) (sandwich (v_att (y t)) (stare_rate_intl (v_pos (y t)) (v_vel (y t)) tgt)) zero3 (stare_attitude (v_pos (y t)) (v_att (y t)) b tgt) = Ok (w', u) /\
    unsaturated (s_rw (wc_sat w)) (opp3 u) /\ point_and_stare w (mkCS (y t) zero3) b tgt = Ok (w', acc) /\
    deriv_sv y t (derivative (wc_sat w) (y t) (F t) (T t) (rw_torque (s_rw (wc_sat w)) acc) (rw_momentum (s_rw (wc_sat w)) (v_whl (y t))) acc).
(** cosine of the angle between the boresight and the direction of the target, both in the inertial frame *)
Definition aim (b tgt : v3) (v : SVec) : R := dot3 (sandwich_opp (v_att v) b) (pointing_vector (v_pos v) tgt).
(** speed at which the direction of the target turns *)
Definition sight_rate (tgt : v3) (v : SVec) : R := norm3 (stare_rate_intl (v_pos v) (v_vel v) tgt).

Definition seen (tgt : v3) (v : SVec) : v3 := sandwich (v_att v) (pointing_vector (v_pos v) tgt).
Lemma aim_seen b tgt v : aim b tgt v = dot3 b (seen tgt v).
Proof. unfold aim, seen. destruct (v_att v) as [q0 q1' q2' q3'], b as [b1 b2 b3], (pointing_vector (v_pos v) tgt) as [p1 p2 p3]. unfold sandwich_opp, sandwich, conjugate, product, pure. vunfold; rnum. ring. Qed.
Lemma pv_scale (p tgt : v3) : pointing_vector p tgt = scale3 (/ norm3 (sub3 tgt p)) (sub3 tgt p).
Proof.
  unfold pointing_vector, normalize3. cbn [neqb n0 RNum]. destruct (Reqb_spec (norm3 (sub3 tgt p)) 0) as [E|E].
  - assert (Z : sub3 tgt p = zero3) by (apply dot3_zero; rewrite <- P_quat.norm3_sq, E; ring). rewrite Z. unfold zero3. vunfoldg; cbn [x3 y3 z3]; rnumg. apply mk3_c; ring.
  - generalize (norm3 (sub3 tgt p)) (sub3 tgt p). intros n [x y z]. vunfoldg; cbn [x3 y3 z3]; rnumg. apply mk3_c; apply Rmult_comm.
Qed.
Lemma seen_unit tgt v : unitq (v_att v) -> v_pos v <> tgt -> unit3 (seen tgt v).
Proof.
  intros U N. assert (UP : unit3 (pointing_vector (v_pos v) tgt)).
  { apply normalize3_unit. intros E. apply N. destruct tgt as [x y z], (v_pos v) as [a c d]. revert E. vunfoldg; cbn [x3 y3 z3]; rnumg. intros E. apply mk3_inj in E. destruct E as (E1 & E2 & E3). f_equal; lra. }
  unfold unit3, seen. rewrite sandwich_dot, U, UP. ring.
Qed.
Lemma stare_acq p q (b tgt : v3) : unit3 b -> let D := sandwich q (pointing_vector p tgt) in unit3 D -> 0 < hcos b D -> acquire_target p q b tgt = mkq (hcos b D) (x3 (haxis b D)) (y3 (haxis b D)) (z3 (haxis b D)).
Proof. intros B D U P. rewrite <- (acquired b D B U P). unfold acquire_target. fold D. destruct (R_axis_angle b D) as [r th]. reflexivity. Qed.
Lemma norm_sand (q : quat) (v : v3) : norm3 (sandwich q v) = dotq q q * norm3 v.
Proof.
  assert (P : 0 <= dotq q q) by (unfold dotq; rnumg; nra). rewrite <- (sqrt_Rsqr (dotq q q * norm3 v)) by (apply Rmult_le_pos; [exact P|apply sqrt_pos]).
  unfold norm3 at 1. change (@nsqrt R RNum) with sqrt. f_equal. rewrite sandwich_dot. unfold Rsqr. assert (N := P_quat.norm3_sq v). rewrite <- N. rnumg. ring.
Qed.
Definition side (w : WhlCtl) (b tgt : v3) (v : SVec) : Trigger R := trig_step (hcos b (seen tgt v)) (wc_trig w).
Definition told (b tgt : v3) (v : SVec) : v3 := sandwich (conjugate (acquire_target (v_pos v) (v_att v) b tgt)) (sandwich (v_att v) (stare_rate_intl (v_pos v) (v_vel v) tgt)).
Lemma told_norm b tgt v : unitq (v_att v) -> unit3 b -> v_pos v <> tgt -> 0 < hcos b (seen tgt v) -> norm3 (told b tgt v) = sight_rate tgt v.
Proof.
  intros U B N P. assert (US := seen_unit tgt v U N). unfold told, sight_rate. rewrite !norm_sand, U. rewrite (stare_acq _ _ b tgt B US P). fold (seen tgt v). destruct (hcos_facts b (seen tgt v) B US) as (_ & S). destruct (haxis_sq b (seen tgt v) B US P) as (H & _).
  assert (Q : dotq (conjugate (mkq (hcos b (seen tgt v)) (x3 (haxis b (seen tgt v))) (y3 (haxis b (seen tgt v))) (z3 (haxis b (seen tgt v))))) (conjugate (mkq (hcos b (seen tgt v)) (x3 (haxis b (seen tgt v))) (y3 (haxis b (seen tgt v))) (z3 (haxis b (seen tgt v))))) = 1).
  { revert H. clear. generalize (hcos b (seen tgt v)) (haxis b (seen tgt v)). intros c [a1 a2 a3]. unfold conjugate. vunfoldg; cbn [x3 y3 z3 qw qx qy qz]; rnumg. intros H. lra. }
  rewrite Q. ring.
Qed.
Lemma deriv3_Derive f t (l : v3) : deriv3 f t l -> l = mk3 (Derive (fun u => x3 (f u)) t) (Derive (fun u => y3 (f u)) t) (Derive (fun u => z3 (f u)) t).
Proof. intros (A & B & C). destruct l as [l1 l2 l3]. cbn [x3 y3 z3] in *. apply mk3_c; symmetry; apply is_derive_unique, is_derive_Reals; assumption. Qed.

(** the motion of the boresight and of the rate *)
Lemma stare_rot w f b tgt F T y t : wc_sun w = Some f -> zone_free w -> spanning (s_rw (wc_sat w)) -> det3 (s_total_moment (wc_sat w)) <> 0 -> obeys_stare w b tgt F T y t ->
  derivq (fun u => v_att (y u)) t (scaleq 0.5 (product (v_att (y t)) (pure (v_rate (y t))))) /\ deriv3 (fun u => v_pos (y u)) t (v_vel (y t)) /\
  exists ac, deriv3 (fun u => v_rate (y u)) t ac /\
  (unitq (v_att (y t)) -> unit3 b -> v_pos (y t) <> tgt -> 0 < hcos b (seen tgt (y t)) ->
   (exists acc, point_and_stare w (mkCS (y t) zero3) b tgt = Ok (set_trig w (side w b tgt (y t)), acc)) /\
   ac = add3 (push (wc_sat w) (T t)) (sub3 (sub3 (scale3 (tr_mem (side w b tgt (y t)) * wc_alpha w) (haxis b (seen tgt (y t)))) (scale3 (wc_gamma w) (sub3 (v_rate (y t)) (told b tgt (y t))))) (cross3 (v_rate (y t)) (told b tgt (y t))))).
Proof.
  intros HS HZ SP DJ (w' & u & acc & TR & US & PS & D). assert (HL := tracking_len _ _ _ _ _ _ TR). assert (PS' := PS). unfold point_and_stare in PS. cbn [cs_v] in PS. rewrite TR in PS. cbn [rbind] in PS. destruct (whl_actuator_commands w' u) as [acc'|] eqn:WA; cbn [rbind] in PS; [|discriminate]. assert (acc' = acc) by congruence. subst acc'. clear PS.
  destruct (closed_loop w (y t) (sandwich (v_att (y t)) (stare_rate_intl (v_pos (y t)) (v_vel (y t)) tgt)) zero3 (stare_attitude (v_pos (y t)) (v_att (y t)) b tgt) f HS HZ HL SP DJ) as (u' & TR' & H). rewrite TR' in TR.
  set (qc := stare_attitude (v_pos (y t)) (v_att (y t)) b tgt) in *. assert (EW : set_trig w (trig_step (qw (error_quat (v_att (y t)) qc)) (wc_trig w)) = w') by congruence. assert (EU : u' = u) by congruence. subst u'. rewrite EW in H.
  destruct (H US) as (a' & WA' & _ & K). rewrite WA' in WA. assert (EA : a' = acc) by congruence. subst a'. destruct D as (D0 & _ & D1 & D2 & _). rewrite K in D2. split; [exact D1|]. split; [exact D0|]. eexists. split; [exact D2|].
  intros U B N P. assert (UD := seen_unit tgt (y t) U N). assert (EQ : error_quat (v_att (y t)) qc = conjugate (acquire_target (v_pos (y t)) (v_att (y t)) b tgt)) by (unfold qc; apply stare_error, U).
  assert (AQ := stare_acq (v_pos (y t)) (v_att (y t)) b tgt B UD P). fold (seen tgt (y t)) in AQ.
  assert (EC : qw (error_quat (v_att (y t)) qc) = hcos b (seen tgt (y t))) by (rewrite EQ, AQ; reflexivity). assert (EV : vec (error_quat (v_att (y t)) qc) = opp3 (haxis b (seen tgt (y t)))) by (rewrite EQ, AQ; destruct (haxis b (seen tgt (y t))); reflexivity).
  rewrite EC in EW. rewrite EC, EV, EQ. fold (told b tgt (y t)). unfold side. split; [exists acc; rewrite PS'; rewrite EW; reflexivity|]. rewrite sandwich_0. unfold push.
  generalize (mv (s_inv_tot (wc_sat w)) (T t)) (haxis b (seen tgt (y t))) (v_rate (y t)) (told b tgt (y t)) (tr_mem (trig_step (hcos b (seen tgt (y t))) (wc_trig w))) (wc_alpha w) (wc_gamma w). clear.
  intros [p1 p2 p3] [h1 h2 h3] [r1 r2' r3] [o1 o2 o3] s al ga. unfold zero3. vunfoldg; cbn [x3 y3 z3]; rnumg. apply mk3_c; ring.
Qed.
Lemma stare_sight (y : R -> SVec) tgt t : derivq (fun u => v_att (y u)) t (scaleq 0.5 (product (v_att (y t)) (pure (v_rate (y t))))) -> deriv3 (fun u => v_pos (y u)) t (v_vel (y t)) -> unitq (v_att (y t)) -> v_pos (y t) <> tgt ->
  deriv3 (fun u => seen tgt (y u)) t (cross3 (seen tgt (y t)) (sub3 (v_rate (y t)) (sandwich (v_att (y t)) (stare_rate_intl (v_pos (y t)) (v_vel (y t)) tgt)))).
Proof.
  intros DQ DP U N. assert (SR := stare_rate (fun u => v_pos (y u)) _ t tgt N DP). assert (L := P_ctrl2.d3_sandwich _ _ t _ _ DQ SR). cbv beta in L.
  eapply (P_obs3.d3_ext (fun u => sandwich (v_att (y u)) (scale3 (/ norm3 (sub3 tgt (v_pos (y u)))) (sub3 tgt (v_pos (y u)))))); [intros u; unfold seen; rewrite pv_scale; reflexivity|exact L|].
  rewrite <- pv_scale. fold (seen tgt (y t)). set (om := stare_rate_intl (v_pos (y t)) (v_vel (y t)) tgt). assert (SC := sandwich_cross (v_att (y t)) om (pointing_vector (v_pos (y t)) tgt)). rewrite U in SC. fold (seen tgt (y t)) in SC.
  replace (sandwich (v_att (y t)) (cross3 om (pointing_vector (v_pos (y t)) tgt))) with (cross3 (sandwich (v_att (y t)) om) (seen tgt (y t))).
  2:{ rewrite SC. generalize (sandwich (v_att (y t)) (cross3 om (pointing_vector (v_pos (y t)) tgt))). intros [g1 g2 g3]. vunfoldg; cbn [x3 y3 z3]; rnumg. apply mk3_c; ring. }
  generalize (seen tgt (y t)) (sandwich (v_att (y t)) om) (v_rate (y t)). clear. intros [a1 a2 a3] [b1 b2 b3] [c1 c2 c3]. vunfoldg; cbn [x3 y3 z3]; rnumg. apply mk3_c; ring.
Qed.
Lemma unit_kept (y : R -> SVec) a c : a < 0 < c -> (forall t, a < t < c -> derivq (fun u => v_att (y u)) t (scaleq 0.5 (product (v_att (y t)) (pure (v_rate (y t)))))) -> unitq (v_att (y 0)) -> forall t, a < t < c -> unitq (v_att (y t)).
Proof.
  intros A HD U t Ht. unfold unitq in *. rewrite <- U. apply (const_of_deriv (fun u => dotq (v_att (y u)) (v_att (y u))) a c); [|exact Ht|exact A].
  intros u Hu. eapply d_eq; [apply d_dotq; apply HD, Hu|]. cbv beta. generalize (v_att (y u)) (v_rate (y u)). clear. intros [p q r s] [x y z]. unfold pure, product. replace 0.5 with (1/2) by lra. vunfoldg; cbn [x3 y3 z3 qw qx qy qz]; rnumg. field.
Qed.

(** the boresight is carried to the target from every start whose energy is below that of the antipode, and held there to
    within the speed at which the target's direction turns and the acceleration by the external torque; the controller comes
    back from every call with the trigger it had *)
Theorem C124_points : forall al ga E, 0 < al -> 0 < ga -> 0 <= E < 2 * al -> exists lam d0 K, 0 < lam /\ 0 < d0 /\ 0 < K /\
  forall w f b tgt F T y a d, wc_alpha w = al -> wc_gamma w = ga -> tr_mem (wc_trig w) = 1 -> 0 < tr_hw (wc_trig w) ->
  wc_sun w = Some f -> zone_free w -> spanning (s_rw (wc_sat w)) -> det3 (s_total_moment (wc_sat w)) <> 0 -> unit3 b -> a < 0 -> 0 <= d <= d0 ->
  unitq (v_att (y 0)) -> (forall t, a < t -> v_pos (y t) <> tgt /\ obeys_stare w b tgt F T y t) ->
  (forall t, 0 <= t -> sight_rate tgt (y t) <= d /\ norm3 (push (wc_sat w) (T t)) <= d) ->
  2 * al * (1 - sqrt ((1 + aim b tgt (y 0)) / 2)) + rate2 (y 0) / 2 <= E ->
  forall t, 0 <= t -> (exists acc, point_and_stare w (mkCS (y t) zero3) b tgt = Ok (w, acc)) /\
    al * (1 - aim b tgt (y t)) + rate2 (y t) <= 6 * (al * (1 - aim b tgt (y 0)) + rate2 (y 0)) * exp (- lam * t) + K * d ^ 2.
Proof.
  intros al ga E A G HE. destruct (stare_core al ga E A G HE) as (lam & d0 & K & L0 & D0 & K0 & CORE). exists lam, d0, (2 * K). split; [exact L0|]. split; [exact D0|]. split; [lra|].
  intros w f b tgt F T y a d EA EG TM HW HS HZ SP DJ UB HA Hd U0 HO SM HV.
  assert (RQ : forall t, a < t -> derivq (fun u => v_att (y u)) t (scaleq 0.5 (product (v_att (y t)) (pure (v_rate (y t)))))). { intros t Ht. apply (stare_rot w f b tgt F T y t HS HZ SP DJ (proj2 (HO t Ht))). }
  assert (UQ : forall t, a < t -> unitq (v_att (y t))). { intros t Ht. apply (unit_kept y a (Rmax t 0 + 1)); [assert (M := Rmax_r t 0); lra|intros u Hu; apply RQ; lra|exact U0|assert (M := Rmax_l t 0); lra]. }
  assert (UD : forall t, a < t -> unit3 (seen tgt (y t))). { intros t Ht. apply seen_unit; [apply UQ, Ht|apply HO, Ht]. }
  assert (KEEP : forall t, a < t -> side w b tgt (y t) = wc_trig w). { intros t Ht. unfold side. apply trig_keep. destruct (hcos_facts b (seen tgt (y t)) UB (UD t Ht)) as ((H & _) & _). rewrite TM. lra. }
  set (ac := fun t => mk3 (Derive (fun u => x3 (v_rate (y u))) t) (Derive (fun u => y3 (v_rate (y u))) t) (Derive (fun u => z3 (v_rate (y u))) t)).
  assert (X := CORE d a b (fun t => seen tgt (y t)) (fun t => v_rate (y t)) (fun t => sandwich (v_att (y t)) (stare_rate_intl (v_pos (y t)) (v_vel (y t)) tgt)) (fun t => if Rlt_dec 0 (hcos b (seen tgt (y t))) then told b tgt (y t) else zero3) (fun t => push (wc_sat w) (T t)) ac Hd HA UB UD). cbv beta in X.
  assert (STEP : forall t, 0 <= t -> 0 < hcos b (seen tgt (y t)) /\ sv al b (seen tgt (y t)) (v_rate (y t)) <= 3 * sv al b (seen tgt (y 0)) (v_rate (y 0)) * exp (- lam * t) + K * (d * d)).
  { apply X; clear X.
    - intros t Ht. apply stare_sight; [apply RQ, Ht| |apply UQ, Ht|apply HO, Ht]. apply (stare_rot w f b tgt F T y t HS HZ SP DJ (proj2 (HO t Ht))).
    - intros t Ht. destruct (stare_rot w f b tgt F T y t HS HZ SP DJ (proj2 (HO t Ht))) as (_ & _ & ac' & DA & _). unfold ac. rewrite <- (deriv3_Derive _ t ac' DA). exact DA.
    - intros t Ht P. assert (At : a < t) by lra. destruct (stare_rot w f b tgt F T y t HS HZ SP DJ (proj2 (HO t At))) as (_ & _ & ac' & DA & H). unfold ac. rewrite <- (deriv3_Derive _ t ac' DA). destruct (H (UQ t At) UB (proj1 (HO t At)) P) as (_ & ->).
      rewrite KEEP, TM, EA, EG, Rmult_1_l by exact At. destruct (Rlt_dec 0 (hcos b (seen tgt (y t)))) as [_|C]; [reflexivity|contradiction].
    - intros t Ht. assert (At : a < t) by lra. destruct (SM t Ht) as (S1 & S2). split; [rewrite norm_sand, UQ, Rmult_1_l by exact At; exact S1|]. split; [|exact S2].
      destruct (Rlt_dec 0 (hcos b (seen tgt (y t)))) as [P|_]; [rewrite told_norm; [exact S1|apply UQ, At|exact UB|apply HO, At|exact P]|]. rewrite P_obs3.norm3_zero. apply Hd.
    - rewrite aim_seen in HV. exact HV. }
  intros t Ht. assert (At : a < t) by lra. destruct (STEP t Ht) as (P & B). split.
  - destruct (stare_rot w f b tgt F T y t HS HZ SP DJ (proj2 (HO t At))) as (_ & _ & ac' & _ & H). destruct (H (UQ t At) UB (proj1 (HO t At)) P) as ((acc & PS) & _). exists acc. rewrite PS, KEEP by exact At. destruct w. reflexivity.
  - rewrite !aim_seen. destruct (hcos_facts b (seen tgt (y t)) UB (UD t At)) as (R1 & Q1). destruct (hcos_facts b (seen tgt (y 0)) UB (UD 0 HA)) as (R0 & Q0). unfold sv in B. fold (rate2 (y t)) (rate2 (y 0)) in B.
    set (h := hcos b (seen tgt (y t))) in *. set (k := hcos b (seen tgt (y 0))) in *. replace (dot3 b (seen tgt (y t))) with (2 * (h * h) - 1) by lra. replace (dot3 b (seen tgt (y 0))) with (2 * (k * k) - 1) by lra.
    assert (EX := exp_pos (- lam * t)). set (ex' := exp (- lam * t)) in *. assert (N0 : 0 <= rate2 (y 0)) by apply dot3_nonneg.
    assert (Y1 : al * (1 - (2 * (h * h) - 1)) <= al * (4 * (1 - h))) by (apply Rmult_le_compat_l; nra). assert (Y2 : al * (2 * (1 - k)) <= al * (1 - (2 * (k * k) - 1))) by (apply Rmult_le_compat_l; nra).
    assert (Y3 : (2 * al * (1 - k) + rate2 (y 0) / 2) * ex' <= (al * (1 - (2 * (k * k) - 1)) + rate2 (y 0)) * ex') by (apply Rmult_le_compat_r; lra). lra.
Qed.
Print Assumptions C124_points.

(** the same controller whose trigger remembers -1, as another mode leaves it: satellite at rest, fixed target, boresight farther
    from it than the trigger's band; as long as the boresight is not exactly opposite, it is at every moment farther from the
    target than it was at the start, and the trigger does not move *)
Theorem C124_memory_refuted : forall w f b tgt F y a c, 0 < wc_alpha w -> 0 < wc_gamma w -> tr_mem (wc_trig w) = - 1 ->
  wc_sun w = Some f -> zone_free w -> spanning (s_rw (wc_sat w)) -> det3 (s_total_moment (wc_sat w)) <> 0 -> unit3 b -> a < 0 < c ->
  unitq (v_att (y 0)) -> v_rate (y 0) = zero3 -> aim b tgt (y 0) < 1 -> sqrt ((1 + aim b tgt (y 0)) / 2) < tr_hw (wc_trig w) ->
  (forall t, a < t < c -> v_pos (y t) <> tgt /\ sight_rate tgt (y t) = 0 /\ - 1 < aim b tgt (y t) /\ obeys_stare w b tgt F (fun _ => zero3) y t) ->
  forall t, 0 < t < c -> aim b tgt (y t) < aim b tgt (y 0) /\ exists acc, point_and_stare w (mkCS (y t) zero3) b tgt = Ok (w, acc).
Proof.
  intros w f b tgt F y a c A G TM HS HZ SP DJ UB AC U0 R0 A1 HW HO. set (al := wc_alpha w) in *. set (ga := wc_gamma w) in *.
  assert (RQ : forall t, a < t < c -> derivq (fun u => v_att (y u)) t (scaleq 0.5 (product (v_att (y t)) (pure (v_rate (y t)))))). { intros t Ht. apply (stare_rot w f b tgt F (fun _ => zero3) y t HS HZ SP DJ (proj2 (proj2 (proj2 (HO t Ht))))). }
  assert (UQ := unit_kept y a c AC RQ U0). assert (UD : forall t, a < t < c -> unit3 (seen tgt (y t))) by (intros t Ht; apply seen_unit; [apply UQ, Ht|apply HO, Ht]).
  set (h := fun t => hcos b (seen tgt (y t))). set (n := fun t => dot3 (v_rate (y t)) (v_rate (y t))). set (X := fun t => haxis b (seen tgt (y t))).
  assert (HP : forall t, a < t < c -> 0 < h t). { intros t Ht. destruct (HO t Ht) as (_ & _ & Q & _). rewrite aim_seen in Q. apply sqrt_lt_R0. lra. }
  assert (OM : forall t, a < t < c -> stare_rate_intl (v_pos (y t)) (v_vel (y t)) tgt = zero3). { intros t Ht. apply dot3_zero. destruct (HO t Ht) as (_ & Q & _). unfold sight_rate in Q. rewrite <- P_quat.norm3_sq, Q. ring. }
  assert (DS : forall t, a < t < c -> deriv3 (fun u => seen tgt (y u)) t (cross3 (seen tgt (y t)) (v_rate (y t)))).
  { intros t Ht. eapply d3_eq; [apply stare_sight; [apply RQ, Ht| |apply UQ, Ht|apply HO, Ht]|rewrite OM, sandwich_0, sub3_0_r by exact Ht; reflexivity]. apply (stare_rot w f b tgt F (fun _ => zero3) y t HS HZ SP DJ (proj2 (proj2 (proj2 (HO t Ht))))). }
  assert (DH : forall t, a < t < c -> derivable_pt_lim h t (dot3 (v_rate (y t)) (X t) / 2)) by (intros t Ht; exact (d_hcos b _ _ t (DS t Ht) UB (UD t Ht) (HP t Ht))).
  assert (KEEP : forall t, a < t < c -> h t < tr_hw (wc_trig w) -> side w b tgt (y t) = wc_trig w). { intros t Ht L. unfold side. apply trig_keep. rewrite TM. fold (h t). lra. }
  assert (DW : forall t, a < t < c -> exists ac, deriv3 (fun u => v_rate (y u)) t ac /\ (h t < tr_hw (wc_trig w) -> ac = sub3 (scale3 (- al) (X t)) (scale3 ga (v_rate (y t))) /\ exists acc, point_and_stare w (mkCS (y t) zero3) b tgt = Ok (w, acc))).
  { intros t Ht. destruct (stare_rot w f b tgt F (fun _ => zero3) y t HS HZ SP DJ (proj2 (proj2 (proj2 (HO t Ht))))) as (_ & _ & ac & DA & H). exists ac. split; [exact DA|]. intros L.
    destruct (H (UQ t Ht) UB (proj1 (HO t Ht)) (HP t Ht)) as ((acc & PS) & ->). rewrite KEEP, TM by assumption. rewrite KEEP in PS by assumption. split; [|exists acc; rewrite PS; destruct w; reflexivity].
    assert (TZ : told b tgt (y t) = zero3) by (unfold told; rewrite OM, !sandwich_0 by exact Ht; reflexivity). rewrite TZ. unfold push. rewrite mv_zero3. fold al ga (X t). generalize (X t) (v_rate (y t)). clear. intros [x1 x2 x3'] [w1 w2 w3]. unfold zero3. vunfoldg; cbn [x3 y3 z3]; rnumg. apply mk3_c; ring. }
  set (V := fun t => 2 * al * h t + n t / 2).
  assert (DV : forall t, a < t < c -> h t < tr_hw (wc_trig w) -> derivable_pt_lim V t (- ga * n t)).
  { intros t Ht L. destruct (DW t Ht) as (ac & DA & H). destruct (H L) as (EA & _). unfold V, n. eapply d_eq. { apply d_plus; [apply d_scal, DH, Ht|unfold Rdiv; apply d_mult; [apply d_dot3; exact DA|apply d_const]]. }
    cbv beta. rewrite EA. generalize (X t) (v_rate (y t)). clear. intros [x1 x2 x3'] [w1 w2 w3]. vunfoldg; cbn [x3 y3 z3]; rnumg. field. }
  assert (CV : forall t, a < t < c -> continuity_pt V t).
  { intros t Ht. destruct (DW t Ht) as (ac & DA & _). apply dcont. eexists. unfold V, n. apply d_plus; [apply d_scal, DH, Ht|unfold Rdiv; apply d_mult; [apply d_dot3; exact DA|apply d_const]]. }
  assert (N0 : forall t, 0 <= n t) by (intros t; apply dot3_nonneg). assert (NZ : n 0 = 0) by (unfold n; rewrite R0; unfold zero3; vunfoldg; cbn [x3 y3 z3]; rnumg; ring).
  assert (H0 : h 0 < tr_hw (wc_trig w)) by (rewrite aim_seen in HW; exact HW).
  assert (STAY : forall t, 0 <= t < c -> h t < tr_hw (wc_trig w)).
  { intros t Ht. destruct (Rlt_dec (h t) (tr_hw (wc_trig w))) as [|NX]; [assumption|]. exfalso. destruct (first_time h (tr_hw (wc_trig w)) t) as (t1 & H1 & H2 & H3).
    - intros u Hu. apply dcont. eexists. apply DH. lra.
    - lra.
    - exact H0.
    - lra.
    - assert (T1 : 0 < t1) by (destruct (Req_dec t1 0) as [Z|Z]; [rewrite Z in H2; lra|lra]).
      assert (LE : V t1 <= V 0). { apply (falls V (fun u => - ga * n u) t1 T1). { intros u Hu. apply DV; [lra|apply H3, Hu]. } { intros u Hu. apply CV. lra. } { intros u. assert (0 <= ga * n u) by (apply Rmult_le_pos; [lra|apply N0]). lra. } }
      unfold V in LE. assert (Q := N0 t1). assert (Y : al * h 0 < al * h t1) by (apply Rmult_lt_compat_l; lra). lra. }
  assert (MONO : forall u v, 0 <= u < v -> v < c -> V v <= V u). { intros u v Huv Hv. destruct (MVT_cor2 V (fun z => - ga * n z) u v) as (z & Q & _); [lra|intros z Hz; apply DV; [lra|apply STAY; lra]|]. assert (Z : 0 <= ga * n z * (v - u)) by (apply Rmult_le_pos; [apply Rmult_le_pos; [lra|apply N0]|lra]). lra. }
  intros t Ht. split; [|destruct (DW t ltac:(lra)) as (ac & _ & H); apply H, STAY; lra].
  assert (HL : h t < h 0).
  { destruct (Rlt_dec (h t) (h 0)) as [|NL]; [assumption|]. exfalso. assert (NT := N0 t).
    assert (VC : forall u, 0 < u < t -> V u = V 0). { intros u Hu. assert (M1 := MONO 0 u ltac:(lra) ltac:(lra)). assert (M2 := MONO u t ltac:(lra) ltac:(lra)). assert (Y : al * h 0 <= al * h t) by (apply Rmult_le_compat_l; lra). assert (V0 : V 0 = 2 * al * h 0) by (unfold V; rewrite NZ; field). assert (VT : 2 * al * h t <= V t) by (unfold V; lra). lra. }
    assert (NU : forall u, 0 < u < t -> n u = 0).
    { intros u Hu. assert (D1 := DV u ltac:(lra) (STAY u ltac:(lra))). assert (D2 : derivable_pt_lim V u 0). { apply (d_local (fun _ => V 0)); [|apply d_const]. assert (RM : 0 < Rmin u (t - u)) by (apply Rmin_pos; lra). exists (mkposreal _ RM). cbn [pos]. intros k Hk. symmetry. assert (M1 := Rmin_l u (t - u)). assert (M2 := Rmin_r u (t - u)). apply Rabs_def2 in Hk. apply VC. lra. }
      assert (Q := uniqueness_limite _ _ _ _ D1 D2). assert (Q1 : ga * n u = 0) by lra. apply Rmult_integral in Q1. destruct Q1; [lra|assumption]. }
    destruct (DW 0 AC) as (ac & DA & H). destruct (H H0) as (EA & _). assert (DG := d_dot3 _ _ 0 _ _ DA (d3_const (X 0) 0)). cbv beta in DG. set (l := (dot3 ac (X 0) + dot3 (v_rate (y 0)) zero3)%R) in *.
    assert (XP : 0 < dot3 (X 0) (X 0)). { destruct (haxis_sq b (seen tgt (y 0)) UB (UD 0 AC) (HP 0 AC)) as (HX & _). fold (X 0) in HX. rewrite HX. destruct (hcos_facts b (seen tgt (y 0)) UB (UD 0 AC)) as (_ & HQ). rewrite HQ. rewrite aim_seen in A1. lra. }
    assert (LN : l = - (al * dot3 (X 0) (X 0))). { unfold l. rewrite EA, R0. generalize (X 0). clear. intros [x1 x2 x3']. unfold zero3. vunfoldg; cbn [x3 y3 z3]; rnumg. ring. }
    assert (LP : 0 < al * dot3 (X 0) (X 0)) by (apply Rmult_lt_0_compat; assumption). destruct (DG (- l) ltac:(lra)) as (dl & HD). assert (DL := cond_pos dl). set (k := Rmin (dl / 2) (t / 2)). assert (K1 : k <= dl / 2) by apply Rmin_l. assert (K2 : k <= t / 2) by apply Rmin_r. assert (K0 : 0 < k) by (apply Rmin_pos; lra).
    assert (Q := HD k ltac:(lra) ltac:(rewrite Rabs_right by lra; lra)). assert (WZ : v_rate (y (0 + k)) = zero3) by (apply dot3_zero; apply (NU (0 + k)); lra). rewrite WZ, R0 in Q.
    replace ((dot3 zero3 (X 0) - dot3 zero3 (X 0)) / k) with 0 in Q by (unfold Rdiv; ring). rewrite Rminus_0_l, Rabs_right in Q by lra. lra. }
  rewrite !aim_seen. destruct (hcos_facts b (seen tgt (y t)) UB (UD t ltac:(lra))) as (_ & Q1). destruct (hcos_facts b (seen tgt (y 0)) UB (UD 0 AC)) as (_ & Q0). fold (h t) in Q1. fold (h 0) in Q0. assert (P1 := HP t ltac:(lra)). assert (Y : h t * h t < h 0 * h 0) by (apply Rmult_le_0_lt_compat; lra). lra.
Qed.
Print Assumptions C124_memory_refuted.

(** ** examples: turning about x in front of a target on the z axis *)
Definition axm (s : R) : WhlCtl := set_trig axis_ctl (mkTr s 0.3).
Lemma axm_seen th p : seen ez (axis_state th p) = mk3 0 (sin th) (cos th).
Proof.
  unfold seen. rewrite pv_scale. cbn [axis_state v_att v_pos]. replace (sub3 ez zero3) with (ez : v3) by (unfold ez, zero3; vunfoldg; cbn [x3 y3 z3]; rnumg; apply mk3_c; ring).
  replace (norm3 (ez : v3)) with 1 by (symmetry; unfold ez, norm3; vunfoldg; cbn [x3 y3 z3]; rnumg; replace (0 * 0 + 0 * 0 + 1 * 1) with 1 by ring; apply sqrt_1).
  replace (sin th) with (2 * sin (th / 2) * cos (th / 2)) by (rewrite <- sin_2a; f_equal; field). replace (cos th) with (cos (th / 2) * cos (th / 2) - sin (th / 2) * sin (th / 2)) by (rewrite <- cos_2a; f_equal; field).
  generalize (cos (th / 2)) (sin (th / 2)). intros u v. unfold ez, sandwich, conjugate, product, pure. vunfoldg; cbn [x3 y3 z3 qw qx qy qz]; rnumg. apply mk3_c; field.
Qed.
Lemma axm_hcos th p : 0 < cos (th / 2) -> hcos ez (seen ez (axis_state th p)) = cos (th / 2).
Proof.
  intros C. rewrite axm_seen. unfold hcos. replace (dot3 ez (mk3 0 (sin th) (cos th))) with (cos th) by (unfold ez; vunfoldg; cbn [x3 y3 z3]; rnumg; ring).
  replace ((1 + cos th) / 2) with (cos (th / 2) * cos (th / 2)); [apply sqrt_square; lra|]. replace th with (2 * (th / 2)) at 3 by field. rewrite cos_2a_cos. field.
Qed.
Lemma axm_unit th p : unitq (v_att (axis_state th p)).
Proof. unfold axis_state. cbn [v_att]. unfold unitq, dotq; cbn [qw qx qy qz]; rnumg. assert (H := sin2_cos2 (th / 2)). unfold Rsqr in H. lra. Qed.
Lemma ez_unit : unit3 (ez : v3). Proof. unfold unit3, ez. vunfoldg; cbn [x3 y3 z3]; rnumg; ring. Qed.
Lemma axm_away th p : v_pos (axis_state th p) <> ez.
Proof. cbn [axis_state v_pos]. unfold zero3, ez. intros E. apply mk3_inj in E. cbn [n0 n1 RNum] in E. destruct E as (_ & _ & E). lra. Qed.
Lemma axm_still th p : stare_rate_intl (v_pos (axis_state th p)) (v_vel (axis_state th p)) ez = zero3.
Proof. unfold stare_rate_intl. cbn [axis_state v_pos v_vel]. unfold zero3, ez, div3. vunfoldg; cbn [x3 y3 z3]; rnumg. apply mk3_c; field. Qed.
Lemma axm_error th p : 0 < cos (th / 2) -> error_quat (v_att (axis_state th p)) (stare_attitude (v_pos (axis_state th p)) (v_att (axis_state th p)) ez ez) = mkq (cos (th / 2)) (sin (th / 2)) 0 0.
Proof.
  intros C. assert (U := axm_unit th p). assert (H := axm_hcos th p C). rewrite stare_error by exact U. rewrite stare_acq; [|exact ez_unit|apply (seen_unit ez (axis_state th p)); [exact U|apply axm_away]|fold (seen ez (axis_state th p)); rewrite H; exact C].
  fold (seen ez (axis_state th p)). unfold haxis. rewrite H, axm_seen. replace (sin th) with (2 * sin (th / 2) * cos (th / 2)) by (rewrite <- sin_2a; f_equal; field). revert C. generalize (cos (th / 2)) (sin (th / 2)). intros u v C. unfold ez, conjugate. vunfoldg; cbn [x3 y3 z3 qw qx qy qz]; rnumg. apply mkq_c; field; lra.
Qed.
Lemma axm_tracking s th p : 0 < cos (th / 2) -> - 0.3 < cos (th / 2) * s ->
  tracking (axm s) (axis_state th p) (sandwich (v_att (axis_state th p)) (stare_rate_intl (v_pos (axis_state th p)) (v_vel (axis_state th p)) ez)) zero3 (stare_attitude (v_pos (axis_state th p)) (v_att (axis_state th p)) ez ez) =
  Ok (axm s, mk3 (- 4 * (s * (2 * 0.1 ^ 2) * sin (th / 2) + 2 * 0.707 * 0.1 * p)) 0 0).
Proof.
  intros C H. rewrite axm_still, sandwich_0. assert (T := tracking_free (axm s) (axis_state th p) zero3 zero3 (stare_attitude (v_pos (axis_state th p)) (v_att (axis_state th p)) ez ez) (fun _ => ex) eq_refl (or_intror eq_refl) ltac:(cbn; lia)). cbv zeta in T. rewrite axm_error in T by exact C. cbn [qw] in T.
  rewrite (trig_keep (cos (th / 2)) (wc_trig (axm s))) in T by (cbn [axm set_trig wc_trig tr_mem tr_hw]; lra). rewrite T. f_equal. f_equal.
  cbn [axm set_trig axis_ctl wc_sat wc_trig wc_alpha wc_gamma tr_mem]. rewrite free_ball_total, !sandwich_0, cross_0_r, sub3_0_r.
  unfold rw_momentum, w_momentum. cbn [free_ball s_rw rw_wheels zip_with axis_state v_whl v_rate sum3 fold_right w_par w_axis vec qx qy qz]. vunfoldg; cbn [x3 y3 z3 row1 row2 row3]; rnumg. apply mk3_c; ring.
Qed.
Lemma axm_obeys s (th p : R -> R) t : 0 < cos (th t / 2) -> - 0.3 < cos (th t / 2) * s -> derivable_pt_lim th t (p t) ->
  derivable_pt_lim p t (- s * (2 * 0.1 ^ 2) * sin (th t / 2) - 2 * 0.707 * 0.1 * p t) -> obeys_stare (axm s) ez ez (fun _ => zero3) (fun _ => zero3) (fun t => axis_state (th t) (p t)) t.
Proof.
  intros CP HC DT DP. exists (axm s). eexists. eexists. split; [apply axm_tracking; assumption|]. split; [left; reflexivity|].
  split. { unfold point_and_stare. cbn [cs_v]. rewrite axm_tracking by assumption. cbn [rbind]. change (whl_actuator_commands (axm s)) with (whl_actuator_commands axis_ctl). rewrite axis_accel. cbn [rbind]. reflexivity. }
  assert (H2 : derivable_pt_lim (fun u => th u / 2) t (p t / 2)) by (eapply d_eq; [unfold Rdiv; apply d_mult; [exact DT|apply d_const]|]; cbv beta; field).
  assert (DC : derivable_pt_lim (fun u => cos (th u / 2)) t (- sin (th t / 2) * (p t / 2))) by (apply (derivable_pt_lim_comp (fun u => th u / 2) cos); [exact H2|apply derivable_pt_lim_cos]).
  assert (DS : derivable_pt_lim (fun u => sin (th u / 2)) t (cos (th t / 2) * (p t / 2))) by (apply (derivable_pt_lim_comp (fun u => th u / 2) sin); [exact H2|apply derivable_pt_lim_sin]).
  unfold derivative. cbn [axm set_trig axis_ctl wc_sat axis_state v_pos v_vel v_att v_rate v_whl]. split; [|split; [|split; [|split]]]; unfold axis_state; cbn [v_pos v_vel v_att v_rate v_whl].
  - exact (d3_const zero3 t).
  - eapply d3_eq; [exact (d3_const zero3 t)|]. vunfoldg; cbn [x3 y3 z3]; rnumg. apply mk3_c; unfold Rdiv; ring.
  - unfold derivq, product, scaleq. cbn [qw qx qy qz x3 y3 z3]. vunfoldg; cbn [x3 y3 z3 qw qx qy qz]; rnumg. replace 0.5 with (1 / 2) by lra.
    split; [|split; [|split]]; (eapply d_eq; [first [exact DC|exact DS|exact (d_const 0 t)]|]); field.
  - eapply (d3_eq _ _ (mk3 (- s * (2 * 0.1 ^ 2) * sin (th t / 2) - 2 * 0.707 * 0.1 * p t) 0 0)); [split; [exact DP|split; exact (d_const 0 t)]|].
    change (s_inv_tot free_ball) with (inv3 (s_total_moment free_ball)). rewrite free_ball_total. unfold rw_torque, rw_momentum, w_momentum, w_torque.
    cbn [free_ball s_rw rw_wheels zip_with sum3 fold_right w_par w_axis]. generalize (2 * 0.1 ^ 2) (2 * 0.707 * 0.1). intros b1 b2. vunfoldg; cbn [x3 y3 z3 row1 row2 row3]; rnumg. apply mk3_c; field.
  - intros i. destruct i as [|[|[|i]]]; cbn [nth].
    + eapply d_eq; [apply d_scal; exact DP|]. ring.
    + exact (d_const 0 t).
    + exact (d_const 0 t).
    + destruct i; exact (d_const 0 t).
Qed.
Lemma sin_lip a c : Rabs (sin (a / 2) - sin (c / 2)) <= Rabs (a - c).
Proof.
  assert (Q : forall u v, u <= v -> Rabs (sin v - sin u) <= v - u).
  { intros u v H. destruct (Req_dec u v) as [->|N]; [rewrite Rminus_eq_0, Rabs_R0; lra|]. destruct (MVT_cor2 sin cos u v) as (z & E & _); [lra|intros; apply derivable_pt_lim_sin|].
    rewrite E, Rabs_mult, (Rabs_right (v - u)) by lra. assert (C := COS_bound z). assert (Rabs (cos z) <= 1) by (apply Rabs_le; lra). assert (0 <= v - u) by lra. nra. }
  destruct (Rle_dec c a) as [L|L].
  - assert (K := Q (c / 2) (a / 2) ltac:(lra)). rewrite (Rabs_right (a - c)) by lra. lra.
  - assert (K := Q (a / 2) (c / 2) ltac:(lra)). rewrite Rabs_minus_sym, (Rabs_left (a - c)) by lra. lra.
Qed.
Lemma swing s th0 : Rabs s <= 1 -> exists th p, th 0 = th0 /\ p 0 = 0 /\ (forall t, derivable_pt_lim th t (p t)) /\ (forall t, derivable_pt_lim p t (- s * (2 * 0.1 ^ 2) * sin (th t / 2) - 2 * 0.707 * 0.1 * p t)).
Proof.
  intros SB. set (ga := 2 * 0.707 * 0.1). assert (GA : 0 < ga < 1) by (unfold ga; lra). set (k := - s * (2 * 0.1 ^ 2)). assert (KB : Rabs k <= 1). { unfold k. rewrite Rabs_mult, Rabs_Ropp, (Rabs_right (2 * 0.1 ^ 2)) by lra. assert (X := Rabs_pos s). lra. }
  destruct (picard (fun _ p => p) (fun th p => k * sin (th / 2) - ga * p) 4 th0 0) as (th & p & T0 & P0 & DT & DP); [lra| | |exists th, p; repeat split; assumption].
  - intros a b c d. assert (X := Rabs_pos (a - c)). assert (Y := Rabs_pos (b - d)). lra.
  - intros a b c d. replace (k * sin (a / 2) - ga * b - (k * sin (c / 2) - ga * d)) with (k * (sin (a / 2) - sin (c / 2)) + - (ga * (b - d))) by ring.
    eapply Rle_trans; [apply Rabs_triang|]. rewrite !Rabs_Ropp, !Rabs_mult, (Rabs_right ga) by lra. assert (Z := sin_lip a c). assert (X := Rabs_pos (sin (a / 2) - sin (c / 2))). assert (Y := Rabs_pos (b - d)).
    assert (Rabs k * Rabs (sin (a / 2) - sin (c / 2)) <= 1 * Rabs (a - c)) by (apply Rmult_le_compat; try lra; apply Rabs_pos). assert (ga * Rabs (b - d) <= 1 * Rabs (b - d)) by (apply Rmult_le_compat_r; lra). assert (W := Rabs_pos (a - c)). lra.
Qed.
Lemma axm_aim th p : aim ez ez (axis_state th p) = cos th.
Proof. rewrite aim_seen, axm_seen. unfold ez. vunfoldg; cbn [x3 y3 z3]; rnumg. ring. Qed.

Example C124_ex : forall d0, 0 < d0 -> exists w y a, whl_new free_ball [] (Some (fun _ => ex)) 0.707 0.1 = Ok w /\ tr_mem (wc_trig w) = 1 /\ spanning (s_rw (wc_sat w)) /\ det3 (s_total_moment (wc_sat w)) <> 0 /\
  unitq (v_att (y 0)) /\ aim ez ez (y 0) = cos 2 /\ a < 0 /\ 0 <= wc_alpha w < 2 * wc_alpha w /\ 2 * wc_alpha w * (1 - sqrt ((1 + aim ez ez (y 0)) / 2)) + rate2 (y 0) / 2 <= wc_alpha w /\
  (forall t, a < t -> v_pos (y t) <> ez /\ obeys_stare w ez ez (fun _ => zero3) (fun _ => zero3) y t) /\
  (forall t, 0 <= t -> sight_rate ez (y t) <= d0 /\ norm3 (push (wc_sat w) zero3) <= d0).
Proof.
  intros d0 D0. destruct (swing 1 2) as (th & p & T0 & P0 & DT & DP); [rewrite Rabs_R1; lra|]. set (al := 2 * 0.1 ^ 2) in *. set (ga := 2 * 0.707 * 0.1) in *. assert (AL : 0 < al) by (unfold al; lra). assert (GA : 0 < ga) by (unfold ga; lra).
  assert (C1 : 1 / 2 < cos 1). { rewrite <- cos_PI3. apply cos_decreasing_1; assert (P1 := PI2_3_2); assert (P2 := PI_4); lra. }
  assert (H2 : forall t, derivable_pt_lim (fun u => th u / 2) t (p t / 2)) by (intros t; eapply d_eq; [unfold Rdiv; apply d_mult; [apply DT|apply d_const]|]; cbv beta; field).
  assert (DC : forall t, derivable_pt_lim (fun u => cos (th u / 2)) t (- sin (th t / 2) * (p t / 2))) by (intros t; apply (derivable_pt_lim_comp (fun u => th u / 2) cos); [apply H2|apply derivable_pt_lim_cos]).
  assert (FWD : forall t, 0 <= t -> 1 / 2 < cos (th t / 2)).
  { intros t Ht. destruct (Req_dec t 0) as [->|N]; [rewrite T0; replace (2 / 2) with 1 by lra; exact C1|].
    assert (D : forall u, derivable_pt_lim (fun u => 2 * al * (1 - cos (th u / 2)) + p u * p u / 2) u (- ga * (p u * p u))).
    { intros u. eapply d_eq. { apply d_plus; [apply d_mult; [apply d_const|apply d_minus; [apply d_const|apply DC]]|unfold Rdiv; apply d_mult; [apply d_mult; apply DP|apply d_const]]. } cbv beta. field. }
    assert (K : 2 * al * (1 - cos (th t / 2)) + p t * p t / 2 <= 2 * al * (1 - cos (th 0 / 2)) + p 0 * p 0 / 2).
    { apply (falls (fun u => 2 * al * (1 - cos (th u / 2)) + p u * p u / 2) (fun u => - ga * (p u * p u)) t); [lra|intros; apply D|intros u _; apply derivable_continuous_pt; eexists; apply D|intros u; nra]. }
    rewrite P0, T0 in K. replace (2 / 2) with 1 in K by lra. nra. }
  assert (NEAR : exists a, a < 0 /\ forall t, a < t -> 0 < cos (th t / 2)).
  { assert (CT : continuity_pt (fun u => cos (th u / 2)) 0) by (apply derivable_continuous_pt; eexists; apply DC).
    destruct (CT (1 / 2) ltac:(lra)) as (d & Hd & HD). cbn [dist R_met] in HD. unfold R_dist in HD. exists (- d). split; [lra|]. intros t Ht.
    destruct (Rle_dec 0 t) as [L|L]; [assert (K := FWD t L); lra|]. assert (K := HD t). rewrite T0 in K. replace (2 / 2) with 1 in K by lra.
    assert (Q : Rabs (cos (th t / 2) - cos 1) < 1 / 2). { apply K. split; [split; [exact I|lra]|]. rewrite Rminus_0_r, Rabs_left; lra. } apply Rabs_def2 in Q. lra. }
  destruct NEAR as (a & HA & HN). exists axis_ctl, (fun t => axis_state (th t) (p t)), a. cbv beta. change (wc_alpha axis_ctl) with al.
  split. { unfold whl_new, axis_ctl. cbn [forallb map]. f_equal. f_equal. rewrite trig_new_eq. destruct (Rlt_dec 1 0); [lra|reflexivity]. }
  split; [reflexivity|]. split; [exact free_ball_spanning|]. split; [exact ball_det|]. split; [apply axm_unit|]. rewrite axm_aim, T0. split; [reflexivity|]. split; [exact HA|]. split; [lra|].
  split. { assert (HH := axm_hcos 2 (p 0) ltac:(replace (2 / 2) with 1 by lra; lra)). unfold hcos in HH. rewrite <- aim_seen, axm_aim in HH. replace (2 / 2) with 1 in HH by lra. rewrite HH. unfold rate2, axis_state. cbn [v_rate]. rewrite P0. replace (dot3 (mk3 0 0 0) (mk3 0 0 0)) with 0 by (vunfoldg; cbn [x3 y3 z3]; rnumg; ring). nra. }
  split.
  - intros t Ht. split; [apply axm_away|]. change axis_ctl with (axm 1). apply axm_obeys; [apply HN, Ht|assert (Q := HN t Ht); lra|apply DT|apply DP].
  - intros t Ht. split; [unfold sight_rate; rewrite axm_still, P_obs3.norm3_zero; lra|]. unfold push. rewrite mv_zero3, P_obs3.norm3_zero. lra.
Qed.
Example C124_memory_ex : exists y a c, trig_step (- 1) (wc_trig axis_ctl) = wc_trig (axm (- 1)) /\ a < 0 < c /\ v_rate (y 0) = zero3 /\ aim ez ez (y 0) < 1 /\ sqrt ((1 + aim ez ez (y 0)) / 2) < tr_hw (wc_trig (axm (- 1))) /\ unitq (v_att (y 0)) /\
  forall t, a < t < c -> v_pos (y t) <> ez /\ sight_rate ez (y t) = 0 /\ - 1 < aim ez ez (y t) /\ obeys_stare (axm (- 1)) ez ez (fun _ => zero3) (fun _ => zero3) y t.
Proof.
  destruct (swing (- 1) (PI - 0.2)) as (th & p & T0 & P0 & DT & DP); [apply Rabs_le; lra|]. assert (PP := PI2_3_2). assert (P4 := PI_4).
  assert (C0 : cos (th 0 / 2) = sin 0.1) by (rewrite T0; replace ((PI - 0.2) / 2) with (PI / 2 - 0.1) by lra; apply cos_shift). assert (S0 : 0 < sin 0.1) by (apply sin_gt_0; lra). assert (S1 : sin 0.1 < 0.1) by (apply sin_lt_x; lra).
  assert (CT : continuity_pt (fun u => cos (th u / 2)) 0). { apply derivable_continuous_pt. eexists. apply (derivable_pt_lim_comp (fun u => th u / 2) cos); [unfold Rdiv; apply d_mult; [apply DT|apply d_const]|apply derivable_pt_lim_cos]. }
  destruct (CT (sin 0.1) S0) as (d & Hd & HD). cbn [dist R_met] in HD. unfold R_dist in HD. rewrite C0 in HD.
  assert (NEAR : forall t, - d < t < d -> 0 < cos (th t / 2) < 0.3). { intros t Ht. destruct (Req_dec t 0) as [->|N]; [rewrite C0; lra|]. assert (Q : Rabs (cos (th t / 2) - sin 0.1) < sin 0.1) by (apply HD; split; [split; [exact I|intros E; apply N; symmetry; exact E]|rewrite Rminus_0_r; apply Rabs_def1; lra]). apply Rabs_def2 in Q. lra. }
  exists (fun t => axis_state (th t) (p t)), (- d), d. cbv beta.
  split. { unfold trig_step, axis_ctl. cbn [wc_trig tr_mem tr_hw nmul nleb nopp RNum axm set_trig]. match goal with |- context [Rleb ?u ?v] => destruct (Rleb_spec u v) as [L|L]; [|exfalso; lra] end. unfold nsign. cbn [nltb neqb n0 n1 nopp RNum]. destruct (Rltb_spec 0 (- 1)); [lra|]. destruct (Rltb_spec (- 1) 0); [|lra]. match goal with |- context [Reqb ?u ?v] => destruct (Reqb_spec u v) as [M|M]; [exfalso; lra|] end. reflexivity. }
  split; [lra|]. split; [unfold axis_state; cbn [v_rate]; rewrite P0; reflexivity|]. rewrite axm_aim.
  split. { rewrite T0. rewrite <- cos_0. apply cos_decreasing_1; lra. }
  split. { assert (HH := axm_hcos (th 0) (p 0) ltac:(lra)). unfold hcos in HH. rewrite <- aim_seen, axm_aim in HH. rewrite HH, C0. cbn [axm set_trig wc_trig tr_hw]. lra. }
  split; [apply axm_unit|]. intros t Ht. destruct (NEAR t Ht) as (N1 & N2). split; [apply axm_away|]. split; [unfold sight_rate; rewrite axm_still; apply P_obs3.norm3_zero|].
  split; [rewrite axm_aim; replace (th t) with (2 * (th t / 2)) by field; rewrite cos_2a_cos; assert (0 < cos (th t / 2) * cos (th t / 2)) by (apply Rmult_lt_0_compat; assumption); lra|].
  apply axm_obeys; [exact N1|lra|apply DT|apply DP].
Qed.
