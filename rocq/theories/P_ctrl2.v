(** * Lemmas about the controllers: magnetic torque, tracking, the allowable zone *)
From Coq Require Import Reals ZArith List Bool Lra Psatz.
From Verif Require Import Num Vec M_vector M_quaternion M_struct M_dyn S_dyn P_quat P_sat P_struct P_wheel P_dyn P_dyn2 P_obs M_ctrl S_ctrl P_ctrl.
Import ListNotations.
Local Open Scope R_scope.

(** ** magnetic torque *)
Lemma mag_torque (B T : v3) : B <> zero3 -> cross3 (mag_moment_cmd B T) B = sub3 T (scale3 (dot3 T B / dot3 B B) B).
Proof.
  intros N. assert (P : dot3 B B <> 0) by (intros E; apply N, dot3_zero, E).
  unfold mag_moment_cmd. destruct B as [a b c], T as [x y z]. revert P. vunfoldg; cbn [x3 y3 z3]; rnumg. intros P. apply mk3_c; field; exact P.
Qed.
Lemma K_pos : 0 < K_BBQ.
Proof. unfold K_BBQ. assert (0 < PI) by apply PI_RGT_0. nra. Qed.
(** squared length of the part of h across B *)
Definition across (h B : v3) : R := dot3 (cross3 h B) (cross3 h B) / dot3 B B.
Lemma across_nonneg h B : B <> zero3 -> 0 <= across h B /\ (across h B = 0 <-> cross3 h B = zero3).
Proof.
  intros N. assert (P : 0 < dot3 B B). { destruct (dot3_nonneg B) as [L|E]; [exact L|]. exfalso. apply N, dot3_zero. lra. }
  assert (I : 0 < / dot3 B B) by (apply Rinv_0_lt_compat; exact P). assert (Q := dot3_nonneg (cross3 h B)). unfold across, Rdiv.
  split; [nra|]. split; intros H.
  - apply dot3_zero. assert (dot3 (cross3 h B) (cross3 h B) * / dot3 B B = 0) by exact H. nra.
  - rewrite H. replace (dot3 (zero3 (T:=R)) zero3) with 0 by (vunfoldg; cbn [x3 y3 z3]; rnumg; ring). ring.
Qed.
Lemma mag_power k (h B : v3) : B <> zero3 -> dot3 h (cross3 (mag_moment_cmd B (scale3 (- k) h)) B) = - k * across h B.
Proof.
  intros N. rewrite mag_torque by exact N. assert (P : dot3 B B <> 0) by (intros E; apply N, dot3_zero, E).
  unfold across. destruct B as [a b c], h as [x y z]. revert P. vunfoldg; cbn [x3 y3 z3]; rnumg. intros P. field; exact P.
Qed.
Lemma mag_moment_scale k (B h : v3) : mag_moment_cmd B (scale3 k h) = scale3 k (mag_moment_cmd B h).
Proof. unfold mag_moment_cmd, div3. destruct B as [a b c], h as [x y z]. vunfoldg; cbn [x3 y3 z3]; rnumg. apply mk3_c; unfold Rdiv; ring. Qed.

(** three linear torquers along the body axes *)
Definition lin3 (a b c : R) : list (Torquer R) := [mkT LinearRod (mk3 1 0 0) a; mkT LinearRod (mk3 0 1 0) b; mkT LinearRod (mk3 0 0 1) c].
Lemma lin3_max a b c : 0 < a -> 0 < b -> 0 < c -> Forall (fun t => 0 < max_m t) (lin3 a b c).
Proof.
  intros A B C. assert (U : forall ax m, unit3 ax -> 0 < m -> 0 < max_m (mkT LinearRod ax m)).
  { intros ax m Ha Hm. rewrite max_m_R by exact Ha. cbn [t_type t_maxA mt_moment]. rnumg. rewrite Rabs_pos_eq; lra. }
  unfold lin3. repeat constructor; apply U; try assumption; unfold unit3, dot3; cbn [x3 y3 z3]; rnumg; ring.
Qed.
Lemma lin3_reversed a b c (m : v3) : 0 < a -> 0 < b -> 0 < c -> x3 m < 0 \/ y3 m < 0 \/ z3 m < 0 ->
  exists cur s, distribute (lin3 a b c) [x3 m; y3 m; z3 m] = Ok cur /\ s < 0 /\ sys_actuate (lin3 a b c) cur = Ok (scale3 s m).
Proof.
  intros A B C N.
  assert (EX : Exists (fun x => x < 0) [x3 m; y3 m; z3 m]).
  { destruct N as [N|[N|N]]; [constructor 1|constructor 2; constructor 1|constructor 2; constructor 2; constructor 1]; exact N. }
  destruct (distribute_negative (lin3 a b c) [x3 m; y3 m; z3 m] ltac:(discriminate) eq_refl (lin3_max a b c A B C) EX) as (s & Hs & E & _ & _).
  rewrite currents_ok in E by reflexivity.
  exists (zip_with (fun (t : Torquer R) x => getCurrent (t_type t) x) (lin3 a b c) (scaled s [x3 m; y3 m; z3 m])), (187 / 100 * (5347593 / 10000000) * s).
  split; [exact E|]. split; [lra|].
  unfold lin3, scaled. cbn [zip_with map t_type getCurrent sys_actuate rbind t_axis mt_actuate]. f_equal. destruct m as [x y z].
  vunfoldg; cbn [x3 y3 z3]; rnumg. replace 1.87 with (187/100) by lra. replace 0.5347593 with (5347593 / 10000000) by lra. apply mk3_c; field.
Qed.

(** ** wheels: unsaturated commands *)
Definition unsaturated (s : RWS) (u : v3) : Prop := rw_limited s = false \/ Forall (fun x => Rabs x <= rw_maxT s) (rw_distribute s u).
Definition spanning (s : RWS) : Prop := det3 (rw_gram s) <> 0 /\ Forall (fun w => w_par w <> 0) (rw_wheels s).
Lemma unsat_torque s u : spanning s -> unsaturated s u -> exists a, rw_accelerations s u = Ok a /\ length a = length (rw_wheels s) /\ rw_torque s a = u.
Proof.
  intros [HD HP] U. exists (zip_with w_acceleration (rw_wheels s) (rw_distribute s u)).
  assert (L : length (rw_distribute s u) = length (rw_wheels s)) by (unfold rw_distribute; apply map_length).
  split; [|split; [apply zip_with_length; symmetry; exact L|rewrite torque_of_accel by assumption; apply distribute_exact, HD]].
  unfold rw_accelerations. destruct (rw_limited s) eqn:LM; [|reflexivity]. destruct U as [U|U]; [congruence|].
  assert (NE : rw_distribute s u <> []).
  { intros E. rewrite E in L. destruct (rw_wheels s) eqn:W; [|discriminate]. apply HD. unfold rw_gram. rewrite W. cbn [map summ fold_right]. vunfold; rnum. ring. }
  destruct (greatest_exists (map Rabs (rw_distribute s u))) as [m G]. { intros E. apply NE. destruct (rw_distribute s u); [reflexivity|discriminate]. }
  rewrite (saturation_eq _ _ m G). destruct (Rltb_spec (rw_maxT s) m) as [K|K]; [|reflexivity]. exfalso.
  destruct G as [G _]. apply in_map_iff in G. destruct G as (x & <- & I). rewrite Forall_forall in U. specialize (U x I). lra.
Qed.

(** ** tracking *)
Definition zone_free (w : WhlCtl) : Prop := wc_avoid w = false \/ wc_instr w = [].
Lemma tracking_free w v rc rcd qc f : wc_sun w = Some f -> zone_free w -> (length (rw_wheels (s_rw (wc_sat w))) <= length (v_whl v))%nat ->
  let J := s_total_moment (wc_sat w) in let e := error_quat (v_att v) qc in
  let s := tr_mem (trig_step (qw e) (wc_trig w)) in let wcB := sandwich e rc in
  tracking w v rc rcd qc = Ok (set_trig w (trig_step (qw e) (wc_trig w)),
    add3 (cross3 (v_rate v) (add3 (mv J (v_rate v)) (rw_momentum (s_rw (wc_sat w)) (v_whl v))))
         (mv J (sub3 (sub3 (scale3 (- s * wc_alpha w) (vec e)) (scale3 (wc_gamma w) (sub3 (v_rate v) wcB)))
                     (add3 (cross3 (v_rate v) wcB) (sandwich e rcd))))).
Proof.
  intros HS HZ HL J e s wcB. unfold tracking, objects. rewrite HS. cbn [rbind].
  unfold rw_momentum_r. replace (Nat.ltb (length (v_whl v)) (length (rw_wheels (s_rw (wc_sat w))))) with false by (symmetry; apply PeanoNat.Nat.ltb_ge; exact HL).
  cbn [rbind]. fold e. fold J. fold wcB.
  assert (Z : (if wc_avoid w then rbind (allowable_zone w e (sub3 (v_rate v) wcB) [sandwich (v_att v) (f (v_pos v)); opp3 (normalize3 (v_pos v))]) (fun '(tr, z) => Ok (tr, mv J z))
    else let '(tr, s0) := trig_sign (qw e) (wc_trig w) in Ok (tr, scale3 (- s0 * wc_alpha w) (mv J (vec e)))) =
    Ok (trig_step (qw e) (wc_trig w), mv J (scale3 (- s * wc_alpha w) (vec e)))).
  { destruct HZ as [HZ|HZ]; [rewrite HZ; cbn [trig_sign]; rewrite mv_scale3; reflexivity|].
    destruct (wc_avoid w); [|cbn [trig_sign]; rewrite mv_scale3; reflexivity].
    unfold allowable_zone, trig_sign. rewrite HZ. cbn [zone_loop rbind zone_result]. f_equal. f_equal. f_equal. fold s.
    replace (scale3 (0.5 * (1 - s * qw e)) (zero3 (T:=R))) with (zero3 (T:=R)) by vring. rewrite !add3_0_r. reflexivity. }
  rewrite Z. cbn [rbind]. f_equal. f_equal. rewrite !mv_sub3, !mv_scale3, !mv_sub3.
  generalize (cross3 (v_rate v) (add3 (mv J (v_rate v)) (rw_momentum (s_rw (wc_sat w)) (v_whl v)))) (mv J (vec e)) (mv J (v_rate v)) (mv J wcB) (mv J (add3 (cross3 (v_rate v) wcB) (sandwich e rcd))) (- s * wc_alpha w) (wc_gamma w).
  intros. vring.
Qed.
Lemma closed_loop w v rc rcd qc f : wc_sun w = Some f -> zone_free w -> (length (rw_wheels (s_rw (wc_sat w))) <= length (v_whl v))%nat ->
  spanning (s_rw (wc_sat w)) -> det3 (s_total_moment (wc_sat w)) <> 0 ->
  let e := error_quat (v_att v) qc in
  let s := tr_mem (trig_step (qw e) (wc_trig w)) in let wcB := sandwich e rc in
  exists u, tracking w v rc rcd qc = Ok (set_trig w (trig_step (qw e) (wc_trig w)), u) /\
  (unsaturated (s_rw (wc_sat w)) (opp3 u) ->
   exists a, whl_actuator_commands (set_trig w (trig_step (qw e) (wc_trig w))) u = Ok a /\ rw_torque (s_rw (wc_sat w)) a = opp3 u /\
   forall F T, v_rate (derivative (wc_sat w) v F T (rw_torque (s_rw (wc_sat w)) a) (rw_momentum (s_rw (wc_sat w)) (v_whl v)) a) =
     add3 (mv (s_inv_tot (wc_sat w)) T)
          (sub3 (sub3 (scale3 (- s * wc_alpha w) (vec e)) (scale3 (wc_gamma w) (sub3 (v_rate v) wcB))) (add3 (cross3 (v_rate v) wcB) (sandwich e rcd)))).
Proof.
  intros HS HZ HL SP DJ e s wcB. eexists. split; [exact (tracking_free w v rc rcd qc f HS HZ HL)|]. intros U.
  destruct (unsat_torque _ _ SP U) as (a & EA & _ & TA). exists a. split; [exact EA|]. split; [exact TA|]. intros F T. rewrite TA. cbn [derivative v_rate].
  fold e. fold s. fold wcB. set (z := sub3 (sub3 (scale3 (- s * wc_alpha w) (vec e)) (scale3 (wc_gamma w) (sub3 (v_rate v) wcB))) (add3 (cross3 (v_rate v) wcB) (sandwich e rcd))). set (J := s_total_moment (wc_sat w)) in *. set (h := rw_momentum (s_rw (wc_sat w)) (v_whl v)).
  rewrite <- (inv3_mv J z DJ) at 2. change (s_inv_tot (wc_sat w)) with (inv3 J). rewrite <- mv_add3. f_equal.
  generalize (mv J z) (mv J (v_rate v)) (v_rate v) h. vring.
Qed.
Lemma d3_sandwich q h t h' w : derivq q t (scaleq 0.5 (product (q t) (pure w))) -> deriv3 h t h' ->
  deriv3 (fun u => sandwich (q u) (h u)) t (add3 (sandwich (q t) h') (cross3 (sandwich (q t) (h t)) w)).
Proof.
  intros Q H. unfold sandwich.
  eapply d3_eq. { apply d3_vec. apply dq_product; [apply dq_conj, Q|]. apply dq_product; [apply dq_pure, H|apply Q]. }
  cbv beta. replace 0.5 with (1 / 2) by lra. generalize (q t) (h t). clear. intros [a b c d] [x y z]. destruct h' as [x' y' z'], w as [p r s]. unfold conjugate, product, pure. vunfold; rnum. apply mk3_c; field.
Qed.
Lemma dq_eq f t a b : derivq f t a -> a = b -> derivq f t b. Proof. intros H <-. exact H. Qed.
Lemma dq_error q qc t w wc : derivq q t (scaleq 0.5 (product (q t) (pure w))) -> derivq qc t (scaleq 0.5 (product (qc t) (pure wc))) ->
  unitq (q t) -> unitq (qc t) ->
  let e := fun u => error_quat (q u) (qc u) in
  derivq e t (scaleq 0.5 (product (e t) (pure (sub3 w (sandwich (e t) wc))))).
Proof.
  intros Q QC U UC e. eapply dq_eq. { unfold e, error_quat. apply dq_product; [apply dq_conj, QC|exact Q]. }
  assert (UE : unitq (e t)) by (apply error_quat_unit; assumption).
  assert (P : product (e t) (pure (sandwich (e t) wc)) = product (pure wc) (e t)).
  { transitivity (scaleq (dotq (e t) (e t)) (product (pure wc) (e t))); [|rewrite UE; apply scaleq_1]. generalize (e t). clear. intros [a b c d]. destruct wc as [x y z].
    unfold pure, sandwich. qring. }
  transitivity (scaleq 0.5 (subq (product (e t) (pure w)) (product (e t) (pure (sandwich (e t) wc))))).
  2:{ generalize (e t) (sandwich (e t) wc). clear. intros [a b c d] [x y z]. destruct w as [p r s]. unfold pure. replace 0.5 with (1/2) by lra. qring. }
  rewrite P. unfold e, error_quat. generalize (q t) (qc t). clear. intros [a b c d] [a' b' c' d']. destruct w as [p r s], wc as [x y z].
  unfold pure, conjugate, product. replace 0.5 with (1/2) by lra. vunfold; rnum. apply mkq_c; field.
Qed.
