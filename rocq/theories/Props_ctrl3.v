(** * Properties C55, C56 and C73-C76: the controllers, third part *)
From Coq Require Import Reals ZArith List Bool Lra Lia Psatz.
From Verif Require Import Num Vec M_vector M_quaternion M_jday M_frame M_struct M_dyn M_ctrl S_rot S_dyn S_ctrl.
From Verif Require Import P_quat P_struct P_wheel P_dyn P_dyn2 P_obs P_ctrl P_ctrl2 P_ctrl3 P_ctrl4 P_ctrl5 Props_ctrl2.
Import ListNotations.
Local Open Scope R_scope.

(** ** C55: the allowable zone *)
(** no watched object inside its alert zone: plain attitude feedback *)
Theorem C55_quiet : forall w dq dw objs, Forall (wf_instr (length objs)) (wc_instr w) -> quiet (wc_instr w) objs ->
  exists tr, allowable_zone w dq dw objs = Ok (tr, scale3 (- tr_mem tr * wc_alpha w) (vec dq)).
Proof.
  intros w dq dw objs W Q. eexists. rewrite zone_eq by exact W. rewrite (alerts_quiet _ _ Q). unfold barrier, barrier_axis. cbn [map rsum vsum fold_right].
  f_equal. f_equal. generalize (tr_mem (trig_step (qw dq) (wc_trig w))) (vec dq). intros s v.
  replace (wc_alpha w - 0) with (wc_alpha w) by ring. generalize (- s * wc_alpha w) (/ 2 * (1 - s * qw dq)). revert v. vring.
Qed.
Print Assumptions C55_quiet.
(** the alerts are the watched objects inside their zone, and the law is attraction, half the repulsion and the pushes *)
Theorem C55_law : forall w dq dw objs, Forall (wf_instr (length objs)) (wc_instr w) ->
  exists A tr, (forall a, In a A <-> exists k j o fb bd g, In k (wc_instr w) /\ nth_error objs j = Some o /\ nth_error (i_forbidden (ci k)) j = Some fb /\
      nth_error (i_bounds (ci k)) j = Some bd /\ nth_error (ci_gains k) j = Some g /\ In (Z.of_nat j) (i_ids (ci k)) /\
      a = mkAl g (if fb then -1 else 1) (i_boresight (ci k)) (cos (bd * (PI / 180))) (threshold (ci_stop k) bd fb) o /\
      margin (if fb then -1 else 1) (i_boresight (ci k)) (cos (bd * (PI / 180))) o < threshold (ci_stop k) bd fb) /\
  allowable_zone w dq dw objs = Ok (tr, add3 (add3 (scale3 (- tr_mem tr * (wc_alpha w - barrier A)) (vec dq)) (scale3 (/ 2 * (1 - tr_mem tr * qw dq)) (barrier_axis A)))
                                             (vsum (map (push (tr_mem tr) dq dw) A))).
Proof.
  intros w dq dw objs W. exists (alerts (wc_instr w) objs). eexists. split; [|apply zone_eq, W]. intros a. unfold alerts. rewrite in_flat_map. split.
  - intros (k & K & I). apply (alerts_from_iff k objs 0 a) in I. destruct I as (i & o & fb & bd & g & I). exists k, i, o, fb, bd, g. split; [exact K|exact I].
  - intros (k & i & o & fb & bd & g & K & I). exists k. split; [exact K|]. apply (alerts_from_iff k objs 0 a). exists i, o, fb, bd, g. exact I.
Qed.
Print Assumptions C55_law.
(** fixed target, sun direction fixed in inertial space, instruments that watch the sun only, every alert between a quarter of its
    threshold and the threshold: the potential's derivative keeps half of the repulsive power *)
Theorem C55_potential : forall w sunv (y : R -> SVec) qc t F w' u a, wc_sun w = Some (fun _ => sunv) -> wc_avoid w = true -> Forall (wf_instr 2) (wc_instr w) ->
  sun_only (wc_instr w) -> (length (rw_wheels (s_rw (wc_sat w))) <= length (v_whl (y t)))%nat ->
  spanning (s_rw (wc_sat w)) -> det3 (s_total_moment (wc_sat w)) <> 0 -> unitq (v_att (y t)) -> unitq qc ->
  let A := alerts (wc_instr w) [sandwich (v_att (y t)) sunv; opp3 (normalize3 (v_pos (y t)))] in
  Forall (fun a => 0 < margin (al_sign a) (al_bore a) (al_cos a) (al_obj a) /\ al_sigma a / 4 <= margin (al_sign a) (al_bore a) (al_cos a) (al_obj a)) A ->
  tracking w (y t) zero3 zero3 qc = Ok (w', u) -> unsaturated (s_rw (wc_sat w)) (opp3 u) -> whl_actuator_commands w' u = Ok a ->
  deriv_sv y t (derivative (wc_sat w) (y t) F zero3 (rw_torque (s_rw (wc_sat w)) a) (rw_momentum (s_rw (wc_sat w)) (v_whl (y t))) a) ->
  let s := tr_mem (wc_trig w') in let e := fun x => error_quat (v_att (y x)) qc in
  derivable_pt_lim (fun x => 2 * (1 - s * qw (e x)) * (wc_alpha w - barrier (map (moved (v_att (y x)) sunv) A)) + dot3 (v_rate (y x)) (v_rate (y x)) / 2) t
    (- wc_gamma w * dot3 (v_rate (y t)) (v_rate (y t)) - / 2 * (1 - s * qw (e t)) * dot3 (v_rate (y t)) (barrier_axis A)).
Proof.
  intros w sunv y qc t F w' u a HS HA HW SO HL SP DJ UQ UC A M TR US WA D s e.
  assert (TZ := tracking_zone w (y t) zero3 zero3 qc (fun _ => sunv) HS HA HW HL). cbv beta zeta in TZ. fold A in TZ. change (error_quat (v_att (y t)) qc) with (e t) in TZ.
  rewrite sandwich_0, sub3_0_r, cross_0_r, add3_0_l, sub3_0_r in TZ.
  assert (EW : set_trig w (trig_step (qw (e t)) (wc_trig w)) = w') by congruence. assert (ES : s = tr_mem (trig_step (qw (e t)) (wc_trig w))) by (unfold s; rewrite <- EW; reflexivity).
  rewrite <- ES in TZ.
  rewrite (vsum_zero A) in TZ.
  2:{ intros b Hb. rewrite Forall_forall in M. destruct (M b Hb) as [M1 M2]. unfold push, al_psi. destruct (Rle_dec _ 0); [lra|]. destruct (Rlt_dec _ _); [lra|reflexivity]. }
  change (mk3 0 0 0) with (zero3 (T:=R)) in TZ. rewrite add3_0_r in TZ.
  set (z := sub3 (add3 (scale3 (- s * (wc_alpha w - barrier A)) (vec (e t))) (scale3 (/ 2 * (1 - s * qw (e t))) (barrier_axis A))) (scale3 (wc_gamma w) (v_rate (y t)))) in TZ.
  rewrite TZ in TR. assert (EU : u = add3 (cross3 (v_rate (y t)) (add3 (mv (s_total_moment (wc_sat w)) (v_rate (y t))) (rw_momentum (s_rw (wc_sat w)) (v_whl (y t))))) (mv (s_total_moment (wc_sat w)) z)) by congruence.
  rewrite EU in US. destruct (cancels (wc_sat w) (y t) z SP DJ US) as (a' & EA & _ & K).
  unfold whl_actuator_commands in WA. rewrite <- EW in WA. change (wc_sat (set_trig w (trig_step (qw (e t)) (wc_trig w)))) with (wc_sat w) in WA. rewrite EU, EA in WA. assert (a' = a) by congruence. subst a'.
  destruct D as (_ & _ & D1 & D2 & _). rewrite K in D2. rewrite mv_zero3, add3_0_l in D2.
  assert (D1' : derivq (fun x => v_att (y x)) t (scaleq 0.5 (product (v_att (y t)) (pure (v_rate (y t)))))) by exact D1.
  assert (DE := dq_error (fun x => v_att (y x)) (fun _ => qc) t (v_rate (y t)) zero3 D1' (dq_const qc t) UQ UC). cbv beta zeta in DE.
  rewrite sandwich_0, sub3_0_r in DE. change (error_quat (v_att (y t)) qc) with (e t) in DE.
  assert (MA : map (moved (v_att (y t)) sunv) A = A) by (apply alerts_moved; exact SO).
  assert (DB := d_barrier (fun x => v_att (y x)) sunv t (v_rate (y t)) A D1').
  assert (MF : Forall (fun a => 0 < margin (al_sign a) (al_bore a) (al_cos a) (sandwich (v_att (y t)) sunv)) A).
  { rewrite Forall_forall in *. intros b Hb. destruct (M b Hb) as [M1 _]. assert (IN : al_obj b = sandwich (v_att (y t)) sunv).
    { clear - Hb MA. rewrite <- MA in Hb. apply in_map_iff in Hb. destruct Hb as (c & <- & _). reflexivity. }
    rewrite <- IN. exact M1. }
  specialize (DB MF). cbv beta in DB. rewrite MA in DB.
  assert (DD := dot_half (fun x => v_rate (y x)) t z D2). cbv beta in DD.
  eapply d_eq. { apply d_plus; [|exact DD]. apply d_mult; [apply d_mult; [apply d_const|apply d_minus; [apply d_const|apply d_mult; [apply d_const|exact (proj1 DE)]]]|apply d_minus; [apply d_const|exact DB]]. }
  cbv beta. fold (e t). rewrite MA. unfold z. generalize (barrier A) (barrier_axis A) (v_rate (y t)) (e t). intros b ax wr [q0 q1 q2 q3].
  destruct ax as [a1 a2 a3], wr as [r1 r2 r3]. unfold pure, product. replace 0.5 with (1/2) by lra. vunfold; rnum. field.
Qed.
Print Assumptions C55_potential.
(** whenever the repulsion has a direction and the target is not reached, there are rates at which the potential grows
    (unlimited wheels) *)
Theorem C55_increase_refuted : forall w sunv pos q qc, wc_sun w = Some (fun _ => sunv) -> wc_avoid w = true -> Forall (wf_instr 2) (wc_instr w) ->
  sun_only (wc_instr w) -> spanning (s_rw (wc_sat w)) -> rw_limited (s_rw (wc_sat w)) = false -> det3 (s_total_moment (wc_sat w)) <> 0 -> unitq q -> unitq qc -> 0 < wc_gamma w ->
  let A := alerts (wc_instr w) [sandwich q sunv; opp3 (normalize3 pos)] in
  Forall (fun a => 0 < margin (al_sign a) (al_bore a) (al_cos a) (al_obj a) /\ al_sigma a / 4 <= margin (al_sign a) (al_bore a) (al_cos a) (al_obj a)) A ->
  barrier_axis A <> zero3 -> let s := tr_mem (trig_step (qw (error_quat q qc)) (wc_trig w)) in s * qw (error_quat q qc) < 1 ->
  exists wr, forall (y : R -> SVec) t F w' u a, v_att (y t) = q -> v_pos (y t) = pos -> v_rate (y t) = wr ->
    (length (rw_wheels (s_rw (wc_sat w))) <= length (v_whl (y t)))%nat ->
    tracking w (y t) zero3 zero3 qc = Ok (w', u) -> whl_actuator_commands w' u = Ok a ->
    deriv_sv y t (derivative (wc_sat w) (y t) F zero3 (rw_torque (s_rw (wc_sat w)) a) (rw_momentum (s_rw (wc_sat w)) (v_whl (y t))) a) ->
    exists d, 0 < d /\ derivable_pt_lim (fun x => 2 * (1 - s * qw (error_quat (v_att (y x)) qc)) * (wc_alpha w - barrier (map (moved (v_att (y x)) sunv) A)) + dot3 (v_rate (y x)) (v_rate (y x)) / 2) t d.
Proof.
  intros w sunv pos q qc HS HA HW SO SP HLim DJ UQ UC G A M AX s S1.
  set (g := wc_gamma w) in *. set (b := 1 - s * qw (error_quat q qc)). assert (B : 0 < b) by (unfold b; lra).
  set (k := b / (4 * g)). exists (scale3 (- k) (barrier_axis A)).
  intros y t F w' u a E1 E2 E3 HL TR WA D.
  assert (P := C55_potential w sunv y qc t F w' u a HS HA HW SO HL SP DJ). rewrite E1, E2 in P. specialize (P UQ UC M TR (or_introl HLim) WA D). cbv zeta in P.
  assert (ES : tr_mem (wc_trig w') = s).
  { assert (TZ := tracking_zone w (y t) zero3 zero3 qc (fun _ => sunv) HS HA HW HL). cbv beta zeta in TZ. rewrite TZ, E1 in TR.
    assert (EW : set_trig w (trig_step (qw (error_quat q qc)) (wc_trig w)) = w') by congruence. rewrite <- EW. reflexivity. }
  rewrite ES, E1, E3 in P. fold g A in P. eexists. split; [|exact P]. fold b.
  assert (N : 0 < dot3 (barrier_axis A) (barrier_axis A)). { destruct (dot3_nonneg (barrier_axis A)) as [L|L]; [exact L|]. exfalso. apply AX, dot3_zero. lra. }
  assert (Q : - g * dot3 (scale3 (- k) (barrier_axis A)) (scale3 (- k) (barrier_axis A)) - / 2 * b * dot3 (scale3 (- k) (barrier_axis A)) (barrier_axis A) =
              (k * (b / 2 - g * k)) * dot3 (barrier_axis A) (barrier_axis A)).
  { generalize (barrier_axis A). intros [p1 p2 p3]. vunfoldg; cbn [x3 y3 z3]; rnumg. field. }
  rewrite Q. apply Rmult_lt_0_compat; [|exact N]. assert (K : 0 < k) by (unfold k; apply Rdiv_lt_0_compat; lra).
  replace (b / 2 - g * k) with (b / 4) by (unfold k; field; lra). apply Rmult_lt_0_compat; lra.
Qed.
Print Assumptions C55_increase_refuted.
(** the second object is the inertial nadir direction; in the body frame it is that only where the attitude leaves it fixed, and a
    camera forbidden to see the Earth can stare straight at it without any alert *)
Theorem C55_nadir : forall f v objs, objects (Some f) v = Ok objs ->
  exists sun nadir, objs = [sun; nadir] /\ sun = sandwich (v_att v) (f (v_pos v)) /\
  (nadir = sandwich (v_att v) (opp3 (normalize3 (v_pos v))) <-> sandwich (v_att v) nadir = nadir).
Proof.
  intros f v objs H. cbn [objects] in H. injection H as <-. eexists. eexists. split; [reflexivity|]. split; [reflexivity|]. split; intros E; symmetry; exact E.
Qed.
Print Assumptions C55_nadir.
Theorem C55_nadir_refuted : exists k v f objs, i_boresight (ci k) = sandwich (v_att v) (opp3 (normalize3 (v_pos v))) /\ unitq (v_att v) /\
  nth_error (i_forbidden (ci k)) 1 = Some true /\ In 1%Z (i_ids (ci k)) /\ wf_instr 2 k /\ objects (Some f) v = Ok objs /\ alerts [k] objs = [].
Proof.
  set (k := mkCI (mkI ez [60; 60] [true; true] [1%Z]) PI [0.02; 0.02]). set (v := mkSV ez zero3 (mkq 0 1 0 0) zero3 []).
  assert (NZ : normalize3 (v_pos v) = ez). { unfold v, ez. cbn [v_pos]. unfold normalize3, div3, norm3. vunfoldg; cbn [x3 y3 z3]; rnumg. replace (0 * 0 + 0 * 0 + 1 * 1) with (1 * 1) by ring. rewrite sqrt_square by lra. destruct (Reqb 1 0); [reflexivity|]; apply mk3_c; field. }
  assert (SE : sandwich (v_att v) (opp3 ez) = ez) by (unfold v, ez, sandwich, conjugate, product; cbn [v_att]; vunfold; rnum; apply mk3_c; ring).
  exists k, v, (fun _ => ex). eexists. split; [rewrite NZ, SE; reflexivity|]. split; [unfold unitq, v, dotq; cbn [v_att qw qx qy qz]; rnumg; ring|].
  split; [reflexivity|]. split; [left; reflexivity|]. split; [unfold wf_instr; cbn; repeat split; lia|]. split; [reflexivity|].
  apply alerts_quiet. intros k' j o fb bd [<-|[]] N0 N1 N2 IN. rewrite NZ in N0. unfold k in IN, N1, N2. cbn in IN. destruct IN as [IN|[]].
  assert (j = 1%nat) by lia. subst j. cbn in N0, N1, N2. injection N0 as <-. injection N1 as <-. injection N2 as <-.
  cbn [ci k i_boresight ci_stop]. unfold threshold, margin. replace (60 * (PI / 180)) with (PI / 3) by field. replace (PI / 3 - -1 * PI) with (PI / 3 + PI) by ring.
  rewrite neg_cos, cos_PI3. rewrite Rabs_left by lra. unfold ez. vunfoldg; cbn [x3 y3 z3]; rnumg. lra.
Qed.
Print Assumptions C55_nadir_refuted.
(** a camera 90 degrees from the sun whose bound is 60 degrees: one alert, inside the band the theorems ask for *)
Example C55_ex : let k := mkCI (mkI ez [60; 60] [true; true] [0%Z]) PI [0.02; 0.02] in
  let A := alerts [k] [sandwich (mkq 1 0 0 0) ex; opp3 (normalize3 ey)] in
  Forall (wf_instr 2) [k] /\ sun_only [k] /\
  Forall (fun a => 0 < margin (al_sign a) (al_bore a) (al_cos a) (al_obj a) /\ al_sigma a / 4 <= margin (al_sign a) (al_bore a) (al_cos a) (al_obj a)) A /\
  barrier_axis A <> zero3 /\ error_quat (mkq 1 0 0 0) (mkq 0 1 0 0) = mkq 0 (-1) 0 0.
Proof.
  intros k A.
  assert (SE : sandwich (mkq 1 0 0 0) ex = ex) by (unfold ex, sandwich, conjugate, product; vunfold; rnum; apply mk3_c; ring).
  assert (T : threshold PI 60 true = / 2). { unfold threshold. replace (60 * (PI / 180)) with (PI / 3) by field. replace (PI / 3 - -1 * PI) with (PI / 3 + PI) by ring. rewrite neg_cos, cos_PI3, Rabs_left by lra. lra. }
  assert (C : cos (60 * (PI / 180)) = / 2) by (replace (60 * (PI / 180)) with (PI / 3) by field; rewrite cos_PI3; lra).
  assert (EA : A = [mkAl 0.02 (-1) ez (/ 2) (/ 2) ex]).
  { unfold A, alerts, k. cbn [flat_map alerts_from ci i_forbidden i_bounds ci_gains nth_error i_ids]. fold (threshold PI 60 true). unfold threshold in T. cbv zeta in T |- *. cbn [ci_stop i_boresight]. rewrite T, C, SE.
    destruct (in_dec Z.eq_dec (Z.of_nat 0) [0%Z]) as [_|I]; [|exfalso; apply I; left; reflexivity].
    destruct (in_dec Z.eq_dec (Z.of_nat 1) [0%Z]) as [I|_]; [destruct I as [I|[]]; discriminate|].
    destruct (Rlt_dec _ _) as [_|L]; [reflexivity|]. exfalso. apply L. cbn [al_sign al_bore al_cos al_sigma]. unfold margin, ez, ex. vunfoldg; cbn [x3 y3 z3]; rnumg. lra. }
  assert (M : margin (-1) ez (/ 2) ex = / 4) by (unfold margin, ez, ex; vunfoldg; cbn [x3 y3 z3]; rnumg; lra).
  split; [repeat (apply Forall_cons; [unfold wf_instr; cbn; repeat split; lia|]); apply Forall_nil|].
  split. { intros k' i [<-|[]] I. unfold k in I. cbn in I. destruct I as [I|[]]; symmetry; exact I. }
  rewrite EA. split; [apply Forall_cons; [cbn [al_sign al_bore al_cos al_obj al_sigma]; rewrite M; lra|apply Forall_nil]|].
  split.
  - unfold barrier_axis. cbn [map vsum fold_right al_gain al_sign al_bore al_obj]. unfold al_psi. cbn [al_sign al_bore al_cos al_obj]. rewrite M. destruct (Rle_dec (/ 4) 0); [lra|].
    unfold ez, ex. vunfoldg; cbn [x3 y3 z3]; rnumg. intros E. apply mk3_inj in E. lra.
  - unfold error_quat, conjugate, product. vunfold; rnum. apply mkq_c; ring.
Qed.

(** ** C56: the rolling reference *)
Theorem C56_unit : forall clock roll, unitq (ecliptic_attitude clock roll).
Proof.
  intros clock [|]; [|apply ECL_unit]. unfold ecliptic_attitude. apply product_unit; [apply ECL_unit|apply (roll_unit (clk_absolute clock))].
Qed.
Print Assumptions C56_unit.
(** the body z axis is the ecliptic pole, the equatorial pole turned by the obliquity towards -y *)
Theorem C56_pole : forall clock roll, sandwich_opp (ecliptic_attitude clock roll) ez = mk3 0 (- sin (23.439291 * (PI / 180))) (cos (23.439291 * (PI / 180))).
Proof.
  intros clock roll. replace (23.439291 * (PI / 180)) with EPS by (unfold EPS, radians; lra). destruct roll; [|apply ecl_pole].
  unfold ecliptic_attitude. rewrite sandwich_opp_product. change (mkq _ 0 0 _) with (roll_quat (clk_absolute clock)). rewrite roll_axis. apply ecl_pole.
Qed.
Print Assumptions C56_pole.
(** it turns about that axis at 4*0.00733 rad per second of clock.absolute *)
Theorem C56_rate : forall (f : R -> AClock) t, (forall u, clk_absolute (f u) = u) ->
  derivq (fun u => ecliptic_attitude (f u) true) t (scaleq 0.5 (product (ecliptic_attitude (f t) true) (pure (mk3 0 0 (4 * 0.00733))))).
Proof.
  intros f t H. assert (E : forall u, ecliptic_attitude (f u) true = product ECL (roll_quat u)) by (intros u; unfold ecliptic_attitude; rewrite H; reflexivity).
  rewrite E. assert (D := dq_product (fun _ => ECL) roll_quat t _ _ (dq_const ECL t) (d_roll t)).
  assert (X : derivq (fun u => product ECL (roll_quat u)) t (scaleq 0.5 (product (product ECL (roll_quat t)) (pure (mk3 0 0 (4 * 0.00733)))))).
  { eapply dq_eq; [exact D|]. rewrite BBQ_eq. generalize ECL (roll_quat t). intros [a b c d] [p q r s]. unfold pure, product. replace 0.5 with (1/2) by lra. generalize 0.00733. intros k. vunfold; rnum. apply mkq_c; field. }
  destruct X as (X1 & X2 & X3 & X4). split; [|split; [|split]].
  - eapply d_ext; [|exact X1]. intros u. rewrite E. reflexivity.
  - eapply d_ext; [|exact X2]. intros u. rewrite E. reflexivity.
  - eapply d_ext; [|exact X3]. intros u. rewrite E. reflexivity.
  - eapply d_ext; [|exact X4]. intros u. rewrite E. reflexivity.
Qed.
Print Assumptions C56_rate.
(** with a JClock the reference never rolls, however often it ticks or syncs *)
Inductive jop := Tick (dt : R) | Sync (now : Z).
Fixpoint jops (l : list jop) (c : JClock) : res JClock :=
  match l with [] => Ok c | Tick dt :: r => rbind (jtick dt c) (jops r) | Sync now :: r => jops r (fst (jsync now c)) end.
Theorem C56_jclock_refuted : forall l c c', j_absolute c = 0 -> jops l c = Ok c' -> ecliptic_attitude (CJ c') true = ecliptic_attitude (CJ c) false.
Proof.
  intros l c c' Z H. assert (A : j_absolute c' = 0).
  { revert c Z H. induction l as [|[dt|now] l IH]; intros c Z H; [injection H as <-; exact Z| |].
    - cbn [jops] in H. unfold jtick in H. destruct (datetime_ok _); [|discriminate]. cbn [rbind] in H. eapply IH; [|exact H]; exact Z.
    - cbn [jops] in H. eapply IH; [|exact H]; exact Z. }
  unfold ecliptic_attitude. cbn [clk_absolute]. rewrite A, Rmult_0_r, Rmult_0_r, cos_0, sin_0. generalize ECL. intros [a b d e]. unfold product. vunfold; rnum. apply mkq_c; ring.
Qed.
Print Assumptions C56_jclock_refuted.
Example C56_ex : (exists f : R -> AClock, forall u, clk_absolute (f u) = u) /\ ecliptic_attitude (CClock (mkClock (PI / z3 BBQ) 2022 1 1 0 0 0 false false)) true <> ecliptic_attitude (CJ (mkJ 0 0)) false.
Proof.
  split; [exists (fun u => CClock (mkClock u 2022%Z 1%Z 1%Z 0%Z 0%Z 0 false false)); reflexivity|].
  unfold ecliptic_attitude. cbn [clk_absolute absolute]. assert (K : z3 BBQ <> 0) by (rewrite BBQ_eq; cbn [z3]; apply Rgt_not_eq; lra). replace (0.5 * (z3 BBQ * (PI / z3 BBQ))) with (PI / 2) by (replace 0.5 with (1/2) by lra; field; exact K).
  rewrite cos_PI2, sin_PI2. unfold ECL, product. vunfold; rnum. intros E. assert (E3 := f_equal qw E). cbn [qw] in E3.
  assert (P := PI_RGT_0). assert (C : 0 < cos (0.5 * EPS)) by (apply cos_gt_0; unfold EPS, radians; nra). lra.
Qed.
