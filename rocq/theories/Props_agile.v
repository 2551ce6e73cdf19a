(** * C135: how fast the satellite can turn, whatever the daemon is told to do *)
From Coq Require Import Reals ZArith List Bool Lra Lia Psatz.
From Verif Require Import Num Vec Mat6 M_vector M_quaternion M_jday M_struct M_dyn M_integ M_obs M_ctrl M_fsm M_mgr S_rot S_dyn S_fsm.
From Verif Require Import P_quat P_struct P_wheel P_dyn P_dyn2 P_ctrl P_ctrl2 P_tot3 P_detum P_samp P_posf P_mgr Props_struct Props_samp Props_mgr Props_stare Props_asleep Props_runaway Props_limits.
Import ListNotations.
Local Open Scope R_scope.

(** from t0 to t1 the object first goes through any operations (mission_input, sensor_input, changes of the filters; SPINDOWN only with slow wheels), then the satellite moves by the
    code's equations with the commands held; the torque from outside, that of the torquers included, is at most M *)
Definition any_cycle (sat : Satellite) (mt : list (Torquer R)) (F T B : R -> v3) (M : R) (y : R -> SVec) (t0 t1 : R) (m m' : Mgr) : Prop :=
  exists l mom z a b, Forall (spins_slowly (s_rw sat)) l /\ m' = ops l m /\
    sys_actuate mt (g_mag_cmd m') = Ok mom /\ a < t0 /\ t1 < b /\ (forall t, t0 <= t <= t1 -> y t = z t) /\
    forall t, a < t < b -> norm3 (add3 (T t) (cross3 mom (B t))) <= M /\
      deriv_sv z t (derivative sat (z t) (F t) (add3 (T t) (cross3 mom (B t))) (rw_torque (s_rw sat) (g_rw_cmd m')) (rw_momentum (s_rw sat) (v_whl (z t))) (g_rw_cmd m')).
(** the most torque all wheels together can give: the limit times the sum of the axes' lengths *)
Definition grip (s : RWS) : R := rw_maxT s * fold_right (fun w x => norm3 (w_axis w) + x) 0 (rw_wheels s).
(** where an instrument's boresight b points in the inertial frame *)
Definition aim (b : v3) (v : SVec) : v3 := sandwich_opp (v_att v) b.

Lemma norm_zero3 : norm3 (zero3 (T:=R)) = 0.
Proof. unfold norm3. vunfoldg. cbn [x3 y3 z3]. rnumg. replace (0 * 0 + 0 * 0 + 0 * 0) with 0 by ring. exact sqrt_0. Qed.
Lemma grip_torque s acc : 0 <= rw_maxT s -> torques_ok s acc -> norm3 (rw_torque s acc) <= grip s.
Proof.
  intros M0. unfold torques_ok, rw_torque, grip. revert acc. induction (rw_wheels s) as [|w ws IH]; intros acc OK; [destruct acc; cbn [zip_with sum3 fold_right]; rewrite norm_zero3; lra|].
  assert (REST : 0 <= rw_maxT s * (fold_right (fun w x => norm3 (w_axis w) + x) 0 ws)).
  { apply Rmult_le_pos; [exact M0|]. clear. induction ws as [|w ws IH]; cbn [fold_right]; [lra|]. assert (P := P_quat.norm3_pos (w_axis w)). lra. }
  assert (PW := P_quat.norm3_pos (w_axis w)). destruct acc as [|x acc]; [cbn [zip_with sum3 fold_right]; rewrite norm_zero3; rewrite Rmult_plus_distr_l; assert (0 <= rw_maxT s * norm3 (w_axis w)) by (apply Rmult_le_pos; assumption); lra|].
  cbn [zip_with sum3 fold_right]. fold (sum3 (zip_with w_torque ws acc)). eapply Rle_trans; [apply norm3_triangle|]. rewrite Rmult_plus_distr_l. apply Rplus_le_compat.
  - unfold w_torque. rewrite !norm3_scal, <- Rmult_assoc, <- Rabs_mult. apply Rmult_le_compat_r; [exact PW|]. apply OK. left. reflexivity.
  - apply IH. intros w' x' H. apply OK. right. exact H.
Qed.
(** mean value inequality against a growing bound *)
Lemma vmvg (f f' : R -> v3) (g g' : R -> R) s t : s <= t -> (forall u, s <= u <= t -> deriv3 f u (f' u)) -> (forall u, s <= u <= t -> derivable_pt_lim g u (g' u)) -> (forall u, s <= u <= t -> norm3 (f' u) <= g' u) ->
  norm3 (sub3 (f t) (f s)) <= g t - g s.
Proof.
  intros Ht D DG B. set (d := sub3 (f t) (f s)).
  assert (L := le_of_deriv (fun u => dot3 d (f u) - norm3 d * g u) (fun u => dot3 d (f' u) - norm3 d * g' u) s t Ht).
  assert (K : dot3 d (f t) - norm3 d * g t <= dot3 d (f s) - norm3 d * g s).
  { apply L.
    - intros u Hu. apply d_minus; [apply dot_const, D, Hu|]. eapply d_eq; [apply d_mult; [apply d_const|apply DG, Hu]|]. cbv beta. ring.
    - intros u Hu. assert (X := P_orb3.dot_norm d (f' u)). assert (Y := Rle_abs (dot3 d (f' u))). assert (Z := B u Hu). assert (P := P_quat.norm3_pos d). nra. }
  assert (Q : dot3 d (f t) - dot3 d (f s) = dot3 d d) by (unfold d at 3; destruct d as [a b c], (f t) as [a1 a2 a3], (f s) as [b1 b2 b3]; vunfoldg; rnumg; ring).
  assert (S := P_quat.norm3_sq d). assert (P := P_quat.norm3_pos d). assert (GG : g s <= g t).
  { assert (X := le_of_deriv (fun u => - g u) (fun u => - g' u) s t Ht). cbv beta in X. assert (X' := X ltac:(intros u Hu; apply derivable_pt_lim_opp, DG, Hu) ltac:(intros u Hu; assert (A := B u Hu); assert (A' := P_quat.norm3_pos (f' u)); lra)). lra. }
  destruct (Req_dec (norm3 d) 0) as [Z|Z]; [rewrite Z; lra|]. apply (Rmult_le_reg_l (norm3 d)); [lra|]. nra.
Qed.
(** bounds on the pieces add up *)
Lemma chained (f : R -> v3) (g : R -> R) h : 0 < h -> (forall k t, INR k * h <= t <= INR (S k) * h -> norm3 (sub3 (f t) (f (INR k * h))) <= g t - g (INR k * h)) ->
  forall t, 0 <= t -> norm3 (sub3 (f t) (f 0)) <= g t - g 0.
Proof.
  intros H0 ONE. assert (TRI : forall p q r : v3, norm3 (sub3 p r) <= norm3 (sub3 p q) + norm3 (sub3 q r)).
  { intros p q r. assert (X := norm3_triangle (sub3 p q) (sub3 q r)). replace (add3 (sub3 p q) (sub3 q r)) with (sub3 p r) in X by (destruct p as [p1 p2 p3], q as [q1 q2 q3], r as [r1 r2 r3]; vunfoldg; cbn [x3 y3 z3]; rnumg; apply mk3_c; ring). exact X. }
  assert (ALL : forall k, norm3 (sub3 (f (INR k * h)) (f 0)) <= g (INR k * h) - g 0).
  { intros k. induction k as [|k IH]; [cbn [INR]; rewrite Rmult_0_l; replace (sub3 (f 0) (f 0)) with (zero3 (T:=R)) by (destruct (f 0) as [a b c]; vunfoldg; cbn [x3 y3 z3]; rnumg; apply mk3_c; ring); rewrite norm_zero3; lra|].
    assert (X := ONE k (INR (S k) * h) ltac:(rewrite S_INR; lra)). assert (Y := TRI (f (INR (S k) * h)) (f (INR k * h)) (f 0)). lra. }
  intros t Ht. destruct (step_of t h H0 Ht) as [k Hk]. assert (X := ONE k t ltac:(rewrite S_INR; lra)). assert (Y := TRI (f t) (f (INR k * h)) (f 0)). assert (Z := ALL k). lra.
Qed.
Lemma commands_ok l m s : s_rw (wc_sat (g_whl m)) = s -> rw_limited s = true -> 0 <= rw_maxT s -> Forall (fun w => w_par w <> 0) (rw_wheels s) -> Forall (spins_slowly s) l ->
  let lens := fun n => n = 4%nat \/ n = length (rw_wheels s) in torques_ok s (g_rw_cmd m) /\ lens (length (g_rw_cmd m)) ->
  s_rw (wc_sat (g_whl (ops l m))) = s /\ torques_ok s (g_rw_cmd (ops l m)) /\ lens (length (g_rw_cmd (ops l m))).
Proof.
  intros HS HL HM HP F lens START. unfold ops. revert m HS START. induction F as [|o l SO F IH]; intros m HS START; [exact (conj HS START)|]. cbn [fold_left]. destruct (op_wheels s m o HS HL HM HP SO START) as (HS' & START'). exact (IH _ HS' START').
Qed.

Lemma opp_cross (q : quat) (v w : v3) : unitq q -> cross3 (sandwich_opp q v) (sandwich_opp q w) = sandwich_opp q (cross3 v w).
Proof. intros U. unfold sandwich_opp. rewrite sandwich_cross, (unit_conj q U). generalize (sandwich (conjugate q) (cross3 v w)). clear. intros [x y z]. vunfoldg. cbn [x3 y3 z3]. rnumg. apply mk3_c; ring. Qed.
(** ** angles *)
Lemma chained1 (f g : R -> R) h : 0 < h -> (forall k t, INR k * h <= t <= INR (S k) * h -> f t - f (INR k * h) <= g t - g (INR k * h)) -> forall t, 0 <= t -> f t - f 0 <= g t - g 0.
Proof.
  intros H0 ONE. assert (ALL : forall k, f (INR k * h) - f 0 <= g (INR k * h) - g 0).
  { intros k. induction k as [|k IH]; [cbn [INR]; rewrite Rmult_0_l; lra|]. assert (X := ONE k (INR (S k) * h) ltac:(rewrite S_INR; lra)). lra. }
  intros t Ht. destruct (step_of t h H0 Ht) as [k Hk]. assert (X := ONE k t ltac:(rewrite S_INR; lra)). assert (Z := ALL k). lra.
Qed.
Lemma d_acos f t f' : -1 < f t < 1 -> derivable_pt_lim f t f' -> derivable_pt_lim (fun u => acos (f u)) t (- f' / sqrt (1 - f t * f t)).
Proof.
  intros B D. assert (A : derivable_pt_lim acos (f t) (-1 / sqrt (1 - (f t)²))) by (apply (derive_pt_eq_1 acos (f t) _ (derivable_pt_acos (f t) B)); apply derive_pt_acos).
  assert (X := derivable_pt_lim_comp f acos t _ _ D A). unfold comp in X. eapply d_eq; [exact X|]. unfold Rsqr, Rdiv. ring.
Qed.
(** the cosine shrunk by a factor la < 1 has an angle that changes no faster than the body turns *)
Lemma shrunk_rate la c c' w : 0 < la < 1 -> -1 <= c <= 1 -> 0 <= w -> c' * c' <= w * w * (1 - c * c) -> - (la * c') / sqrt (1 - la * c * (la * c)) <= w.
Proof.
  intros L C W Q. set (r := 1 - la * c * (la * c)). assert (LL : la * la < 1) by nra. assert (CC : 0 <= c * c <= 1) by nra. assert (R1 : la * c * (la * c) = la * la * (c * c)) by ring. assert (R0 : 0 < r) by (unfold r; rewrite R1; nra).
  assert (S0 : 0 < sqrt r) by (apply sqrt_lt_R0, R0). assert (SS := sqrt_sqrt r (Rlt_le _ _ R0)). apply (Rmult_le_reg_r (sqrt r)); [exact S0|]. replace (- (la * c') / sqrt r * sqrt r) with (- (la * c')) by (field; lra).
  apply Rsqr_incr_0_var; [|apply Rmult_le_pos; lra]. unfold Rsqr. replace (w * sqrt r * (w * sqrt r)) with (w * w * (sqrt r * sqrt r)) by ring. rewrite SS. assert (WW : 0 <= w * w) by nra. assert (r >= la * la * (1 - c * c)) by (unfold r; rewrite R1; nra).
  assert (la * la * (c' * c') <= la * la * (w * w * (1 - c * c))) by (apply Rmult_le_compat_l; [nra|exact Q]). assert (w * w * (la * la * (1 - c * c)) <= w * w * r) by (apply Rmult_le_compat_l; lra). lra.
Qed.
(** letting the factor go to one *)
Lemma unshrunk c q : -1 <= c <= 1 -> 0 <= q < PI -> (forall la, 0 < la < 1 -> acos (la * c) - acos la <= q) -> cos q <= c.
Proof.
  intros C Q A. destruct (Rle_lt_dec (cos q) c) as [K|K]; [exact K|]. exfalso. assert (SB := SIN_bound q). assert (P0 := PI_RGT_0).
  (* la = cos e for a small e *)
  set (d := cos q - c) in *. assert (D0 : 0 < d) by (unfold d; lra).
  assert (EX : exists e, 0 < e /\ e < PI / 2 /\ q + e <= PI /\ sin e < cos e * d).
  { assert (CT : continuity_pt (fun e => sin e - cos e * d) 0) by (apply continuity_pt_minus; [apply continuity_sin|apply continuity_pt_mult; [apply continuity_cos|apply continuity_pt_const; intros a b; reflexivity]]).
    destruct (CT (d / 2) ltac:(lra)) as (al & A0 & A1). set (e := Rmin (al / 2) (Rmin (PI / 4) ((PI - q) / 2))). assert (e <= al / 2) by apply Rmin_l. assert (e <= Rmin (PI / 4) ((PI - q) / 2)) by apply Rmin_r. assert (Rmin (PI / 4) ((PI - q) / 2) <= PI / 4) by apply Rmin_l. assert (Rmin (PI / 4) ((PI - q) / 2) <= (PI - q) / 2) by apply Rmin_r.
    assert (E0 : 0 < e) by (unfold e; repeat apply Rmin_glb_lt; lra). exists e. split; [exact E0|]. split; [lra|]. split; [lra|].
    assert (X := A1 e). cbn in X. unfold R_dist in X. assert (Y : Rabs (sin e - cos e * d - (sin 0 - cos 0 * d)) < d / 2). { apply X. split; [split; [exact I|lra]|]. rewrite Rminus_0_r, Rabs_pos_eq by lra. lra. }
    rewrite sin_0, cos_0 in Y. apply Rabs_def2 in Y. lra. }
  destruct EX as (e & E0 & E1 & E2 & E3). assert (CE : 0 < cos e) by (apply cos_gt_0; lra). assert (CE1 : cos e < 1) by (rewrite <- cos_0; apply cos_decreasing_1; lra).
  assert (X := A (cos e) (conj CE CE1)). rewrite (acos_cos e) in X by lra. assert (LC : -1 <= cos e * c <= 1) by nra. assert (AB := acos_bound (cos e * c)).
  assert (Y : cos (q + e) <= cos (acos (cos e * c))) by (destruct (Rle_lt_or_eq_dec (acos (cos e * c)) (q + e) ltac:(lra)) as [Z|Z]; [left; apply cos_decreasing_1; lra|rewrite Z; lra]). rewrite cos_acos in Y by exact LC. rewrite cos_plus in Y. assert (SE : 0 < sin e) by (apply sin_gt_0; lra). unfold d in *. nra.
Qed.

(** whatever the daemon is told, the momenta change no faster than the actuators and the surroundings allow, and the boresight of an instrument moves no further than a quadratic in time *)
Theorem C135_turns : forall sat mt F T B M y m h L b, let s := s_rw sat in det3 (s_total_moment sat) <> 0 -> 0 < h -> unitq (v_att (y 0)) ->
  (forall v, norm3 (mv (s_inv_tot sat) v) <= L * norm3 v) -> unit3 b ->
  s_rw (wc_sat (g_whl (m 0%nat))) = s -> rw_limited s = true -> 0 <= rw_maxT s -> Forall (fun w => w_par w <> 0) (rw_wheels s) ->
  torques_ok s (g_rw_cmd (m 0%nat)) -> length (g_rw_cmd (m 0%nat)) = 4%nat ->
  (forall k, any_cycle sat mt F T B M y (INR k * h) (INR (S k) * h) (m k) (m (S k))) ->
  let H := fun t => inertial_momentum sat (y t) in let hw := fun t => rw_momentum s (v_whl (y t)) in let N := norm3 (H 0) + norm3 (hw 0) in let D := fun t => aim b (y t) in
  forall t, 0 <= t -> unitq (v_att (y t)) /\ norm3 (sub3 (H t) (H 0)) <= M * t /\ norm3 (sub3 (hw t) (hw 0)) <= grip s * t /\
    norm3 (mv (s_total_moment sat) (v_rate (y t))) <= N + (grip s + M) * t /\
    norm3 (sub3 (D t) (D 0)) <= L * (N * t + (grip s + M) * (t * t / 2)).
Proof.
  intros sat mt F T B M y m h L b s DJ H0 U0 LB UB WS HL HM HP TO LEN CY H hw N D. set (tk := fun k => INR k * h). assert (TS : forall k, tk (S k) = tk k + h) by (intros k; unfold tk; rewrite S_INR; ring). assert (T0 : tk 0%nat = 0) by (unfold tk; cbn; ring).
  assert (CO : forall k, s_rw (wc_sat (g_whl (m k))) = s /\ torques_ok s (g_rw_cmd (m k)) /\ (length (g_rw_cmd (m k)) = 4%nat \/ length (g_rw_cmd (m k)) = length (rw_wheels s))).
  { intros k. induction k as [|k (I1 & I2)]; [split; [exact WS|]; split; [exact TO|left; exact LEN]|]. destruct (CY k) as (l & mom & z & a & c & SL & -> & _). exact (commands_ok l (m k) s I1 HL HM HP SL I2). }
  assert (ONE : forall k t, tk k <= t <= tk (S k) -> unitq (v_att (y (tk k))) -> unitq (v_att (y t)) /\ norm3 (sub3 (H t) (H (tk k))) <= M * t - M * tk k).
  { intros k t Ht UK. destruct (CY k) as (l & mom & z & a & c & _ & _ & _ & A0 & B0 & EQ & DZ). fold (tk k) (tk (S k)) in A0, B0, EQ. assert (SK := TS k). unfold H. rewrite (EQ t Ht), (EQ (tk k)) in * by lra.
    destruct (motion_drifts sat F (fun t => add3 (T t) (cross3 mom (B t))) M (g_rw_cmd (m (S k))) z a c DJ (fun u Hu => proj1 (DZ u Hu)) (fun u Hu => proj2 (DZ u Hu)) (tk k) t ltac:(lra) ltac:(lra) ltac:(lra) UK) as [X Y]. split; [exact Y|lra]. }
  assert (UK : forall k, unitq (v_att (y (tk k)))) by (intros k; induction k as [|k IH]; [rewrite T0; exact U0|apply (ONE k); [rewrite TS; lra|exact IH]]).
  assert (UT : forall t, 0 <= t -> unitq (v_att (y t))). { intros t Ht. destruct (step_of t h H0 Ht) as [k Hk]. fold (tk k) in Hk. apply (ONE k); [rewrite TS; lra|apply UK]. }
  assert (HH : forall t, 0 <= t -> norm3 (sub3 (H t) (H 0)) <= M * t). { intros t Ht. assert (X := chained H (fun u => M * u) h H0 (fun k u Hu => proj2 (ONE k u Hu (UK k))) t Ht). cbv beta in X. lra. }
  assert (HW : forall t, 0 <= t -> norm3 (sub3 (hw t) (hw 0)) <= grip s * t).
  { intros t Ht. assert (X := chained hw (fun u => grip s * u) h H0). cbv beta in X. assert (Y : norm3 (sub3 (hw t) (hw 0)) <= grip s * t - grip s * 0); [|lra]. apply X; [|exact Ht]. clear X t Ht. intros k t Ht. destruct (CY k) as (l & mom & z & a & c & _ & _ & _ & A0 & B0 & EQ & DZ). unfold hw. rewrite (EQ t Ht), (EQ (INR k * h)) by lra.
    apply (vmvg (fun u => rw_momentum s (v_whl (z u))) (fun _ => rw_torque s (g_rw_cmd (m (S k)))) (fun u => grip s * u) (fun _ => grip s)); [lra| | |].
    - intros u Hu. apply d3_momentum. destruct (DZ u ltac:(lra)) as (_ & _ & _ & _ & _ & X). exact X.
    - intros u _. eapply d_eq; [apply d_lin, d_id|]. cbv beta. ring.
    - intros u _. apply grip_torque; [exact HM|apply CO]. }
  assert (JW : forall t, 0 <= t -> norm3 (mv (s_total_moment sat) (v_rate (y t))) <= N + (grip s + M) * t).
  { intros t Ht. assert (A1 := HH t Ht). assert (A2 := HW t Ht). assert (A3 : norm3 (H t) <= norm3 (H 0) + M * t) by (assert (X := norm3_less (H t) (H 0)); lra). assert (A4 : norm3 (hw t) <= norm3 (hw 0) + grip s * t) by (assert (X := norm3_less (hw t) (hw 0)); lra).
    assert (X2 : norm3 (H t) = norm3 (body_momentum sat (y t))) by (unfold H, inertial_momentum, sandwich_opp; rewrite norm_sand, unit_conj by (apply UT, Ht); ring).
    assert (X3 : norm3 (mv (s_total_moment sat) (v_rate (y t))) <= norm3 (body_momentum sat (y t)) + norm3 (hw t)).
    { assert (X := sub_norm (body_momentum sat (y t)) (hw t)). replace (sub3 (body_momentum sat (y t)) (hw t)) with (mv (s_total_moment sat) (v_rate (y t))) in X; [exact X|]. unfold body_momentum, hw, s. generalize (mv (s_total_moment sat) (v_rate (y t))) (rw_momentum (s_rw sat) (v_whl (y t))). clear. intros [p q r] [d e f]. vunfoldg. cbn [x3 y3 z3]. rnumg. apply mk3_c; ring. }
    unfold N. lra. }
  assert (L0 : 0 <= L). { assert (X := LB b). assert (Y := P_quat.norm3_pos (mv (s_inv_tot sat) b)). assert (Z : norm3 b = 1) by (unfold norm3; rnumg; rewrite UB; exact sqrt_1). rewrite Z in X. lra. }
  assert (RT : forall t, 0 <= t -> norm3 (v_rate (y t)) <= L * (N + (grip s + M) * t)).
  { intros t Ht. assert (X := LB (mv (s_total_moment sat) (v_rate (y t)))). change (s_inv_tot sat) with (inv3 (s_total_moment sat)) in X. rewrite inv3_mv in X by exact DJ. eapply Rle_trans; [exact X|]. apply Rmult_le_compat_l; [exact L0|apply JW, Ht]. }
  intros t Ht. split; [apply UT, Ht|]. split; [apply HH, Ht|]. split; [apply HW, Ht|]. split; [apply JW, Ht|].
  set (g := fun u => L * (N * u + (grip s + M) * (u * u / 2))). assert (G0 : g 0 = 0) by (unfold g; field). assert (X : norm3 (sub3 (D t) (D 0)) <= g t - g 0); [|rewrite G0 in X; unfold g in X; lra].
  apply (chained D g h H0); [|exact Ht]. clear t Ht. intros k t Ht. assert (K0 : 0 <= INR k * h) by (apply Rmult_le_pos; [apply pos_INR|lra]). assert (UY : forall u, INR k * h <= u <= t -> unitq (v_att (y u))) by (intros u Hu; apply UT; lra).
  destruct (CY k) as (l & mom & z & a & c & _ & _ & _ & A0 & B0 & EQ & DZ). unfold D, aim. rewrite (EQ t Ht), (EQ (INR k * h)) by lra.
  apply (vmvg (fun u => sandwich_opp (v_att (z u)) b) (fun u => sandwich_opp (v_att (z u)) (cross3 (v_rate (z u)) b)) g (fun u => L * (N + (grip s + M) * u))); [lra| | |].
  - intros u Hu. destruct (DZ u ltac:(lra)) as (_ & _ & _ & X & _). eapply d3_eq; [apply (d3_sandwich_opp _ (fun _ => b) u zero3 _ X (d3_const b u))|]. cbv beta. f_equal. generalize (cross3 (v_rate (z u)) b). clear. intros [p q r]. vunfoldg. cbn [x3 y3 z3]. rnumg. apply mk3_c; ring.
  - intros u _. unfold g. eapply d_eq; [apply d_lin; apply derivable_pt_lim_plus; [apply d_lin, d_id|apply d_lin; apply d_mult; [apply d_mult; [apply d_id|apply d_id]|apply (d_const (/ 2))]]|]. cbv beta. field.
  - intros u Hu. assert (UZ := UY u Hu). rewrite (EQ u) in UZ by lra. assert (RZ := RT u ltac:(lra)). rewrite (EQ u) in RZ by lra. unfold sandwich_opp. rewrite norm_sand, unit_conj, Rmult_1_l by exact UZ. eapply Rle_trans; [apply cross_norm|]. assert (Z : norm3 b = 1) by (unfold norm3; rnumg; rewrite UB; exact sqrt_1). rewrite Z. lra.
Qed.
Print Assumptions C135_turns.
(** so an instrument's boresight that has turned by an angle th needs at least the time in which this quadratic reaches th *)
Theorem C135_angle : forall sat mt F T B M y m h L b, let s := s_rw sat in det3 (s_total_moment sat) <> 0 -> 0 < h -> unitq (v_att (y 0)) ->
  (forall v, norm3 (mv (s_inv_tot sat) v) <= L * norm3 v) -> unit3 b ->
  s_rw (wc_sat (g_whl (m 0%nat))) = s -> rw_limited s = true -> 0 <= rw_maxT s -> Forall (fun w => w_par w <> 0) (rw_wheels s) ->
  torques_ok s (g_rw_cmd (m 0%nat)) -> length (g_rw_cmd (m 0%nat)) = 4%nat ->
  (forall k, any_cycle sat mt F T B M y (INR k * h) (INR (S k) * h) (m k) (m (S k))) ->
  let N := norm3 (inertial_momentum sat (y 0)) + norm3 (rw_momentum s (v_whl (y 0))) in
  forall t th, 0 <= t -> 0 <= th <= PI -> dot3 (aim b (y t)) (aim b (y 0)) = cos th ->
    th <= L * (N * t + (grip s + M) * (t * t / 2)) /\
    (v_rate (y 0) = zero3 -> rw_momentum s (v_whl (y 0)) = zero3 -> 2 * th <= L * (grip s + M) * (t * t)).
Proof.
  intros sat mt F T B M y m h L b s DJ H0 U0 LB UB WS HL HM HP TO LEN CY N t th Ht Hth ED. assert (ALL := C135_turns sat mt F T B M y m h L b DJ H0 U0 LB UB WS HL HM HP TO LEN CY). cbv zeta in ALL. fold s N in ALL.
  assert (UT : forall u, 0 <= u -> unitq (v_att (y u))) by (intros u Hu; destruct (ALL u Hu) as (X & _); exact X). set (g := fun u => L * (N * u + (grip s + M) * (u * u / 2))). assert (Z1 : norm3 b = 1) by (unfold norm3; rnumg; rewrite UB; exact sqrt_1).
  assert (L0 : 0 <= L) by (assert (X := LB b); assert (Y := P_quat.norm3_pos (mv (s_inv_tot sat) b)); rewrite Z1 in X; lra).
  assert (RT : forall u, 0 <= u -> norm3 (v_rate (y u)) <= L * (N + (grip s + M) * u)).
  { intros u Hu. assert (X := LB (mv (s_total_moment sat) (v_rate (y u)))). change (s_inv_tot sat) with (inv3 (s_total_moment sat)) in X. rewrite inv3_mv in X by exact DJ. eapply Rle_trans; [exact X|]. apply Rmult_le_compat_l; [exact L0|]. destruct (ALL u Hu) as (_ & _ & _ & Y & _). exact Y. }
  set (D0 := aim b (y 0)) in *. assert (UD : forall u, 0 <= u -> dot3 (aim b (y u)) (aim b (y u)) = 1) by (intros u Hu; unfold aim; unfold sandwich_opp; rewrite sandwich_dot, unit_conj by (apply UT, Hu); rewrite UB; ring).
  assert (CB : forall u, 0 <= u -> -1 <= dot3 (aim b (y u)) D0 <= 1). { intros u Hu. assert (X := P_orb3.dot_norm (aim b (y u)) D0). assert (E1 : norm3 (aim b (y u)) = 1) by (unfold norm3; rnumg; rewrite UD by exact Hu; exact sqrt_1). assert (E2 : norm3 D0 = 1) by (unfold norm3; rnumg; unfold D0; rewrite UD by lra; exact sqrt_1). rewrite E1, E2 in X. assert (X1 := Rle_abs (dot3 (aim b (y u)) D0)). assert (X2 := Rle_abs (- dot3 (aim b (y u)) D0)). rewrite Rabs_Ropp in X2. lra. }
  assert (MAIN : th <= g t).
  { destruct (Rle_lt_dec th (g t)) as [K|K]; [exact K|]. exfalso. assert (G0 : g 0 = 0) by (unfold g; field).
    assert (A : forall la, 0 < la < 1 -> acos (la * dot3 (aim b (y t)) D0) - acos la <= g t).
    { intros la HLA. assert (X := chained1 (fun u => acos (la * dot3 (aim b (y u)) D0)) g h H0). cbv beta in X. assert (Y : acos (la * dot3 (aim b (y t)) D0) - acos (la * dot3 (aim b (y 0)) D0) <= g t - g 0); [|unfold D0 in Y at 2; rewrite UD, Rmult_1_r, G0 in Y by lra; lra].
      apply X; [|exact Ht]. clear X. intros k u Hu. assert (K0 : 0 <= INR k * h) by (apply Rmult_le_pos; [apply pos_INR|lra]).
      assert (FA : forall v, INR k * h <= v <= u -> unitq (v_att (y v)) /\ norm3 (v_rate (y v)) <= L * (N + (grip s + M) * v) /\ -1 <= dot3 (aim b (y v)) D0 <= 1 /\ dot3 (aim b (y v)) (aim b (y v)) = 1) by (intros v Hv; assert (V0 : 0 <= v) by lra; split; [apply UT, V0|split; [apply RT, V0|split; [apply CB, V0|apply UD, V0]]]).
      destruct (CY k) as (l & mom & z & a & c & _ & _ & _ & A0 & B0 & EQ & DZ). rewrite (EQ u Hu), (EQ (INR k * h)) by lra.
      assert (FZ : forall v, INR k * h <= v <= u -> unitq (v_att (z v)) /\ norm3 (v_rate (z v)) <= L * (N + (grip s + M) * v) /\ -1 <= dot3 (aim b (z v)) D0 <= 1 /\ dot3 (aim b (z v)) (aim b (z v)) = 1) by (intros v Hv; rewrite <- (EQ v) by lra; apply FA, Hv).
      set (c' := fun v => dot3 (sandwich_opp (v_att (z v)) (cross3 (v_rate (z v)) b)) D0).
      assert (DC : forall v, INR k * h <= v <= u -> derivable_pt_lim (fun v => la * dot3 (aim b (z v)) D0) v (la * c' v)).
      { intros v Hv. apply d_lin. destruct (DZ v ltac:(lra)) as (_ & _ & _ & X & _). assert (Y : deriv3 (fun v => aim b (z v)) v (sandwich_opp (v_att (z v)) (cross3 (v_rate (z v)) b))).
        { unfold aim. eapply d3_eq; [apply (d3_sandwich_opp _ (fun _ => b) v zero3 _ X (d3_const b v))|]. cbv beta. f_equal. generalize (cross3 (v_rate (z v)) b). clear. intros [p q r]. vunfoldg. cbn [x3 y3 z3]. rnumg. apply mk3_c; ring. }
        assert (W := dot_const D0 _ v _ Y). unfold c'. assert (SY : forall p q : v3, dot3 p q = dot3 q p) by (clear; intros [p q r] [d e f]; vunfoldg; cbn [x3 y3 z3]; rnumg; ring). rewrite (SY _ D0). assert (FE : (fun v => dot3 (aim b (z v)) D0) = (fun v => dot3 D0 (aim b (z v)))) by (apply FunctionalExtensionality.functional_extensionality; intros ?; apply SY). rewrite FE. exact W. }
      assert (LE := le_of_deriv (fun v => acos (la * dot3 (aim b (z v)) D0) - g v) (fun v => - (la * c' v) / sqrt (1 - la * dot3 (aim b (z v)) D0 * (la * dot3 (aim b (z v)) D0)) - L * (N + (grip s + M) * v)) (INR k * h) u ltac:(lra)). cbv beta in LE.
      enough (Q : acos (la * dot3 (aim b (z u)) D0) - g u <= acos (la * dot3 (aim b (z (INR k * h))) D0) - g (INR k * h)) by lra. apply LE.
      - intros v Hv. destruct (FZ v Hv) as (_ & _ & CZ & _). apply d_minus; [apply (d_acos (fun v => la * dot3 (aim b (z v)) D0)); [nra|apply DC, Hv]|]. unfold g. eapply d_eq; [apply d_lin; apply derivable_pt_lim_plus; [apply d_lin, d_id|apply d_lin; apply d_mult; [apply d_mult; [apply d_id|apply d_id]|apply (d_const (/ 2))]]|]. cbv beta. field.
      - intros v Hv. destruct (FZ v Hv) as (UZ & RZ & CZ & DD). assert (P := P_quat.norm3_pos (v_rate (z v))).
        enough (Q : - (la * c' v) / sqrt (1 - la * dot3 (aim b (z v)) D0 * (la * dot3 (aim b (z v)) D0)) <= norm3 (v_rate (z v))) by lra. apply shrunk_rate; [exact HLA|exact CZ|exact P|].
        (* the cosine's derivative: (Omega x D) . D0 = Omega . (D x D0) *)
        unfold c'. set (Om := sandwich_opp (v_att (z v)) (v_rate (z v))). set (Dv := aim b (z v)) in *.
        assert (E1 : sandwich_opp (v_att (z v)) (cross3 (v_rate (z v)) b) = cross3 Om Dv) by (unfold Om, Dv, aim; symmetry; apply opp_cross, UZ).
        assert (E2 : dot3 (cross3 Om Dv) D0 = dot3 Om (cross3 Dv D0)) by (generalize Om Dv D0; clear; intros [p q r] [d e f] [i j l]; vunfoldg; cbn [x3 y3 z3]; rnumg; ring). rewrite E1, E2.
        assert (NO : norm3 Om = norm3 (v_rate (z v))) by (unfold Om, sandwich_opp; rewrite norm_sand, unit_conj by exact UZ; ring). assert (DN := P_orb3.dot_norm Om (cross3 Dv D0)). rewrite NO in DN.
        assert (CN : norm3 (cross3 Dv D0) * norm3 (cross3 Dv D0) = 1 - dot3 Dv D0 * dot3 Dv D0). { rewrite P_quat.norm3_sq. assert (D1 : dot3 D0 D0 = 1) by (unfold D0; apply UD; lra). assert (LG : dot3 (cross3 Dv D0) (cross3 Dv D0) = dot3 Dv Dv * dot3 D0 D0 - dot3 Dv D0 * dot3 Dv D0) by (generalize Dv D0; clear; intros [p q r] [d e f]; vunfoldg; cbn [x3 y3 z3]; rnumg; ring). rewrite LG, DD, D1. ring. }
        assert (SQ : dot3 Om (cross3 Dv D0) * dot3 Om (cross3 Dv D0) <= (norm3 (v_rate (z v)) * norm3 (cross3 Dv D0)) * (norm3 (v_rate (z v)) * norm3 (cross3 Dv D0))) by (apply Rsqr_le_abs_1; rewrite (Rabs_pos_eq (norm3 (v_rate (z v)) * norm3 (cross3 Dv D0))) by (apply Rmult_le_pos; apply P_quat.norm3_pos); exact DN).
        replace (norm3 (v_rate (z v)) * norm3 (v_rate (z v)) * (1 - dot3 Dv D0 * dot3 Dv D0)) with (norm3 (v_rate (z v)) * norm3 (cross3 Dv D0) * (norm3 (v_rate (z v)) * norm3 (cross3 Dv D0))) by (rewrite <- CN; ring). exact SQ. }
    assert (G1 : 0 <= g t). { destruct (Rle_lt_dec 0 (g t)) as [Z|Z]; [exact Z|]. exfalso. destruct (ALL t Ht) as (_ & _ & _ & _ & X). assert (Y := P_quat.norm3_pos (sub3 (aim b (y t)) D0)). assert (X' : norm3 (sub3 (aim b (y t)) D0) <= g t) by exact X. exact (Rlt_irrefl 0 (Rle_lt_trans _ _ _ (Rle_trans _ _ _ Y X') Z)). }
    assert (X := unshrunk (dot3 (aim b (y t)) D0) (g t) (CB t Ht) ltac:(lra) A). rewrite ED in X. assert (Y := cos_decreasing_1 (g t) th ltac:(lra) ltac:(lra) ltac:(lra) ltac:(lra) K). lra. }
  split; [exact MAIN|]. intros R0 W0. assert (N0 : N = 0).
  { unfold N. rewrite W0, norm_zero3. unfold inertial_momentum, sandwich_opp. rewrite norm_sand, unit_conj by exact U0. unfold body_momentum. change (rw_momentum (s_rw sat) (v_whl (y 0))) with (rw_momentum s (v_whl (y 0))). rewrite R0, W0. replace (add3 (mv (s_total_moment sat) zero3) zero3) with (zero3 (T:=R)) by (generalize (s_total_moment sat); clear; intros [[a b c] [d e f] [g h i]]; vunfoldg; cbn [x3 y3 z3 row1 row2 row3]; rnumg; apply mk3_c; ring). rewrite norm_zero3. ring. }
  unfold g in MAIN. rewrite N0 in MAIN. nra.
Qed.
Print Assumptions C135_angle.

(** ** the bound is attained: four wheels on one axis at their limit, held through SAFE *)
Definition drill : Satellite := mkSat 0 0 0 0.8 2 5 (mkRWS (repeat (mkW (mk3 0 0 1) 1 1) 4) 1 true) (mk3 1 1 1) zero3 false.
Lemma drill_total : s_total_moment drill = diag3 5 5 5.
Proof. unfold s_total_moment, s_reduced_moment, s_wheel_moment, rw_parallel, rw_orthogonal, drill. cbn [s_rw rw_wheels s_reduced s_principal repeat map summ fold_right]. unfold w_par_moment, w_orth_moment, addm, scalem, subm, outer3, id3, diag3. cbn [w_axis w_par w_orth]. vunfoldg. cbn [x3 y3 z3 row1 row2 row3]. rnumg. f_equal; apply mk3_c; ring. Qed.
Lemma drill_wheels s : rw_momentum (s_rw drill) [s; s; s; s] = mk3 0 0 (4 * s).
Proof. unfold rw_momentum, drill. cbn [s_rw rw_wheels repeat zip_with sum3 fold_right]. unfold w_momentum. cbn [w_axis w_par]. vunfoldg. cbn [x3 y3 z3]. rnumg. apply mk3_c; ring. Qed.
Lemma drill_inv v : mv (s_inv_tot drill) v = scale3 (1 / 5) v.
Proof. change (s_inv_tot drill) with (inv3 (s_total_moment drill)). rewrite drill_total. destruct v as [a b c]. unfold inv3, diag3. vunfoldg. cbn [x3 y3 z3 row1 row2 row3]. rnumg. apply mk3_c; field. Qed.
Definition drilling (t : R) : SVec := coast_state (- (4 / 5 * (t * t / 2))) (- (4 / 5) * t) t.
Lemma drill_moves t : deriv_sv drilling t (derivative drill (drilling t) zero3 (add3 zero3 (cross3 zero3 zero3)) (rw_torque (s_rw drill) [1; 1; 1; 1]) (rw_momentum (s_rw drill) (v_whl (drilling t))) [1; 1; 1; 1]).
Proof.
  change (rw_torque (s_rw drill)) with (rw_momentum (s_rw drill)). unfold derivative. cbn [drilling coast_state v_pos v_vel v_att v_rate v_whl]. rewrite !drill_wheels, drill_inv.
  set (th := fun u => - (4 / 5 * (u * u / 2))). assert (H2 : derivable_pt_lim (fun u => th u / 2) t (- (4 / 5) * t / 2)).
  { unfold th. eapply d_eq; [apply d_mult; [apply derivable_pt_lim_opp; apply d_lin; apply d_mult; [apply d_mult; [apply d_id|apply d_id]|apply (d_const (/ 2))]|apply (d_const (/ 2))]|]. cbv beta. field. }
  assert (DC := derivable_pt_lim_comp (fun u => th u / 2) cos t _ _ H2 (derivable_pt_lim_cos (th t / 2))). assert (DSn := derivable_pt_lim_comp (fun u => th u / 2) sin t _ _ H2 (derivable_pt_lim_sin (th t / 2))). unfold comp in DC, DSn.
  split; [exact (d3_const zero3 t)|]. split; [eapply d3_eq; [exact (d3_const zero3 t)|]; vunfoldg; cbn [x3 y3 z3]; rnumg; apply mk3_c; unfold Rdiv; ring|]. split; [|split].
  - unfold derivq. cbn [v_att qw qx qy qz]. unfold product, scaleq. cbn [qw qx qy qz]. rnumg. fold (th t). repeat split.
    + eapply d_eq; [exact DC|]. generalize (sin (th t / 2)) (cos (th t / 2)). clear. intros. replace 0.5 with (/ 2) by lra. unfold pure, vec. vunfoldg. cbn [x3 y3 z3 qw qx qy qz]. rnumg. field.
    + eapply d_eq; [exact (d_const 0 t)|]. generalize (sin (th t / 2)) (cos (th t / 2)). clear. intros. replace 0.5 with (/ 2) by lra. unfold pure, vec. vunfoldg. cbn [x3 y3 z3 qw qx qy qz]. rnumg. field.
    + eapply d_eq; [exact (d_const 0 t)|]. generalize (sin (th t / 2)) (cos (th t / 2)). clear. intros. replace 0.5 with (/ 2) by lra. unfold pure, vec. vunfoldg. cbn [x3 y3 z3 qw qx qy qz]. rnumg. field.
    + eapply d_eq; [exact DSn|]. generalize (sin (th t / 2)) (cos (th t / 2)). clear. intros. replace 0.5 with (/ 2) by lra. unfold pure, vec. vunfoldg. cbn [x3 y3 z3 qw qx qy qz]. rnumg. field.
  - cbn [v_rate]. rewrite drill_total. split; [|split]; cbn [x3 y3 z3].
    + eapply d_eq; [exact (d_const 0 t)|]. clear. vunfoldg; cbn [x3 y3 z3 row1 row2 row3]; rnumg; field.
    + eapply d_eq; [exact (d_const 0 t)|]. clear. vunfoldg; cbn [x3 y3 z3 row1 row2 row3]; rnumg; field.
    + eapply d_eq; [apply d_lin, d_id|]. clear. vunfoldg; cbn [x3 y3 z3 row1 row2 row3]; rnumg; field.
  - cbn [v_whl]. intros i. destruct i as [|[|[|[|i]]]]; cbn [nth]; try exact (d_id t). destruct i; exact (d_const 0 t).
Qed.
Definition drill_mgr : Mgr := mkMgr ex_kf (mag_new drill [] false) (mkWC drill 1 1 (trig_new 1 0.3) true [] None) [1; 2; 3] [1; 1; 1; 1].
Definition drill_run (c : AClock) (k : nat) : Mgr := nat_rect (fun _ => Mgr) drill_mgr (fun _ m => ops [OMission (mkMC2 c (meas_of (drilling 0)) 3 zero3 zero3); OFilter ex_kf] m) k.
(** every hypothesis of C135_angle is met by this run, and its boresight has turned by exactly the bound at every time *)
Theorem C135_sharp : forall c, let sat := drill in let s := s_rw sat in let y := drilling in let m := drill_run c in let b := mk3 1 0 0 in let L := 1 / 5 in let M := 0 in
  det3 (s_total_moment sat) <> 0 /\ unitq (v_att (y 0)) /\ (forall v, norm3 (mv (s_inv_tot sat) v) <= L * norm3 v) /\ unit3 b /\
  s_rw (wc_sat (g_whl (m 0%nat))) = s /\ rw_limited s = true /\ 0 <= rw_maxT s /\ Forall (fun w => w_par w <> 0) (rw_wheels s) /\
  torques_ok s (g_rw_cmd (m 0%nat)) /\ length (g_rw_cmd (m 0%nat)) = 4%nat /\
  (forall k, any_cycle sat [] (fun _ => zero3) (fun _ => zero3) (fun _ => zero3) M y (INR k * 1) (INR (S k) * 1) (m k) (m (S k))) /\
  v_rate (y 0) = zero3 /\ rw_momentum s (v_whl (y 0)) = zero3 /\ grip s = 4 /\
  forall t, dot3 (aim b (y t)) (aim b (y 0)) = cos (L * (grip s + M) * (t * t) / 2).
Proof.
  intros c sat s y m b L M. assert (GR : grip s = 4). { unfold grip, s, sat, drill. cbn [s_rw rw_wheels rw_maxT repeat fold_right w_axis]. assert (E : norm3 (mk3 0 0 1) = 1) by (unfold norm3; vunfoldg; cbn [x3 y3 z3]; rnumg; replace (0 * 0 + 0 * 0 + 1 * 1) with 1 by ring; exact sqrt_1). rewrite E. ring. }
  split; [unfold sat; rewrite drill_total; vunfoldg; cbn [x3 y3 z3 row1 row2 row3]; rnumg; lra|].
  split; [unfold unitq, y, drilling, coast_state; cbn [v_att]; unfold dotq; cbn [qw qx qy qz]; rnumg; match goal with |- context [cos ?u] => assert (X := sin2_cos2 u); unfold Rsqr in X end; lra|].
  split; [intros v; unfold sat; rewrite drill_inv, norm3_scal, Rabs_pos_eq by lra; unfold L; lra|]. split; [unfold unit3, b; vunfoldg; cbn [x3 y3 z3]; rnumg; ring|]. split; [reflexivity|]. split; [reflexivity|]. split; [unfold s, sat, drill; cbn [s_rw rw_maxT]; lra|].
  split; [unfold s, sat, drill; cbn [s_rw rw_wheels repeat]; repeat (apply Forall_cons; [cbn [w_par]; lra|]); apply Forall_nil|].
  split. { intros w x I. unfold s, sat, drill in *. cbn [s_rw rw_wheels repeat rw_maxT] in *. assert (IW := in_combine_l _ _ _ _ I). apply in_combine_r in I. assert (EX : x = 1) by (destruct I as [<-|[<-|[<-|[<-|[]]]]]; reflexivity). assert (EW : w_par w = 1) by (destruct IW as [<-|[<-|[<-|[<-|[]]]]]; reflexivity). rewrite EX, EW, Rabs_pos_eq by lra. lra. }
  split; [reflexivity|]. assert (KP : forall k, g_rw_cmd (m k) = [1; 1; 1; 1]).
  { intros k. induction k as [|k IH]; [reflexivity|]. change (m (S k)) with (ops [OMission (mkMC2 c (meas_of (drilling 0)) 3 zero3 zero3); OFilter ex_kf] (m k)). rewrite (proj2 (idle_hold _ (m k) (Forall_cons (P := idle) (OMission (mkMC2 c (meas_of (drilling 0)) 3 zero3 zero3)) ltac:(unfold idle, unhandled; cbn; lia) (Forall_cons (P := idle) (OFilter ex_kf) I (Forall_nil _))))). exact IH. }
  split. { intros k. exists [OMission (mkMC2 c (meas_of (drilling 0)) 3 zero3 zero3); OFilter ex_kf], zero3, drilling, (INR k * 1 - 1), (INR (S k) * 1 + 1).
    split; [apply Forall_cons; [cbn; discriminate|apply Forall_cons; [exact I|apply Forall_nil]]|]. split; [reflexivity|]. split; [reflexivity|]. split; [lra|]. split; [lra|]. split; [reflexivity|]. intros t _. rewrite (KP (S k)). split; [|apply drill_moves].
    right. replace (add3 (zero3 (T:=R)) (cross3 zero3 zero3)) with (zero3 (T:=R)) by (vunfoldg; cbn [x3 y3 z3]; rnumg; apply mk3_c; ring). apply norm_zero3. }
  split; [unfold y, drilling, coast_state; cbn [v_rate]; vunfoldg; rnumg; apply mk3_c; ring|]. split; [unfold y, drilling, coast_state, s, sat; cbn [v_whl]; rewrite drill_wheels; vunfoldg; rnumg; apply mk3_c; ring|]. split; [exact GR|].
  intros t. rewrite GR. unfold L, M, aim, y, drilling, coast_state, b. cbn [v_att]. replace (- (4 / 5 * (0 * 0 / 2)) / 2) with 0 by field. rewrite cos_0, sin_0. set (x := - (4 / 5 * (t * t / 2)) / 2). replace (1 / 5 * (4 + 0) * (t * t) / 2) with (- (2 * x)) by (unfold x; field). rewrite cos_neg, cos_2a. generalize (cos x) (sin x). clear. intros p q. unfold sandwich_opp, sandwich, conjugate, product, pure, vec. vunfoldg. cbn [x3 y3 z3 qw qx qy qz]. rnumg. ring.
Qed.
Print Assumptions C135_sharp.
