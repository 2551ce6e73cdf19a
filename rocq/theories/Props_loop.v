(** * C111: every start has exactly one closed-loop motion *)
From Coq Require Import Reals ZArith List Bool Arith Lra Psatz Lia.
From Coquelicot Require Import Coquelicot.
From Verif Require Import Num Vec M_vector M_quaternion M_jday M_struct M_env M_dyn M_ctrl S_rot S_dyn S_ctrl P_rk P_rk4 P_exist1 P_exist2 P_loop1.
From Verif Require Import P_quat P_wheel P_dyn P_dyn2 P_obs P_sat P_ctrl P_ctrl2 P_ctrl3 P_ctrl4 P_ctrl5 P_conv P_detum P_detum2 Props_ctrl Props_ctrl2 Props_ctrl3 Props_conv Props_detum P_dump P_dump2 Props_dump P_loop2 P_loop3 P_loop4 P_loop5.
Import ListNotations.
Local Open Scope R_scope.

(** a controller with three independent unlimited wheels, no forbidden zone and an invertible inertia, and a state of motion it can catch:
    unit attitude, a speed for every wheel, attitude and rate error below the level of C85 and C110 *)
Definition ready (w : WhlCtl) (f : v3 -> v3) (qc : quat) (wc : v3) (v0 : SVec) : Prop :=
  0 < wc_alpha w /\ 0 < wc_gamma w /\ 0 < tr_hw (wc_trig w) < 1 /\ pm1 (tr_mem (wc_trig w)) /\ wc_sun w = Some f /\ zone_free w /\
  spanning (s_rw (wc_sat w)) /\ rw_limited (s_rw (wc_sat w)) = false /\ det3 (s_total_moment (wc_sat w)) <> 0 /\
  unitq (v_att v0) /\ (length (rw_wheels (s_rw (wc_sat w))) <= length (v_whl v0))%nat /\
  wc_alpha w * off_target (tr_mem (wc_trig w)) qc v0 + dot3 (slip qc wc v0) (slip qc wc v0) / 2 < 2 * wc_alpha w * (1 + tr_hw (wc_trig w)).

(** ** tracking a fixed attitude is following it without torquers *)
Lemma zero_moment hr sat (B : R -> v3) y t : moment 0 hr sat B y t = zero3.
Proof. unfold moment, mag_moment_cmd. generalize (seen B y t) (sub3 (held sat (y t)) hr). clear. intros [a b c] [d e f]. vunfoldg. rnumg. apply mk3_c; unfold Rdiv; ring. Qed.
Lemma cross_zero_r (v : v3) : cross3 v zero3 = zero3. Proof. revert v. vring. Qed.
Lemma cross_zero_l (v : v3) : cross3 zero3 v = zero3. Proof. revert v. vring. Qed.
Lemma obeys_follows w B qc F hr y t : obeys w qc F y t <-> follows w (moment 0 hr (wc_sat w) B y) B (fun _ => qc) zero3 F y t.
Proof.
  unfold obeys, follows. rewrite zero_moment, cross_zero_r, cross_zero_l. split; intros (w' & u & acc & TR & US & TD & D); exists w', u, acc.
  - rewrite add3_0_r. split; [exact TR|]. split; [exact US|]. split; [|exact D]. unfold track_and_desaturate. cbn [cs_v cs_mag]. rewrite TR. cbn [rbind]. rewrite cross_zero_r, add3_0_r. rewrite TD. reflexivity.
  - rewrite add3_0_r in US. split; [exact TR|]. split; [exact US|]. split; [|exact D]. unfold track_and_desaturate in TD. cbn [cs_v cs_mag] in TD. rewrite TR in TD. cbn [rbind] in TD. rewrite cross_zero_r, add3_0_r in TD. destruct (whl_actuator_commands w' u) as [x|]; cbn [rbind] in TD; [congruence|discriminate].
Qed.
Lemma steady_const qc : unitq qc -> steady (fun _ => qc) zero3.
Proof.
  intros U t. split; [exact U|]. replace (scaleq 0.5 (product qc (pure zero3))) with (mkq 0 0 0 0 : quat); [split; [|split; [|split]]; apply derivable_pt_lim_const|]. destruct qc as [a b c d]. unfold product, pure. vunfoldg. rnumg. apply mkq_c; ring.
Qed.
Lemma slip_zero qc v : slip qc zero3 v = v_rate v.
Proof. unfold slip. rewrite opp_zero, sandwich_0. apply sub3_0_r. Qed.
(** every attitude and rate within C85's range, whatever the wheels' speeds, the position, the velocity and the (continuous) force, has a motion
    under the tracking law from just before time 0 on for ever, and only one from time 0 on; it is the one C85 shows to converge *)
Theorem C111_tracking : forall al ga hw, 0 < al -> 0 < ga -> 0 < hw < 1 -> exists lam, 0 < lam /\
  forall w f qc F v0, wc_alpha w = al -> wc_gamma w = ga -> tr_hw (wc_trig w) = hw -> ready w f qc zero3 v0 -> unitq qc -> cont3 F ->
  exists y a, a < 0 /\ y 0 = v0 /\ (forall t, a < t -> obeys w qc F y t) /\
    (forall t, 0 <= t -> let s := tr_mem (wc_trig w) in 2 * al * off_target s qc (y t) + rate2 (y t) <= (6 * al * off_target s qc v0 + 4 * rate2 v0) * exp (- lam * t)) /\
    forall y' a', a' < 0 -> same v0 (y' 0) -> (forall t, a' < t -> obeys w qc F y' t) -> forall t, 0 <= t -> same (y t) (y' t).
Proof.
  intros al ga hw A0 G0 HW0. destruct (C85_converges al ga hw A0 G0 HW0) as (lam & L & C). exists lam. split; [exact L|]. intros w f qc F v0 EA EG EH (A & G & HW & PM & HS & HZ & SP & NL & DJ & U0 & LW & HE) UC CF.
  set (B := fun _ : R => ex). assert (NB : forall t, B t <> zero3) by (intros t E; unfold B, ex in E; injection E as E; revert E; rnumg; lra).
  assert (SB : swings B). { split; [exact NB|]. exists 0. split; [lra|]. intros s t. unfold B. right. unfold n1. generalize (normalize3 ex). clear. intros [a b c]. vunfoldg. rnumg. rewrite !Rminus_diag_eq, Rabs_R0 by reflexivity. ring. }
  destruct (loop_exists w f 0 zero3 B (fun _ => qc) zero3 F v0 A G HW PM HS HZ SP NL DJ (Rle_refl 0) SB (steady_const qc UC) (cross_zero_l _) CF U0 LW HE) as (y & a & HA & Y0 & _ & FO).
  exists y, a. split; [exact HA|]. split; [exact Y0|]. assert (OB : forall t, a < t -> obeys w qc F y t) by (intros t Ht; apply (obeys_follows w B qc F zero3), FO, Ht). split; [exact OB|].
  split.
  - intros t Ht s. rewrite slip_zero in HE. rewrite <- Y0 in HE, U0. assert (Z := C w f qc F y a EA EG EH PM HS HZ SP DJ UC U0 HA OB). cbv zeta in Z. rewrite EA, EH in HE. destruct (Z HE t Ht) as (_ & Z'). rewrite Y0 in Z'. exact Z'.
  - intros y' a' HA' SM OB' t Ht. rewrite <- Y0 in SM, HE, U0. refine (loop_unique w f 0 zero3 B (fun _ => qc) zero3 F y y' a a' A G HW PM HS HZ SP DJ (Rle_refl 0) NB (steady_const qc UC) U0 HE HA HA' FO _ SM t Ht). intros s Hs. apply obeys_follows, OB', Hs.
Qed.
Print Assumptions C111_tracking.

(** ** the standby roll and momentum dumping *)
Lemma follows_ext w m m' B qc wc F y t : m t = m' t -> follows w m B qc wc F y t -> follows w m' B qc wc F y t.
Proof. unfold follows. intros ->. exact (fun H => H). Qed.
Lemma dumping_moment w c ref hr B m y : s_rw (mc_sat c) = s_rw (wc_sat w) -> rw_momentum_r (s_rw (wc_sat w)) ref = Ok hr -> dumping c ref B m y -> forall t, m t = moment K_BBQ hr (wc_sat w) B y t.
Proof.
  intros ES ER D t. destruct (D t) as (T & DT & EM). unfold desaturate_torque in DT. rewrite ES, ER in DT. cbn [cs_v] in DT. unfold rw_momentum_r in DT at 1. destruct (Nat.ltb _ _); [discriminate|]. cbn [rbind] in DT.
  rewrite EM. unfold moment. f_equal. unfold held. congruence.
Qed.
(** a reference turning steadily about an axis along which its own momentum lies (as the standby roll's does), a field whose direction turns at a
    bounded rate: every start has one motion under track_and_desaturate with the moment that desaturate asks for *)
Theorem C111_standby : forall w c f ref hr B qc wc F v0, ready w f (qc 0) wc v0 -> s_rw (mc_sat c) = s_rw (wc_sat w) -> rw_momentum_r (s_rw (wc_sat w)) ref = Ok hr ->
  swings B -> steady qc wc -> cross3 wc (add3 (mv (s_total_moment (wc_sat w)) wc) hr) = zero3 -> cont3 F ->
  exists y m a, y 0 = v0 /\ standby w c f ref hr m B qc wc F y a /\
    forall y' m' a', same v0 (y' 0) -> standby w c f ref hr m' B qc wc F y' a' -> forall t, 0 <= t -> same (y t) (y' t) /\ m t = m' t.
Proof.
  intros w c f ref hr B qc wc F v0 (A & G & HW & PM & HS & HZ & SP & NL & DJ & U0 & LW & HE) ES ER SB ST XK CF. assert (kp := K_pos). assert (KP : 0 <= K_BBQ) by lra. assert (NB := proj1 SB).
  destruct (loop_exists w f K_BBQ hr B qc wc F v0 A G HW PM HS HZ SP NL DJ KP SB ST XK CF U0 LW HE) as (y & a & HA & Y0 & LY & FO).
  exists y, (moment K_BBQ hr (wc_sat w) B y), a. split; [exact Y0|]. rewrite <- Y0 in U0, HE. split.
  - unfold standby. repeat (split; [assumption|]). split; [|exact HE]. intros t. exists (scale3 (- K_BBQ) (sub3 (held (wc_sat w) (y t)) hr)). split; [|reflexivity].
    unfold desaturate_torque. rewrite ES, ER. cbn [cs_v]. unfold rw_momentum_r. rewrite LY. rewrite (proj2 (Nat.ltb_ge _ _) LW). reflexivity.
  - intros y' m' a' SM (_ & _ & _ & _ & _ & _ & _ & _ & _ & _ & _ & HA' & FO' & DM' & _) t Ht. assert (EM := dumping_moment w c ref hr B m' y' ES ER DM'). rewrite <- Y0 in SM.
    assert (SAME : forall t, 0 <= t -> same (y t) (y' t)). { refine (loop_unique w f K_BBQ hr B qc wc F y y' a a' A G HW PM HS HZ SP DJ KP NB ST U0 HE HA HA' FO _ SM). intros s Hs. exact (follows_ext w m' _ B qc wc F y' s (EM s) (FO' s Hs)). }
    destruct (SAME t Ht) as (E1 & E2 & E3 & E4 & E5). split; [exact (SAME t Ht)|]. rewrite EM.
    assert (EH : held (wc_sat w) (y t) = held (wc_sat w) (y' t)); [|unfold moment, seen; rewrite E3, EH; reflexivity].
    unfold held, rw_momentum. rewrite !zip_msum by exact w_momentum_0. generalize 0%nat. clear - E5. induction (rw_wheels (s_rw (wc_sat w))) as [|x xs IH]; intros i; cbn [msum]; [reflexivity|]. rewrite IH, E5. reflexivity.
Qed.
Print Assumptions C111_standby.
(** so for the mission's standby roll in a periodic field that does not keep to one line, every start that tracking can catch has one motion, the
    code's command is defined along it, and along it the wheels are emptied (C110_bbq says this of motions that exist) *)
Theorem C111_bbq : forall w c f B clock F v0 P t1 t2 j, ready w f (ecliptic_attitude (clock 0) true) BBQ v0 -> s_rw (mc_sat c) = s_rw (wc_sat w) -> (length (rw_wheels (s_rw (wc_sat w))) <= 4)%nat ->
  field B -> swings B -> 0 < P -> (forall t, B (t + P) = B t) -> cross3 (B t1) (B t2) <> zero3 ->
  (forall u, clk_absolute (clock u) = u) -> mv (s_total_moment (wc_sat w)) ez = scale3 j ez -> cont3 F ->
  exists y m a, y 0 = v0 /\ standby w c f [0; 0; 0; 0] zero3 m B (fun t => ecliptic_attitude (clock t) true) BBQ F y a /\
    (forall t, a < t -> exists acc, induce_bbq_roll_attitude w (clock t) (mkCS (y t) (seen B y t)) (m t) = Ok acc) /\
    is_lim (fun t => norm3 (held (wc_sat w) (y t))) p_infty 0 /\
    forall y' m' a', same v0 (y' 0) -> standby w c f [0; 0; 0; 0] zero3 m' B (fun t => ecliptic_attitude (clock t) true) BBQ F y' a' -> forall t, 0 <= t -> same (y t) (y' t) /\ m t = m' t.
Proof.
  intros w c f B clock F v0 P t1 t2 j RD ES L4 FB SB Pp PB X CK PR CF.
  assert (SQ : steady (fun t => ecliptic_attitude (clock t) true) BBQ) by (intros t; split; [apply C56_unit|rewrite BBQ_eq; apply (C56_rate clock t CK)]).
  assert (XK : cross3 BBQ (add3 (mv (s_total_moment (wc_sat w)) BBQ) zero3) = zero3).
  { assert (EB : BBQ = scale3 (4 * 0.00733) ez) by (rewrite BBQ_eq; unfold ez; vunfoldg; cbn [x3 y3 z3]; rnumg; apply mk3_c; lra). rewrite EB, mv_scale3, PR. generalize (4 * 0.00733). clear. intros b. unfold ez. vunfoldg. cbn [x3 y3 z3]. rnumg. apply mk3_c; ring. }
  assert (ER : rw_momentum_r (s_rw (wc_sat w)) [0; 0; 0; 0] = Ok zero3).
  { unfold rw_momentum_r. cbn [length]. rewrite (proj2 (Nat.ltb_ge _ _) L4). f_equal. unfold rw_momentum. rewrite zip_msum by exact w_momentum_0.
    assert (Z : forall k ws, msum w_momentum ws k [0; 0; 0; 0] = zero3); [|apply Z]. intros k ws. revert k. induction ws as [|x xs IH]; intros k; cbn [msum]; [reflexivity|]. rewrite IH. replace (nth k [0; 0; 0; 0] 0) with 0 by (do 4 (destruct k as [|k]; [reflexivity|]); destruct k; reflexivity). rewrite w_momentum_0. apply add3_0_r. }
  destruct (C111_standby w c f [0; 0; 0; 0] zero3 B (fun t => ecliptic_attitude (clock t) true) BBQ F v0 RD ES ER SB SQ XK CF) as (y & m & a & Y0 & SB' & UN).
  destruct (C110_bbq w c f m B clock F y a P t1 t2 j FB Pp PB X CK PR SB') as (AC & LM). exists y, m, a. split; [exact Y0|]. split; [exact SB'|]. split; [exact AC|]. split; [exact LM|exact UN].
Qed.
Print Assumptions C111_bbq.

(** ** detumbling *)
(** every tumbling start, however fast, has one motion under the detumbling law, for ever; if the field is periodic and does not keep to one line
    the satellite comes to rest along it *)
Theorem C111_detumble : forall sat B F v0, det3 (s_total_moment sat) <> 0 -> swings B -> cont3 F -> unitq (v_att v0) ->
  exists y, y 0 = v0 /\ detumbled sat B F (fun _ => []) y /\
    (forall P t1 t2, field B -> 0 < P -> (forall t, B (t + P) = B t) -> cross3 (B t1) (B t2) <> zero3 -> is_lim (fun t => norm3 (v_rate (y t))) p_infty 0) /\
    forall y', same v0 (y' 0) -> detumbled sat B F (fun _ => []) y' -> forall t, 0 <= t -> same (y t) (y' t).
Proof.
  intros sat B F v0 DJ SB CF U0. destruct (tumble_exists sat B F v0 DJ SB CF U0) as (y & Y0 & M). exists y. split; [exact Y0|]. split; [exact M|]. split.
  - intros P t1 t2 FB Pp PB X. exact (C105_periodic sat B F _ y P t1 t2 DJ FB Pp PB X M).
  - intros y' SM M'. rewrite <- Y0 in SM. exact (tumble_unique sat B F _ y y' DJ (proj1 SB) M M' SM).
Qed.
Print Assumptions C111_detumble.

(** ** the hypotheses are met by a turn about no fixed axis, with spinning wheels, and by a field turning in a plane *)
Definition skew : quat := mkq (4 / 5) (2 / 5) (2 / 5) (1 / 5).
Definition turning (t : R) : v3 := mk3 0 (cos t) (sin t).
Lemma skew_unit : unitq skew. Proof. unfold unitq, skew. vunfoldg. rnumg. field. Qed.
Lemma turning_swings : swings turning.
Proof.
  split; [intros t; apply turned_field|]. exists 2. split; [lra|]. intros s t.
  assert (N : forall u, normalize3 (turning u) = turning u).
  { intros u. assert (X := sin2_cos2 u). unfold Rsqr in X. unfold normalize3, norm3, turning. assert (E : dot3 (mk3 0 (cos u) (sin u)) (mk3 0 (cos u) (sin u)) = 1) by (vunfoldg; rnumg; lra). rewrite E. vunfoldg. rnumg. rewrite sqrt_1. destruct (Reqb 1 0); apply mk3_c; field. }
  rewrite !N. unfold n1, turning. vunfoldg. cbn [x3 y3 z3]. rnumg. rewrite Rminus_diag_eq, Rabs_R0 by reflexivity.
  assert (G : forall g g', (forall x, derivable_pt_lim g x (g' x)) -> (forall x, Rabs (g' x) <= 1) -> Rabs (g s - g t) <= Rabs (s - t)).
  { intros g g' D HB. assert (K : forall u v, u < v -> Rabs (g v - g u) <= Rabs (v - u)). { intros u v L. destruct (MVT_cor2 g g' u v L (fun c _ => D c)) as (c & E & _). rewrite E, Rabs_mult. rewrite <- (Rmult_1_l (Rabs (v - u))) at 2. apply Rmult_le_compat_r; [apply Rabs_pos|apply HB]. }
    destruct (Rtotal_order s t) as [Q|[->|Q]]; [rewrite Rabs_minus_sym, (Rabs_minus_sym s); exact (K s t Q)|right; rewrite !Rminus_diag_eq by reflexivity; reflexivity|exact (K t s Q)]. }
  assert (G1 := G cos (fun x => - sin x) derivable_pt_lim_cos ltac:(intros x; assert (Z := SIN_bound x); apply Rabs_le; lra)). assert (G2 := G sin cos derivable_pt_lim_sin ltac:(intros x; assert (Z := COS_bound x); apply Rabs_le; lra)). lra.
Qed.
Lemma turning_field : field turning /\ (forall t, turning (t + 2 * PI) = turning t) /\ cross3 (turning 0) (turning (PI / 2)) <> zero3.
Proof. destruct C105_ex as (_ & FB & PB & X & _). exact (conj FB (conj PB X)). Qed.
Lemma free_ball_det : det3 (s_total_moment free_ball) <> 0. Proof. exact ball_det. Qed.
Example C111_ex :
  ready axis_ctl (fun _ => ex) q1 zero3 (mkSV (mk3 7 0 0) (mk3 0 8 0) skew (mk3 0.01 (-0.02) 0.03) [1; 2; 3]) /\ unitq q1 /\ cont3 turning /\
  ready axis_ctl (fun _ => ex) (ecliptic_attitude (running 0) true) BBQ (mkSV (mk3 7 0 0) (mk3 0 8 0) (product (rolled 0) skew) zero3 [1; 2; 3]) /\
  s_rw (mc_sat dump_ctl) = s_rw (wc_sat axis_ctl) /\ (length (rw_wheels (s_rw (wc_sat axis_ctl))) <= 4)%nat /\ (forall u, clk_absolute (running u) = u) /\ mv (s_total_moment (wc_sat axis_ctl)) ez = scale3 4 ez /\
  swings turning /\ field turning /\ (forall t, turning (t + 2 * PI) = turning t) /\ cross3 (turning 0) (turning (PI / 2)) <> zero3 /\ det3 (s_total_moment ball) <> 0 /\ unitq skew.
Proof.
  assert (UQ : unitq q1) by (unfold unitq, q1; vunfoldg; rnumg; ring). assert (UR := rolled_unit 0). assert (US := skew_unit).
  assert (CT : cont3 turning) by (destruct turning_field as ((_ & C) & _); exact C).
  assert (HZ : zone_free axis_ctl) by (right; reflexivity).
  assert (PM : pm1 (tr_mem (wc_trig axis_ctl))) by (left; reflexivity).
  split; [|split; [exact UQ|split; [exact CT|split]]].
  - unfold ready. cbn [axis_ctl wc_alpha wc_gamma wc_trig tr_hw wc_sun wc_sat v_att v_whl]. split; [lra|]. split; [lra|]. split; [lra|]. split; [exact PM|]. split; [reflexivity|]. split; [exact HZ|]. split; [exact free_ball_spanning|]. split; [reflexivity|]. split; [exact free_ball_det|]. split; [exact US|]. split; [cbn; lia|].
    rewrite slip_zero. cbn [tr_mem]. rewrite off_eq by (exact US || exact UQ || ring). cbn [v_att v_rate]. assert (E : qw (error_quat skew q1) = 4 / 5) by (unfold skew, q1, error_quat, conjugate, product; vunfoldg; rnumg; field). rewrite E. vunfoldg. rnumg. lra.
  - unfold ready. cbn [axis_ctl wc_alpha wc_gamma wc_trig tr_hw wc_sun wc_sat v_att v_whl]. assert (UP : unitq (product (rolled 0) skew)) by (apply product_unit; assumption). split; [lra|]. split; [lra|]. split; [lra|]. split; [exact PM|]. split; [reflexivity|]. split; [exact HZ|]. split; [exact free_ball_spanning|]. split; [reflexivity|]. split; [exact free_ball_det|]. split; [exact UP|]. split; [cbn; lia|].
    cbn [tr_mem]. change (ecliptic_attitude (running 0) true) with (rolled 0). rewrite off_eq by (exact UP || exact UR || ring). cbn [v_att]. rewrite error_of_product by exact UR.
    assert (E : dot3 (slip (rolled 0) BBQ (mkSV (mk3 7 0 0) (mk3 0 8 0) (product (rolled 0) skew) zero3 [1; 2; 3])) (slip (rolled 0) BBQ (mkSV (mk3 7 0 0) (mk3 0 8 0) (product (rolled 0) skew) zero3 [1; 2; 3])) = 0.02932 * 0.02932).
    { unfold slip. cbn [v_rate v_att]. set (v := sandwich _ _). assert (N : dot3 (sub3 zero3 v) (sub3 zero3 v) = dot3 v v) by (generalize v; clear; intros [a b c]; vunfoldg; rnumg; ring). rewrite N. unfold v. destruct (sandwich_rigid (product (rolled 0) skew) UP) as (R1 & _). rewrite R1. destruct (sandwich_opp_rigid (rolled 0) UR) as (R2 & _). rewrite R2, BBQ_eq. vunfoldg. rnumg. lra. }
    rewrite E. unfold skew. cbn [qw]. lra.
  - split; [reflexivity|]. split; [cbn; lia|]. split; [reflexivity|]. split; [destruct C110_ex as (_ & _ & _ & _ & Z & _); exact Z|]. split; [exact turning_swings|]. destruct turning_field as (T1 & T2 & T3). split; [exact T1|]. split; [exact T2|]. split; [exact T3|]. split; [exact ball_det|exact US].
Qed.
