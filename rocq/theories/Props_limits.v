(** * C133: the limits of the actuators over every history of the daemon's object *)
From Coq Require Import Reals ZArith List Bool Lra Lia Psatz.
From Verif Require Import Num Vec M_vector M_quaternion M_jday M_struct M_dyn M_obs M_ctrl M_fsm M_mgr.
From Verif Require Import P_vec2 P_sat P_wheel P_dyn P_dyn2 P_ctrl P_ctrl2 P_jdayf P_mgr Props_struct Props_mgr.
Import ListNotations.
Local Open Scope R_scope.

(** what can happen to the object: mission_input, sensor_input (each may raise half way and leave the object partly changed), or any change of the filters *)
Inductive Op := OMission (c : MissionCall) | OSensors (h : store) (d : option (v3 * v3 * quat)) | OFilter (f : KF).
Definition op_run (m : Mgr) (o : Op) : Mgr :=
  match o with
  | OMission c => fst (mission_input (mc_clock c) (mc_meas c) (mc_id c) (mc_bore c) (mc_target c) m)
  | OSensors h d => fst (sensor_input h d m)
  | OFilter f => mkMgr f (g_mag m) (g_whl m) (g_mag_cmd m) (g_rw_cmd m)
  end.
Definition ops (l : list Op) (m : Mgr) : Mgr := fold_left op_run l m.
(** no wheel is asked for more torque than its limit *)
Definition torques_ok (s : RWS) (acc : list R) : Prop := forall w x, In (w, x) (combine (rw_wheels s) acc) -> Rabs (w_par w * x) <= rw_maxT s.
(** no current is beyond the torquer's limit *)
Definition amps_ok (ts : list (Torquer R)) (cur : list R) : Prop := forall t i, In (t, i) (combine ts cur) -> Rabs i <= t_maxA t.
(** the wheels turn slowly enough for SPINDOWN: stopping any of them within a second takes no more than the limit *)
Definition slow (s : RWS) (whl : list R) : Prop := forall w x, In w (rw_wheels s) -> In x whl -> Rabs (w_par w) * Rabs x <= rw_maxT s.
Definition spins_slowly (s : RWS) (o : Op) : Prop := match o with OMission c => mc_id c = st_value Spindown -> slow s (v_whl (cs_v (mc_meas c))) | _ => True end.

Lemma trk_sat w v rc rcd qc w' u : tracking w v rc rcd qc = Ok (w', u) -> wc_sat w' = wc_sat w.
Proof.
  intros TR. unfold tracking in TR. destruct (objects _ _); [|discriminate]. cbn [rbind] in TR. destruct (rw_momentum_r _ (v_whl _)); [|discriminate]. cbn [rbind] in TR.
  match type of TR with rbind ?A _ = _ => destruct A as [[tr z]|] end; [|discriminate]. cbn [rbind] in TR. injection TR as <- _. reflexivity.
Qed.
Lemma acc_ok s T a : rw_limited s = true -> 0 <= rw_maxT s -> Forall (fun w => w_par w <> 0) (rw_wheels s) -> rw_accelerations s T = Ok a -> torques_ok s a /\ length a = length (rw_wheels s).
Proof.
  intros HL HM HP E. unfold rw_accelerations in E. rewrite HL in E. set (tau := rw_distribute s T) in *. assert (L : length tau = length (rw_wheels s)) by (unfold tau, rw_distribute; apply map_length).
  assert (NE : tau <> []) by (intros Z; rewrite Z in E; discriminate). destruct (saturation_ok tau (rw_maxT s) NE HM) as (y & EY & B & k & _ & Ky & _). rewrite EY in E. cbn [rbind] in E. assert (EA : zip_with w_acceleration (rw_wheels s) y = a) by congruence. rewrite <- EA.
  assert (LY : length y = length (rw_wheels s)) by (rewrite Ky, map_length; exact L). split; [|apply zip_with_length; symmetry; exact LY].
  intros w x H. apply B. clear -HP LY H. revert y LY HP H. generalize (rw_wheels s). intros ws. induction ws as [|w' ws IH]; intros [|t y] LY HP H; try discriminate; [destruct H|].
  inversion HP as [|? ? P1 P2]; subst. destruct H as [H|H]; [injection H as <- <-; left; unfold w_acceleration; field; exact P1|right; apply IH; auto].
Qed.
Lemma zeros_ok s n : 0 <= rw_maxT s -> torques_ok s (M_mgr.zeros n).
Proof. intros HM w x H. apply in_combine_r in H. apply repeat_spec in H. subst x. rewrite Rmult_0_r, Rabs_R0. exact HM. Qed.
Lemma mult_lt1 : 0 < MULT <= 1.
Proof. assert (P := pi_bounds). split; [apply MULT_range|]. unfold MULT, K_BBQ. lra. Qed.
Lemma spin_ok s whl a : slow s whl -> 0 <= rw_maxT s -> spindown_cmd whl = Ok a -> torques_ok s a /\ length a = 4%nat.
Proof.
  intros SL HM E. assert (M := mult_lt1). destruct whl as [|p [|q [|r [|t [|? ?]]]]]; try discriminate. destruct (spindown_cases p q r t) as (C1 & C2 & C3). set (k := along p q r t) in *.
  assert (SW : forall w, In w (rw_wheels s) -> Rabs (w_par w) * Rabs p <= rw_maxT s /\ Rabs (w_par w) * Rabs q <= rw_maxT s /\ Rabs (w_par w) * Rabs r <= rw_maxT s /\ Rabs (w_par w) * Rabs t <= rw_maxT s) by (intros w I; repeat split; apply (SL w); try exact I; cbn [In]; tauto).
  destruct (Rle_dec 0.00001 (Rabs k)) as [K|K]; [|apply Rnot_le_lt in K; destruct (Rle_dec 0.01 (norml [p; q; r; t])) as [N|N]].
  - rewrite (C1 K) in E. assert (EA : [k / 2; - k / 2; k / 2; - k / 2] = a) by congruence. rewrite <- EA. split; [|reflexivity]. intros w x H. assert (IW := in_combine_l _ _ _ _ H). apply in_combine_r in H. destruct (SW w IW) as (S1 & S2 & S3 & S4).
    assert (AX : Rabs x = Rabs k / 2) by (destruct H as [<-|[<-|[<-|[<-|[]]]]]; unfold Rdiv; rewrite Rabs_mult, ?Rabs_Ropp, (Rabs_right (/ 2)) by lra; reflexivity).
    assert (AK : Rabs k <= (Rabs p + Rabs q + Rabs r + Rabs t) / 2). { unfold k, along. assert (P1 := Rle_abs p). assert (P2 := Rle_abs (- p)). assert (Q1 := Rle_abs q). assert (Q2 := Rle_abs (- q)). assert (R1 := Rle_abs r). assert (R2 := Rle_abs (- r)). assert (T1 := Rle_abs t). assert (T2 := Rle_abs (- t)). rewrite Rabs_Ropp in P2, Q2, R2, T2. apply Rabs_le. lra. }
    rewrite Rabs_mult, AX. assert (WP := Rabs_pos (w_par w)). assert (Rabs (w_par w) * Rabs k <= Rabs (w_par w) * ((Rabs p + Rabs q + Rabs r + Rabs t) / 2)) by (apply Rmult_le_compat_l; assumption). lra.
  - rewrite (C3 K N) in E. assert (EA : [- p * MULT; - q * MULT; - r * MULT; - t * MULT] = a) by congruence. rewrite <- EA. split; [|reflexivity]. intros w x H. assert (IW := in_combine_l _ _ _ _ H). apply in_combine_r in H. destruct (SW w IW) as (S1 & S2 & S3 & S4). assert (WP := Rabs_pos (w_par w)).
    assert (Z : forall v, Rabs (w_par w) * Rabs v <= rw_maxT s -> Rabs (w_par w * (- v * MULT)) <= rw_maxT s). { intros v Hv. rewrite !Rabs_mult, Rabs_Ropp, (Rabs_right MULT) by lra. assert (0 <= Rabs (w_par w) * Rabs v) by (apply Rmult_le_pos; [exact WP|apply Rabs_pos]). nra. }
    destruct H as [<-|[<-|[<-|[<-|[]]]]]; apply Z; assumption.
  - apply Rnot_le_lt in N. rewrite (C2 K N) in E. assert (EA : M_mgr.zeros 4 = a) by (change (M_mgr.zeros 4) with [0; 0; 0; 0]; congruence). rewrite <- EA. split; [apply zeros_ok, HM|reflexivity].
Qed.

(** one operation keeps the satellite the wheel controller works for, and commands within the limits *)
Lemma op_wheels s m o : s_rw (wc_sat (g_whl m)) = s -> rw_limited s = true -> 0 <= rw_maxT s -> Forall (fun w => w_par w <> 0) (rw_wheels s) -> spins_slowly s o ->
  let lens := fun n => n = 4%nat \/ n = length (rw_wheels s) in torques_ok s (g_rw_cmd m) /\ lens (length (g_rw_cmd m)) ->
  s_rw (wc_sat (g_whl (op_run m o))) = s /\ torques_ok s (g_rw_cmd (op_run m o)) /\ lens (length (g_rw_cmd (op_run m o))).
Proof.
  intros HS HL HM HP SL lens (T0 & L0). assert (Z4 : torques_ok s (M_mgr.zeros 4) /\ lens (length (M_mgr.zeros 4))) by (split; [apply zeros_ok, HM|left; reflexivity]).
  destruct o as [c|h d|f]; [|unfold op_run, sensor_input; destruct d as [[[x v] q]|]; [destruct (kf_update h x v q (g_filter m)) as [f e]|]; cbn [fst g_whl g_rw_cmd]; auto|cbn [op_run g_whl g_rw_cmd]; auto].
  cbn [op_run]. unfold mission_input. cbn [kf_output]. unfold mission_commands. set (x := mkCS _ _). set (m0 := mkMgr _ _ _ _ _).
  assert (K : s_rw (wc_sat (g_whl m0)) = s /\ torques_ok s (g_rw_cmd m0) /\ lens (length (g_rw_cmd m0))) by (split; [exact HS|split; [exact T0|exact L0]]).
  destruct (Z.eqb (mc_id c) (st_value Sleep) || Z.eqb (mc_id c) (st_value Failed))%bool; [cbn [fst set_cmds g_whl g_rw_cmd]; split; [exact HS|exact Z4]|].
  destruct (Z.eqb (mc_id c) (st_value Detumble)). { destruct (detumble (g_mag m0) x) as [[c' cur]|e]; [cbn [fst g_whl g_rw_cmd]; split; [exact HS|exact Z4]|exact K]. }
  destruct (Z.eqb (mc_id c) (st_value Point)).
  { destruct (point_and_stare (g_whl m0) x (mc_bore c) (mc_target c)) as [[w a]|e] eqn:PS; [|exact K]. cbn [fst g_whl g_rw_cmd]. unfold point_and_stare in PS. cbv zeta in PS. destruct (tracking (g_whl m0) (cs_v x) _ _ _) as [[w1 u]|e] eqn:TR; [|discriminate]. cbn [rbind] in PS.
    destruct (whl_actuator_commands w1 u) as [a'|e] eqn:WA; [|discriminate]. cbn [rbind] in PS. assert (w1 = w) by congruence. assert (a' = a) by congruence. subst w1 a'. assert (SW := trk_sat _ _ _ _ _ _ _ TR). unfold whl_actuator_commands in WA. rewrite SW in WA |- *. change (wc_sat (g_whl m0)) with (wc_sat (g_whl m)) in *. rewrite HS in WA |- *. split; [reflexivity|]. destruct (acc_ok s _ a HL HM HP WA) as (A1 & A2). split; [exact A1|right; exact A2]. }
  destruct (Z.eqb (mc_id c) (st_value Bbq)).
  { destruct (desaturate (g_mag m0) x (M_mgr.zeros 4)) as [[c' cur]|e]; [|exact K]. cbv zeta. destruct (sys_actuate (mc_torquers c') cur) as [mom|e]; [|exact K]. cbn [rbind]. destruct (induce_bbq_roll_attitude (g_whl m0) (mc_clock c) x mom) as [[w a]|e] eqn:IB; [|exact K]. cbn [fst g_whl g_rw_cmd].
    unfold induce_bbq_roll_attitude, track_and_desaturate in IB. destruct (tracking (g_whl m0) (cs_v x) _ _ _) as [[w1 u]|e] eqn:TR; [|discriminate]. cbn [rbind] in IB. destruct (whl_actuator_commands w1 _) as [a'|e] eqn:WA; [|discriminate]. cbn [rbind] in IB. assert (w1 = w) by congruence. assert (a' = a) by congruence. subst w1 a'.
    assert (SW := trk_sat _ _ _ _ _ _ _ TR). unfold whl_actuator_commands in WA. rewrite SW in WA |- *. change (wc_sat (g_whl m0)) with (wc_sat (g_whl m)) in *. rewrite HS in WA |- *. split; [reflexivity|]. destruct (acc_ok s _ a HL HM HP WA) as (A1 & A2). split; [exact A1|right; exact A2]. }
  destruct (Z.eqb_spec (mc_id c) (st_value Spindown)) as [I|_]; [|exact K].
  change (v_whl (cs_v x)) with (v_whl (cs_v (mc_meas c))). destruct (spindown_cmd (v_whl (cs_v (mc_meas c)))) as [a|e] eqn:SD; [|exact K]. cbn [fst set_cmds g_whl g_rw_cmd]. split; [exact HS|]. destruct (spin_ok s _ a (SL I) HM SD) as (A1 & A2). split; [exact A1|left; exact A2].
Qed.
(** whatever missions, sensor readings, filter states and exceptions the object goes through, as long as every SPINDOWN finds slow wheels: no wheel is ever asked for more than its limit, and
    the command has an entry for each wheel or four entries *)
Theorem C133_wheels : forall l m s, s_rw (wc_sat (g_whl m)) = s -> rw_limited s = true -> 0 <= rw_maxT s -> Forall (fun w => w_par w <> 0) (rw_wheels s) ->
  g_rw_cmd m = [0; 0; 0; 0] -> Forall (spins_slowly s) l ->
  torques_ok s (g_rw_cmd (ops l m)) /\ (length (g_rw_cmd (ops l m)) = 4%nat \/ length (g_rw_cmd (ops l m)) = length (rw_wheels s)).
Proof.
  intros l m s HS HL HM HP G0 F. assert (START : torques_ok s (g_rw_cmd m) /\ (length (g_rw_cmd m) = 4%nat \/ length (g_rw_cmd m) = length (rw_wheels s))) by (rewrite G0; split; [apply (zeros_ok s 4 HM)|left; reflexivity]).
  clear G0. unfold ops. revert m HS START. induction F as [|o l SO F IH]; intros m HS START; [exact START|]. cbn [fold_left]. destruct (op_wheels s m o HS HL HM HP SO START) as (HS' & START'). exact (IH _ HS' START').
Qed.
Print Assumptions C133_wheels.

(** operations that do not command anything *)
Definition idle (o : Op) : Prop := match o with OMission c => unhandled (mc_id c) | _ => True end.
Lemma idle_hold l m : Forall idle l -> g_mag_cmd (ops l m) = g_mag_cmd m /\ g_rw_cmd (ops l m) = g_rw_cmd m.
Proof.
  intros F. unfold ops. revert m. induction F as [|o l I F IH]; intros m; [split; reflexivity|]. cbn [fold_left]. destruct (IH (op_run m o)) as (-> & ->). destruct o as [c|h d|f]; [|unfold op_run, sensor_input; destruct d as [[[x v] q]|]; [destruct (kf_update h x v q (g_filter m)) as [f e]|]; split; reflexivity|split; reflexivity].
  cbn [idle] in I. assert (X := C64_hold [c] m (Forall_cons (P := fun c => unhandled (mc_id c)) c I (Forall_nil _))). destruct X as (A & B & _). unfold mission_calls in A, B. cbn [fold_left] in A, B. split; [exact A|exact B].
Qed.
(** SPINDOWN does not know the limit: for every factor K there are wheel speeds at which one call asks a wheel for more than K times its limit, and the command stays in force through any history of the
    modes that command nothing *)
Theorem C133_spindown_refuted : forall m s w0 ws K, s_rw (wc_sat (g_whl m)) = s -> rw_wheels s = w0 :: ws -> 0 < w_par w0 -> 0 <= rw_maxT s -> 0 <= K ->
  exists whl, forall clock x b t l, v_whl (cs_v x) = whl -> Forall idle l ->
  let m' := ops (OMission (mkMC2 clock x (st_value Spindown) b t) :: l) m in g_mag_cmd m' = [0; 0; 0] /\ exists w a, In (w, a) (combine (rw_wheels s) (g_rw_cmd m')) /\ K * rw_maxT s < Rabs (w_par w * a).
Proof.
  intros m s w0 ws K HS HW P0 HM HK. set (om := (K * rw_maxT s + 1) / w_par w0 + 1). assert (KM : 0 <= K * rw_maxT s) by (apply Rmult_le_pos; assumption). assert (Q : 0 < (K * rw_maxT s + 1) / w_par w0) by (apply Rdiv_lt_0_compat; lra).
  exists [- om; om; - om; om]. intros clock x b t l HX F m'. set (c := mkMC2 clock x (st_value Spindown) b t) in *. unfold m', ops. cbn [fold_left]. fold (ops l (op_run m (OMission c))). destruct (idle_hold l (op_run m (OMission c)) F) as (-> & ->).
  assert (E : spindown_cmd [- om; om; - om; om] = Ok [om; - om; om; - om]). { destruct (spindown_cases (- om) om (- om) om) as (C1 & _). assert (A : along (- om) om (- om) om = 2 * om) by (unfold along; field). rewrite A in C1. rewrite C1 by (rewrite Rabs_right by (unfold om; lra); unfold om; lra). f_equal. apply list4_eq; field. }
  cbn [op_run c mc_clock mc_meas mc_id mc_bore mc_target]. unfold mission_input. cbn [kf_output]. unfold mission_commands. cbn [Z.eqb st_value Pos.eqb orb cs_v v_whl]. rewrite HX, E. cbn [fst set_cmds g_mag_cmd g_rw_cmd]. split; [reflexivity|].
  exists w0, om. rewrite HW. split; [left; reflexivity|]. rewrite Rabs_right by (apply Rle_ge, Rmult_le_pos; unfold om; lra). unfold om. replace (w_par w0 * ((K * rw_maxT s + 1) / w_par w0 + 1)) with (K * rw_maxT s + 1 + w_par w0) by (field; lra). lra.
Qed.
Print Assumptions C133_spindown_refuted.

(** ** the torquers *)
(** the moment the object would ask its torquers for in a mission call *)
Definition wants (m : Mgr) (c : MissionCall) (v : v3) : Prop :=
  let x := shown (mc_meas c) (g_filter m) in
  (mc_id c = st_value Detumble /\ v = mag_moment_cmd (cs_mag x) (detumble_torque (mc_sat (g_mag m)) (v_rate (cs_v x)))) \/
  (mc_id c = st_value Bbq /\ exists T, desaturate_torque (g_mag m) x (M_mgr.zeros 4) = Ok T /\ v = mag_moment_cmd (cs_mag x) T).
(** in every call of the history that moment has no negative component *)
Fixpoint all_positive (l : list Op) (m : Mgr) : Prop :=
  match l with
  | [] => True
  | o :: l => (match o with OMission c => forall v, wants m c v -> 0 <= x3 v /\ 0 <= y3 v /\ 0 <= z3 v | _ => True end) /\ all_positive l (op_run m o)
  end.
Lemma mag_ok ts c x T c' cur : mc_torquers c = ts -> mc_bang c = false -> length ts = 3%nat -> Forall good_torquer ts -> mag_actuator_commands c x T = Ok (c', cur) ->
  (let v := mag_moment_cmd (cs_mag x) T in 0 <= x3 v /\ 0 <= y3 v /\ 0 <= z3 v) -> amps_ok ts cur /\ length cur = 3%nat /\ mc_torquers c' = ts /\ mc_bang c' = false.
Proof.
  intros HT HB HL HG E V. cbv zeta in V. unfold mag_actuator_commands in E. cbv zeta in E. rewrite HB, HT in E. cbn [rbind] in E. set (v := mag_moment_cmd (cs_mag x) T) in *.
  destruct (C25_positive ts [x3 v; y3 v; z3 v]) as (s & c0 & _ & ED & LC & B & _).
  { intros Z. rewrite Z in HL. discriminate. } { exact HL. } { exact HG. } { repeat (apply Forall_cons; [tauto|]). apply Forall_nil. }
  rewrite ED in E. cbn [rbind] in E. assert (c0 = cur) by congruence. subst c0. assert (EC : mkMC (mc_sat c) ts false (mc_trig c) = c') by congruence. rewrite <- EC. split; [|split; [rewrite LC; exact HL|split; reflexivity]].
  intros t i I. destruct (In_nth_error _ _ I) as [k Hk].
  assert (N1 : nth_error ts k = Some t /\ nth_error cur k = Some i). { clear -Hk. revert cur k Hk. induction ts as [|t0 ts IH]; intros [|i0 cur] [|k] Hk; try discriminate; [injection Hk as <- <-; split; reflexivity|exact (IH _ _ Hk)]. }
  destruct N1 as (N1 & N2). assert (LK : (k < 3)%nat) by (rewrite <- HL; apply nth_error_Some; rewrite N1; discriminate). destruct (nth_error [x3 v; y3 v; z3 v] k) as [y|] eqn:NY; [|apply nth_error_None in NY; cbn in NY; lia].
  destruct (B k t y i N1 NY N2) as (Q & _). rewrite Rabs_right by lra. lra.
Qed.
Lemma zero_cur ts n : Forall good_torquer ts -> amps_ok ts (M_mgr.zeros n).
Proof. intros G t i H. assert (I := in_combine_l _ _ _ _ H). apply in_combine_r in H. apply repeat_spec in H. subst i. rewrite Rabs_R0. rewrite Forall_forall in G. destruct (G t I) as (_ & P & _). lra. Qed.
(** for a controller built as the daemon builds it (no bang-bang) on three good torquers: as long as no moment asked for has a negative component, no current is ever beyond its limit *)
Theorem C133_currents : forall l m ts, mc_torquers (g_mag m) = ts -> mc_bang (g_mag m) = false -> length ts = 3%nat -> Forall good_torquer ts -> g_mag_cmd m = [0; 0; 0] -> all_positive l m ->
  amps_ok ts (g_mag_cmd (ops l m)) /\ length (g_mag_cmd (ops l m)) = 3%nat.
Proof.
  intros l m ts HT HB HL HG G0 AP. assert (START : amps_ok ts (g_mag_cmd m) /\ length (g_mag_cmd m) = 3%nat) by (rewrite G0; split; [apply (zero_cur ts 3 HG)|reflexivity]). clear G0. unfold ops.
  assert (Z3 : amps_ok ts (M_mgr.zeros 3) /\ length (M_mgr.zeros 3) = 3%nat) by (split; [apply zero_cur, HG|reflexivity]).
  revert m HT HB START AP. induction l as [|o l IH]; intros m HT HB START AP; [exact START|]. cbn [fold_left]. destruct AP as (A1 & A2).
  assert (STEP : mc_torquers (g_mag (op_run m o)) = ts /\ mc_bang (g_mag (op_run m o)) = false /\ amps_ok ts (g_mag_cmd (op_run m o)) /\ length (g_mag_cmd (op_run m o)) = 3%nat).
  2:{ destruct STEP as (S1 & S2 & S3). exact (IH _ S1 S2 S3 A2). }
  clear IH A2. destruct o as [c|h d|f]; [|unfold op_run, sensor_input; destruct d as [[[x v] q]|]; [destruct (kf_update h x v q (g_filter m)) as [f e]|]; cbn [fst g_mag g_mag_cmd]; auto|cbn [op_run g_mag g_mag_cmd]; auto].
  cbn [op_run]. unfold wants in A1. cbv zeta in A1. unfold mission_input. cbn [kf_output]. unfold mission_commands. fold (shown (mc_meas c) (g_filter m)). set (x := shown (mc_meas c) (g_filter m)) in *. set (m0 := mkMgr _ _ _ _ _).
  assert (K : mc_torquers (g_mag m0) = ts /\ mc_bang (g_mag m0) = false /\ amps_ok ts (g_mag_cmd m0) /\ length (g_mag_cmd m0) = 3%nat) by (split; [exact HT|split; [exact HB|exact START]]).
  destruct (Z.eqb (mc_id c) (st_value Sleep) || Z.eqb (mc_id c) (st_value Failed))%bool; [cbn [fst set_cmds g_mag g_mag_cmd]; split; [exact HT|split; [exact HB|exact Z3]]|].
  destruct (Z.eqb_spec (mc_id c) (st_value Detumble)) as [I|_].
  { unfold detumble. destruct (mag_actuator_commands (g_mag m0) x (detumble_torque (mc_sat (g_mag m0)) (v_rate (cs_v x)))) as [[c' cur]|e] eqn:MA; [|exact K]. cbn [fst g_mag g_mag_cmd]. destruct (mag_ok ts (g_mag m0) x _ c' cur HT HB HL HG MA) as (X1 & X2 & X3 & X4); [apply A1; left; split; [exact I|reflexivity]|]. auto. }
  destruct (Z.eqb (mc_id c) (st_value Point)). { destruct (point_and_stare (g_whl m0) x (mc_bore c) (mc_target c)) as [[w a]|e]; cbn [fst set_cmds g_mag g_mag_cmd]; (split; [exact HT|split; [exact HB|exact Z3]]). }
  destruct (Z.eqb_spec (mc_id c) (st_value Bbq)) as [I|_].
  { unfold desaturate. destruct (desaturate_torque (g_mag m0) x (M_mgr.zeros 4)) as [T|e] eqn:DT; [|exact K]. cbn [rbind]. destruct (mag_actuator_commands (g_mag m0) x T) as [[c' cur]|e] eqn:MA; [|exact K]. cbv zeta.
    destruct (mag_ok ts (g_mag m0) x _ c' cur HT HB HL HG MA) as (X1 & X2 & X3 & X4); [apply A1; right; split; [exact I|exists T; split; [exact DT|reflexivity]]|].
    destruct (sys_actuate (mc_torquers c') cur) as [mom|e]; cbn [rbind]; [destruct (induce_bbq_roll_attitude (g_whl m0) (mc_clock c) x mom) as [[w a]|e]|]; cbn [fst g_mag g_mag_cmd]; auto. }
  destruct (Z.eqb (mc_id c) (st_value Spindown)); [|exact K]. destruct (spindown_cmd (v_whl (cs_v x))) as [a|e]; cbn [fst set_cmds g_mag g_mag_cmd]; (split; [exact HT|split; [exact HB|exact Z3]]).
Qed.
Print Assumptions C133_currents.
(** otherwise there is no bound: for every factor K there are a rate and a field for which one DETUMBLE call drives the second torquer with more than K times its limit, and the command stays in
    force through any history of the modes that command nothing *)
Theorem C133_current_refuted : forall m t1 t2 t3 K, mc_torquers (g_mag m) = [t1; t2; t3] -> mc_bang (g_mag m) = false -> Forall good_torquer [t1; t2; t3] -> t_type t2 <> Rod -> det3 (s_total_moment (mc_sat (g_mag m))) <> 0 -> 0 <= K ->
  exists rate field, forall clock x b t l, v_rate (cs_v x) = rate -> cs_mag x = field -> Forall idle l ->
  let m' := ops (OMission (mkMC2 clock x (st_value Detumble) b t) :: l) m in exists i, nth_error (g_mag_cmd m') 1 = Some i /\ K * t_maxA t2 < Rabs i.
Proof.
  intros m t1 t2 t3 K HT HB HG NR DJ HK. set (J := s_total_moment (mc_sat (g_mag m))) in *. assert (G1 := proj1 (Forall_forall _ _) HG t1 (or_introl eq_refl)). assert (G2 := proj1 (Forall_forall _ _) HG t2 (or_intror (or_introl eq_refl))).
  destruct (good_max t1 G1) as (_ & M1 & _). assert (A2 : 0 < t_maxA t2) by apply G2. assert (KA : 0 <= K * t_maxA t2) by (apply Rmult_le_pos; lra). set (X := 2 * (K * t_maxA t2 + 1) / max_m t1). assert (XP : 0 < X) by (apply Rdiv_lt_0_compat; lra).
  assert (KB : 0 < K_BBQ) by (unfold K_BBQ; assert (P := pi_bounds); lra). set (tau := mk3 X 1 0 : v3). set (om := scale3 (- / K_BBQ) (mv (inv3 J) tau)).
  exists (add3 om (a_b (kf_att (g_filter m)))), (mk3 0 0 1). intros clock x b t l HR HF F m'. set (c := mkMC2 clock x (st_value Detumble) b t) in *. unfold m', ops. cbn [fold_left]. fold (ops l (op_run m (OMission c))). destruct (idle_hold l (op_run m (OMission c)) F) as (-> & _).
  cbn [op_run c mc_clock mc_meas mc_id mc_bore mc_target]. unfold mission_input. cbn [kf_output]. unfold mission_commands. cbn [Z.eqb st_value Pos.eqb orb g_mag]. unfold detumble, mag_actuator_commands. cbv zeta. cbn [cs_mag cs_v v_rate]. rewrite HR, HF, HB, HT. cbn [rbind].
  assert (EM : mag_moment_cmd (mk3 0 0 1) (detumble_torque (mc_sat (g_mag m)) (sub3 (add3 om (a_b (kf_att (g_filter m)))) (a_b (kf_att (g_filter m))))) = mk3 (-1) X 0).
  { replace (sub3 (add3 om (a_b (kf_att (g_filter m)))) (a_b (kf_att (g_filter m)))) with om by (generalize om (a_b (kf_att (g_filter m))); clear; intros [p q r] [p' q' r']; vunfoldg; cbn [x3 y3 z3]; rnumg; apply mk3_c; ring).
    unfold detumble_torque. fold J. unfold om. replace (mv J (scale3 (- / K_BBQ) (mv (inv3 J) tau))) with (scale3 (- / K_BBQ) (mv J (mv (inv3 J) tau))) by (generalize (mv (inv3 J) tau) J (- / K_BBQ); clear; intros [p q r] [[a1 a2 a3] [b1 b2 b3] [c1 c2 c3]] k; vunfoldg; cbn [x3 y3 z3 row1 row2 row3]; rnumg; apply mk3_c; ring).
    rewrite mv_inv3 by exact DJ. unfold tau, mag_moment_cmd. vunfoldg. unfold div3. cbn [x3 y3 z3]. rnumg. apply mk3_c; field; lra. }
  rewrite EM. cbn [x3 y3 z3]. destruct (C25_negative_refuted [t1; t2; t3] [-1; X; 0]) as (s & S0 & ED & SB & _).
  { discriminate. } { reflexivity. } { apply Forall_forall. intros t' I. apply (good_max t'). exact (proj1 (Forall_forall _ _) HG t' I). } { apply Exists_cons_hd. lra. }
  rewrite ED. cbn [rbind fst g_mag_cmd zip_with nth_error]. eexists. split; [reflexivity|]. assert (S1 : max_m t1 <= s * -1) by (apply (SB t1 (-1)); [left; reflexivity|lra]).
  assert (SX : 2 * (K * t_maxA t2 + 1) <= - s * X). { apply (Rle_trans _ (max_m t1 * X)); [right; unfold X; field; lra|apply Rmult_le_compat_r; lra]. }
  assert (AB : K * t_maxA t2 + 1 <= Rabs (s * X) / 2) by (rewrite Rabs_left by (assert (0 < - s * X) by (apply Rmult_lt_0_compat; lra); lra); lra).
  assert (AP := Rabs_pos (s * X)). destruct (t_type t2); [|exfalso; apply NR; reflexivity|]; cbn [getCurrent]; rnumg; rewrite Rabs_mult; (rewrite (Rabs_right (_ / _)) by lra || rewrite (Rabs_right (IZR _ / IZR _)) by lra); lra.
Qed.
Print Assumptions C133_current_refuted.
(** a manager built on the example satellite with three wheels limited to 1 and three torquers of different kinds: a history with sensor readings, SPINDOWN at speeds up to 1, DETUMBLE and BBQ *)
Definition lim_mgr : Mgr := mkMgr ex_kf (mag_new ball [mkT Square (mk3 1 0 0) 1; mkT LinearRod (mk3 0 (3/5) (4/5)) (1/2); mkT Rod (mk3 0 0 1) (1/2)] false) (mkWC ball 1 1 (trig_new 1 0.3) true [] None) [0; 0; 0] [0; 0; 0; 0].
Definition lim_x : CState := mkCS (mkSV (mk3 7000000 0 0) (mk3 0 7500 0) (mkq 1 0 0 0) (mk3 (-1) 1 0) [1; -1; 1/2; 0]) (mk3 0 0 1).
Example C133_ex_wheels : forall c h d b t, s_rw (wc_sat (g_whl lim_mgr)) = s_rw ball /\ rw_limited (s_rw ball) = true /\ 0 <= rw_maxT (s_rw ball) /\ Forall (fun w => w_par w <> 0) (rw_wheels (s_rw ball)) /\ g_rw_cmd lim_mgr = [0; 0; 0; 0] /\
  Forall (spins_slowly (s_rw ball)) [OSensors h d; OMission (mkMC2 c lim_x 4 b t); OMission (mkMC2 c lim_x 5 b t); OMission (mkMC2 c lim_x 6 b t); OMission (mkMC2 c lim_x 7 b t); OFilter ex_kf] /\
  g_rw_cmd (ops [OSensors h d; OMission (mkMC2 c lim_x 4 b t); OMission (mkMC2 c lim_x 3 b t)] lim_mgr) = [-5/8; 5/8; -5/8; 5/8].
Proof.
  intros c h d b t. split; [reflexivity|]. split; [reflexivity|]. split; [cbn; lra|]. split; [repeat constructor; cbn; lra|]. split; [reflexivity|]. split.
  - assert (SL : slow (s_rw ball) (v_whl (cs_v lim_x))). { intros w x IW IX. cbn in IW, IX. assert (PW : w_par w = 1) by (destruct IW as [<-|[<-|[<-|[]]]]; reflexivity). rewrite PW, Rabs_R1. change (rw_maxT (s_rw ball)) with 1. assert (Rabs x <= 1) by (destruct IX as [<-|[<-|[<-|[<-|[]]]]]; apply Rabs_le; lra). lra. }
    repeat (apply Forall_cons; [cbn [spins_slowly mc_id mc_meas]; try exact I; intros; exact SL|]). apply Forall_nil.
  - assert (E : spindown_cmd [1; -1; 1/2; 0] = Ok [-5/8; 5/8; -5/8; 5/8]). { destruct (spindown_cases 1 (-1) (1/2) 0) as (C1 & _). assert (A : along 1 (-1) (1/2) 0 = -5/4) by (unfold along; field). rewrite A in C1. rewrite C1 by (rewrite Rabs_left by lra; lra). f_equal. apply list4_eq; field. }
    unfold ops. cbn [fold_left op_run mc_clock mc_meas mc_id mc_bore mc_target]. unfold mission_input. cbn [kf_output]. unfold mission_commands. cbn [Z.eqb st_value Pos.eqb orb cs_v v_whl fst g_rw_cmd lim_x]. rewrite E. reflexivity.
Qed.
Example C133_ex_currents : forall c b t, mc_bang (g_mag lim_mgr) = false /\ length (mc_torquers (g_mag lim_mgr)) = 3%nat /\ Forall good_torquer (mc_torquers (g_mag lim_mgr)) /\ g_mag_cmd lim_mgr = [0; 0; 0] /\
  all_positive [OMission (mkMC2 c lim_x 5 b t); OMission (mkMC2 c lim_x 3 b t)] lim_mgr /\ wants lim_mgr (mkMC2 c lim_x 5 b t) (mk3 (4 * K_BBQ) (4 * K_BBQ) 0) /\ 0 < K_BBQ.
Proof.
  intros c b t. assert (KB : 0 < K_BBQ) by (unfold K_BBQ; assert (P := pi_bounds); lra). split; [reflexivity|]. split; [reflexivity|]. split.
  { apply Forall_cons; [|apply Forall_cons; [|apply Forall_cons; [|apply Forall_nil]]]; (split; [unfold unit3, dot3; cbn [t_axis x3 y3 z3]; rnumg; lra|split; [cbn [t_maxA]; lra|cbn [t_type t_maxA]; try discriminate; lra]]). }
  split; [reflexivity|]. assert (V : mag_moment_cmd (cs_mag (shown lim_x ex_kf)) (detumble_torque (mc_sat (g_mag lim_mgr)) (v_rate (cs_v (shown lim_x ex_kf)))) = mk3 (4 * K_BBQ) (4 * K_BBQ) 0).
  { cbn [lim_mgr g_mag mag_new mc_sat]. unfold mag_moment_cmd, detumble_torque. rewrite ball_total. cbn [shown lim_x ex_kf kf_att af_init a_b cs_mag cs_v v_rate]. vunfoldg. unfold div3. cbn [x3 y3 z3 row1 row2 row3]. rnumg. apply mk3_c; field. }
  split; [|split; [left; split; [reflexivity|exact (eq_sym V)]|exact KB]].
  cbn [all_positive]. split; [|split; [|exact I]]; intros v [[I1 E]|[I1 _]]; cbn [mc_id st_value] in I1; try discriminate. cbv zeta in E. cbn [mc_meas] in E. change (g_filter lim_mgr) with ex_kf in E. rewrite V in E. subst v. cbn [x3 y3 z3]. lra.
Qed.
