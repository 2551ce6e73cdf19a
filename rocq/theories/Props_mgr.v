(** * Properties C64-C66 and C77: the manager and the pair of filters *)
From Coq Require Import Reals ZArith List Bool Lia Lra.
From Verif Require Import Num Vec Mat6 M_vector M_quaternion M_jday M_struct M_dyn M_integ M_obs M_ctrl M_fsm M_mgr S_rot S_integ S_fsm P_struct P_wheel P_integ P_dyn2 P_obs P_mgr Props_struct Props_dyn.
Import ListNotations.
Local Open Scope R_scope.

(** ** C64: commands by mode *)
(** what the controllers are shown: the sensors' wheel speeds and field, the filters' position, velocity and attitude, and the rate less
    the estimated bias *)
Definition shown (meas : CState) (f : KF) : CState :=
  mkCS (mkSV (u1 (p_x (kf_pos f))) (u2 (p_x (kf_pos f))) (a_q (kf_att f)) (sub3 (v_rate (cs_v meas)) (a_b (kf_att f))) (v_whl (cs_v meas))) (cs_mag meas).
(** FAILED (0) and SLEEP (1): all zero, whatever the state and the previous commands *)
Theorem C64_rest : forall clock x id b t m, id = 0%Z \/ id = 1%Z ->
  exists m', mission_input clock x id b t m = (m', None) /\ g_mag_cmd m' = [0; 0; 0] /\ g_rw_cmd m' = [0; 0; 0; 0].
Proof. intros clock x id b t m [-> | ->]; eexists; split; try reflexivity; split; reflexivity. Qed.
Print Assumptions C64_rest.
(** DETUMBLE (5): the detumble currents and no wheels; if they cannot be computed the previous commands stay in force *)
Theorem C64_detumble : forall clock x b t m, let r := mission_input clock x 5 b t m in
  match detumble (g_mag m) (shown x (g_filter m)) with
  | Ok (_, cur) => snd r = None /\ g_mag_cmd (fst r) = cur /\ g_rw_cmd (fst r) = [0; 0; 0; 0]
  | Raise e => snd r = Some e /\ g_mag_cmd (fst r) = g_mag_cmd m /\ g_rw_cmd (fst r) = g_rw_cmd m
  end.
Proof.
  intros clock x b t m r. unfold r, mission_input. cbn [kf_output]. unfold mission_commands. cbn [Z.eqb st_value Pos.eqb orb g_mag].
  change (mkCS _ _) with (shown x (g_filter m)). destruct (detumble (g_mag m) (shown x (g_filter m))) as [[c cur]|e]; repeat split.
Qed.
Print Assumptions C64_detumble.
(** POINT (7): no currents; the wheels of point_and_stare, or, if that raises, the previous wheel command stays in force *)
Theorem C64_point : forall clock x b t m, let r := mission_input clock x 7 b t m in g_mag_cmd (fst r) = [0; 0; 0] /\
  match point_and_stare (g_whl m) (shown x (g_filter m)) b t with
  | Ok (_, a) => snd r = None /\ g_rw_cmd (fst r) = a
  | Raise e => snd r = Some e /\ g_rw_cmd (fst r) = g_rw_cmd m
  end.
Proof.
  intros clock x b t m r. unfold r, mission_input. cbn [kf_output]. unfold mission_commands. cbn [Z.eqb st_value Pos.eqb orb g_whl].
  change (mkCS _ _) with (shown x (g_filter m)). destruct (point_and_stare (g_whl m) (shown x (g_filter m)) b t) as [[w a]|e]; repeat split.
Qed.
Print Assumptions C64_point.
(** with the environments of this repository (no sun_vector) POINT always ends that way: an error, and the wheels keep accelerating as
    last told *)
Theorem C64_point_stale_refuted : forall clock x b t m, wc_sun (g_whl m) = None ->
  exists m', mission_input clock x 7 b t m = (m', Some AttributeError) /\ g_rw_cmd m' = g_rw_cmd m /\ g_mag_cmd m' = [0; 0; 0].
Proof.
  intros clock x b t m S. assert (E := C64_point clock x b t m). destruct (mission_input clock x 7 b t m) as [m' o]. cbn [fst snd] in E. destruct E as [E1 E2].
  assert (P : point_and_stare (g_whl m) (shown x (g_filter m)) b t = Raise AttributeError) by (unfold point_and_stare, tracking; rewrite S; reflexivity).
  rewrite P in E2. destruct E2 as [-> E2]. exists m'. auto.
Qed.
Print Assumptions C64_point_stale_refuted.
(** BBQ (6): desaturation currents towards resting wheels; the wheels follow the roll and are told the moment of those currents *)
Theorem C64_bbq : forall clock x b t m, let r := mission_input clock x 6 b t m in let y := shown x (g_filter m) in
  match desaturate (g_mag m) y [0; 0; 0; 0] with
  | Raise e => snd r = Some e /\ g_mag_cmd (fst r) = g_mag_cmd m /\ g_rw_cmd (fst r) = g_rw_cmd m
  | Ok (c, cur) => g_mag_cmd (fst r) = cur /\
      match sys_actuate (mc_torquers c) cur with
      | Raise e => snd r = Some e /\ g_rw_cmd (fst r) = g_rw_cmd m
      | Ok mom => match induce_bbq_roll_attitude (g_whl m) clock y mom with
                  | Ok (_, a) => snd r = None /\ g_rw_cmd (fst r) = a
                  | Raise e => snd r = Some e /\ g_rw_cmd (fst r) = g_rw_cmd m
                  end
      end
  end.
Proof.
  intros clock x b t m r y. unfold r, mission_input. cbn [kf_output]. unfold mission_commands. cbn [Z.eqb st_value Pos.eqb orb g_whl g_mag g_rw_cmd g_filter].
  change (mkCS _ _) with y. change (zeros 4) with [0; 0; 0; 0]. destruct (desaturate (g_mag m) y [0; 0; 0; 0]) as [[c cur]|e]; [|repeat split].
  destruct (sys_actuate (mc_torquers c) cur) as [mom|e]; cbn [rbind]; [|repeat split]. destruct (induce_bbq_roll_attitude (g_whl m) clock y mom) as [[w a]|e]; repeat split.
Qed.
Print Assumptions C64_bbq.
(** every other number, UNSAFE (2), SAFE (3) and MANUAL (8) among them: nothing is commanded, and over any number of such calls the last
    commands stay in force *)
Record MissionCall := mkMC2 { mc_clock : AClock; mc_meas : CState; mc_id : Z; mc_bore : v3; mc_target : v3 }.
Definition mission_calls (l : list MissionCall) (m : Mgr) : Mgr := fold_left (fun m c => fst (mission_input (mc_clock c) (mc_meas c) (mc_id c) (mc_bore c) (mc_target c) m)) l m.
Definition unhandled (id : Z) : Prop := ~ In id [0; 1; 4; 5; 6; 7]%Z.
Theorem C64_hold : forall l m, Forall (fun c => unhandled (mc_id c)) l ->
  g_mag_cmd (mission_calls l m) = g_mag_cmd m /\ g_rw_cmd (mission_calls l m) = g_rw_cmd m /\ g_mag (mission_calls l m) = g_mag m /\ g_whl (mission_calls l m) = g_whl m.
Proof.
  unfold mission_calls. intros l. induction l as [|c l IH]; intros m H; [repeat split|]. assert (H1 := Forall_inv H). assert (H2 := Forall_inv_tail H). cbn [fold_left].
  destruct (IH (fst (mission_input (mc_clock c) (mc_meas c) (mc_id c) (mc_bore c) (mc_target c) m)) H2) as (A & B & C & D). rewrite A, B, C, D.
  unfold unhandled in H1. cbn in H1. unfold mission_input. cbn [kf_output]. unfold mission_commands. cbn [st_value].
  destruct (Z.eqb_spec (mc_id c) 1); [exfalso; apply H1; auto|]. destruct (Z.eqb_spec (mc_id c) 0); [exfalso; apply H1; auto|]. destruct (Z.eqb_spec (mc_id c) 5); [exfalso; apply H1; auto|].
  destruct (Z.eqb_spec (mc_id c) 7); [exfalso; apply H1; auto 7|]. destruct (Z.eqb_spec (mc_id c) 6); [exfalso; apply H1; auto 7|]. destruct (Z.eqb_spec (mc_id c) 4); [exfalso; apply H1; auto|]. repeat split.
Qed.
Print Assumptions C64_hold.
(** over any history of calls the last handled one decides; in particular the manager rests after SLEEP however long SAFE, UNSAFE or MANUAL
    follow, and keeps driving the actuators after any other mode *)
Theorem C64_last : forall l m c r, unhandled 2 /\ unhandled 3 /\ unhandled 8 /\
  (mc_id c = 1%Z -> Forall (fun c => unhandled (mc_id c)) r -> g_mag_cmd (mission_calls (l ++ c :: r) m) = [0; 0; 0] /\ g_rw_cmd (mission_calls (l ++ c :: r) m) = [0; 0; 0; 0]).
Proof.
  intros l m c r. unfold unhandled at 1 2 3. split; [cbn; lia|]. split; [cbn; lia|]. split; [cbn; lia|]. intros I U. unfold mission_calls. rewrite fold_left_app. cbn [fold_left].
  destruct (C64_hold r (fst (mission_input (mc_clock c) (mc_meas c) (mc_id c) (mc_bore c) (mc_target c) (mission_calls l m))) U) as (A & B & _). unfold mission_calls in A, B. rewrite A, B.
  destruct (C64_rest (mc_clock c) (mc_meas c) (mc_id c) (mc_bore c) (mc_target c) (mission_calls l m) (or_intror I)) as (m' & E & P & Q). unfold mission_calls in E. rewrite E. auto.
Qed.
Print Assumptions C64_last.
(** a manager built on the example satellite *)
Definition ex_st : SatState := mkSS (mkSV (mk3 7000000 0 0) (mk3 0 7500 0) (mkq 1 0 0 0) (mk3 0 0 1) [1; 2; 3; 4]) 0 id3 (mk3 7000000 0 0) 7000000 0 0 622000.
Definition ex_kf : KF := mkKF (af_init (mkq 1 0 0 0)) (pf_init ex_st) None 0.05 1.
Definition ex_mgr : Mgr := mkMgr ex_kf (mag_new ball [] false) (mkWC ball 1 1 (trig_new 1 0.3) true [] None) [1; 2; 3] [4; 5; 6; 7].
Example C64_ex : forall c x, wc_sun (g_whl ex_mgr) = None /\ Forall (fun c => unhandled (mc_id c)) [mkMC2 c x 3 zero3 zero3; mkMC2 c x 8 zero3 zero3; mkMC2 c x 42 zero3 zero3] /\
  g_rw_cmd (fst (mission_input c x 7 zero3 zero3 ex_mgr)) = [4; 5; 6; 7].
Proof.
  intros c x. split; [reflexivity|]. split; [repeat (apply Forall_cons; [unfold unhandled; cbn; lia|]); apply Forall_nil|].
  destruct (C64_point_stale_refuted c x zero3 zero3 ex_mgr eq_refl) as (m' & -> & E & _). exact E.
Qed.

(** ** C65: whl_hold-down *)
(** first phase (the null component is not small): the command is minus that component along the null direction; the pyramid of wheels
    exerts no torque; under sample-and-hold the null component shrinks by 1 - h and the wheels' momentum stays what it was *)
Theorem C65_null_phase : forall a b c d h inc az par orth maxT lim, let k := (- a + b - c + d) / 2 in let s := mkRWS (pyramid inc az par orth) maxT lim in 0.00001 <= Rabs k ->
  spindown_cmd [a; b; c; d] = Ok [k / 2; - k / 2; k / 2; - k / 2] /\ rw_torque s [k / 2; - k / 2; k / 2; - k / 2] = mk3 0 0 0 /\
  exists a' b' c' d', whl_hold h [a; b; c; d] = [a'; b'; c'; d'] /\ (- a' + b' - c' + d') / 2 = (1 - h) * k /\
    (forall y1 y2 y3 y4, - y1 + y2 - y3 + y4 = 0 -> a' * y1 + b' * y2 + c' * y3 + d' * y4 = a * y1 + b * y2 + c * y3 + d * y4) /\
    rw_momentum s [a'; b'; c'; d'] = rw_momentum s [a; b; c; d].
Proof.
  intros a b c d h inc az par orth maxT lim k s H. destruct (spindown_cases a b c d) as (C1 & _). destruct (spin_cases h a b c d) as (S1 & _). change (along a b c d) with k in C1, S1.
  split; [apply C1, H|].
  assert (Z : forall e x1 x2 x3 x4, rw_momentum s [x1 + e; x2 - e; x3 + e; x4 - e] = rw_momentum s [x1; x2; x3; x4]).
  { intros e x1 x2 x3 x4. assert (X := pyr_axes inc az par orth). unfold s, rw_momentum. cbn [rw_wheels]. unfold pyramid in *. cbn [map w_axis zip_with] in *.
    assert (LI : forall (a b c d a' b' c' d' : v3), [a; b; c; d] = [a'; b'; c'; d'] -> a = a' /\ b = b' /\ c = c' /\ d = d') by (intros * Q; repeat split; congruence).
    apply LI in X. destruct X as (A0 & A1 & A2 & A3). unfold w_momentum. cbn [w_axis w_par]. rewrite A0, A1, A2, A3. cbn [sum3 fold_right]. vring. }
  split.
  - change (rw_torque s) with (rw_momentum s). replace [k / 2; - k / 2; k / 2; - k / 2] with [0 + k / 2; 0 - k / 2; 0 + k / 2; 0 - k / 2] by (apply list4_eq; lra). rewrite Z.
    unfold s, rw_momentum, pyramid. cbn [rw_wheels map zip_with]. unfold w_momentum. cbn [w_axis w_par sum3 fold_right]. generalize (pyramid_axis inc az). intros f. vring.
  - exists (a + h * (k / 2)), (b - h * (k / 2)), (c + h * (k / 2)), (d - h * (k / 2)). split; [apply S1, H|]. split; [unfold k; lra|]. split; [intros; nra|]. apply Z.
Qed.
Print Assumptions C65_null_phase.
(** second phase: all speeds shrink by the same factor; the torque on the body is mult times the wheels' momentum, so the phase hands that
    momentum to the body *)
Theorem C65_brake_phase : forall w h s, length w = 4%nat -> length (rw_wheels s) = 4%nat -> Rabs (alongl w) < 0.00001 -> 0.01 <= norml w ->
  spindown_cmd w = Ok (map (fun x => - x * MULT) w) /\ whl_hold h w = map (Rmult (1 - h * MULT)) w /\ rw_torque s (map (fun x => - x * MULT) w) = scale3 (- MULT) (rw_momentum s w) /\ 0 < MULT < 2.
Proof.
  intros w h s L LS H N. split; [|split; [|split; [|apply MULT_range]]].
  - destruct w as [|a [|b [|c [|d [|? ?]]]]]; try discriminate. apply spindown_cases; assumption.
  - destruct w as [|a [|b [|c [|d [|? ?]]]]]; try discriminate. apply spin_cases; assumption.
  - unfold rw_torque, rw_momentum. clear. revert w. induction (rw_wheels s) as [|wh ws IH]; intros w; [destruct w; cbn [map zip_with sum3 fold_right]; vring|]. destruct w as [|x w]; [cbn [map zip_with sum3 fold_right]; vring|]. cbn [map zip_with sum3 fold_right].
    fold (sum3 (zip_with w_torque ws (map (fun x => - x * MULT) w))). fold (sum3 (zip_with w_momentum ws w)). rewrite IH. unfold w_torque, w_momentum. generalize (sum3 (zip_with w_momentum ws w)) MULT (w_par wh) (w_axis wh). intros. vring.
Qed.
Print Assumptions C65_brake_phase.
(** rest: below both thresholds the command is zero and the speeds stay *)
Theorem C65_rest : forall w h, length w = 4%nat -> Rabs (alongl w) < 0.00001 -> norml w < 0.01 -> spindown_cmd w = Ok [0; 0; 0; 0] /\ whl_hold h w = w.
Proof. intros w h L H N. destruct w as [|a [|b [|c [|d [|? ?]]]]]; try discriminate. split; [apply spindown_cases; assumption|apply spin_cases; assumption]. Qed.
Print Assumptions C65_rest.
(** whatever the speeds, and for every step up to a second, the wheels come to rest (below 0.01 rad/s) after finitely many commands, the
    speeds never grow, and then the state machine goes to SLEEP *)
Theorem C65_settles : forall h w, 0 < h <= 1 -> length w = 4%nat -> exists N, forall n, (N <= n)%nat -> let v := Nat.iter n (whl_hold h) w in
  norml v < 0.01 /\ spindown_cmd v = Ok [0; 0; 0; 0] /\ whl_hold h v = v /\
  forall bound man x mi, me_whl x = v -> me_accl x = [0; 0; 0; 0] -> transition bound man x (mkSM (VS Spindown) mi false) = (mkSM (VS Sleep) mi false, Done tt).
Proof.
  intros h w Hh L. destruct (spin_settles h w Hh L) as [N HN]. exists N. intros n Hn v. destruct (HN n Hn) as (L1 & K & M & _). fold v in L1, K, M.
  destruct (C65_rest v h L1 K M) as [R1 R2]. split; [exact M|]. split; [exact R1|]. split; [exact R2|]. intros bound man x mi Ex Ea. unfold transition. cbn [sm_cur sm_mission propose]. unfold spindown_transition.
  rewrite Ex, Ea, norml4. replace (0 * 0 + 0 * 0 + 0 * 0 + 0 * 0) with 0 by ring. rewrite sqrt_0. destruct (Rltb_spec 0 0.00001); [|lra]. destruct (Rltb_spec (norml v) 0.01); [|lra]. reflexivity.
Qed.
Print Assumptions C65_settles.
Theorem C65_never_grows : forall h w, 0 < h <= 1 -> length w = 4%nat -> length (whl_hold h w) = 4%nat /\ norml (whl_hold h w) <= norml w.
Proof.
  intros h w Hh L. destruct (Rle_lt_dec 0.00001 (Rabs (alongl w))) as [K|K].
  - split; [apply spin_phase1; assumption|]. destruct w as [|a [|b [|c [|d [|? ?]]]]]; try discriminate. cbn [alongl] in K. destruct (spin_cases h a b c d) as (C1 & _). rewrite C1 by exact K.
    rewrite !norml4. apply sqrt_le_1_alt. unfold along. set (k := (- a + b - c + d) / 2). assert (E : a * a + b * b + c * c + d * d - ((a + h * (k / 2)) * (a + h * (k / 2)) + (b - h * (k / 2)) * (b - h * (k / 2)) + (c + h * (k / 2)) * (c + h * (k / 2)) + (d - h * (k / 2)) * (d - h * (k / 2))) = k * k * (h * (2 - h))) by (unfold k; field).
    assert (0 <= k * k) by nra. assert (0 <= h * (2 - h)) by nra. nra.
  - destruct (spin_phase2 h w Hh L K) as (L1 & _ & A & B). split; [exact L1|]. destruct (Rle_lt_dec 0.01 (norml w)) as [N|N]; [|rewrite A by exact N; lra]. rewrite B by exact N.
    assert (R := ratio_range h Hh). destruct w as [|a [|b [|c [|d [|? ?]]]]]; try discriminate. assert (P := norml4_pos a b c d). nra.
Qed.
Print Assumptions C65_never_grows.
Example C65_ex : 0.00001 <= Rabs ((- (1) + 2 - 3 + 8) / 2) /\ Rabs (alongl [1; 1; 1; 1]) < 0.00001 /\ 0.01 <= norml [1; 1; 1; 1] /\ Rabs (alongl [0; 0; 0; 0.001]) < 0.001.
Proof.
  split; [rewrite Rabs_pos_eq; lra|]. split; [cbn; unfold along; rewrite Rabs_pos_eq; lra|]. split; [rewrite norml4; apply Rsqr_incr_0_var; [rewrite Rsqr_sqrt; unfold Rsqr; lra|apply sqrt_pos]|].
  cbn. unfold along. rewrite Rabs_pos_eq; lra.
Qed.

(** ** C66: KalmanFilters.propagate *)
(** with positive step sizes, after a first output(): exactly the attitude steps and, independently, the position steps that fit the
    duration (if the position filter had the [model] it is asked for) *)
Theorem C66_counts : forall f duration w, kf_last f = Some w -> 0 < kf_gyro_dt f -> 0 < kf_gps_dt f -> exists Na Np : nat,
  (forall k, (1 <= k)%nat -> ((k <= Na)%nat <-> fits (kf_gyro_dt f) duration k)) /\ (forall k, (1 <= k)%nat -> ((k <= Np)%nat <-> fits (kf_gps_dt f) duration k)) /\
  forall fuel, (Na < fuel)%nat -> (Np < fuel)%nat -> exists f', kf_propagate true fuel duration f = Some (Ok f') /\
    kf_att f' = Nat.iter Na (af_propagate w (kf_gyro_dt f)) (kf_att f) /\ kf_pos f' = Nat.iter Np (pf_propagate (kf_gps_dt f)) (kf_pos f) /\ kf_last f' = Some w.
Proof.
  intros f duration w E Ha Hp.
  destruct (C37_count (fun a => Ok (af_propagate w (kf_gyro_dt f) a)) (kf_gyro_dt f) duration Ha) as (Na & A1 & A2 & _).
  destruct (C37_count (fun p => Ok (pf_propagate (kf_gps_dt f) p)) (kf_gps_dt f) duration Hp) as (Np & P1 & P2 & _).
  assert (RI : forall {W} (g : W -> W) n x, riter n (fun x => Ok (g x)) x = Ok (Nat.iter n g x)).
  { intros W g n. induction n as [|n IH]; intros x; [reflexivity|]. cbn [riter rbind]. rewrite IH. f_equal. symmetry. apply iter_S. }
  exists Na, Np. split; [exact A1|]. split; [exact P1|]. intros fuel Fa Fp. unfold kf_propagate. rewrite E. rewrite A2 by exact Fa. rewrite RI. cbv zeta. rewrite P2 by exact Fp. rewrite RI.
  eexists. split; [reflexivity|]. repeat split.
Qed.
Print Assumptions C66_counts.
(** the code's position filter has no [model]: the call raises as soon as one position step fits, and otherwise does its attitude steps *)
Theorem C66_raises : forall f duration w fuel r, kf_last f = Some w -> kf_propagate false fuel duration f = Some r ->
  if Rlt_dec (kf_gps_dt f) (duration + 0.001) then r = Raise AttributeError else exists f', r = Ok f' /\ kf_pos f' = kf_pos f.
Proof.
  intros f duration w fuel r E H. unfold kf_propagate in H. rewrite E in H.
  assert (AT : forall fu t a x, int_loop fu (fun a => Ok (af_propagate w (kf_gyro_dt f) a)) (kf_gyro_dt f) duration t a = Some x -> exists a', x = Ok a').
  { induction fu as [|fu IH]; intros t a x K; [discriminate|]. cbn [int_loop] in K. destruct (loop_cond duration t); [eapply IH, K|injection K as <-; eauto]. }
  destruct (integrate fuel _ (kf_gyro_dt f) duration (kf_att f)) as [ra|] eqn:IA; [|discriminate]. destruct (AT _ _ _ _ IA) as [a ->].
  unfold integrate in H. destruct fuel as [|fuel]; [discriminate|]. cbn [int_loop] in H. destruct (Rlt_dec (kf_gps_dt f) (duration + 0.001)) as [L|L].
  - replace (loop_cond duration (kf_gps_dt f)) with true in H by (symmetry; apply cond_R; exact L). injection H as <-. reflexivity.
  - destruct (loop_cond duration (kf_gps_dt f)) eqn:C; [apply cond_R in C; lra|]. injection H as <-. eauto.
Qed.
Print Assumptions C66_raises.
(** before the first output() it raises; a zero or negative step never returns *)
Theorem C66_first : forall model fuel duration f, kf_last f = None -> kf_propagate model fuel duration f = Some (Raise AttributeError).
Proof. intros model fuel duration f E. unfold kf_propagate. rewrite E. reflexivity. Qed.
Print Assumptions C66_first.
Theorem C66_forever : forall model fuel duration f w, kf_last f = Some w -> kf_gyro_dt f <= 0 -> kf_gyro_dt f < duration + 0.001 -> kf_propagate model fuel duration f = None.
Proof.
  intros model fuel duration f w E H1 H2. unfold kf_propagate. rewrite E. rewrite C37_forever; [reflexivity|exact H1|exact H2|]. intros a. eexists. reflexivity.
Qed.
Print Assumptions C66_forever.
(** the daemon: no data, no measurement update; with data, exactly one update of each filter unless the first raises *)
Theorem C66_sensor : forall h data m, let r := sensor_input h data m in
  match data with
  | None => r = (m, None)
  | Some (x, v, q) => let p := pf_update h x v (kf_pos (g_filter m)) in kf_pos (g_filter (fst r)) = fst p /\
      match snd p, af_measurement q (kf_att (g_filter m)) with
      | Some e, _ => snd r = Some e /\ kf_att (g_filter (fst r)) = kf_att (g_filter m)
      | None, Raise e => snd r = Some e /\ kf_att (g_filter (fst r)) = kf_att (g_filter m)
      | None, Ok a => snd r = None /\ kf_att (g_filter (fst r)) = a
      end
  end.
Proof.
  intros h data m r. unfold r, sensor_input. destruct data as [[[x v] q]|]; [|reflexivity]. unfold kf_update. destruct (pf_update h x v (kf_pos (g_filter m))) as [p [e|]]; cbn [fst snd]; [repeat split|].
  destruct (af_measurement q (kf_att (g_filter m))); repeat split.
Qed.
Print Assumptions C66_sensor.
Example C66_ex : kf_last (fst (kf_output (mkCS (sv ex_st) zero3) ex_kf)) = Some (sub3 (mk3 0 0 1) zero3) /\ 0 < kf_gyro_dt ex_kf /\ 0 < kf_gps_dt ex_kf /\ ~ kf_gps_dt ex_kf < 0.5 + 0.001 /\ kf_gps_dt ex_kf < 1 + 0.001.
Proof. cbn. repeat split; lra. Qed.

(** ** C77: the gyro bias is removed twice *)
(** output() removes the estimated bias and keeps the result for propagate(), whose filter removes it again: the attitude is propagated
    with the reading less twice the bias, which is the filter's own rate estimate only when the bias estimate is zero *)
Theorem C77_twice : forall x f dt, let f1 := fst (kf_output x f) in let b := a_b (kf_att f) in let reading := v_rate (cs_v x) in
  exists w, kf_last f1 = Some w /\
  a_q (af_propagate w dt (kf_att f1)) = af_omega_mul (sub3 reading (scale3 2 b)) dt (a_q (kf_att f)) /\
  a_q (af_propagate reading dt (kf_att f1)) = af_omega_mul (sub3 reading b) dt (a_q (kf_att f)) /\
  (sub3 reading (scale3 2 b) = sub3 reading b <-> b = zero3).
Proof.
  intros x f dt f1 b reading. exists (sub3 reading b). split; [reflexivity|]. split; [|split; [reflexivity|]].
  - unfold af_propagate. cbn [a_q f1 kf_output fst kf_att]. f_equal. fold b. generalize reading b. vring.
  - split; [|intros ->; vring]. intros E. revert E. generalize reading b. intros [r1 r2 r3] [b1 b2 b3]. vunfold. rnum. intros E. injection E; intros. f_equal; lra.
Qed.
Print Assumptions C77_twice.
(** so with a perfect bias estimate and a body at rest in the inertial frame, the estimate drifts: one step of [dt] turns it by |b| dt *)
Theorem C77_drift_refuted : forall x f dt, let f1 := fst (kf_output x f) in let b := a_b (kf_att f) in v_rate (cs_v x) = b -> exists w, kf_last f1 = Some w /\
  a_q (af_propagate w dt (kf_att f1)) = af_omega_mul (opp3 b) dt (a_q (kf_att f)) /\ af_omega_mul zero3 dt (a_q (kf_att f)) = a_q (kf_att f).
Proof.
  intros x f dt f1 b E. destruct (C77_twice x f dt) as (w & A & B & _). exists w. split; [exact A|]. fold f1 b in B. rewrite E in B. split.
  - rewrite B. f_equal. generalize b. vring.
  - unfold af_omega_mul, af_psi. assert (N0 : norm3 zero3 = 0) by (unfold norm3; replace (dot3 zero3 zero3) with 0 by vring; apply sqrt_0). rewrite N0. rewrite !Rmult_0_l, cos_0. destruct (Reqb_spec 0 0) as [_|N]; [|lra]. cbn [negb]. unfold crossm. generalize (a_q (kf_att f)). intros q. vring.
Qed.
Print Assumptions C77_drift_refuted.
Example C77_ex : let f := mkKF (mkAF zero3 zero3 (mkq 1 0 0 0) (mk3 0.01 0 0) (a_P (af_init (mkq 1 0 0 0)))) (pf_init ex_st) None 0.05 1 in
  a_b (kf_att f) <> zero3 /\ v_rate (cs_v (mkCS (mkSV zero3 zero3 (mkq 1 0 0 0) (mk3 0.01 0 0) []) zero3)) = a_b (kf_att f).
Proof. cbn. split; [|reflexivity]. intros E. injection E; lra. Qed.
