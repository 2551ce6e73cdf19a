(** * C130: the side the wheel controller's trigger remembers, over every history of the daemon's calls *)
From Coq Require Import Reals ZArith List Bool Lra Lia Psatz.
From Verif Require Import Num Vec Mat6 M_vector M_quaternion M_jday M_env M_struct M_dyn M_obs M_ctrl M_fsm M_mgr S_rot S_ctrl.
From Verif Require Import P_quat P_wheel P_dyn P_dyn2 P_sat P_ctrl P_ctrl2 P_ctrl3 P_ctrl4 P_ctrl5 Props_conv P_stare Props_mgr Props_stare.
Import ListNotations.
Local Open Scope R_scope.

(** a call of the daemon's: sensor data, a mission call, or the filters' propagation; only calls that return *)
Inductive act := Sense (h : store) (data : option (v3 * v3 * quat)) | Order (c : MissionCall) | Run (model : bool) (fuel : nat) (duration : R).
Definition does (a : act) (m m' : Mgr) : Prop :=
  match a with
  | Sense h d => sensor_input h d m = (m', None)
  | Order c => mission_input (mc_clock c) (mc_meas c) (mc_id c) (mc_bore c) (mc_target c) m = (m', None)
  | Run model fuel duration => exists f, kf_propagate model fuel duration (g_filter m) = Some (Ok f) /\ m' = mkMgr f (g_mag m) (g_whl m) (g_mag_cmd m) (g_rw_cmd m)
  end.
(** the scalar part of the attitude error of a call in BBQ (6) or POINT (7) *)
Definition heard (a : act) (m : Mgr) : option R :=
  let f := g_filter m in let q := a_q (kf_att f) in
  match a with
  | Order c => if (mc_id c =? 6)%Z then Some (qw (error_quat q (ecliptic_attitude (mc_clock c) true)))
               else if (mc_id c =? 7)%Z then Some (qw (error_quat q (stare_attitude (u1 (p_x (kf_pos f))) q (mc_bore c) (mc_target c)))) else None
  | _ => None
  end.
Definition remembered (m : Mgr) : R := tr_mem (wc_trig (g_whl m)).
Definition width (m : Mgr) : R := tr_hw (wc_trig (g_whl m)).

Lemma tracking_trig w v rc rcd qc w' u : tracking w v rc rcd qc = Ok (w', u) -> w' = set_trig w (trig_step (qw (error_quat (v_att v) qc)) (wc_trig w)).
Proof.
  unfold tracking. destruct (objects (wc_sun w) v) as [objs|]; cbn [rbind]; [|discriminate]. destruct (rw_momentum_r _ _) as [h|]; cbn [rbind]; [|discriminate]. destruct (wc_avoid w).
  - unfold allowable_zone, trig_sign. destruct (zone_loop _ _ _ _ _ _) as [acc|]; cbn [rbind]; [|discriminate]. congruence.
  - unfold trig_sign. cbn [rbind]. congruence.
Qed.
Lemma does_trig a m m' : does a m m' -> wc_trig (g_whl m') = match heard a m with Some x => trig_step x (wc_trig (g_whl m)) | None => wc_trig (g_whl m) end.
Proof.
  destruct a as [h d|c|model fuel dur]; cbn [does heard].
  - unfold sensor_input. destruct d as [[[x v] q]|]; [destruct (kf_update h x v q (g_filter m)) as [f e]|]; intros E; injection E; intros; subst; reflexivity.
  - unfold mission_input. cbn [kf_output]. unfold mission_commands. cbn [st_value]. destruct (Z.eqb_spec (mc_id c) 6) as [E6|N6].
    + rewrite E6. cbn [Z.eqb Pos.eqb orb g_mag g_whl g_filter]. destruct (desaturate _ _ _) as [[k cur]|]; [|discriminate]. destruct (sys_actuate _ _) as [mom|]; cbn [rbind]; [|discriminate].
      destruct (induce_bbq_roll_attitude _ _ _ _) as [[w ac]|] eqn:I; [|discriminate]. intros E. injection E as <-. cbn [g_whl]. unfold induce_bbq_roll_attitude, track_and_desaturate in I. cbn [cs_v] in I.
      destruct (tracking _ _ _ _ _) as [[w1 u]|] eqn:T; cbn [rbind] in I; [|discriminate]. apply tracking_trig in T. cbn [v_att] in T. destruct (whl_actuator_commands _ _) as [ac'|]; cbn [rbind] in I; [|discriminate]. injection I as <- _. subst w1. reflexivity.
    + destruct (Z.eqb_spec (mc_id c) 7) as [E7|N7].
      * rewrite E7. cbn [Z.eqb Pos.eqb orb g_mag g_whl g_filter]. destruct (point_and_stare _ _ _ _) as [[w ac]|] eqn:I; [|discriminate]. intros E. injection E as <-. cbn [g_whl]. unfold point_and_stare in I. cbn [cs_v v_att v_pos v_vel] in I.
        destruct (tracking _ _ _ _ _) as [[w1 u]|] eqn:T; cbn [rbind] in I; [|discriminate]. apply tracking_trig in T. cbn [v_att] in T. destruct (whl_actuator_commands _ _) as [ac'|]; cbn [rbind] in I; [|discriminate]. injection I as <- _. subst w1. reflexivity.
      * destruct ((mc_id c =? 1)%Z || (mc_id c =? 0)%Z)%bool; [intros E; injection E as <-; reflexivity|]. destruct (mc_id c =? 5)%Z; [destruct (detumble _ _) as [[k cur]|]; [intros E; injection E as <-; reflexivity|discriminate]|].
        destruct (mc_id c =? 4)%Z; [destruct (spindown_cmd _); [intros E; injection E as <-; reflexivity|discriminate]|]. intros E. injection E as <-. reflexivity.
  - intros (f & _ & ->). reflexivity.
Qed.
(** POINT's error never has a negative scalar part *)
Lemma stare_right p q (b t : v3) : 0 <= qw (error_quat q (stare_attitude p q b t)).
Proof.
  assert (A : 0 <= qw (acquire_target p q b t)).
  { unfold acquire_target, R_axis_angle. unfold axisangle_to_quat. cbn [qw]. rnumg. set (x := npclip _ _ _). assert (B := acos_bound x). apply cos_ge_0; lra. }
  replace (qw (error_quat q (stare_attitude p q b t))) with (dotq q q * qw (acquire_target p q b t)).
  - apply Rmult_le_pos; [unfold dotq; rnumg; nra|exact A].
  - unfold error_quat, stare_attitude. generalize (acquire_target p q b t). destruct q as [q0 q1 q2 q3]. intros [a0 a1 a2 a3]. unfold product, conjugate. vunfoldg. cbn [qw qx qy qz]. rnumg. ring.
Qed.

(** after every history the memory is the sign of the last scalar part outside the band; as POINT's is never negative, it is -1 exactly if a BBQ call put it there
    and no later call in BBQ or POINT has come back above the band *)
Theorem C130_memory : forall a m, 0 < width (m O) -> remembered (m O) = 1 -> (forall n, does (a n) (m n) (m (S n))) -> forall n,
  width (m n) = width (m O) /\ (remembered (m n) = 1 \/ remembered (m n) = -1) /\
  (remembered (m n) = -1 <-> exists j c x, (j < n)%nat /\ a j = Order c /\ mc_id c = 6%Z /\ heard (a j) (m j) = Some x /\ x <= - width (m O) /\
     forall k y, (j < k < n)%nat -> heard (a k) (m k) = Some y -> y < width (m O)).
Proof.
  intros a m W M D n. set (hw := width (m O)) in *. induction n as [|n (I1 & I2 & I3)].
  - split; [reflexivity|]. split; [left; exact M|]. split; [intros E; rewrite M in E; lra|intros (j & c & x & J & _); lia].
  - assert (T := does_trig _ _ _ (D n)). assert (POS : forall c x, a n = Order c -> mc_id c = 7%Z -> heard (a n) (m n) = Some x -> 0 <= x).
    { intros c x E I. rewrite E. cbn [heard]. rewrite I. cbn [Z.eqb Pos.eqb]. intros X. injection X as <-. apply stare_right. }
    unfold remembered at 1 2 3, width at 1. rewrite T. destruct (heard (a n) (m n)) as [x|] eqn:H.
    + rewrite trig_step_hw, trig_step_eq. fold (remembered (m n)) (width (m n)). rewrite I1. split; [reflexivity|].
      assert (B6 : x < 0 -> exists c, a n = Order c /\ mc_id c = 6%Z).
      { intros X. destruct (a n) as [h d|c|mo fu du] eqn:A; cbn [heard] in H; try discriminate. destruct (Z.eqb_spec (mc_id c) 6) as [E|E]; [exists c; auto|]. destruct (Z.eqb_spec (mc_id c) 7) as [E7|E7]; [|discriminate]. assert (Q := POS c x eq_refl E7 eq_refl). lra. }
      destruct I2 as [R|R]; rewrite R.
      * (* it was 1 *) assert (NO : ~ (exists j c x, (j < n)%nat /\ a j = Order c /\ mc_id c = 6%Z /\ heard (a j) (m j) = Some x /\ x <= - hw /\ forall k y, (j < k < n)%nat -> heard (a k) (m k) = Some y -> y < hw)) by (intros Q; apply I3 in Q; lra).
        destruct (Rle_dec (x * 1) (- hw)) as [L|L].
        -- destruct (Rlt_dec 0 x); [lra|]. destruct (Rlt_dec x 0) as [X|X]; [|lra]. split; [right; reflexivity|]. split; [intros _|intros _; reflexivity]. destruct (B6 X) as (c & A & C). exists n, c, x. repeat split; [lia|exact A|exact C|exact H|lra|]. intros k y K. lia.
        -- split; [left; reflexivity|]. split; [intros; lra|]. intros (j & c & z & J & A & C & Z & ZL & F). exfalso. destruct (Nat.eq_dec j n) as [->|NJ]; [rewrite H in Z; injection Z as ->; lra|]. apply NO. exists j, c, z. repeat split; try assumption; [lia|]. intros k y K. apply F. lia.
      * destruct (proj1 I3 R) as (j & c & z & J & A & C & Z & ZL & F). destruct (Rle_dec (x * -1) (- hw)) as [L|L].
        -- destruct (Rlt_dec 0 x); [|lra]. split; [left; reflexivity|]. split; [intros; lra|]. intros (j' & c' & z' & J' & A' & C' & Z' & ZL' & F'). exfalso. destruct (Nat.eq_dec j' n) as [->|NJ]; [rewrite H in Z'; injection Z' as ->; lra|]. assert (Q := F' n x ltac:(lia) H). lra.
        -- split; [right; reflexivity|]. split; [intros _|intros _; reflexivity]. exists j, c, z. repeat split; try assumption; [lia|]. intros k y K Y. destruct (Nat.eq_dec k n) as [->|NK]; [rewrite H in Y; injection Y as <-; lra|apply (F k y); [lia|exact Y]].
    + fold (remembered (m n)) (width (m n)). split; [exact I1|]. split; [exact I2|]. rewrite I3. split; intros (j & c & z & J & A & C & Z & ZL & F); exists j, c, z; repeat split; try assumption; try lia.
      * intros k y K Y. destruct (Nat.eq_dec k n) as [->|NK]; [congruence|apply (F k y); [lia|exact Y]].
      * destruct (Nat.eq_dec j n) as [->|NJ]; [congruence|lia].
      * intros k y K. apply F. lia.
Qed.
Print Assumptions C130_memory.

Lemma dist_opp s (u : v3) : rw_distribute s (opp3 u) = map Ropp (rw_distribute s u).
Proof. unfold rw_distribute. rewrite map_map. apply map_ext. intros w. generalize (inv3 (rw_gram s)) (w_axis w). intros [[a1 a2 a3] [b1 b2 b3] [c1 c2 c3]] [d1 d2 d3]. destruct u as [u1' u2' u3']. vunfoldg. cbn [x3 y3 z3 row1 row2 row3]. rnumg. ring. Qed.
Lemma zip_opp ws l : zip_with w_acceleration ws (map Ropp l) = map Ropp (zip_with w_acceleration ws l).
Proof. revert l. induction ws as [|w ws IH]; intros [|x l]; try reflexivity. cbn [map zip_with]. rewrite IH. f_equal. unfold w_acceleration, Rdiv. ring. Qed.
(** the wheels' commands for opposite torques are opposite, saturated or not *)
Lemma accl_opp s (u : v3) : rw_wheels s <> [] -> exists a, rw_accelerations s u = Ok a /\ rw_accelerations s (opp3 u) = Ok (map Ropp a).
Proof.
  intros NE. unfold rw_accelerations. rewrite dist_opp. destruct (rw_limited s); cbn [rbind]; [|eexists; split; [reflexivity|rewrite zip_opp; reflexivity]].
  assert (N : map Rabs (rw_distribute s u) <> []) by (unfold rw_distribute; destruct (rw_wheels s); [congruence|discriminate]). destruct (greatest_exists _ N) as (g & G).
  assert (G' : greatest (map Rabs (map Ropp (rw_distribute s u))) g) by (rewrite map_map, (map_ext _ Rabs) by apply Rabs_Ropp; exact G).
  rewrite (saturation_eq _ _ g G), (saturation_eq _ _ g G'). cbn [rbind]. eexists. split; [reflexivity|]. f_equal. rewrite <- zip_opp. f_equal. destruct (Rltb _ _); [|reflexivity].
  rewrite !map_map. apply map_ext. intros x. unfold Rdiv. ring.
Qed.

(** the same manager with a trigger as created *)
Definition fresh (m : Mgr) : Mgr := mkMgr (g_filter m) (g_mag m) (set_trig (g_whl m) (mkTr 1 (width m))) (g_mag_cmd m) (g_rw_cmd m).
(** a satellite on the reference of the roll whose attitude is told with the other sign of the quaternion leaves -1 behind *)
Theorem C130_left : forall m m' clock meas b t, remembered m = 1 -> 0 < width m <= 1 -> unitq (a_q (kf_att (g_filter m))) -> a_q (kf_att (g_filter m)) = scaleq (-1) (ecliptic_attitude clock true) ->
  mission_input clock meas 6 b t m = (m', None) -> remembered m' = -1.
Proof.
  intros m m' clock meas b t R W U Q E. assert (T := does_trig (Order (mkMC2 clock meas 6 b t)) m m' E). cbn [heard mc_id mc_clock Z.eqb Pos.eqb] in T. unfold remembered. rewrite T, trig_step_eq. fold (remembered m) (width m). rewrite R.
  assert (X : qw (error_quat (a_q (kf_att (g_filter m))) (ecliptic_attitude clock true)) = -1).
  { set (e := ecliptic_attitude clock true) in *. rewrite Q in U |- *. revert U. generalize e. intros [e0 e1 e2 e3]. unfold unitq, error_quat, product, conjugate. vunfoldg. cbn [qw qx qy qz]. rnumg. intros U. lra. }
  rewrite X. destruct (Rle_dec (-1 * 1) (- width m)) as [L|L]; [|lra]. destruct (Rlt_dec 0 (-1)); [lra|]. destruct (Rlt_dec (-1) 0); lra.
Qed.
Print Assumptions C130_left.
(** and POINT, called with that memory on a satellite at rest, commands exactly the opposite of what it would command with the trigger as created, which
    turns the boresight the short way to the target; it hands the memory on *)
Theorem C130_opposite_refuted : forall m f clock meas b t, let w := g_whl m in let x := cs_v (shown meas (g_filter m)) in
  wc_sun w = Some f -> zone_free w -> rw_wheels (s_rw (wc_sat w)) <> [] -> (length (rw_wheels (s_rw (wc_sat w))) <= length (v_whl x))%nat -> spanning (s_rw (wc_sat w)) -> det3 (s_total_moment (wc_sat w)) <> 0 ->
  remembered m = -1 -> 0 < width m -> unitq (v_att x) -> v_rate x = zero3 -> stare_rate_intl (v_pos x) (v_vel x) t = zero3 -> unit3 b -> v_pos x <> t -> -1 < aim b t x -> sqrt ((1 + aim b t x) / 2) < width m ->
  exists m' m'' acc, mission_input clock meas 7 b t m = (m', None) /\ mission_input clock meas 7 b t (fresh m) = (m'', None) /\ g_rw_cmd m' = map Ropp acc /\ g_rw_cmd m'' = acc /\ remembered m' = -1 /\ remembered m'' = 1 /\
    let u := scale3 (wc_alpha w) (haxis b (seen t x)) in
    (unsaturated (s_rw (wc_sat w)) (opp3 (mv (s_total_moment (wc_sat w)) u)) -> mv (s_inv_tot (wc_sat w)) (opp3 (rw_torque (s_rw (wc_sat w)) acc)) = u).
Proof.
  intros m f clock meas b t w x HS HZ NE LE SP DJ R W U RT ST B N A L. assert (US := seen_unit t x U N). assert (HC : 0 < hcos b (seen t x)) by (unfold hcos; rewrite <- aim_seen; apply sqrt_lt_R0; lra).
  assert (HL : hcos b (seen t x) < width m) by (unfold hcos; rewrite <- aim_seen; exact L).
  set (qc := stare_attitude (v_pos x) (v_att x) b t). assert (AQ := stare_acq (v_pos x) (v_att x) b t B US HC). fold (seen t x) in AQ. assert (EQ : error_quat (v_att x) qc = conjugate (acquire_target (v_pos x) (v_att x) b t)) by (apply stare_error, U).
  assert (EC : qw (error_quat (v_att x) qc) = hcos b (seen t x)) by (rewrite EQ, AQ; reflexivity). assert (EV : vec (error_quat (v_att x) qc) = opp3 (haxis b (seen t x))) by (rewrite EQ, AQ; destruct (haxis b (seen t x)); reflexivity).
  set (J := s_total_moment (wc_sat w)) in *. set (h := haxis b (seen t x)) in *.
  assert (Z1 : forall r, sandwich r zero3 = zero3 :> v3) by (intros r; apply sandwich_0).
  assert (TK : forall w1, wc_sun w1 = Some f -> zone_free w1 -> wc_sat w1 = wc_sat w -> wc_alpha w1 = wc_alpha w -> wc_gamma w1 = wc_gamma w ->
    tracking w1 x (sandwich (v_att x) (stare_rate_intl (v_pos x) (v_vel x) t)) zero3 qc = Ok (set_trig w1 (trig_step (hcos b (seen t x)) (wc_trig w1)), mv J (scale3 (tr_mem (trig_step (hcos b (seen t x)) (wc_trig w1)) * wc_alpha w) h))).
  { intros w1 S1 F1 E1 E2 E3. assert (X := tracking_free w1 x (sandwich (v_att x) (stare_rate_intl (v_pos x) (v_vel x) t)) zero3 qc f S1 F1 ltac:(rewrite E1; exact LE)). cbv zeta in X. rewrite X, EC, EV, E1, E2, RT, ST, !Z1. fold J. f_equal. f_equal.
    generalize (tr_mem (trig_step (hcos b (seen t x)) (wc_trig w1))) (wc_alpha w) (wc_gamma w1) (add3 (mv J zero3) (rw_momentum (s_rw (wc_sat w)) (v_whl x))). clearbody h J. clear. intros s al ga k. destruct J as [[a1 a2 a3] [b1 b2 b3] [c1 c2 c3]], h as [h1 h2 h3], k as [k1 k2 k3]. unfold zero3. vunfoldg. cbn [x3 y3 z3 row1 row2 row3]. rnumg. apply mk3_c; ring. }
  set (U1 := mv J (scale3 (wc_alpha w) h)).
  assert (MS : tr_mem (trig_step (hcos b (seen t x)) (wc_trig w)) = -1). { rewrite trig_step_eq. fold w in R. unfold remembered, width in *. fold w in R, W, HL. rewrite R. destruct (Rle_dec (hcos b (seen t x) * -1) (- tr_hw (wc_trig w))); [lra|reflexivity]. }
  assert (M1 : tr_mem (trig_step (hcos b (seen t x)) (mkTr 1 (width m))) = 1). { rewrite trig_step_eq. cbn [tr_mem tr_hw]. destruct (Rle_dec (hcos b (seen t x) * 1) (- width m)); [lra|reflexivity]. }
  assert (TW := TK w HS HZ eq_refl eq_refl eq_refl). rewrite MS in TW. assert (TF := TK (set_trig w (mkTr 1 (width m))) HS HZ eq_refl eq_refl eq_refl). cbn [set_trig wc_trig] in TF. rewrite M1 in TF.
  assert (EU : mv J (scale3 (-1 * wc_alpha w) h) = opp3 U1) by (unfold U1; clearbody h J; clear; generalize (wc_alpha w); intros al; destruct J as [[a1 a2 a3] [b1 b2 b3] [c1 c2 c3]], h as [h1 h2 h3]; vunfoldg; cbn [x3 y3 z3 row1 row2 row3]; rnumg; apply mk3_c; ring).
  assert (EF : mv J (scale3 (1 * wc_alpha w) h) = U1) by (unfold U1; rewrite Rmult_1_l; reflexivity). rewrite EU in TW. rewrite EF in TF.
  destruct (accl_opp (s_rw (wc_sat w)) (opp3 U1) NE) as (acc & A1 & A2).
  assert (PW : point_and_stare w (shown meas (g_filter m)) b t = Ok (set_trig w (trig_step (hcos b (seen t x)) (wc_trig w)), map Ropp acc)).
  { unfold point_and_stare. fold x. fold qc. rewrite TW. cbn [rbind]. unfold whl_actuator_commands. cbn [set_trig wc_sat]. rewrite A2. reflexivity. }
  assert (PF : exists tr, point_and_stare (set_trig w (mkTr 1 (width m))) (shown meas (g_filter m)) b t = Ok (tr, acc) /\ tr_mem (wc_trig tr) = 1).
  { eexists. split; [unfold point_and_stare; fold x; fold qc; rewrite TF; cbn [rbind]; unfold whl_actuator_commands; cbn [set_trig wc_sat]; rewrite A1; reflexivity|]. cbn [wc_trig]. exact M1. }
  destruct PF as (w2 & PF & M2). unfold mission_input. cbn [kf_output]. unfold mission_commands. cbn [st_value Z.eqb Pos.eqb orb g_whl g_mag g_filter g_mag_cmd g_rw_cmd fresh]. fold w. change (mkCS _ _) with (shown meas (g_filter m)). rewrite PW, PF.
  eexists. eexists. exists acc. split; [reflexivity|]. split; [reflexivity|]. cbn [g_rw_cmd g_whl]. unfold remembered. cbn [g_whl]. split; [reflexivity|]. split; [reflexivity|]. split; [exact MS|]. split; [exact M2|].
  cbv zeta. intros US1. fold U1 in US1. destruct (unsat_torque (s_rw (wc_sat w)) (opp3 U1) SP US1) as (acc' & A3 & _ & A4). rewrite A1 in A3. injection A3 as <-. rewrite A4.
  assert (OO : forall v : v3, opp3 (opp3 v) = v) by (intros [v1 v2 v3]; vunfoldg; cbn [x3 y3 z3]; rnumg; apply mk3_c; ring). rewrite OO. unfold U1, s_inv_tot. apply inv3_mv, DJ.
Qed.
Print Assumptions C130_opposite_refuted.

(** a history that comes to it: BBQ on the roll's reference with the other sign, then POINT at a target behind the satellite *)
Definition back_q (clock : AClock) : quat := scaleq (-1) (ecliptic_attitude clock true).
Definition back_mgr (clock : AClock) : Mgr :=
  mkMgr (mkKF (af_init (back_q clock)) (pf_init (mkSS (mkSV zero3 zero3 (back_q clock) zero3 [0; 0; 0]) 0 id3 zero3 0 0 0 0)) None 0.05 1) (mag_new free_ball (lin3 1 1 1) false) axis_ctl [0; 0; 0] [0; 0; 0].
Definition back_meas (clock : AClock) : CState := mkCS (mkSV zero3 zero3 (back_q clock) zero3 [0; 0; 0]) (mk3 1 0 0).
Example C130_ex : forall clock, let m := back_mgr clock in let meas := back_meas clock in let b := mk3 0 0.28 (-0.96) : v3 in let t := sandwich_opp (back_q clock) ez in
  remembered m = 1 /\ 0 < width m <= 1 /\ unitq (a_q (kf_att (g_filter m))) /\ a_q (kf_att (g_filter m)) = scaleq (-1) (ecliptic_attitude clock true) /\
  exists m', mission_input clock meas 6 b t m = (m', None) /\ remembered m' = -1 /\ width m' = 0.3 /\ let w := g_whl m' in let x := cs_v (shown meas (g_filter m')) in
    wc_sun w = Some (fun _ => ex) /\ zone_free w /\ spanning (s_rw (wc_sat w)) /\ (length (rw_wheels (s_rw (wc_sat w))) <= length (v_whl x))%nat /\ unitq (v_att x) /\ v_rate x = zero3 /\
    stare_rate_intl (v_pos x) (v_vel x) t = zero3 /\ unit3 b /\ v_pos x <> t /\ aim b t x = -0.96 /\ sqrt ((1 + aim b t x) / 2) < width m'.
Proof.
  intros clock m meas b t. assert (UE : unitq (ecliptic_attitude clock true)) by (unfold ecliptic_attitude; apply product_unit; [apply ECL_unit|apply (roll_unit (clk_absolute clock))]).
  assert (UQ : unitq (back_q clock)). { unfold back_q. revert UE. generalize (ecliptic_attitude clock true). intros [e0 e1 e2 e3]. unfold unitq. vunfoldg. cbn [qw qx qy qz]. rnumg. lra. }
  assert (R : remembered m = 1) by reflexivity. assert (W : width m = 0.3) by reflexivity. split; [exact R|]. split; [rewrite W; lra|]. split; [exact UQ|]. split; [reflexivity|].
  assert (Z4 : rw_momentum_r (s_rw free_ball) [0; 0; 0] = Ok zero3). { unfold rw_momentum_r, free_ball. cbn [s_rw rw_wheels length Nat.ltb Nat.leb]. unfold rw_momentum. cbn [rw_wheels zip_with sum3 fold_right]. unfold w_momentum, zero3. cbn [w_axis w_par]. f_equal. vunfoldg. cbn [x3 y3 z3]. rnumg. apply mk3_c; ring. }
  assert (Z5 : rw_momentum_r (s_rw free_ball) [0; 0; 0; 0] = Ok zero3). { unfold rw_momentum_r, free_ball. cbn [s_rw rw_wheels length Nat.ltb Nat.leb]. unfold rw_momentum. cbn [rw_wheels zip_with sum3 fold_right]. unfold w_momentum, zero3. cbn [w_axis w_par]. f_equal. vunfoldg. cbn [x3 y3 z3]. rnumg. apply mk3_c; ring. }
  assert (DS : exists cur mom, desaturate (mag_new free_ball (lin3 1 1 1) false) (shown meas (g_filter m)) [0; 0; 0; 0] = Ok (mag_new free_ball (lin3 1 1 1) false, cur) /\ sys_actuate (lin3 1 1 1) cur = Ok mom).
  { assert (M0 : forall c : v3, c = zero3 -> mag_moment_cmd (mk3 1 0 0) c = zero3) by (intros c ->; unfold mag_moment_cmd, zero3; vunfoldg; cbn [x3 y3 z3]; rnumg; apply mk3_c; field).
    unfold desaturate, desaturate_torque. cbn [mag_new mc_sat]. change (v_whl (cs_v (shown meas (g_filter m)))) with [0; 0; 0]. rewrite Z4, Z5. cbn [rbind]. unfold mag_actuator_commands. change (cs_mag (shown meas (g_filter m))) with (mk3 1 0 0 : v3). rewrite M0.
    2:{ unfold zero3. vunfoldg. cbn [x3 y3 z3]. rnumg. apply mk3_c; ring. }
    cbn [mc_bang mag_new rbind mc_torquers mc_trig mc_sat]. unfold zero3. cbn [x3 y3 z3]. rnumg. unfold distribute, lin3. cbn [ratios rbind]. unfold ext_ratio. destruct (Reqb_spec 0 0) as [_|Q]; [|exfalso; apply Q; reflexivity]. cbn [ext_min fold_left ext_ltb rbind scaled_command currents]. eexists. eexists. split; [reflexivity|]. cbn [sys_actuate rbind]. reflexivity. }
  destruct DS as (cur & mom & DS & SA).
  assert (TK : exists w' a, induce_bbq_roll_attitude axis_ctl clock (shown meas (g_filter m)) mom = Ok (w', a)).
  { unfold induce_bbq_roll_attitude, track_and_desaturate. set (v := cs_v (shown meas (g_filter m))).
    assert (X := tracking_free axis_ctl v BBQ zero3 (ecliptic_attitude clock true) (fun _ => ex) eq_refl (or_intror eq_refl) (le_n 3)). cbv zeta in X. rewrite X. cbn [rbind]. unfold whl_actuator_commands, rw_accelerations. cbn [set_trig wc_sat axis_ctl free_ball s_rw rw_limited rbind]. eexists. eexists. reflexivity. }
  destruct TK as (w' & a & TK).
  assert (MI : mission_input clock meas 6 b t m = (mkMgr (fst (kf_output meas (g_filter m))) (mag_new free_ball (lin3 1 1 1) false) w' cur a, None)).
  { unfold mission_input. cbn [kf_output]. unfold mission_commands. cbn [st_value Z.eqb Pos.eqb orb]. change (mkCS _ _) with (shown meas (g_filter m)). change (zeros 4) with [0; 0; 0; 0]. cbn [g_mag g_whl m back_mgr g_filter g_rw_cmd]. cbn [g_mag g_whl m back_mgr g_filter g_rw_cmd] in DS, TK. rewrite DS. cbn [mc_torquers mag_new]. rewrite SA. cbn [rbind]. rewrite TK. reflexivity. }
  eexists. split; [exact MI|]. split; [apply (C130_left m _ clock meas b t R ltac:(rewrite W; lra) UQ eq_refl MI)|].
  assert (WS : exists tr, w' = set_trig axis_ctl tr /\ tr_hw tr = 0.3).
  { unfold induce_bbq_roll_attitude, track_and_desaturate in TK. destruct (tracking _ _ _ _ _) as [[w1 u]|] eqn:T; cbn [rbind] in TK; [|discriminate]. apply tracking_trig in T. destruct (whl_actuator_commands _ _); cbn [rbind] in TK; [|discriminate]. injection TK as <- _. eexists. split; [exact T|]. rewrite trig_step_hw. reflexivity. }
  destruct WS as (tr & -> & HW). unfold width. cbn [g_whl set_trig wc_trig wc_sun wc_sat]. rewrite HW. cbv zeta. split; [reflexivity|]. split; [reflexivity|]. split; [right; reflexivity|]. split; [exact free_ball_spanning|]. split; [apply le_n|]. split; [exact UQ|].
  assert (UB : unit3 b) by (unfold unit3, b; vunfoldg; cbn [x3 y3 z3]; rnumg; lra). assert (UT : unit3 t). { unfold unit3, t. destruct (sandwich_opp_rigid (back_q clock) UQ) as (R1 & _). rewrite R1. unfold ez. vunfoldg. cbn [x3 y3 z3]. rnumg. ring. }
  split; [unfold shown; cbn [cs_v v_rate]; change (v_rate (cs_v meas)) with (zero3 : v3); change (a_b _) with (zero3 : v3); unfold zero3; vunfoldg; cbn [x3 y3 z3]; rnumg; apply mk3_c; ring|].
  set (x := cs_v _). assert (PX : v_pos x = zero3) by reflexivity. assert (VX : v_vel x = zero3) by reflexivity. assert (QX : v_att x = back_q clock) by reflexivity.
  assert (ST : stare_rate_intl zero3 zero3 t = zero3) by (unfold stare_rate_intl, zero3; generalize t; intros [t1 t2 t3]; vunfoldg; cbn [x3 y3 z3]; rnumg; apply mk3_c; unfold Rdiv; ring).
  split; [rewrite PX, VX; exact ST|]. split; [exact UB|]. split; [rewrite PX; intros E; rewrite <- E in UT; unfold unit3, zero3 in UT; revert UT; vunfoldg; cbn [x3 y3 z3]; rnumg; lra|].
  assert (PV : pointing_vector zero3 t = t). { rewrite pv_scale. replace (sub3 t zero3) with t by (generalize t; intros [t1 t2 t3]; unfold zero3; vunfoldg; cbn [x3 y3 z3]; rnumg; apply mk3_c; ring). replace (norm3 t) with 1 by (unfold norm3; rewrite UT; rnumg; rewrite sqrt_1; reflexivity). rewrite Rinv_1. generalize t; intros [t1 t2 t3]; vunfoldg; cbn [x3 y3 z3]; rnumg; apply mk3_c; ring. }
  assert (AM : aim b t x = -0.96). { rewrite aim_seen. unfold seen. rewrite PX, QX, PV. unfold t. rewrite sandwich_sandwich_opp by exact UQ. unfold b, ez. vunfoldg. cbn [x3 y3 z3]. rnumg. lra. }
  split; [exact AM|]. rewrite AM. rewrite <- (sqrt_square 0.3) by lra. apply sqrt_lt_1; lra.
Qed.
