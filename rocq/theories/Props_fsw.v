(** * Properties of FlightSoftware.UpdateState: C84 *)
From Coq Require Import Reals List Bool Lra Psatz Lia.
From Verif Require Import Num Vec Mat6 M_vector M_quaternion M_struct M_sim M_lqr M_fsw S_rot S_sim S_obs S_lqr P_quat P_sim P_wheel P_obs P_lqr P_lqr3 Props_sim Props_lqr.
Import ListNotations.
Local Open Scope R_scope.

Lemma nth_skip {A} n (l : list A) j d : nth (n + j) l d = nth j (skipn n l) d.
Proof. revert l. induction n as [|n IH]; intros [|x l]; cbn; try reflexivity; [destruct j; reflexivity|apply IH]. Qed.
Lemma last_first q : to_scalar_last (scalar_first q) = q.
Proof. destruct q; reflexivity. Qed.
Lemma snormalize_scale k a : 0 < k -> slen2 a = 1 -> snormalize (sscale k a) = a.
Proof.
  intros Hk Ha. assert (E : snorm (sscale k a) = k).
  { rewrite snorm_sqrt. replace (slen2 (sscale k a)) with (k * k * slen2 a) by (unfold slen2, sscale; cbn; ring). rewrite Ha, Rmult_1_r. apply sqrt_square. lra. }
  unfold snormalize. rewrite E. destruct a as [x y z s]. unfold sscale; cbn. rnumg. f_equal; field; lra.
Qed.
Lemma v3_zerob_spec v : v3_zerob v = true <-> v = zero3.
Proof.
  destruct v as [x y z]. unfold v3_zerob. cbn [x3 y3 z3]. rewrite !andb_true_iff.
  split.
  - intros [[A B] C]. destruct (Reqb_spec x 0), (Reqb_spec y 0), (Reqb_spec z 0); try discriminate. subst. reflexivity.
  - intros E. apply mk3_inj in E. rnum. destruct E as (-> & -> & ->). destruct (Reqb_spec 0 0); [auto|contradiction].
Qed.
(** the error angle is zero exactly for the identity *)
Lemma error_angle_zero e : slen2 e = 1 -> (error_angle e = 0 <-> forall v, turns e v = v).
Proof.
  intros U. assert (PP := PI_RGT_0). assert (U' := U). unfold slen2 in U'. assert (SB : Rabs (ss e) <= 1) by (apply Rabs_le; nra). assert (AP := Rabs_pos (ss e)).
  assert (CA := cos_acos (Rabs (ss e)) ltac:(lra)).
  assert (SQ : forall x, Rabs x ^ 2 = x ^ 2) by (intros x; unfold Rabs; destruct (Rcase_abs x); ring).
  split.
  - intros E v. unfold error_angle in E. assert (AZ : acos (Rabs (ss e)) = 0). { apply (Rmult_eq_reg_r (2 * 180 / PI)); [|unfold Rdiv; apply Rmult_integral_contrapositive_currified; [lra|apply Rinv_neq_0_compat; lra]]. rewrite Rmult_0_l, <- E. field. lra. }
    rewrite AZ, cos_0 in CA. assert (S2 := SQ (ss e)). rewrite <- CA in S2.
    assert (X : sx e = 0) by nra. assert (Y : sy e = 0) by nra. assert (Z : sz e = 0) by nra. unfold turns, svec. rewrite X, Y, Z. destruct v as [a b c]. vunfoldg; rnumg. apply mk3_c; ring.
  - intros T. assert (T1 := T ex). assert (T2 := T ey). assert (T3 := T ez). destruct e as [x y z s]. cbn [ss sx sy sz] in *. unfold turns, svec, ex, ey, ez in T1, T2, T3. cbn [ss sx sy sz] in *.
    revert T1 T2 T3. vunfoldg; rnumg. intros T1 T2 T3. apply mk3_inj in T1. apply mk3_inj in T2. apply mk3_inj in T3. destruct T1 as (A1 & _). destruct T2 as (_ & A2 & _). destruct T3 as (_ & _ & A3).
    assert (E : x ^ 2 + y ^ 2 + z ^ 2 = 0) by lra. assert (S1 : s ^ 2 = 1) by lra. assert (S2 := SQ s). assert (SA : Rabs s = 1) by nra.
    unfold error_angle. cbn [ss]. rewrite SA, acos_1. unfold Rdiv. ring.
Qed.
Lemma check_hemi_spec e : let '(h, f) := check_hemi e in slen2 h = slen2 e /\ 0 <= ss h /\ (forall v, turns h v = turns e v) /\ error_angle h = error_angle e /\
  forall Kq Kw w, quaternion_controller Kq Kw zero3 f h w = controller_step Kq Kw zero3 e w.
Proof.
  unfold controller_step. destruct (check_hemi e) as [h f] eqn:E. unfold check_hemi in E. destruct (Rleb_spec 0 (ss e)) as [L|L]; injection E as <- <-.
  - split; [reflexivity|]. split; [exact L|]. split; [reflexivity|]. split; reflexivity.
  - split; [unfold slen2; cbn; ring|]. split; [cbn; lra|]. split.
    + intros v. destruct e as [x y z s], v as [a b c]. unfold turns, svec; cbn. vunfoldg; rnumg. apply mk3_c; ring.
    + split; [|reflexivity]. unfold error_angle. cbn [ss]. rewrite Rabs_Ropp. reflexivity.
Qed.
(** the rotation to which the target is switched: 270 degrees about y *)
Lemma t2_spec : slen2 fsw_t2 = 1 /\ forall x y z, turns fsw_t2 (mk3 x y z) = mk3 (- z) y x.
Proof.
  assert (NY : mk3 0 1 0 <> (zero3 : v3)) by (intros E; apply mk3_inj in E; rnum; lra).
  destruct (C68_axis_angle (mk3 0 1 0) 180 NY) as (L1 & T1 & _). destruct (C68_axis_angle (mk3 0 1 0) 90 NY) as (L2 & T2 & _). destruct C67_error as (TM & _ & _).
  unfold fsw_t2. split; [apply (C67_product _ _); lra|]. intros x y z. rewrite TM by assumption. rewrite T2, T1.
  assert (UD : div3 (mk3 0 1 0) (norm3 (mk3 0 1 0)) = (mk3 0 1 0 : v3)) by (apply unit_div; unfold unit3; vunfoldg; rnumg; ring). rewrite UD.
  replace (180 * (PI / 180)) with PI by field. replace (90 * (PI / 180)) with (PI / 2) by field. unfold rodrigues. rewrite cos_PI, sin_PI, cos_PI2, sin_PI2. vunfoldg; rnumg. apply mk3_c; ring.
Qed.
Lemma same_turns t a : slen2 t = 1 -> slen2 a = 1 -> ((forall v, turns (quat_error t a) v = v) <-> forall v, turns a v = turns t v).
Proof.
  intros UT UA. destruct C67_error as (TM & EB & ID). destruct (EB t a UT UA) as [_ B].
  assert (CI : forall v, turns a (turns (quat_conjugate a) v) = v).
  { intros v. rewrite <- TM by (rewrite ?conj_len2; assumption). change (quat_mult a (quat_conjugate a)) with (quat_error a a). rewrite (ID a UA). unfold turns, svec; cbn. destruct v as [x y z]. vunfoldg; rnumg. apply mk3_c; ring. }
  split; intros H v; [rewrite <- B; symmetry; apply H|]. transitivity (turns (quat_error t a) (turns a (turns (quat_conjugate a) v))); [rewrite CI; reflexivity|]. rewrite B, <- H. apply CI.
Qed.

(** ** C84: one call, from every state and with every set of messages *)
Definition wants (Kq Kw : m3) (target a : S4 R) (w : v3) : v3 := opp3 (add3 (mv Kq (svec (quat_error target a))) (mv Kw w)).
Theorem C84_update : forall Kq Kw axes p s k a w speeds, good_wheels p -> length axes = 4%nat -> (4 <= length speeds)%nat -> (4 <= length (fs_vals s))%nat ->
  slen2 (fs_target s) = 1 -> slen2 a = 1 -> 0 < k ->
  exists s', update_state Kq Kw axes p s (mkFm (Some (scalar_first (sscale k a))) (Some w) (Some speeds)) = Ok s' /\
    ((forall v, turns a v = turns (fs_target s) v) -> w = zero3 -> slen2 (fs_target s') = 1 /\ forall x y z, turns (fs_target s') (mk3 x y z) = mk3 (- z) y x) /\
    ((exists v, turns a v <> turns (fs_target s) v) \/ w <> zero3 -> fs_target s' = fs_target s) /\
    (exists e, fs_errors s' = fs_errors s ++ [e] /\ slen2 e = 1 /\ 0 <= ss e /\ forall v, turns e (turns a v) = turns (fs_target s) v) /\
    length (fs_vals s') = length (fs_vals s) /\ skipn 4 (fs_vals s') = skipn 4 (fs_vals s) /\
    (forall i, (i < 4)%nat -> Rabs (nth i (fs_vals s') 0) <= wh_maxT p) /\
    (let tau := wants Kq Kw (fs_target s) a w in det3 (g_gram axes) <> 0 ->
     (forall i, (i < 4)%nat -> let u := nth i (convert_torque_to_wheels axes tau) 0 in Rabs u <= wh_maxT p /\ Rabs (wheel_next (wh_J p) (wh_dt p) (nth i speeds 0) u) <= wh_maxS p) ->
     reaction axes (fs_vals s') = tau).
Proof.
  intros Kq Kw axes p s k a w speeds G LA LS LV UT UA Hk. unfold update_state. cbn [m_star m_imu m_rw]. rewrite last_first, snormalize_scale by assumption.
  destruct C67_error as (TM & EB & ID). destruct (EB (fs_target s) a UT UA) as [_ B].
  assert (UE : slen2 (quat_error (fs_target s) a) = 1) by (apply (C67_product _ _); rewrite ?conj_len2; lra).
  assert (HS := check_hemi_spec (quat_error (fs_target s) a)). destruct (check_hemi (quat_error (fs_target s) a)) as [h f]. destruct HS as (UH & SH & TH & AH & QH).
  rewrite QH, (proj1 (C71_undone Kq Kw zero3 _ w)). replace (sub3 w zero3) with w by vring. fold (wants Kq Kw (fs_target s) a w). set (tau := wants Kq Kw (fs_target s) a w).
  assert (LC : length (convert_torque_to_wheels axes tau) = 4%nat) by (unfold convert_torque_to_wheels; rewrite map_length; exact LA).
  destruct (clamp_all_spec p 4 (convert_torque_to_wheels axes tau) speeds (fs_vals s)) as (r & E & L & SK & N); [lia|lia|lia|].
  unfold check_torque_vals. rewrite E. cbn [rbind]. eexists. split; [reflexivity|]. cbn [fs_target fs_errors fs_vals].
  assert (SW : Reqb (error_angle h) 0 = true <-> forall v, turns a v = turns (fs_target s) v).
  { rewrite AH, <- (same_turns _ _ UT UA), <- (error_angle_zero _ UE). destruct (Reqb_spec (error_angle (quat_error (fs_target s) a)) 0); split; intros; try discriminate; try contradiction; auto. }
  split.
  { intros H W. apply SW in H. apply v3_zerob_spec in W. rewrite H, W. cbn [andb]. exact t2_spec. }
  split.
  { intros H. destruct (Reqb (error_angle h) 0) eqn:Q; cbn [andb]; [|reflexivity]. destruct (v3_zerob w) eqn:W; [|reflexivity]. exfalso. apply v3_zerob_spec in W.
    destruct H as [[v H]|H]; [apply H; apply SW; reflexivity|contradiction]. }
  split.
  { exists h. split; [reflexivity|]. split; [lra|]. split; [exact SH|]. intros v. rewrite TH. apply B. }
  split; [exact L|]. split; [exact SK|]. split.
  { intros i Hi. rewrite N by exact Hi. unfold wheel_clamp. cbv zeta. destruct G as (HM & _).
    assert (CB : forall x, Rabs (clamp (wh_maxT p) x) <= wh_maxT p) by (intros x; destruct (clamp_cases (wh_maxT p) x HM) as [[-> X]|[[-> X]|[-> X]]]; apply Rabs_le; lra).
    match goal with |- context [if ?c then _ else _] => destruct c end; apply CB. }
  intros D F. destruct (C82_applied p axes tau speeds (fs_vals s) G D LA LS LV F) as (r' & E' & X). unfold check_torque_vals in E'. rewrite E in E'. injection E' as <-. exact X.
Qed.
Print Assumptions C84_update.
(** a message not yet written, or too few wheel speeds *)
Theorem C84_missing : forall Kq Kw axes p s m, (m_star m = None \/ m_imu m = None \/ m_rw m = None -> update_state Kq Kw axes p s m = Raise UnboundLocalError) /\
  (forall q w speeds, m = mkFm (Some q) (Some w) (Some speeds) -> (4 <= length (fs_vals s))%nat -> (length speeds < 4)%nat -> update_state Kq Kw axes p s m = Raise IndexError).
Proof.
  intros Kq Kw axes p s m. split.
  - intros H. unfold update_state. destruct (m_star m); [|reflexivity]. destruct (check_hemi _) as [h f]. destruct (m_imu m); [|reflexivity]. destruct (m_rw m); [|reflexivity]. destruct H as [H|[H|H]]; discriminate.
  - intros q w speeds -> LV LS. unfold update_state. cbn [m_star m_imu m_rw]. destruct (check_hemi _) as [h f]. unfold check_torque_vals. rewrite clamp_all_short; [reflexivity|exact LV|right; exact LS].
Qed.
Print Assumptions C84_missing.
(** every history of messages: no exception, one error per call, torques within the limit, and a target that is the identity until it is
    switched to the 270 degree rotation *)
Definition written (m : Fmsg) : Prop := exists k a w speeds, 0 < k /\ slen2 a = 1 /\ (4 <= length speeds)%nat /\ m = mkFm (Some (scalar_first (sscale k a))) (Some w) (Some speeds).
Lemma target_step Kq Kw axes p s m s' : update_state Kq Kw axes p s m = Ok s' -> fs_target s' = fs_target s \/ fs_target s' = fsw_t2.
Proof.
  unfold update_state. destruct (m_star m); [|discriminate]. destruct (check_hemi _) as [h f]. destruct (m_imu m); [|discriminate]. destruct (m_rw m); [|discriminate].
  destruct (check_torque_vals _ _ _ _); cbn [rbind]; [|discriminate]. intros E. injection E as <-. cbn [fs_target]. match goal with |- context [if ?c then _ else _] => destruct c end; auto.
Qed.
Lemma run_t2 Kq Kw axes p ms : forall s s', fsw_run Kq Kw axes p s ms = Ok s' -> fs_target s = fsw_t2 -> fs_target s' = fsw_t2.
Proof.
  induction ms as [|m ms IH]; intros s s' E T; cbn [fsw_run] in E; [injection E as <-; exact T|].
  destruct (update_state Kq Kw axes p s m) as [s1|e] eqn:U; cbn [rbind] in E; [|discriminate]. apply (IH s1 s' E). destruct (target_step _ _ _ _ _ _ _ U); congruence.
Qed.
Lemma run_target Kq Kw axes p ms : forall s s', fsw_run Kq Kw axes p s ms = Ok s' -> fs_target s' = fs_target s \/ fs_target s' = fsw_t2.
Proof.
  induction ms as [|m ms IH]; intros s s' E; cbn [fsw_run] in E; [injection E as <-; auto|].
  destruct (update_state Kq Kw axes p s m) as [s1|e] eqn:U; cbn [rbind] in E; [|discriminate]. destruct (IH s1 s' E) as [T|T]; [|auto]. destruct (target_step _ _ _ _ _ _ _ U); [left|right]; congruence.
Qed.
Theorem C84_runs : forall Kq Kw axes p ms, good_wheels p -> length axes = 4%nat -> Forall written ms ->
  exists s', fsw_run Kq Kw axes p fsw_start ms = Ok s' /\ length (fs_errors s') = length ms /\ Forall (fun e => slen2 e = 1 /\ 0 <= ss e) (fs_errors s') /\
    length (fs_vals s') = 36%nat /\ skipn 4 (fs_vals s') = repeat 0 32 /\ (forall i, (i < 36)%nat -> Rabs (nth i (fs_vals s') 0) <= wh_maxT p) /\
    (fs_target s' = mks 0 0 0 1 \/ forall x y z, turns (fs_target s') (mk3 x y z) = mk3 (- z) y x).
Proof.
  intros Kq Kw axes p ms G LA. assert (GM : 0 <= wh_maxT p) by apply G.
  assert (H : forall ms s, slen2 (fs_target s) = 1 -> (fs_target s = mks 0 0 0 1 \/ forall x y z, turns (fs_target s) (mk3 x y z) = mk3 (- z) y x) ->
    length (fs_vals s) = 36%nat -> skipn 4 (fs_vals s) = repeat 0 32 -> (forall i, (i < 4)%nat -> Rabs (nth i (fs_vals s) 0) <= wh_maxT p) -> Forall (fun e => slen2 e = 1 /\ 0 <= ss e) (fs_errors s) -> Forall written ms ->
    exists s', fsw_run Kq Kw axes p s ms = Ok s' /\ length (fs_errors s') = (length (fs_errors s) + length ms)%nat /\ Forall (fun e => slen2 e = 1 /\ 0 <= ss e) (fs_errors s') /\
    length (fs_vals s') = 36%nat /\ skipn 4 (fs_vals s') = repeat 0 32 /\ (forall i, (i < 4)%nat -> Rabs (nth i (fs_vals s') 0) <= wh_maxT p) /\
    (fs_target s' = mks 0 0 0 1 \/ forall x y z, turns (fs_target s') (mk3 x y z) = mk3 (- z) y x)).
  { clear ms. induction ms as [|m ms IH]; intros s UT TT LV SK BV FE W.
    - exists s. split; [reflexivity|]. split; [cbn; lia|]. auto.
    - assert (Wm := Forall_inv W). assert (Wms := Forall_inv_tail W). destruct Wm as (k & a & w & speeds & Hk & UA & LS & ->).
      destruct (C84_update Kq Kw axes p s k a w speeds G LA LS ltac:(lia) UT UA Hk) as (s1 & E & T1 & T2 & (e & EE & UE & SE & _) & L1 & S1 & B1 & _).
      assert (TS := target_step _ _ _ _ _ _ _ E). cbn [fsw_run]. rewrite E. cbn [rbind].
      destruct (IH s1) as (s' & E' & LE & R); try assumption.
      + destruct TS as [->| ->]; [exact UT|apply t2_spec].
      + destruct TS as [->| ->]; [exact TT|right; apply t2_spec].
      + congruence.
      + congruence.
      + rewrite EE. apply Forall_app. split; [exact FE|]. constructor; [split; assumption|constructor].
      + exists s'. split; [exact E'|]. split; [|exact R]. rewrite LE, EE, app_length. cbn. lia. }
  intros W. destruct (H ms fsw_start) as (s' & E & LE & FE & LV & SK & BV & TT); try assumption.
  - unfold slen2; cbn; ring.
  - left; reflexivity.
  - reflexivity.
  - reflexivity.
  - intros i Hi. unfold fsw_start. cbn [fs_vals]. rewrite nth_repeat, Rabs_R0. exact GM.
  - constructor.
  - exists s'. split; [exact E|]. split; [exact LE|]. split; [exact FE|]. split; [exact LV|]. split; [exact SK|]. split; [|exact TT].
    intros i Hi. destruct (le_lt_dec 4 i) as [Q|Q]; [|apply BV, Q]. replace i with (4 + (i - 4))%nat by lia. rewrite nth_skip, SK, nth_repeat, Rabs_R0. exact GM.
Qed.
Print Assumptions C84_runs.
(** it never changes again after the switch, and it switches only there *)
Theorem C84_once : forall Kq Kw axes p ms1 ms2 s1 s2, fsw_run Kq Kw axes p fsw_start ms1 = Ok s1 -> fsw_run Kq Kw axes p s1 ms2 = Ok s2 ->
  fs_target s1 <> mks 0 0 0 1 -> fs_target s2 = fs_target s1.
Proof.
  intros Kq Kw axes p ms1 ms2 s1 s2 E1 E2 N. destruct (run_target Kq Kw axes p ms1 _ _ E1) as [T|T]; [contradiction|]. rewrite T. exact (run_t2 Kq Kw axes p ms2 s1 s2 E2 T).
Qed.
Print Assumptions C84_once.
(** a body at rest on the target: the target is switched by the first call *)
Example C84_ex : let m := mkFm (Some (scalar_first (sscale 2 (mks 0 0 0 (-1))))) (Some zero3) (Some [0; 0; 0; 0]) in
  written m /\ (forall v, turns (mks 0 0 0 (-1)) v = turns (mks 0 0 0 1) v) /\ good_wheels (mkWh 0.01 1047 (4.2946 / 10 ^ 6) 0.1) /\ length sim_wheels = 4%nat.
Proof.
  cbv zeta. split.
  - exists 2, (mks 0 0 0 (-1)), zero3, [0; 0; 0; 0]. split; [lra|]. split; [unfold slen2; cbn; ring|]. split; [cbn; lia|reflexivity].
  - split; [intros [x y z]; unfold turns, svec; cbn; vunfoldg; rnumg; apply mk3_c; ring|]. split; [unfold good_wheels; cbn; lra|reflexivity].
Qed.
