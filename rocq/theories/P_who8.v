(** * Lemmas: the whole loop runs, whatever the errors of the sensors *)
From Coq Require Import Reals ZArith List Bool Arith Lra Psatz Lia.
From Verif Require Import Num Vec Mat6 M_vector M_quaternion M_jday M_struct M_dyn M_ctrl M_obs S_rot S_dyn S_ctrl S_obs S_steady S_whole P_rk P_exist2 P_loop1.
From Verif Require Import P_quat P_wheel P_dyn P_dyn2 P_obs P_obs3 P_sat P_ctrl P_ctrl2 P_ctrl3 P_ctrl4 P_ctrl5 P_conv P_loop2 P_loop3 P_picard Props_obs Props_samp P_farr P_who6 P_who7.
Import ListNotations.
Local Open Scope R_scope.

(** errors of the sensors: of the gyro when the controller is called, of its mean over the cycle, of the tracker, of the wheel speeds *)
Record Noise := { e_rate : v3; e_mean : v3; e_att : quat; e_whl : list R }.
(** the cycle from t0 to t1 has exactly the errors n: in the state m given to the controller, in the gyro's mean reading and in the tracker's reading *)
Definition errs (bs : v3) (n : Noise) (y : R -> SVec) (t0 t1 : R) (m : SVec) (f f' : AttF) : Prop :=
  m = mkSV (v_pos (y t0)) (v_vel (y t0)) (a_q f) (sub3 (add3 (add3 (v_rate (y t0)) bs) (e_rate n)) (a_b f)) (sped (v_whl (y t0)) (e_whl n)) /\
  exists g, reads_mean y t0 t1 (add3 bs (e_mean n)) g 0 /\ af_measurement (addq (v_att (y t1)) (e_att n)) (af_propagate g (t1 - t0) f) = Ok f'.
Lemma mean_id (a b c : v3) : sub3 (add3 (add3 a b) c) (add3 a (add3 b c)) = zero3. Proof. revert a b c. vring. Qed.
Section RUN.
Variables (qc : quat) (F : R -> v3) (bs : v3) (h : R) (e : nat -> Noise).
Definition wl_given (n : Noise) (v : SVec) (f : AttF) : SVec := mkSV (v_pos v) (v_vel v) (a_q f) (sub3 (add3 (add3 (v_rate v) bs) (e_rate n)) (a_b f)) (sped (v_whl v) (e_whl n)).
Definition wl_cmd (n : Noise) (w : WhlCtl) (v : SVec) (f : AttF) : WhlCtl * v3 := match tracking w (wl_given n v f) zero3 zero3 qc with Ok r => r | Raise _ => (w, zero3) end.
Definition wl_glide (n : Noise) (t0 : R) (w : WhlCtl) (v : SVec) (f : AttF) : R -> SVec := glide (wc_sat w) F v (acc_of (s_rw (wc_sat w)) (opp3 (snd (wl_cmd n w v f)))) h t0.
Definition wl_mean (n : Noise) (t0 : R) (w : WhlCtl) (v : SVec) (f : AttF) : v3 :=
  let a := prim3 (fun t => v_rate (wl_glide n t0 w v f t)) zero3 t0 in add3 (add3 (scale3 (/ h) (sub3 (a (t0 + h)) (a t0))) bs) (e_mean n).
Definition wl_filter (n : Noise) (t0 : R) (w : WhlCtl) (v : SVec) (f : AttF) : AttF :=
  match af_measurement (addq (v_att (wl_glide n t0 w v f (t0 + h))) (e_att n)) (af_propagate (wl_mean n t0 w v f) h f) with Ok f' => f' | Raise _ => f end.
Definition quiet (n : Noise) (len : nat) (sat : Satellite) (d : R) : Prop :=
  norm3 (e_rate n) <= d /\ norm3 (e_mean n) <= d /\ normq (e_att n) <= d /\ norm3 (rw_torque (s_rw sat) (e_whl n)) <= d /\ (length (e_whl n) <= len)%nat.
Definition sound (w : WhlCtl) (g : v3 -> v3) (len : nat) (v : SVec) (f : AttF) : Prop :=
  wc_sun w = Some g /\ zone_free w /\ spanning (s_rw (wc_sat w)) /\ rw_limited (s_rw (wc_sat w)) = false /\ det3 (s_total_moment (wc_sat w)) <> 0 /\ unitq (v_att v) /\ (length (rw_wheels (s_rw (wc_sat w))) <= len)%nat /\ length (v_whl v) = len /\ cov_ok (a_P f).
Lemma loop_step n t0 t1 w g len v f d y : 0 < h -> t1 = t0 + h -> cont3 F -> 0 <= d -> sound w g len v f -> quiet n len (wc_sat w) d -> (forall t, t0 <= t <= t1 -> y t = wl_glide n t0 w v f t) ->
  (loop_cycle qc F (fun _ => zero3) y bs d t0 t1 w (fst (wl_cmd n w v f)) (wl_given n v f) f (wl_filter n t0 w v f) /\ errs bs n y t0 t1 (wl_given n v f) f (wl_filter n t0 w v f)) /\
  sound (fst (wl_cmd n w v f)) g len (wl_glide n t0 w v f t1) (wl_filter n t0 w v f) /\ wc_sat (fst (wl_cmd n w v f)) = wc_sat w /\ wl_glide n t0 w v f t0 = v /\
  (forall t, norm3 (body_momentum (wc_sat w) (wl_glide n t0 w v f t)) = norm3 (body_momentum (wc_sat w) v)).
Proof.
  intros H T1 CF D0 (HS & HZ & SP & NL & DJ & U0 & LW & LV & CO) (N1 & N2 & N3 & N4 & NW) EY. assert (LM : length (v_whl (wl_given n v f)) = len) by (unfold wl_given; cbn [v_whl]; rewrite sped_len; exact LV).
  assert (TR := tracking_free w (wl_given n v f) zero3 zero3 qc g HS HZ ltac:(rewrite LM; exact LW)). cbv zeta in TR. set (w' := set_trig w _) in TR. set (u := add3 _ _) in TR. assert (EC : wl_cmd n w v f = (w', u)) by (unfold wl_cmd; rewrite TR; reflexivity). rewrite EC. cbn [fst].
  set (sat := wc_sat w) in *. set (acc := acc_of (s_rw sat) (opp3 u)). assert (LA : (length acc <= length (v_whl v))%nat) by (unfold acc; rewrite acc_of_len, LV; exact LW).
  assert (EG : wl_glide n t0 w v f = glide sat F v acc h t0) by (unfold wl_glide; rewrite EC; reflexivity). destruct (glide_spec sat F v acc h t0 DJ CF U0 LA ltac:(lra)) as (G0 & G1 & G2 & G3 & G4 & G5). rewrite <- EG in *. set (z := wl_glide n t0 w v f) in *.
  assert (CM : cov_ok (a_P (af_propagate (wl_mean n t0 w v f) h f))) by (apply prop_cov; [lra|exact CO]). destruct (meas_cov (addq (v_att (z (t0 + h))) (e_att n)) _ CM) as (f' & EF & CF' & _).
  assert (EW : wl_filter n t0 w v f = f') by (unfold wl_filter; fold z; rewrite EF; reflexivity). rewrite EW.
  assert (Y0 : y t0 = v) by (rewrite EY by lra; exact G0). assert (Y1 : y t1 = z (t0 + h)) by (rewrite EY by lra; rewrite T1; reflexivity).
  split; [|split; [|split; [|split]]].
  - split. 2:{ split; [rewrite Y0; reflexivity|]. exists (wl_mean n t0 w v f). destruct (prim3_spec (fun t => v_rate (z t)) zero3 t0 G3) as (A0 & DA). split.
      - exists (prim3 (fun t => v_rate (z t)) zero3 t0). split; [intros t Ht; rewrite EY by exact Ht; apply DA|]. replace (t1 - t0) with h by (rewrite T1; ring). rewrite T1. unfold wl_mean. cbv zeta. fold z. set (a := scale3 _ _). right. rewrite <- P_obs3.norm3_zero. f_equal. apply mean_id.
      - rewrite Y1. replace (t1 - t0) with h by (rewrite T1; ring). exact EF. }
    split; [reflexivity|]. split.
    { exists (add3 (add3 (v_rate v) bs) (e_rate n)). split; [|reflexivity]. rewrite Y0. replace (sub3 (add3 (add3 (v_rate v) bs) (e_rate n)) (add3 (v_rate v) bs)) with (e_rate n) by (generalize (add3 (v_rate v) bs) (e_rate n); clear; vring). exact N1. }
    split. { rewrite Y0. unfold wl_given. cbn [v_whl]. fold sat. rewrite sped_momentum by (rewrite LV; exact NW). replace (sub3 (add3 (rw_momentum (s_rw sat) (v_whl v)) (rw_torque (s_rw sat) (e_whl n))) (rw_momentum (s_rw sat) (v_whl v))) with (rw_torque (s_rw sat) (e_whl n)) by (generalize (rw_momentum (s_rw sat) (v_whl v)) (rw_torque (s_rw sat) (e_whl n)); clear; vring). exact N4. }
    split. { exists u, acc, z, (t0 - 1), (t0 + h + 1). split; [exact TR|]. split; [left; exact NL|]. split; [unfold whl_actuator_commands, rw_accelerations; change (wc_sat w') with sat; rewrite NL; reflexivity|]. split; [lra|]. split; [lra|]. split; [exact EY|]. exact G5. }
    split. { intros t _. rewrite P_obs3.norm3_zero. exact D0. }
    exists (wl_mean n t0 w v f), (addq (v_att (z (t0 + h))) (e_att n)). destruct (prim3_spec (fun t => v_rate (z t)) zero3 t0 G3) as (A0 & DA). replace (t1 - t0) with h by (rewrite T1; ring). split; [|split].
    + exists (prim3 (fun t => v_rate (z t)) zero3 t0). split; [intros t Ht; rewrite EY by exact Ht; apply DA|]. replace (t1 - t0) with h by (rewrite T1; ring). rewrite T1. unfold wl_mean. cbv zeta. fold z. set (a := add3 (scale3 _ _) bs). replace (sub3 (add3 a (e_mean n)) a) with (e_mean n) by (generalize a (e_mean n); clear; vring). exact N2.
    + rewrite Y1. replace (subq (addq (v_att (z (t0 + h))) (e_att n)) (v_att (z (t0 + h)))) with (e_att n) by (generalize (v_att (z (t0 + h))) (e_att n); clear; vring). exact N3.
    + exact EF.
  - split; [exact HS|]. split; [exact HZ|]. split; [exact SP|]. split; [exact NL|]. split; [exact DJ|]. split; [apply G1|]. split; [exact LW|]. split; [rewrite G2; exact LV|exact CF'].
  - reflexivity.
  - exact G0.
  - exact G4.
Qed.
Variables (w0 : WhlCtl) (v0 : SVec) (f0 : AttF).
Fixpoint wl_seq (k : nat) : WhlCtl * SVec * AttF :=
  match k with
  | O => (w0, v0, f0)
  | S k => let '(w, v, f) := wl_seq k in (fst (wl_cmd (e k) w v f), wl_glide (e k) (INR k * h) w v f (INR (S k) * h), wl_filter (e k) (INR k * h) w v f)
  end.
Definition wl_w k := fst (fst (wl_seq k)). Definition wl_v k := snd (fst (wl_seq k)). Definition wl_f k := snd (wl_seq k).
Definition wl_at (k : nat) (t : R) : SVec := wl_glide (e k) (INR k * h) (wl_w k) (wl_v k) (wl_f k) t.
Definition wl_y (t : R) : SVec := wl_at (Z.to_nat (up (t / h) - 1)) t.
Lemma run_exists g len d : 0 < h -> cont3 F -> 0 <= d -> sound w0 g len v0 f0 -> (forall k, quiet (e k) len (wc_sat w0) d) ->
  whole_loop qc F (fun _ => zero3) wl_y bs d h wl_w (fun k => wl_given (e k) (wl_v k) (wl_f k)) wl_f /\ (forall k, errs bs (e k) wl_y (INR k * h) (INR (S k) * h) (wl_given (e k) (wl_v k) (wl_f k)) (wl_f k) (wl_f (S k))) /\ wl_y 0 = v0 /\ forall t, 0 <= t -> norm3 (body_momentum (wc_sat w0) (wl_y t)) = norm3 (body_momentum (wc_sat w0) v0).
Proof.
  intros H CF D0 S0 Q. assert (ST : forall k, INR (S k) * h = INR k * h + h) by (intros k; rewrite S_INR; ring).
  assert (NX : forall k, wl_w (S k) = fst (wl_cmd (e k) (wl_w k) (wl_v k) (wl_f k)) /\ wl_v (S k) = wl_at k (INR (S k) * h) /\ wl_f (S k) = wl_filter (e k) (INR k * h) (wl_w k) (wl_v k) (wl_f k)).
  { intros k. unfold wl_at, wl_w, wl_v, wl_f. cbn [wl_seq]. destruct (wl_seq k) as [[w v] f]. cbn [fst snd]. repeat split; reflexivity. }
  assert (INV : forall k, sound (wl_w k) g len (wl_v k) (wl_f k) /\ wc_sat (wl_w k) = wc_sat w0 /\ norm3 (body_momentum (wc_sat w0) (wl_v k)) = norm3 (body_momentum (wc_sat w0) v0)).
  { induction k as [|k (IS & IW & IN)]; [split; [exact S0|split; reflexivity]|]. destruct (NX k) as (NW & NV & NF). assert (QK := Q k). rewrite <- IW in QK.
    destruct (loop_step (e k) (INR k * h) (INR (S k) * h) (wl_w k) g len (wl_v k) (wl_f k) d (wl_at k) H (ST k) CF D0 IS QK (fun t _ => eq_refl)) as (_ & X1 & X2 & _ & X4). rewrite <- NW in X1, X2. rewrite <- NF in X1. unfold wl_at in NV. rewrite <- NV in X1. split; [exact X1|]. split; [rewrite X2; exact IW|]. rewrite NV. rewrite IW in X4. rewrite X4. exact IN. }
  assert (AG : forall k t, INR k * h <= t <= INR (S k) * h -> wl_y t = wl_at k t).
  { intros k t [A [B|B]].
    - unfold wl_y. rewrite (ax_index h k t H (conj A B)). reflexivity.
    - subst t. unfold wl_y. rewrite (ax_index h (S k) (INR (S k) * h) H) by (rewrite (ST (S k)); lra). destruct (INV (S k)) as (IS & IW & _). assert (QK := Q (S k)). rewrite <- IW in QK.
      destruct (loop_step (e (S k)) (INR (S k) * h) (INR (S (S k)) * h) (wl_w (S k)) g len (wl_v (S k)) (wl_f (S k)) d (wl_at (S k)) H (ST (S k)) CF D0 IS QK (fun t _ => eq_refl)) as (_ & _ & _ & X3 & _). unfold wl_at at 1. rewrite X3. apply NX. }
  assert (CY : forall k, loop_cycle qc F (fun _ => zero3) wl_y bs d (INR k * h) (INR (S k) * h) (wl_w k) (wl_w (S k)) (wl_given (e k) (wl_v k) (wl_f k)) (wl_f k) (wl_f (S k)) /\ errs bs (e k) wl_y (INR k * h) (INR (S k) * h) (wl_given (e k) (wl_v k) (wl_f k)) (wl_f k) (wl_f (S k))).
  { intros k. destruct (INV k) as (IS & IW & _). assert (QK := Q k). rewrite <- IW in QK. destruct (NX k) as (NW & NV & NF).
    destruct (loop_step (e k) (INR k * h) (INR (S k) * h) (wl_w k) g len (wl_v k) (wl_f k) d wl_y H (ST k) CF D0 IS QK (AG k)) as (X & _). rewrite <- NW, <- NF in X. exact X. }
  split; [intros k; apply CY|]. split; [intros k; apply CY|]. split.
  - rewrite (AG O) by (cbn; lra). assert (QK := Q O). destruct (loop_step (e O) (INR 0 * h) (INR 1 * h) (wl_w O) g len (wl_v O) (wl_f O) d (wl_at O) H (ST O) CF D0 S0 QK (fun t _ => eq_refl)) as (_ & _ & _ & X3 & _). replace 0 with (INR 0 * h) at 1 by (cbn; ring). exact X3.
  - intros t Ht. destruct (step_of t h H Ht) as (k & Hk). rewrite (AG k) by (rewrite ST; exact Hk). destruct (INV k) as (IS & IW & IN). assert (QK := Q k). rewrite <- IW in QK.
    destruct (loop_step (e k) (INR k * h) (INR (S k) * h) (wl_w k) g len (wl_v k) (wl_f k) d (wl_at k) H (ST k) CF D0 IS QK (fun t _ => eq_refl)) as (_ & _ & _ & _ & X4). rewrite IW in X4. unfold wl_at. rewrite X4. exact IN.
Qed.
End RUN.
