(** * C137: the speed of a slew is capped by the gains, whatever the targets and however weak the wheels *)
From Coq Require Import Reals ZArith List Bool Lra Lia Psatz.
From Coquelicot Require Derive.
From Verif Require Import Num Vec M_vector M_quaternion M_jday M_struct M_dyn M_ctrl S_rot S_dyn S_ctrl.
From Verif Require Import P_quat P_sat P_struct P_wheel P_dyn P_dyn2 P_obs P_ctrl P_ctrl2 P_ctrl5 P_ode Props_struct Props_conv.
Import ListNotations.
Local Open Scope R_scope.

(** at time t the wheels obey, as far as their limits allow, what a controller w computes for the target attitude qc at rest, and the
    satellite moves by the code's equations under that command, with no external torque *)
Definition obeys_limited (w : WhlCtl) (qc : quat) (F : R -> v3) (y : R -> SVec) (t : R) : Prop :=
  exists w' u acc, tracking w (y t) zero3 zero3 qc = Ok (w', u) /\ whl_actuator_commands w' u = Ok acc /\
    deriv_sv y t (derivative (wc_sat w) (y t) (F t) zero3 (rw_torque (s_rw (wc_sat w)) acc) (rw_momentum (s_rw (wc_sat w)) (v_whl (y t))) acc).
(** a controller for the satellite with given gains and no zone to keep out of; its trigger's memory is free *)
Definition tracker (sat : Satellite) (al ga : R) (w : WhlCtl) : Prop :=
  wc_sat w = sat /\ wc_alpha w = al /\ wc_gamma w = ga /\ (exists f, wc_sun w = Some f) /\ zone_free w /\ pm1 (tr_mem (wc_trig w)).
(** twice the rotational energy of the satellite with its wheels locked *)
Definition spin2 (sat : Satellite) (v : SVec) : R := dot3 (v_rate v) (mv (s_total_moment sat) (v_rate v)).

Lemma capped (f f' : R -> R) C t0 t1 : t0 <= t1 -> (forall u, t0 <= u <= t1 -> derivable_pt_lim f u (f' u)) -> (forall u, t0 <= u <= t1 -> C < f u -> f' u <= 0) -> f t0 <= C -> f t1 <= C.
Proof.
  intros L D N F0. destruct (Rle_lt_dec (f t1) C) as [H|H]; [exact H|]. exfalso.
  destruct (completeness (fun s => t0 <= s <= t1 /\ f s <= C)) as [m [UB LB]]; [exists t1; intros s [[_ X] _]; exact X|exists t0; split; [lra|exact F0]|].
  assert (M0 : t0 <= m) by (apply UB; split; [lra|exact F0]). assert (M1 : m <= t1) by (apply LB; intros s [[_ X] _]; exact X).
  assert (FM : f m <= C).
  { destruct (Rle_lt_dec (f m) C) as [X|X]; [exact X|]. exfalso.
    assert (CT : continuity_pt f m) by (apply derivable_continuous_pt; exists (f' m); apply D; lra).
    destruct (CT (f m - C) ltac:(lra)) as (d & Hd & HD). cbn [dist R_met] in HD. unfold R_dist in HD.
    assert (B : m <= m - d).
    { apply LB. intros s [Hs Fs]. destruct (Rle_lt_dec s (m - d)) as [Y|Y]; [exact Y|]. exfalso. assert (SM : s <= m) by (apply UB; split; assumption).
      destruct (Req_dec s m) as [->|NE]; [lra|]. assert (Q : Rabs (f s - f m) < f m - C). { apply HD. split; [split; [exact I|lra]|]. rewrite Rabs_left; lra. } apply Rabs_def2 in Q. lra. }
    lra. }
  assert (M2 : m < t1). { destruct (Req_dec m t1) as [E|E]; [subst m; lra|lra]. }
  destruct (MVT_cor2 f f' m t1 M2) as (c & E & Hc); [intros u Hu; apply D; lra|].
  assert (FC : C < f c). { destruct (Rle_lt_dec (f c) C) as [X|X]; [|exact X]. exfalso. assert (c <= m) by (apply UB; split; [lra|exact X]). lra. }
  assert (X := N c ltac:(lra) FC). nra.
Qed.
(** the wheels give a fraction k of the torque asked for *)
Lemma weak_wheels s T : spanning s -> (rw_limited s = true -> 0 < rw_maxT s) -> exists a k, rw_accelerations s T = Ok a /\ 0 < k <= 1 /\ rw_torque s a = scale3 k T.
Proof.
  intros [HD HP] LM. destruct (rw_limited s) eqn:E.
  - destruct (C26_limited s T E (LM eq_refl) HD HP) as (a & k & A & _ & K & Q & _). exists a, k. auto.
  - destruct (C26_exact s T E HD HP) as (a & A & _ & Q). exists a, 1. split; [exact A|]. split; [lra|]. rewrite Q. destruct T as [?a ?b ?c]. vunfoldg. cbn [x3 y3 z3]. rnumg. apply mk3_c; ring.
Qed.
Lemma limited_rot sat al ga w qc F y t : tracker sat al ga w -> spanning (s_rw sat) -> (rw_limited (s_rw sat) = true -> 0 < rw_maxT (s_rw sat)) -> det3 (s_total_moment sat) <> 0 -> obeys_limited w qc F y t ->
  derivq (fun u => v_att (y u)) t (scaleq 0.5 (product (v_att (y t)) (pure (v_rate (y t))))) /\
  exists k s h d, 0 < k <= 1 /\ s * s = 1 /\ deriv3 (fun u => v_rate (y u)) t d /\
    mv (s_total_moment sat) d = add3 (scale3 (k - 1) (cross3 (v_rate (y t)) h)) (scale3 (- k) (mv (s_total_moment sat) (add3 (scale3 (s * al) (vec (error_quat (v_att (y t)) qc))) (scale3 ga (v_rate (y t)))))).
Proof.
  intros (<- & <- & <- & (f & HS) & HZ & PM) SP LM DJ (w' & u & acc & TR & WA & D). assert (HL := tracking_len _ _ _ _ _ _ TR).
  assert (T := tracking_free w (y t) zero3 zero3 qc f HS HZ HL). cbv zeta in T. rewrite T in TR. clear T.
  assert (EW : wc_sat w' = wc_sat w) by (injection TR as <- _; reflexivity). injection TR as _ EU.
  set (s := tr_mem (trig_step (qw (error_quat (v_att (y t)) qc)) (wc_trig w))) in *. assert (SS : s * s = 1) by (apply pm1_sq, trig_pm, PM).
  destruct (weak_wheels (s_rw (wc_sat w)) (opp3 u) SP LM) as (a & k & A & K & Q). unfold whl_actuator_commands in WA. rewrite EW, A in WA. injection WA as <-.
  destruct D as (_ & _ & D1 & D2 & _). split; [exact D1|]. rewrite Q in D2.
  exists k, s, (add3 (rw_momentum (s_rw (wc_sat w)) (v_whl (y t))) (mv (s_total_moment (wc_sat w)) (v_rate (y t)))). eexists. split; [exact K|]. split; [exact SS|]. split; [exact D2|].
  unfold derivative. cbn [v_rate]. change (s_inv_tot (wc_sat w)) with (inv3 (s_total_moment (wc_sat w))). rewrite mv_inv3 by exact DJ.
  rewrite <- EU. rewrite !sandwich_0, cross_0_r.
  set (e := vec (error_quat (v_att (y t)) qc)). set (om := v_rate (y t)). set (J := s_total_moment (wc_sat w)). set (hw := rw_momentum (s_rw (wc_sat w)) (v_whl (y t))).
  replace (sub3 (sub3 (scale3 (- s * wc_alpha w) e) (scale3 (wc_gamma w) (sub3 om zero3))) (add3 zero3 zero3)) with (scale3 (-1) (add3 (scale3 (s * wc_alpha w) e) (scale3 (wc_gamma w) om))).
  2: { generalize e om s (wc_alpha w) (wc_gamma w). vring. }
  set (z := add3 (scale3 (s * wc_alpha w) e) (scale3 (wc_gamma w) om)).
  replace (mv J (scale3 (-1) z)) with (scale3 (-1) (mv J z)) by (generalize J z; clear; vring).
  generalize (mv J z) (mv J om) hw om. clear. vring.
Qed.
Lemma sym_dot J (x y : v3) : symm J -> dot3 x (mv J y) = dot3 y (mv J x).
Proof.
  unfold symm. intros SY. rewrite <- SY at 1. generalize J. clear. destruct x as [?a ?b ?c], y as [?a ?b ?c]. intros [[?a ?b ?c] [?a ?b ?c] [?a ?b ?c]]. vunfoldg. cbn [x3 y3 z3 row1 row2 row3]. rnumg. ring.
Qed.
(** the power of the torque given *)
Lemma power J (k s al ga jm : R) (om e h d : v3) : symm J -> pdm J -> 0 < k -> s * s = 1 -> 0 < ga -> dot3 e e <= 1 -> 0 <= jm -> (forall v, dot3 v (mv J v) <= jm * dot3 v v) ->
  mv J d = add3 (scale3 (k - 1) (cross3 om h)) (scale3 (- k) (mv J (add3 (scale3 (s * al) e) (scale3 ga om)))) -> jm * (al / ga) ^ 2 < dot3 om (mv J om) -> 2 * dot3 om (mv J d) <= 0.
Proof.
  intros SY PD K S GA E JM B -> L.
  set (z := add3 (scale3 (s * al) e) (scale3 ga om)).
  assert (X : dot3 om (add3 (scale3 (k - 1) (cross3 om h)) (scale3 (- k) (mv J z))) = - k * dot3 om (mv J z)) by (generalize (mv J z); clear; destruct om as [?a ?b ?c], h as [?a ?b ?c]; intros [?a ?b ?c]; vunfoldg; cbn [x3 y3 z3]; rnumg; ring).
  rewrite X. assert (ZN : 0 <= dot3 z (mv J z)). { destruct (zero3_dec z) as [->|NZ]; [right; vunfoldg; cbn [x3 y3 z3]; rnumg; ring|left; apply PD, NZ]. }
  assert (Y : 2 * ga * dot3 om (mv J z) = dot3 z (mv J z) + ga ^ 2 * dot3 om (mv J om) - al ^ 2 * dot3 e (mv J e)).
  { assert (SE : dot3 om (mv J e) = dot3 e (mv J om)). { apply sym_dot, SY. }
    assert (MZ : mv J z = add3 (scale3 (s * al) (mv J e)) (scale3 ga (mv J om))) by (unfold z; generalize J e om (s * al) ga; clear; vring). rewrite MZ. unfold z.
    transitivity (2 * ga * (s * al * dot3 om (mv J e) + ga * dot3 om (mv J om))); [generalize (mv J e) (mv J om); clear; destruct om as [?a ?b ?c]; intros [?a ?b ?c] [?a ?b ?c]; vunfoldg; cbn [x3 y3 z3]; rnumg; ring|].
    transitivity (((s * s) * al ^ 2 * dot3 e (mv J e) + s * al * ga * (dot3 e (mv J om) + dot3 om (mv J e)) + ga ^ 2 * dot3 om (mv J om)) + ga ^ 2 * dot3 om (mv J om) - al ^ 2 * dot3 e (mv J e)).
    - rewrite S, SE. ring.
    - generalize (mv J e) (mv J om); clear; destruct om as [?a ?b ?c], e as [?a ?b ?c]; intros [?a ?b ?c] [?a ?b ?c]; vunfoldg; cbn [x3 y3 z3]; rnumg; ring. }
  assert (BE := B e). assert (EJ : dot3 e (mv J e) <= jm) by nra.
  assert (L2 : jm * al ^ 2 < ga ^ 2 * dot3 om (mv J om)). { replace (jm * al ^ 2) with (ga ^ 2 * (jm * (al / ga) ^ 2)) by (field; lra). apply Rmult_lt_compat_l; [nra|exact L]. }
  assert (A2 : 0 <= al ^ 2) by nra. assert (P : 0 <= 2 * ga * dot3 om (mv J z)) by nra. assert (P1 : 0 <= dot3 om (mv J z)) by nra. nra.
Qed.
Lemma vec_unit_le q : unitq q -> dot3 (vec q) (vec q) <= 1.
Proof. unfold unitq. destruct q as [a b c d]. vunfoldg. cbn [qw qx qy qz x3 y3 z3]. rnumg. intros H. nra. Qed.

(** with any history of targets and of the trigger's memory, any wheel speeds and any limit on the wheels' torque, the rotational
    energy never rises above its value at any earlier time or above what the gains allow, whichever is larger *)
Theorem C137_capped : forall sat al ga jm (w : R -> WhlCtl) (qc : R -> quat) F y a, pdm (s_total_moment sat) -> 0 < ga -> (forall v, dot3 v (mv (s_total_moment sat) v) <= jm * dot3 v v) ->
  spanning (s_rw sat) -> (rw_limited (s_rw sat) = true -> 0 < rw_maxT (s_rw sat)) -> a < 0 ->
  (forall t, a < t -> tracker sat al ga (w t) /\ unitq (qc t) /\ obeys_limited (w t) (qc t) F y t) -> unitq (v_att (y 0)) ->
  forall t0 t, 0 <= t0 <= t -> spin2 sat (y t) <= Rmax (spin2 sat (y t0)) (jm * (al / ga) ^ 2).
Proof.
  intros sat al ga jm w qc F y a PD GA B SP LM A O U t0 t Ht. assert (SY := total_symm sat). assert (DP := pd_det _ SY PD).
  assert (JM : 0 <= jm). { assert (X := B (mk3 1 0 0)). assert (Y := PD (mk3 1 0 0)). assert (N : (mk3 1 0 0 : v3) <> zero3) by (intros E; injection E; lra). specialize (Y N). replace (dot3 (mk3 1 0 0) (mk3 1 0 0)) with 1 in X by (vunfoldg; cbn [x3 y3 z3]; rnumg; ring). lra. }
  assert (ROT : forall u, a < u -> _) by (intros u Hu; destruct (O u Hu) as (TK & _ & OB); exact (limited_rot sat al ga (w u) (qc u) F y u TK SP LM ltac:(lra) OB)).
  assert (UA : forall u, 0 <= u -> unitq (v_att (y u))).
  { intros u Hu. unfold unitq in *. rewrite <- U. apply (d_pos_const (fun u => dotq (v_att (y u)) (v_att (y u))) a A); [|exact Hu].
    intros x Hx. destruct (ROT x Hx) as [D _]. eapply d_eq; [apply d_dotq; exact D|].
    cbv beta. generalize (v_att (y x)) (v_rate (y x)). clear. intros [p q r s] [x y z]. unfold pure, product. replace 0.5 with (1/2) by lra. vunfoldg; cbn [x3 y3 z3 qw qx qy qz]; rnumg. field. }
  assert (PW : forall u, 0 <= u -> exists d, derivable_pt_lim (fun x => spin2 sat (y x)) u d /\ (jm * (al / ga) ^ 2 < spin2 sat (y u) -> d <= 0)).
  { intros u Hu. destruct (ROT u ltac:(lra)) as (_ & k & s & h & d & K & S & D & EQ). destruct (O u ltac:(lra)) as (_ & UQ & _).
    exists (2 * dot3 (v_rate (y u)) (mv (s_total_moment sat) d)). split.
    - unfold spin2. eapply d_eq. { apply d_dot3; [exact D|apply d3_mv; exact D]. } cbv beta. rewrite (sym_dot _ d) by exact SY. ring.
    - intros L. unfold spin2 in L. apply (power (s_total_moment sat) k s al ga jm (v_rate (y u)) (vec (error_quat (v_att (y u)) (qc u))) h d SY PD); try assumption; [lra|]. apply vec_unit_le, error_quat_unit; [apply UA, Hu|exact UQ]. }
  destruct (Rle_dec t0 t) as [_|N]; [|lra].
  assert (M1 := Rmax_l (spin2 sat (y t0)) (jm * (al / ga) ^ 2)). assert (M2 := Rmax_r (spin2 sat (y t0)) (jm * (al / ga) ^ 2)).
  apply (capped (fun x => spin2 sat (y x)) (fun x => Derive.Derive (fun x => spin2 sat (y x)) x) _ t0 t); [lra| | |exact M1].
  - intros u Hu. destruct (PW u ltac:(lra)) as (d & D & _). apply Derive.is_derive_Reals. apply Derive.Derive_correct. exists d. apply Derive.is_derive_Reals. exact D.
  - intros u Hu L. destruct (PW u ltac:(lra)) as (d & D & N). rewrite (Derive.is_derive_unique _ u d) by (apply Derive.is_derive_Reals; exact D). apply N. lra.
Qed.
Print Assumptions C137_capped.

(** from rest, with the gains the constructor sets: the rate never exceeds natural frequency over damping ratio, times the root of the
    ratio of the greatest to the least moment of inertia *)
Theorem C137_rate : forall sat instr sun damping freq w0 jl jm (w : R -> WhlCtl) (qc : R -> quat) F y a, 0 < damping -> 0 < freq -> whl_new sat instr sun damping freq = Ok w0 ->
  0 < jl -> (forall v, jl * dot3 v v <= dot3 v (mv (s_total_moment sat) v) <= jm * dot3 v v) ->
  spanning (s_rw sat) -> (rw_limited (s_rw sat) = true -> 0 < rw_maxT (s_rw sat)) -> a < 0 ->
  (forall t, a < t -> tracker sat (wc_alpha w0) (wc_gamma w0) (w t) /\ unitq (qc t) /\ obeys_limited (w t) (qc t) F y t) -> unitq (v_att (y 0)) ->
  forall t0 t, 0 <= t0 <= t -> v_rate (y t0) = zero3 -> norm3 (v_rate (y t)) <= freq / damping * sqrt (jm / jl).
Proof.
  intros sat instr sun damping freq w0 jl jm w qc F y a HD HF WN JL B SP LM A O U t0 t Ht R0.
  assert (PD : pdm (s_total_moment sat)). { intros v NV. destruct (B v) as [X _]. assert (P : 0 < dot3 v v). { destruct (dot3_nonneg v) as [L|E]; [exact L|]. exfalso. apply NV, dot3_zero. lra. } assert (X2 := Rmult_lt_0_compat _ _ JL P). lra. }
  assert (G : wc_alpha w0 = 2 * freq ^ 2 /\ wc_gamma w0 = 2 * damping * freq). { unfold whl_new in WN. destruct (forallb _ instr); [|discriminate]. injection WN as <-. split; reflexivity. } destruct G as [GA GG].
  assert (GP : 0 < wc_gamma w0) by (rewrite GG; nra).
  assert (C := C137_capped sat (wc_alpha w0) (wc_gamma w0) jm w qc F y a PD GP (fun v => proj2 (B v)) SP LM A O U t0 t Ht).
  assert (E : wc_alpha w0 / wc_gamma w0 = freq / damping) by (rewrite GA, GG; field; lra). rewrite E in C.
  assert (S0 : spin2 sat (y t0) = 0) by (unfold spin2; rewrite R0; generalize (s_total_moment sat); clear; intros [[?a ?b ?c] [?a ?b ?c] [?a ?b ?c]]; vunfoldg; cbn [x3 y3 z3 row1 row2 row3]; rnumg; ring).
  assert (JM : 0 < jm). { assert (X := B (mk3 1 0 0)). replace (dot3 (mk3 1 0 0) (mk3 1 0 0)) with 1 in X by (vunfoldg; cbn [x3 y3 z3]; rnumg; ring). lra. }
  assert (FD : 0 < freq / damping) by (apply Rdiv_lt_0_compat; assumption). assert (JJ : 0 < jm / jl) by (apply Rdiv_lt_0_compat; assumption).
  rewrite S0, Rmax_right in C by (apply Rmult_le_pos; [lra|nra]). destruct (B (v_rate (y t))) as [BL _]. unfold spin2 in C.
  assert (SQ := P_quat.norm3_sq (v_rate (y t))). assert (N0 := P_quat.norm3_pos (v_rate (y t))). assert (Q0 := sqrt_pos (jm / jl)). assert (Q2 := sqrt_sqrt (jm / jl) ltac:(lra)).
  assert (V : dot3 (v_rate (y t)) (v_rate (y t)) <= (freq / damping) ^ 2 * (jm / jl)).
  { apply (Rmult_le_reg_l jl); [exact JL|]. replace (jl * ((freq / damping) ^ 2 * (jm / jl))) with (jm * (freq / damping) ^ 2) by (field; lra). lra. }
  apply Rsqr_incr_0_var; [|apply Rmult_le_pos; lra]. unfold Rsqr. replace (freq / damping * sqrt (jm / jl) * (freq / damping * sqrt (jm / jl))) with ((freq / damping) ^ 2 * (sqrt (jm / jl) * sqrt (jm / jl))) by ring. rewrite Q2.
  eapply Rle_trans; [|exact V]. right. clear - SQ. nra.
Qed.
Print Assumptions C137_rate.

(** ** a sphere whose wheels can each give one newton metre *)
Definition weak_ball : Satellite := mkSat 0 0 0 0.8 2 5 (mkRWS [mkW (mk3 1 0 0) 1 1; mkW (mk3 0 1 0) 1 1; mkW (mk3 0 0 1) 1 1] 1 true) (mk3 1 1 1) zero3 false.
Lemma weak_total : s_total_moment weak_ball = scalem 4 id3. Proof. exact free_ball_total. Qed.
Lemma weak_spanning : spanning (s_rw weak_ball). Proof. exact free_ball_spanning. Qed.
Definition weak_ctl : WhlCtl := mkWC weak_ball (2 * 0.1 ^ 2) (2 * 0.707 * 0.1) (mkTr 1 0.3) true [] (Some (fun _ => ex)).
Definition roll_quat (th : R) : quat := mkq (cos (th / 2)) (sin (th / 2)) 0 0.
Definition clip (x : R) : R := if Rle_dec 1 x then 1 else if Rle_dec x (-1) then -1 else x.
Lemma clip_lip a b : Rabs (clip a - clip b) <= Rabs (a - b).
Proof. unfold clip. destruct (Rle_dec 1 a), (Rle_dec 1 b), (Rle_dec a (-1)), (Rle_dec b (-1)); unfold Rabs; repeat destruct (Rcase_abs _); lra. Qed.
Lemma roll_unit th : unitq (roll_quat th).
Proof. unfold unitq, roll_quat, dotq; cbn [qw qx qy qz]; rnumg. assert (H := sin2_cos2 (th / 2)). unfold Rsqr in H. lra. Qed.
Lemma roll_error th p ps : error_quat (v_att (axis_state th p)) (roll_quat (th - ps)) = roll_quat ps.
Proof.
  unfold axis_state, roll_quat. cbn [v_att]. replace (ps / 2) with (th / 2 - (th - ps) / 2) by field. rewrite cos_minus, sin_minus. unfold error_quat, conjugate, product. vunfold; rnum. apply mkq_c; ring.
Qed.
Lemma weak_tracking th p ps : - 0.3 < cos (ps / 2) -> tracking weak_ctl (axis_state th p) zero3 zero3 (roll_quat (th - ps)) = Ok (weak_ctl, mk3 (- 4 * (2 * 0.1 ^ 2 * sin (ps / 2) + 2 * 0.707 * 0.1 * p)) 0 0).
Proof.
  intros H. assert (T := tracking_free weak_ctl (axis_state th p) zero3 zero3 (roll_quat (th - ps)) (fun _ => ex) eq_refl (or_intror eq_refl) ltac:(cbn; lia)). cbv zeta in T. rewrite roll_error in T. change (qw (roll_quat ps)) with (cos (ps / 2)) in T.
  rewrite (trig_keep (cos (ps / 2)) (wc_trig weak_ctl)) in T by (cbn [weak_ctl wc_trig tr_mem tr_hw]; lra). rewrite T. f_equal. f_equal.
  cbn [weak_ctl wc_sat wc_trig wc_alpha wc_gamma tr_mem]. rewrite weak_total, !sandwich_0, cross_0_r, sub3_0_r. unfold roll_quat.
  unfold rw_momentum, w_momentum. cbn [weak_ball s_rw rw_wheels zip_with axis_state v_whl v_rate sum3 fold_right w_par w_axis vec qx qy qz]. vunfoldg; cbn [x3 y3 z3 row1 row2 row3]; rnumg. apply mk3_c; ring.
Qed.
Lemma weak_distribute x : rw_distribute (s_rw weak_ball) (mk3 x 0 0) = [x; 0; 0].
Proof.
  unfold rw_distribute, rw_gram. cbn [weak_ball s_rw rw_wheels map summ fold_right w_axis zip_with]. vunfoldg; cbn [x3 y3 z3 row1 row2 row3]; rnumg. apply (f_equal2 (@cons R)); [|apply (f_equal2 (@cons R)); [|apply (f_equal2 (@cons R)); [|reflexivity]]]; field.
Qed.
Lemma weak_accel x : whl_actuator_commands weak_ctl (mk3 x 0 0) = Ok [clip (- x); 0; 0].
Proof.
  unfold whl_actuator_commands, rw_accelerations. cbn [weak_ctl wc_sat]. replace (opp3 (mk3 x 0 0)) with (mk3 (- x) 0 0 : v3) by (vunfoldg; cbn [x3 y3 z3]; rnumg; apply mk3_c; ring). rewrite weak_distribute. cbn [weak_ball s_rw rw_limited rw_maxT].
  set (z := - x). assert (G : greatest (map Rabs [z; 0; 0]) (Rabs z)).
  { cbn [map]. rewrite Rabs_R0. split; [left; reflexivity|]. intros u [<-|[<-|[<-|[]]]]; [lra|apply Rabs_pos|apply Rabs_pos]. }
  rewrite (saturation_eq _ 1 _ G). cbn [rbind]. f_equal. unfold clip.
  destruct (Rltb_spec 1 (Rabs z)) as [H|H]; cbn [map rw_wheels zip_with]; unfold w_acceleration; cbn [w_par]; rnumg; apply (f_equal2 (@cons R)); [|apply (f_equal2 (@cons R)); [|apply (f_equal2 (@cons R)); [|reflexivity]]| |apply (f_equal2 (@cons R)); [|apply (f_equal2 (@cons R)); [|reflexivity]]]; try (field; lra).
  - destruct (Rle_dec 1 z) as [L|L]; [rewrite Rabs_right by lra; field; lra|]. destruct (Rle_dec z (-1)) as [M|M]; [rewrite Rabs_left by lra; field; lra|]. exfalso. revert H. unfold Rabs. destruct (Rcase_abs z); lra.
  - assert (A1 := Rle_abs z). assert (A2 := Rle_abs (- z)). rewrite Rabs_Ropp in A2. destruct (Rle_dec 1 z) as [L|L]; [replace z with 1 by lra; field|]. destruct (Rle_dec z (-1)) as [M|M]; [replace z with (-1) by lra; field|]. field.
Qed.
Lemma weak_obeys (th p : R -> R) ps t : - 0.3 < cos (ps / 2) -> derivable_pt_lim th t (p t) ->
  derivable_pt_lim p t (- clip (4 * (2 * 0.1 ^ 2 * sin (ps / 2) + 2 * 0.707 * 0.1 * p t)) / 4) -> obeys_limited weak_ctl (roll_quat (th t - ps)) (fun _ => zero3) (fun t => axis_state (th t) (p t)) t.
Proof.
  intros HC DT DP. exists weak_ctl. eexists. eexists. split; [apply weak_tracking, HC|]. split; [apply weak_accel|].
  replace (- (- 4 * (2 * 0.1 ^ 2 * sin (ps / 2) + 2 * 0.707 * 0.1 * p t))) with (4 * (2 * 0.1 ^ 2 * sin (ps / 2) + 2 * 0.707 * 0.1 * p t)) by ring. set (c := clip _) in *.
  assert (H2 : derivable_pt_lim (fun u => th u / 2) t (p t / 2)) by (eapply d_eq; [unfold Rdiv; apply d_mult; [exact DT|apply d_const]|]; cbv beta; field).
  assert (DC : derivable_pt_lim (fun u => cos (th u / 2)) t (- sin (th t / 2) * (p t / 2))) by (apply (derivable_pt_lim_comp (fun u => th u / 2) cos); [exact H2|apply derivable_pt_lim_cos]).
  assert (DS : derivable_pt_lim (fun u => sin (th u / 2)) t (cos (th t / 2) * (p t / 2))) by (apply (derivable_pt_lim_comp (fun u => th u / 2) sin); [exact H2|apply derivable_pt_lim_sin]).
  unfold derivative. cbn [weak_ctl wc_sat axis_state v_pos v_vel v_att v_rate v_whl]. split; [|split; [|split; [|split]]]; unfold axis_state; cbn [v_pos v_vel v_att v_rate v_whl].
  - exact (d3_const zero3 t).
  - eapply d3_eq; [exact (d3_const zero3 t)|]. vunfoldg; cbn [x3 y3 z3]; rnumg. apply mk3_c; unfold Rdiv; ring.
  - unfold derivq, product, scaleq. cbn [qw qx qy qz x3 y3 z3]. vunfoldg; cbn [x3 y3 z3 qw qx qy qz]; rnumg. replace 0.5 with (1 / 2) by lra.
    split; [|split; [|split]]; (eapply d_eq; [first [exact DC|exact DS|exact (d_const 0 t)]|]); field.
  - eapply (d3_eq _ _ (mk3 (- c / 4) 0 0)); [split; [exact DP|split; exact (d_const 0 t)]|].
    change (s_inv_tot weak_ball) with (inv3 (s_total_moment weak_ball)). rewrite weak_total. unfold rw_torque, rw_momentum, w_momentum, w_torque.
    cbn [weak_ball s_rw rw_wheels zip_with sum3 fold_right w_par w_axis]. vunfoldg; cbn [x3 y3 z3 row1 row2 row3]; rnumg. apply mk3_c; field.
  - intros i. destruct i as [|[|[|i]]]; cbn [nth].
    + eapply d_eq; [apply d_scal; exact DP|]. field.
    + exact (d_const 0 t).
    + exact (d_const 0 t).
    + destruct i; exact (d_const 0 t).
Qed.
Lemma weak_tracker : tracker weak_ball (2 * 0.1 ^ 2) (2 * 0.707 * 0.1) weak_ctl.
Proof. repeat split; [eexists; reflexivity|right; reflexivity|left; reflexivity]. Qed.
Lemma weak_bound v : dot3 v (mv (s_total_moment weak_ball) v) = 4 * dot3 v v.
Proof. rewrite weak_total. destruct v as [?a ?b ?c]. vunfoldg. cbn [x3 y3 z3 row1 row2 row3]. rnumg. ring. Qed.
Lemma weak_pdm : pdm (s_total_moment weak_ball).
Proof. intros v N. rewrite weak_bound. destruct (dot3_nonneg v) as [L|E]; [lra|]. exfalso. apply N, dot3_zero. lra. Qed.

(** the bound cannot be lowered: a target that stays half a turn ahead keeps the energy at the bound for ever *)
Theorem C137_sharp : exists sat al ga jm w (qc : R -> quat) y, pdm (s_total_moment sat) /\ 0 < al /\ 0 < ga /\ (forall v, dot3 v (mv (s_total_moment sat) v) <= jm * dot3 v v) /\ spanning (s_rw sat) /\ rw_limited (s_rw sat) = true /\ 0 < rw_maxT (s_rw sat) /\
  (forall t, tracker sat al ga w /\ unitq (qc t) /\ obeys_limited w (qc t) (fun _ => zero3) y t) /\ unitq (v_att (y 0)) /\ forall t, spin2 sat (y t) = jm * (al / ga) ^ 2.
Proof.
  set (al := 2 * 0.1 ^ 2). set (ga := 2 * 0.707 * 0.1). assert (AL : 0 < al) by (unfold al; lra). assert (GA : 0 < ga) by (unfold ga; lra). set (c := al / ga).
  exists weak_ball, al, ga, 4, weak_ctl, (fun t => roll_quat (c * t - - PI)), (fun t => axis_state (c * t) c).
  split; [exact weak_pdm|]. split; [exact AL|]. split; [exact GA|]. split; [intros v; rewrite weak_bound; lra|]. split; [exact weak_spanning|]. split; [reflexivity|]. split; [cbn; lra|].
  split; [|split; [apply roll_unit|intros t; unfold spin2; rewrite weak_bound; unfold axis_state; cbn [v_rate]; vunfoldg; cbn [x3 y3 z3]; rnumg; fold c; ring]].
  intros t. split; [exact weak_tracker|]. split; [apply roll_unit|].
  apply (weak_obeys (fun t => c * t) (fun _ => c) (- PI) t).
  - replace (- PI / 2) with (- (PI / 2)) by field. rewrite cos_neg, cos_PI2. lra.
  - eapply d_eq; [apply d_mult; [apply d_const|apply derivable_pt_lim_id]|]. cbv beta. ring.
  - replace (- PI / 2) with (- (PI / 2)) by field. rewrite sin_neg, sin_PI2. fold al ga. replace (4 * (al * - (1) + ga * c)) with 0 by (unfold c; field; lra).
    eapply d_eq; [apply d_const|]. unfold clip. destruct (Rle_dec 1 0); [lra|]. destruct (Rle_dec 0 (-1)); [lra|]. field.
Qed.
Print Assumptions C137_sharp.

(** an instance of C137_capped in which the wheels are far too weak for the command *)
Example C137_ex : exists (qc : R -> quat) y u, pdm (s_total_moment weak_ball) /\ (forall v, dot3 v (mv (s_total_moment weak_ball) v) <= 4 * dot3 v v) /\ spanning (s_rw weak_ball) /\ rw_limited (s_rw weak_ball) = true /\ 0 < rw_maxT (s_rw weak_ball) /\
  (forall t, -1 < t -> tracker weak_ball (2 * 0.1 ^ 2) (2 * 0.707 * 0.1) weak_ctl /\ unitq (qc t) /\ obeys_limited weak_ctl (qc t) (fun _ => zero3) y t) /\ unitq (v_att (y 0)) /\
  tracking weak_ctl (y 0) zero3 zero3 (qc 0) = Ok (weak_ctl, u) /\ ~ unsaturated (s_rw weak_ball) (opp3 u) /\
  add3 (rw_momentum (s_rw weak_ball) (v_whl (y 0))) (mv (s_total_moment weak_ball) (v_rate (y 0))) = zero3.
Proof.
  set (ga := 2 * 0.707 * 0.1). assert (GA : 0 < ga < 1) by (unfold ga; lra).
  destruct (picard (fun _ p => p) (fun th p => - clip (4 * (2 * 0.1 ^ 2 * sin (0 / 2) + ga * p)) / 4) 4 0 100) as (th & p & T0 & P0 & DT & DP); [lra| | |].
  - intros a b c d. assert (X := Rabs_pos (a - c)). assert (Y := Rabs_pos (b - d)). lra.
  - intros a b c d. assert (X := clip_lip (4 * (2 * 0.1 ^ 2 * sin (0 / 2) + ga * d)) (4 * (2 * 0.1 ^ 2 * sin (0 / 2) + ga * b))).
    set (cb := clip (4 * (_ + ga * b))) in *. set (cd := clip (4 * (_ + ga * d))) in *.
    replace (4 * (2 * 0.1 ^ 2 * sin (0 / 2) + ga * d) - 4 * (2 * 0.1 ^ 2 * sin (0 / 2) + ga * b)) with (- (4 * ga * (b - d))) in X by ring. rewrite Rabs_Ropp, Rabs_mult, (Rabs_right (4 * ga)) in X by lra.
    replace (- cb / 4 - - cd / 4) with ((cd - cb) * / 4) by field. rewrite Rabs_mult, (Rabs_right (/ 4)) by lra. assert (Y := Rabs_pos (b - d)). assert (Z := Rabs_pos (a - c)). nra.
  - exists (fun t => roll_quat (th t - 0)), (fun t => axis_state (th t) (p t)), (mk3 (- 4 * (2 * 0.1 ^ 2 * sin (0 / 2) + 2 * 0.707 * 0.1 * p 0)) 0 0).
    assert (C0 : - 0.3 < cos (0 / 2)) by (replace (0 / 2) with 0 by field; rewrite cos_0; lra).
    split; [exact weak_pdm|]. split; [intros v; rewrite weak_bound; lra|]. split; [exact weak_spanning|]. split; [reflexivity|]. split; [cbn; lra|].
    split; [intros t _; split; [exact weak_tracker|]; split; [apply roll_unit|]; apply weak_obeys; [exact C0|apply DT|apply DP]|]. split; [apply roll_unit|]. split; [apply weak_tracking, C0|].
    split. 2: { rewrite weak_total. unfold axis_state, rw_momentum, w_momentum. cbn [v_whl v_rate weak_ball s_rw rw_wheels zip_with sum3 fold_right w_par w_axis]. vunfoldg; cbn [x3 y3 z3 row1 row2 row3]; rnumg. apply mk3_c; ring. }
    rewrite P0. replace (0 / 2) with 0 by field. rewrite sin_0. intros US. destruct US as [US|US]; [discriminate US|]. revert US.
    replace (opp3 (mk3 (- 4 * (2 * 0.1 ^ 2 * 0 + 2 * 0.707 * 0.1 * 100)) 0 0)) with (mk3 56.56 0 0 : v3) by (vunfoldg; cbn [x3 y3 z3]; rnumg; apply mk3_c; lra).
    rewrite weak_distribute. cbn [weak_ball s_rw rw_maxT]. intros US. inversion US as [|? ? H _]; subst. rewrite Rabs_right in H by lra. lra.
Qed.
