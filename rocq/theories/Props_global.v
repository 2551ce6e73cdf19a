(** * C139: from any spin the trigger flips finitely often and the tracking loop then converges *)
From Coq Require Import Reals ZArith List Bool Lra Lia Psatz.
From Coquelicot Require Import Coquelicot.
From Verif Require Import Num Vec M_vector M_quaternion M_jday M_struct M_dyn M_ctrl S_rot S_dyn S_ctrl.
From Verif Require Import P_quat P_struct P_wheel P_dyn P_dyn2 P_obs P_ctrl P_ctrl2 P_ctrl3 P_ctrl4 P_ctrl5 P_conv P_ode Props_ctrl2 Props_conv.
Import ListNotations.
Local Open Scope R_scope.

(** a call leaves the controller as it is *)
Definition stands (w : WhlCtl) (qc : quat) (y : R -> SVec) (t : R) : Prop := exists u, tracking w (y t) zero3 zero3 qc = Ok (w, u).
(** between t0 and t1 the wheels obey the controller w, whose trigger does not flip *)
Definition leg (w : WhlCtl) (qc : quat) (F : R -> v3) (y : R -> SVec) (t0 t1 : R) : Prop := forall t, t0 < t < t1 -> obeys w qc F y t /\ stands w qc y t.
(** the motion from time 0 under a controller that is w0 at the start: after n flips of the trigger, the last at time T, it is w *)
Inductive slew (w0 : WhlCtl) (qc : quat) (F : R -> v3) (y : R -> SVec) : nat -> R -> WhlCtl -> Prop :=
| slew_start : slew w0 qc F y 0 0 w0
| slew_flip n T w T' w' u : slew w0 qc F y n T w -> T < T' -> leg w qc F y T T' -> tracking w (y T') zero3 zero3 qc = Ok (w', u) -> w' <> w -> slew w0 qc F y (S n) T' w'.
(** attitude and rate are continuous *)
Definition contin (y : R -> SVec) (t : R) : Prop :=
  continuity_pt (fun u => qw (v_att (y u))) t /\ continuity_pt (fun u => qx (v_att (y u))) t /\ continuity_pt (fun u => qy (v_att (y u))) t /\ continuity_pt (fun u => qz (v_att (y u))) t /\
  continuity_pt (fun u => x3 (v_rate (y u))) t /\ continuity_pt (fun u => y3 (v_rate (y u))) t /\ continuity_pt (fun u => z3 (v_rate (y u))) t.
(** energy against the target s qc *)
Definition effort (al s : R) (qc : quat) (v : SVec) : R := al * off_target s qc v + rate2 v / 2.

Lemma c_plus f g t : continuity_pt f t -> continuity_pt g t -> continuity_pt (fun u => f u + g u) t. Proof. apply continuity_pt_plus. Qed.
Lemma c_minus f g t : continuity_pt f t -> continuity_pt g t -> continuity_pt (fun u => f u - g u) t. Proof. apply continuity_pt_minus. Qed.
Lemma c_mult f g t : continuity_pt f t -> continuity_pt g t -> continuity_pt (fun u => f u * g u) t. Proof. apply continuity_pt_mult. Qed.
Lemma c_opp f t : continuity_pt f t -> continuity_pt (fun u => - f u) t. Proof. apply continuity_pt_opp. Qed.
Lemma c_const c t : continuity_pt (fun _ => c) t. Proof. apply continuity_pt_const. intros x y. reflexivity. Qed.
Ltac csolve := repeat first [eassumption | apply c_plus | apply c_minus | apply c_mult | apply c_opp | apply c_const].
Lemma closed_ge (f : R -> R) c t0 t1 : t0 < t1 -> (forall t, t0 <= t <= t1 -> continuity_pt f t) -> (forall t, t0 < t < t1 -> c <= f t) -> c <= f t0 /\ c <= f t1.
Proof.
  intros L C H. split.
  - destruct (Rle_lt_dec c (f t0)) as [X|X]; [exact X|]. exfalso. destruct (C t0 ltac:(lra) (c - f t0) ltac:(lra)) as (d & Hd & HD). cbn [dist R_met] in HD. unfold R_dist in HD.
    set (u := t0 + Rmin (d / 2) ((t1 - t0) / 2)). assert (M1 := Rmin_l (d / 2) ((t1 - t0) / 2)). assert (M2 := Rmin_r (d / 2) ((t1 - t0) / 2)). assert (M3 : 0 < Rmin (d / 2) ((t1 - t0) / 2)) by (apply Rmin_pos; lra).
    assert (Q : Rabs (f u - f t0) < c - f t0). { apply HD. split; [split; [exact I|unfold u; lra]|]. rewrite Rabs_right; unfold u; lra. } apply Rabs_def2 in Q. assert (Y := H u ltac:(unfold u; lra)). lra.
  - destruct (Rle_lt_dec c (f t1)) as [X|X]; [exact X|]. exfalso. destruct (C t1 ltac:(lra) (c - f t1) ltac:(lra)) as (d & Hd & HD). cbn [dist R_met] in HD. unfold R_dist in HD.
    set (u := t1 - Rmin (d / 2) ((t1 - t0) / 2)). assert (M1 := Rmin_l (d / 2) ((t1 - t0) / 2)). assert (M2 := Rmin_r (d / 2) ((t1 - t0) / 2)). assert (M3 : 0 < Rmin (d / 2) ((t1 - t0) / 2)) by (apply Rmin_pos; lra).
    assert (Q : Rabs (f u - f t1) < c - f t1). { apply HD. split; [split; [exact I|unfold u; lra]|]. rewrite Rabs_left; unfold u; lra. } apply Rabs_def2 in Q. assert (Y := H u ltac:(unfold u; lra)). lra.
Qed.
Lemma falls_open (f df : R -> R) a b : a < b -> (forall t, a < t < b -> derivable_pt_lim f t (df t)) -> (forall t, a <= t <= b -> continuity_pt f t) -> (forall t, a <= t <= b -> df t <= 0) -> f b <= f a.
Proof.
  intros L D C N. destruct (MVT_gen f a b df) as (c & Hc & E).
  - intros x Hx. rewrite Rmin_left, Rmax_right in Hx by lra. apply is_derive_Reals, D. lra.
  - intros x Hx. rewrite Rmin_left, Rmax_right in Hx by lra. apply C. lra.
  - rewrite Rmin_left, Rmax_right in Hc by lra. assert (H := N c Hc). assert (df c * (b - a) <= 0) by nra. lra.
Qed.
(** what a call that may flip the trigger does *)
Lemma after_call w f v qc w' u : wc_sun w = Some f -> zone_free w -> pm1 (tr_mem (wc_trig w)) -> 0 < tr_hw (wc_trig w) -> tracking w v zero3 zero3 qc = Ok (w', u) ->
  w' = set_trig w (trig_step (qw (error_quat (v_att v) qc)) (wc_trig w)) /\ pm1 (tr_mem (wc_trig w')) /\ tr_hw (wc_trig w') = tr_hw (wc_trig w) /\
  - tr_hw (wc_trig w) < tr_mem (wc_trig w') * qw (error_quat (v_att v) qc) /\
  (w' <> w -> tr_mem (wc_trig w') = - tr_mem (wc_trig w) /\ tr_mem (wc_trig w) * qw (error_quat (v_att v) qc) <= - tr_hw (wc_trig w)).
Proof.
  intros HS HZ PM HW TR. assert (HL := tracking_len _ _ _ _ _ _ TR). assert (T := tracking_free w v zero3 zero3 qc f HS HZ HL). cbv zeta in T. rewrite T in TR. apply (f_equal (fun z => match z with Ok (a, _) => a | Raise _ => w end)) in TR. cbv beta iota in TR. clear T. subst w'.
  set (x := qw (error_quat (v_att v) qc)). destruct (trig_after x (wc_trig w) PM HW) as (A1 & A2 & A3). change (wc_trig (set_trig w (trig_step x (wc_trig w)))) with (trig_step x (wc_trig w)).
  split; [reflexivity|]. split; [exact A1|]. split; [exact A2|]. split; [exact A3|]. intros N.
  assert (LE : tr_mem (wc_trig w) * x <= - tr_hw (wc_trig w)). { destruct (Rle_lt_dec (tr_mem (wc_trig w) * x) (- tr_hw (wc_trig w))) as [L|L]; [exact L|]. exfalso. apply N. clear - L. assert (E := trig_keep x (wc_trig w) ltac:(rewrite Rmult_comm; exact L)). rewrite E. destruct w. reflexivity. }
  split; [|exact LE]. destruct A1 as [E1|E1], PM as [E2|E2]; rewrite E1, E2 in *; lra.
Qed.
Lemma leg_core al ga hw w f qc F y t0 t1 : 0 < al -> 0 < ga -> 0 < hw < 1 -> wc_alpha w = al -> wc_gamma w = ga -> tr_hw (wc_trig w) = hw -> pm1 (tr_mem (wc_trig w)) ->
  wc_sun w = Some f -> zone_free w -> spanning (s_rw (wc_sat w)) -> det3 (s_total_moment (wc_sat w)) <> 0 -> unitq qc -> unitq (v_att (y t0)) -> t0 < t1 ->
  (forall t, t0 <= t <= t1 -> contin y t) -> leg w qc F y t0 t1 ->
  let s := tr_mem (wc_trig w) in
  unitq (v_att (y t1)) /\ effort al s qc (y t1) <= effort al s qc (y t0) /\
  2 * al * off_target s qc (y t1) + rate2 (y t1) <= (6 * al * off_target s qc (y t0) + 4 * rate2 (y t0)) * exp (- cv_rate al ga (1 - hw) * (t1 - t0)).
Proof.
  intros A G HW EA EG EH PM HS HZ SP DJ UC U0 L CN LG s. assert (SS := pm1_sq _ PM). fold s in SS.
  set (e := fun t => error_quat (v_att (y t)) qc).
  set (x := fun t => s * qw (e t)). set (n := fun t => rate2 (y t)). set (r := fun t => s * dot3 (vec (e t)) (v_rate (y t))).
  assert (CU : forall t, t0 <= t <= t1 -> continuity_pt (fun u => dotq (v_att (y u)) (v_att (y u))) t).
  { intros t Ht. destruct (CN t Ht) as (C1 & C2 & C3 & C4 & _). unfold dotq. rnumg. csolve. }
  assert (UN : forall t, t0 <= t <= t1 -> unitq (v_att (y t))).
  { intros t Ht. destruct (Req_dec t t0) as [->|NE]; [exact U0|]. unfold unitq in *. rewrite <- U0.
    assert (DU : forall u, t0 < u < t -> derivable_pt_lim (fun u => dotq (v_att (y u)) (v_att (y u))) u 0).
    { intros u Hu. destruct (LG u ltac:(lra)) as [OB _]. destruct (obeys_rot w f qc F y u HS HZ SP DJ OB) as [D _]. eapply d_eq; [apply d_dotq; exact D|].
      cbv beta. generalize (v_att (y u)) (v_rate (y u)). clear. intros [p q r' s'] [x' y' z']. unfold pure, product. replace 0.5 with (1/2) by lra. vunfoldg; cbn [x3 y3 z3 qw qx qy qz]; rnumg. field. }
    apply Rle_antisym.
    - apply (falls_open (fun u => dotq (v_att (y u)) (v_att (y u))) (fun _ => 0) t0 t); [lra|exact DU|intros u Hu; apply CU; lra|intros; lra].
    - apply Ropp_le_cancel. apply (falls_open (fun u => - dotq (v_att (y u)) (v_att (y u))) (fun _ => - 0) t0 t); [lra|intros u Hu; apply d_opp, DU, Hu|intros u Hu; apply c_opp, CU; lra|intros; lra]. }
  assert (UE : forall t, t0 <= t <= t1 -> unitq (e t)) by (intros t Ht; apply error_quat_unit; [apply UN, Ht|exact UC]).
  assert (KEEP : forall t, t0 < t < t1 -> tr_mem (trig_step (qw (e t)) (wc_trig w)) = s /\ - hw < x t).
  { intros t Ht. destruct (LG t Ht) as [_ [u TR]]. destruct (after_call w f (y t) qc w u HS HZ PM ltac:(lra) TR) as (E & _ & _ & B & _). split; [|unfold x, s, e; rewrite <- EH; exact B].
    assert (E' := f_equal (fun z => tr_mem (wc_trig z)) E). cbv beta in E'. symmetry. exact E'. }
  assert (DE : forall t, t0 < t < t1 -> derivq e t (scaleq 0.5 (product (e t) (pure (v_rate (y t)))))).
  { intros t Ht. destruct (LG t Ht) as [OB _]. destruct (obeys_rot w f qc F y t HS HZ SP DJ OB) as [D _].
    assert (E := dq_error (fun u => v_att (y u)) (fun _ => qc) t (v_rate (y t)) zero3 D (dq_const qc t) (UN t ltac:(lra)) UC). cbv zeta in E. rewrite sandwich_0, sub3_0_r in E. exact E. }
  assert (DW : forall t, t0 < t < t1 -> deriv3 (fun u => v_rate (y u)) t (sub3 (scale3 (- s * al) (vec (e t))) (scale3 ga (v_rate (y t))))).
  { intros t Ht. destruct (LG t Ht) as [OB _]. destruct (obeys_rot w f qc F y t HS HZ SP DJ OB) as [_ D]. fold (e t) in D. rewrite EA, EG, (proj1 (KEEP t Ht)) in D. exact D. }
  assert (DX : forall t, t0 < t < t1 -> derivable_pt_lim x t (- r t / 2)).
  { intros t Ht. unfold x. eapply d_eq; [apply d_scal; exact (proj1 (DE t Ht))|]. unfold r. generalize (e t) (v_rate (y t)). clear. intros [p q r' s'] [b c d]. unfold pure, product. replace 0.5 with (1/2) by lra. vunfold; rnum. field. }
  assert (DN : forall t, t0 < t < t1 -> derivable_pt_lim n t (- 2 * al * r t - 2 * ga * n t)).
  { intros t Ht. unfold n, rate2. eapply d_eq; [apply d_dot3; exact (DW t Ht)|]. unfold r. generalize (vec (e t)) (v_rate (y t)) s. clear. intros [p q r'] [b c d] k. vunfoldg; cbn [x3 y3 z3]; rnumg. ring. }
  assert (DR : forall t, t0 < t < t1 -> derivable_pt_lim r t (x t * n t / 2 - al * (1 - x t ^ 2) - ga * r t)).
  { intros t Ht. assert (D := d_dot3 _ _ t _ _ (d3_vec _ t _ (DE t Ht)) (DW t Ht)). cbv beta in D. unfold r. eapply d_eq; [apply d_scal; exact D|].
    assert (U := UE t ltac:(lra)). unfold unitq in U. unfold x, n, rate2.
    replace (1 - (s * qw (e t)) ^ 2) with (s * s * dot3 (vec (e t)) (vec (e t))).
    - generalize (e t) (v_rate (y t)). clear. intros [p q r' s'] [b c d]. unfold pure, product. replace 0.5 with (1/2) by lra. vunfold; rnum. field.
    - replace ((s * qw (e t)) ^ 2) with (s * s * qw (e t) ^ 2) by ring. rewrite SS. assert (Q : qw (e t) ^ 2 + dot3 (vec (e t)) (vec (e t)) = 1) by (rewrite <- U; destruct (e t) as [p q r' s']; vunfoldg; cbn [x3 y3 z3 qw qx qy qz]; rnumg; ring). lra. }
  assert (NR : forall t, t0 <= t <= t1 -> -1 <= x t <= 1 /\ 0 <= n t /\ r t ^ 2 <= (1 - x t ^ 2) * n t).
  { intros t Ht. assert (U := UE t Ht). unfold unitq in U. assert (Q : qw (e t) ^ 2 + dot3 (vec (e t)) (vec (e t)) = 1) by (rewrite <- U; destruct (e t) as [p q r' s']; vunfoldg; cbn [x3 y3 z3 qw qx qy qz]; rnumg; ring).
    assert (V0 := dot3_nonneg (vec (e t))). assert (X2 : x t ^ 2 = qw (e t) ^ 2) by (unfold x; replace ((s * qw (e t)) ^ 2) with (s * s * qw (e t) ^ 2) by ring; rewrite SS; ring).
    split; [nra|]. split; [apply dot3_nonneg|]. unfold r. replace ((s * dot3 (vec (e t)) (v_rate (y t))) ^ 2) with (s * s * dot3 (vec (e t)) (v_rate (y t)) ^ 2) by ring. rewrite SS, X2. assert (C := cs3 (vec (e t)) (v_rate (y t))). unfold n, rate2. replace (1 - qw (e t) ^ 2) with (dot3 (vec (e t)) (vec (e t))) by lra. lra. }
  assert (OF : forall t, t0 <= t <= t1 -> off_target s qc (y t) = 2 * (1 - x t)) by (intros t Ht; apply off_eq; [exact SS|apply UN; lra|exact UC]).
  assert (CX : forall t, t0 <= t <= t1 -> continuity_pt x t /\ continuity_pt n t /\ continuity_pt r t).
  { intros t Ht. destruct (CN t Ht) as (C1 & C2 & C3 & C4 & C5 & C6 & C7). unfold x, n, r, rate2, e, error_quat, product. vunfoldg; cbn [qw qx qy qz x3 y3 z3]; rnumg. split; [|split]; csolve. }
  assert (XG : forall t, t0 <= t <= t1 -> -1 + (1 - hw) <= x t).
  { destruct (closed_ge x (- hw) t0 t1 L) as [E1 E2]; [intros t Ht; apply CX, Ht|intros t Ht; left; apply KEEP, Ht|]. intros t Ht. destruct (Req_dec t t0) as [->|N0]; [lra|]. destruct (Req_dec t t1) as [->|N1]; [lra|]. assert (K := proj2 (KEEP t ltac:(lra))). lra. }
  split; [apply UN; lra|]. split.
  - unfold effort. rewrite !OF by lra. fold (n t0) (n t1).
    apply (falls_open (fun t => al * (2 * (1 - x t)) + n t / 2) (fun t => - ga * n t) t0 t1 L).
    + intros t Ht. eapply d_eq. { apply d_plus; [apply d_mult; [apply d_const|apply d_mult; [apply d_const|apply d_minus; [apply d_const|apply DX, Ht]]]|unfold Rdiv; apply d_mult; [apply DN, Ht|apply d_const]]. } cbv beta. field.
    + intros t Ht. destruct (CX t Ht) as (C1 & C2 & _). unfold Rdiv. csolve.
    + intros t Ht. destruct (NR t Ht) as (_ & N0 & _). nra.
  - set (l := cv_rate al ga (1 - hw)). set (ep := cv_eps al ga). set (W := fun t => 2 * al * (1 - x t) + n t / 2 + ep * r t).
    assert (P : forall t, t0 <= t <= t1 -> _) by (intros u Hu; destruct (NR u Hu) as (B1 & B2 & B3); exact (cv_point al ga (1 - hw) (x u) (n u) (r u) A G ltac:(lra) (conj (XG u Hu) (proj2 B1)) B2 B3)). cbv zeta in P. fold l ep in P.
    assert (DL : forall t, derivable_pt_lim (fun u => exp (l * u)) t (l * exp (l * t))).
    { intros t. eapply d_eq; [apply (derivable_pt_lim_comp (fun u => l * u) exp); [apply d_scal, derivable_pt_lim_id|apply derivable_pt_lim_exp]|]. ring. }
    assert (K : W t1 * exp (l * t1) <= W t0 * exp (l * t0)).
    { apply (falls_open (fun t => W t * exp (l * t)) (fun t => ((- ga * n t + ep * (x t * n t / 2 - al * (1 - x t ^ 2) - ga * r t)) + l * W t) * exp (l * t)) t0 t1 L).
      - intros u Hu. unfold W. eapply d_eq.
        { apply (d_mult (fun t => 2 * al * (1 - x t) + n t / 2 + ep * r t)); [|apply DL]. apply d_plus; [apply d_plus; [apply d_mult; [apply d_const|apply d_minus; [apply d_const|apply DX, Hu]]|unfold Rdiv; apply d_mult; [apply DN, Hu|apply d_const]]|apply d_scal, DR, Hu]. }
        cbv beta. field.
      - intros u Hu. destruct (CX u Hu) as (C1 & C2 & C3). apply c_mult; [unfold W, Rdiv; csolve|]. apply derivable_continuous_pt. eexists. apply DL.
      - intros u Hu. destruct (P u Hu) as [_ P2]. fold (W u) in P2. assert (E := exp_pos (l * u)). assert ((- ga * n u + ep * (x u * n u / 2 - al * (1 - x u ^ 2) - ga * r u) + l * W u) <= 0) by lra. nra. }
    rewrite !OF by lra. fold (n t0) (n t1). destruct (P t1 ltac:(lra)) as [[P1 _] _]. fold (W t1) in P1. destruct (P t0 ltac:(lra)) as [[_ P0] _]. fold (W t0) in P0.
    assert (E := exp_pos (l * t1)). assert (E0 := exp_pos (l * t0)).
    assert (Q : W t1 <= W t0 * exp (- l * (t1 - t0))).
    { apply (Rmult_le_reg_r (exp (l * t1))); [exact E|]. rewrite Rmult_assoc, <- exp_plus. replace (- l * (t1 - t0) + l * t1) with (l * t0) by ring. exact K. }
    assert (X := exp_pos (- l * (t1 - t0))). assert (P0' := Rmult_le_compat_r _ _ _ (Rlt_le _ _ X) P0). lra.
Qed.

(** the controller's settings through the flips, the energy they cost and how long the legs are *)
Lemma slew_inv al ga hw w0 f qc F y : 0 < al -> 0 < ga -> 0 < hw < 1 -> wc_alpha w0 = al -> wc_gamma w0 = ga -> tr_hw (wc_trig w0) = hw -> pm1 (tr_mem (wc_trig w0)) ->
  wc_sun w0 = Some f -> zone_free w0 -> spanning (s_rw (wc_sat w0)) -> det3 (s_total_moment (wc_sat w0)) <> 0 -> unitq qc -> unitq (v_att (y 0)) ->
  (forall t, 0 <= t -> contin y t) ->
  let V0 := effort al (tr_mem (wc_trig w0)) qc (y 0) in
  forall n T w, slew w0 qc F y n T w ->
  0 <= T /\ unitq (v_att (y T)) /\ (exists m, pm1 m /\ w = set_trig w0 (mkTr m hw)) /\
  effort al (tr_mem (wc_trig w)) qc (y T) + INR n * (4 * al * hw) <= V0 /\
  T * cv_rate al ga (1 - hw) <= INR n * ln (4 * V0 / (al * (1 + hw))).
Proof.
  intros A G HW EA EG EH PM HS HZ SP DJ UC U0 CN V0 n T w SL.
  assert (OFF0 : forall s v, 0 <= off_target s qc v) by (intros s v; apply dotq_nonneg).
  assert (RT0 : forall v, 0 <= rate2 v) by (intros v; apply dot3_nonneg).
  assert (EF0 : forall s v, 0 <= effort al s qc v) by (intros s v; unfold effort; assert (H1 := OFF0 s v); assert (H2 := RT0 v); nra).
  induction SL as [|n T w T' w' u SL IH LT LG TR NE].
  - split; [lra|]. split; [exact U0|]. split. { exists (tr_mem (wc_trig w0)). split; [exact PM|]. rewrite <- EH. destruct w0 as [? ? ? [? ?] ? ? ?]. reflexivity. }
    cbn [INR]. fold V0. split; lra.
  - destruct IH as (T0 & UT & (m & Pm & Ew) & VT & TT).
    assert (C : wc_alpha w = al /\ wc_gamma w = ga /\ tr_hw (wc_trig w) = hw /\ tr_mem (wc_trig w) = m /\ wc_sun w = Some f /\ zone_free w /\ wc_sat w = wc_sat w0) by (rewrite Ew; repeat split; assumption).
    destruct C as (C1 & C2 & C3 & C4 & C5 & C6 & C7). rewrite C4 in VT.
    destruct (leg_core al ga hw w f qc F y T T' A G HW C1 C2 C3 ltac:(rewrite C4; exact Pm) C5 C6 ltac:(rewrite C7; exact SP) ltac:(rewrite C7; exact DJ) UC UT LT ltac:(intros t Ht; apply CN; lra) LG) as (UT' & VD & DEC).
    cbv zeta in VD, DEC. rewrite C4 in VD, DEC.
    destruct (after_call w f (y T') qc w' u C5 C6 ltac:(rewrite C4; exact Pm) ltac:(lra) TR) as (E' & Pm' & H' & _ & FL). destruct (FL NE) as [FM FX]. rewrite C4 in FM, FX. rewrite C3 in FX, H'.
    assert (SS := pm1_sq _ Pm).
    assert (O1 : off_target m qc (y T') = 2 * (1 - m * qw (error_quat (v_att (y T')) qc))) by (apply off_eq; [exact SS|exact UT'|exact UC]).
    assert (O2 : off_target (- m) qc (y T') = 2 * (1 - - m * qw (error_quat (v_att (y T')) qc))) by (apply off_eq; [rewrite <- SS; ring|exact UT'|exact UC]).
    set (x := qw (error_quat (v_att (y T')) qc)) in *.
    assert (R' := RT0 (y T')).
    split; [lra|]. split; [exact UT'|]. split.
    { exists (- m). split; [destruct Pm as [->| ->]; [right|left]; lra|]. assert (E2 : w' = set_trig w0 (wc_trig w')) by (rewrite E', Ew; reflexivity). rewrite E2. f_equal.
      assert (ET : forall tr : Trigger R, tr = mkTr (tr_mem tr) (tr_hw tr)) by (intros []; reflexivity). rewrite (ET (wc_trig w')), FM, H'. reflexivity. }
    rewrite FM. rewrite S_INR.
    assert (NN := pos_INR n). assert (AH : 0 < al * hw) by (apply Rmult_lt_0_compat; lra).
    split.
    + unfold effort in *. rewrite O2. rewrite O1 in VD. assert (al * (m * x) <= al * - hw) by (apply Rmult_le_compat_l; lra). lra.
    + set (l := cv_rate al ga (1 - hw)) in *.
      assert (VL : effort al m qc (y T) <= V0) by (assert (0 <= INR n * (4 * al * hw)) by (apply Rmult_le_pos; lra); lra).
      assert (B : 6 * al * off_target m qc (y T) + 4 * rate2 (y T) <= 8 * V0) by (unfold effort in VL; assert (H1 := OFF0 m (y T)); assert (H2 : 0 <= al * off_target m qc (y T)) by (apply Rmult_le_pos; lra); lra).
      assert (X := exp_pos (- l * (T' - T))). assert (B' := Rmult_le_compat_r _ _ _ (Rlt_le _ _ X) B).
      assert (Y : 4 * (al * (1 + hw)) <= 2 * al * off_target m qc (y T')) by (rewrite O1; assert (al * (m * x) <= al * - hw) by (apply Rmult_le_compat_l; lra); lra).
      assert (AP : 0 < al * (1 + hw)) by (apply Rmult_lt_0_compat; lra).
      assert (Z : al * (1 + hw) <= 4 * V0 * exp (- l * (T' - T))) by lra.
      assert (Q : exp (l * (T' - T)) <= 4 * V0 / (al * (1 + hw))).
      { apply (Rmult_le_reg_r (al * (1 + hw))); [exact AP|]. unfold Rdiv. rewrite (Rmult_assoc (4 * V0)), Rinv_l, Rmult_1_r by lra.
        assert (E := exp_pos (l * (T' - T))). apply (Rmult_le_compat_l _ _ _ (Rlt_le _ _ E)) in Z. eapply Rle_trans; [exact Z|]. right.
        transitivity (4 * V0 * (exp (l * (T' - T)) * exp (- l * (T' - T)))); [ring|]. rewrite <- exp_plus. replace (l * (T' - T) + - l * (T' - T)) with 0 by ring. rewrite exp_0. ring. }
      assert (LN : l * (T' - T) <= ln (4 * V0 / (al * (1 + hw)))).
      { rewrite <- (ln_exp (l * (T' - T))). destruct Q as [Q|Q]; [left; apply ln_increasing; [apply exp_pos|exact Q]|right; rewrite Q; reflexivity]. }
      lra.
Qed.

(** C139: whatever the spin at the start, each flip of the trigger costs 4 al hw of the energy there was, so their number is bounded, and so is the time of the last *)
Theorem C139_flips al ga hw w0 f qc F y : 0 < al -> 0 < ga -> 0 < hw < 1 -> wc_alpha w0 = al -> wc_gamma w0 = ga -> tr_hw (wc_trig w0) = hw -> pm1 (tr_mem (wc_trig w0)) ->
  wc_sun w0 = Some f -> zone_free w0 -> spanning (s_rw (wc_sat w0)) -> det3 (s_total_moment (wc_sat w0)) <> 0 -> unitq qc -> unitq (v_att (y 0)) ->
  (forall t, 0 <= t -> contin y t) ->
  let V0 := effort al (tr_mem (wc_trig w0)) qc (y 0) in
  0 < cv_rate al ga (1 - hw) /\ forall n T w, slew w0 qc F y n T w -> INR n * (4 * al * hw) <= V0 /\ T * cv_rate al ga (1 - hw) <= INR n * ln (4 * V0 / (al * (1 + hw))).
Proof.
  intros A G HW EA EG EH PM HS HZ SP DJ UC U0 CN V0. split; [apply cv_rate_spec; lra|]. intros n T w SL.
  destruct (slew_inv al ga hw w0 f qc F y A G HW EA EG EH PM HS HZ SP DJ UC U0 CN n T w SL) as (_ & _ & _ & B & C). fold V0 in B, C. split; [|exact C].
  assert (E : 0 <= effort al (tr_mem (wc_trig w)) qc (y T)); [|lra]. unfold effort. assert (H1 : 0 <= off_target (tr_mem (wc_trig w)) qc (y T)) by apply dotq_nonneg. assert (H2 : 0 <= rate2 (y T)) by apply dot3_nonneg. assert (0 <= al * off_target (tr_mem (wc_trig w)) qc (y T)) by (apply Rmult_le_pos; lra). lra.
Qed.
Print Assumptions C139_flips.

(** from the last flip on, however much it span at the start, the satellite goes to its target and to rest at the known rate *)
Theorem C139_arrives al ga hw w0 f qc F y : 0 < al -> 0 < ga -> 0 < hw < 1 -> wc_alpha w0 = al -> wc_gamma w0 = ga -> tr_hw (wc_trig w0) = hw -> pm1 (tr_mem (wc_trig w0)) ->
  wc_sun w0 = Some f -> zone_free w0 -> spanning (s_rw (wc_sat w0)) -> det3 (s_total_moment (wc_sat w0)) <> 0 -> unitq qc -> unitq (v_att (y 0)) ->
  (forall t, 0 <= t -> contin y t) ->
  forall n T w t, slew w0 qc F y n T w -> T < t -> leg w qc F y T t ->
  2 * al * off_target (tr_mem (wc_trig w)) qc (y t) + rate2 (y t) <= 8 * effort al (tr_mem (wc_trig w0)) qc (y 0) * exp (- cv_rate al ga (1 - hw) * (t - T)).
Proof.
  intros A G HW EA EG EH PM HS HZ SP DJ UC U0 CN n T w t SL LT LG.
  destruct (slew_inv al ga hw w0 f qc F y A G HW EA EG EH PM HS HZ SP DJ UC U0 CN n T w SL) as (T0 & UT & (m & Pm & Ew) & VT & _).
  assert (C : wc_alpha w = al /\ wc_gamma w = ga /\ tr_hw (wc_trig w) = hw /\ tr_mem (wc_trig w) = m /\ wc_sun w = Some f /\ zone_free w /\ wc_sat w = wc_sat w0) by (rewrite Ew; repeat split; assumption).
  destruct C as (C1 & C2 & C3 & C4 & C5 & C6 & C7). rewrite C4 in VT |- *.
  destruct (leg_core al ga hw w f qc F y T t A G HW C1 C2 C3 ltac:(rewrite C4; exact Pm) C5 C6 ltac:(rewrite C7; exact SP) ltac:(rewrite C7; exact DJ) UC UT LT ltac:(intros v Hv; apply CN; lra) LG) as (_ & _ & DEC).
  cbv zeta in DEC. rewrite C4 in DEC. eapply Rle_trans; [exact DEC|]. apply Rmult_le_compat_r; [left; apply exp_pos|].
  assert (0 <= INR n * (4 * al * hw)) by (apply Rmult_le_pos; [apply pos_INR|apply Rlt_le, Rmult_lt_0_compat; lra]).
  assert (H1 : 0 <= off_target m qc (y T)) by apply dotq_nonneg. assert (0 <= al * off_target m qc (y T)) by (apply Rmult_le_pos; lra). unfold effort in *. lra.
Qed.
Print Assumptions C139_arrives.

(** The example: one flip.  The satellite swings past the trigger's threshold, after which it goes on round to the other cover of the target. *)
Definition turn_ctl (s : R) : WhlCtl := set_trig axis_ctl (mkTr s 0.3).
Lemma turn_tracking s th p : - 0.3 < s * cos (th / 2) -> tracking (turn_ctl s) (axis_state th p) zero3 zero3 q1 = Ok (turn_ctl s, mk3 (- 4 * (2 * 0.1 ^ 2 * (s * sin (th / 2)) + 2 * 0.707 * 0.1 * p)) 0 0).
Proof.
  intros H. assert (T := tracking_free (turn_ctl s) (axis_state th p) zero3 zero3 q1 (fun _ => ex) eq_refl (or_intror eq_refl) ltac:(cbn; lia)). cbv zeta in T. rewrite axis_error in T. cbn [qw] in T.
  rewrite (trig_keep (cos (th / 2)) (wc_trig (turn_ctl s))) in T by (cbn [turn_ctl set_trig axis_ctl wc_trig tr_mem tr_hw]; lra). rewrite T. f_equal. f_equal.
  cbn [turn_ctl set_trig axis_ctl wc_sat wc_trig wc_alpha wc_gamma tr_mem]. rewrite free_ball_total, !sandwich_0, cross_0_r, sub3_0_r.
  unfold rw_momentum, w_momentum. cbn [free_ball s_rw rw_wheels zip_with axis_state v_whl v_rate sum3 fold_right w_par w_axis vec qx qy qz]. vunfoldg; cbn [x3 y3 z3 row1 row2 row3]; rnumg. apply mk3_c; ring.
Qed.
Lemma turn_obeys s (th p : R -> R) t : - 0.3 < s * cos (th t / 2) -> derivable_pt_lim th t (p t) ->
  derivable_pt_lim p t (- (2 * 0.1 ^ 2) * (s * sin (th t / 2)) - 2 * 0.707 * 0.1 * p t) -> obeys (turn_ctl s) q1 (fun _ => zero3) (fun t => axis_state (th t) (p t)) t.
Proof.
  intros HC DT DP. exists (turn_ctl s). eexists. eexists. split; [apply turn_tracking, HC|]. split; [left; reflexivity|]. split; [apply (axis_accel (- 4 * (2 * 0.1 ^ 2 * (s * sin (th t / 2)) + 2 * 0.707 * 0.1 * p t)))|].
  assert (H2 : derivable_pt_lim (fun u => th u / 2) t (p t / 2)) by (eapply d_eq; [unfold Rdiv; apply d_mult; [exact DT|apply d_const]|]; cbv beta; field).
  assert (DC : derivable_pt_lim (fun u => cos (th u / 2)) t (- sin (th t / 2) * (p t / 2))) by (apply (derivable_pt_lim_comp (fun u => th u / 2) cos); [exact H2|apply derivable_pt_lim_cos]).
  assert (DS : derivable_pt_lim (fun u => sin (th u / 2)) t (cos (th t / 2) * (p t / 2))) by (apply (derivable_pt_lim_comp (fun u => th u / 2) sin); [exact H2|apply derivable_pt_lim_sin]).
  unfold derivative. cbn [turn_ctl set_trig axis_ctl wc_sat axis_state v_pos v_vel v_att v_rate v_whl]. split; [|split; [|split; [|split]]]; unfold axis_state; cbn [v_pos v_vel v_att v_rate v_whl].
  - exact (d3_const zero3 t).
  - eapply d3_eq; [exact (d3_const zero3 t)|]. vunfoldg; cbn [x3 y3 z3]; rnumg. apply mk3_c; unfold Rdiv; ring.
  - unfold derivq, product, scaleq. cbn [qw qx qy qz x3 y3 z3]. vunfoldg; cbn [x3 y3 z3 qw qx qy qz]; rnumg. replace 0.5 with (1 / 2) by lra.
    split; [|split; [|split]]; (eapply d_eq; [first [exact DC|exact DS|exact (d_const 0 t)]|]); field.
  - eapply (d3_eq _ _ (mk3 (- (2 * 0.1 ^ 2) * (s * sin (th t / 2)) - 2 * 0.707 * 0.1 * p t) 0 0)); [split; [exact DP|split; exact (d_const 0 t)]|].
    change (s_inv_tot free_ball) with (inv3 (s_total_moment free_ball)). rewrite free_ball_total. unfold rw_torque, rw_momentum, w_momentum, w_torque.
    cbn [free_ball s_rw rw_wheels zip_with sum3 fold_right w_par w_axis]. generalize (2 * 0.1 ^ 2) (2 * 0.707 * 0.1). intros b1 b2. vunfoldg; cbn [x3 y3 z3 row1 row2 row3]; rnumg. apply mk3_c; field.
  - intros i. destruct i as [|[|[|i]]]; cbn [nth].
    + eapply d_eq; [apply d_scal; exact DP|]. ring.
    + exact (d_const 0 t).
    + exact (d_const 0 t).
    + destruct i; exact (d_const 0 t).
Qed.

Lemma turn_ode s x0 y0 : pm1 s -> exists th p : R -> R, th 0 = x0 /\ p 0 = y0 /\ (forall t, derivable_pt_lim th t (p t)) /\ (forall t, derivable_pt_lim p t (- (2 * 0.1 ^ 2) * (s * sin (th t / 2)) - 2 * 0.707 * 0.1 * p t)).
Proof.
  intros PM. set (al := 2 * 0.1 ^ 2). set (ga := 2 * 0.707 * 0.1). assert (AL : 0 < al < 1) by (unfold al; lra). assert (GA : 0 < ga < 1) by (unfold ga; lra).
  apply (picard (fun _ p => p) (fun th p => - al * (s * sin (th / 2)) - ga * p) 4 x0 y0); [lra| |].
  - intros a b c d. assert (X := Rabs_pos (a - c)). assert (Y := Rabs_pos (b - d)). lra.
  - intros a b c d. replace (- al * (s * sin (a / 2)) - ga * b - (- al * (s * sin (c / 2)) - ga * d)) with (- (al * (s * (sin (a / 2) - sin (c / 2)))) + - (ga * (b - d))) by ring.
    eapply Rle_trans; [apply Rabs_triang|]. rewrite !Rabs_Ropp, !Rabs_mult, (Rabs_right al), (Rabs_right ga) by lra.
    assert (AS : Rabs s = 1) by (destruct PM as [->| ->]; [apply Rabs_R1|rewrite Rabs_left; lra]). rewrite AS, Rmult_1_l.
    assert (S : Rabs (sin (a / 2) - sin (c / 2)) <= Rabs (a - c)).
    { assert (Q : forall u v, u <= v -> Rabs (sin v - sin u) <= v - u).
      { intros u v H. destruct (Req_dec u v) as [->|N]; [rewrite Rminus_eq_0, Rabs_R0; lra|]. destruct (MVT_cor2 sin cos u v) as (z & E & _); [lra|intros; apply derivable_pt_lim_sin|].
        rewrite E, Rabs_mult, (Rabs_right (v - u)) by lra. assert (C := COS_bound z). assert (Rabs (cos z) <= 1) by (apply Rabs_le; lra). assert (0 <= v - u) by lra. nra. }
      destruct (Rle_dec c a) as [L|L].
      - assert (K := Q (c / 2) (a / 2) ltac:(lra)). rewrite (Rabs_right (a - c)) by lra. lra.
      - assert (K := Q (a / 2) (c / 2) ltac:(lra)). rewrite Rabs_minus_sym, (Rabs_left (a - c)) by lra. lra. }
    assert (X := Rabs_pos (sin (a / 2) - sin (c / 2))). assert (Y := Rabs_pos (b - d)). nra.
Qed.
(** two functions that meet at d, joined there *)
Definition joined (d : R) (f g : R -> R) (t : R) : R := if Rlt_dec t d then f (t - d) else g (t - d).
Lemma joined_l d f g t l : t < d -> derivable_pt_lim f (t - d) l -> derivable_pt_lim (joined d f g) t l.
Proof.
  intros L D e He. destruct (D e He) as (a & Ha). assert (M := Rmin_pos a (d - t) (cond_pos a) ltac:(lra)). exists (mkposreal _ M). cbn [pos]. intros h Hh HL.
  assert (M1 := Rmin_l a (d - t)). assert (M2 := Rmin_r a (d - t)). unfold joined. assert (B := Rle_abs h). destruct (Rlt_dec (t + h) d) as [_|N]; [|lra]. destruct (Rlt_dec t d) as [_|N]; [|lra].
  replace (t + h - d) with (t - d + h) by ring. apply Ha; [exact Hh|lra].
Qed.
Lemma joined_r d f g t l : d < t -> derivable_pt_lim g (t - d) l -> derivable_pt_lim (joined d f g) t l.
Proof.
  intros L D e He. destruct (D e He) as (a & Ha). assert (M := Rmin_pos a (t - d) (cond_pos a) ltac:(lra)). exists (mkposreal _ M). cbn [pos]. intros h Hh HL.
  assert (M1 := Rmin_l a (t - d)). assert (M2 := Rmin_r a (t - d)). unfold joined. assert (B := Rle_abs (- h)). rewrite Rabs_Ropp in B. destruct (Rlt_dec (t + h) d) as [N|_]; [lra|]. destruct (Rlt_dec t d) as [N|_]; [lra|].
  replace (t + h - d) with (t - d + h) by ring. apply Ha; [exact Hh|lra].
Qed.
Lemma joined_c d f g t : f 0 = g 0 -> (forall u, continuity_pt f u) -> (forall u, continuity_pt g u) -> continuity_pt (joined d f g) t.
Proof.
  intros E CF CG e He. destruct (CF (t - d) e He) as (a & Ha & HA). destruct (CG (t - d) e He) as (b & Hb & HB). cbn [dist R_met] in *. unfold R_dist in *.
  assert (HA' : forall u, Rabs (u - t) < a -> Rabs (f (u - d) - f (t - d)) < e).
  { intros u Hu. destruct (Req_dec u t) as [->|N]; [rewrite Rminus_eq_0, Rabs_R0; lra|]. apply HA. split; [split; [exact I|intros Q; apply N; lra]|]. replace (u - d - (t - d)) with (u - t) by ring. exact Hu. }
  assert (HB' : forall u, Rabs (u - t) < b -> Rabs (g (u - d) - g (t - d)) < e).
  { intros u Hu. destruct (Req_dec u t) as [->|N]; [rewrite Rminus_eq_0, Rabs_R0; lra|]. apply HB. split; [split; [exact I|intros Q; apply N; lra]|]. replace (u - d - (t - d)) with (u - t) by ring. exact Hu. }
  destruct (Rtotal_order t d) as [L|[L|L]].
  - exists (Rmin a (d - t)). split; [apply Rmin_pos; lra|]. intros u [_ Hu]. assert (M1 := Rmin_l a (d - t)). assert (M2 := Rmin_r a (d - t)). assert (B := Rle_abs (u - t)). unfold joined. destruct (Rlt_dec u d); [|lra]. destruct (Rlt_dec t d); [|lra]. apply HA'. lra.
  - exists (Rmin a b). split; [apply Rmin_pos; lra|]. intros u [_ Hu]. assert (M1 := Rmin_l a b). assert (M2 := Rmin_r a b). unfold joined. destruct (Rlt_dec t d); [lra|].
    destruct (Rlt_dec u d); [|apply HB'; lra]. replace (g (t - d)) with (f (t - d)) by (rewrite L, Rminus_eq_0; exact E). apply HA'. lra.
  - exists (Rmin b (t - d)). split; [apply Rmin_pos; lra|]. intros u [_ Hu]. assert (M1 := Rmin_l b (t - d)). assert (M2 := Rmin_r b (t - d)). assert (B := Rle_abs (- (u - t))). rewrite Rabs_Ropp in B. unfold joined. destruct (Rlt_dec u d); [lra|]. destruct (Rlt_dec t d); [lra|]. apply HB'. lra.
Qed.
Example C139_ex : exists w0 y T w, wc_alpha w0 = 2 * 0.1 ^ 2 /\ wc_gamma w0 = 2 * 0.707 * 0.1 /\ tr_hw (wc_trig w0) = 0.3 /\ tr_mem (wc_trig w0) = 1 /\ wc_sun w0 = Some (fun _ => ex) /\ zone_free w0 /\
  spanning (s_rw (wc_sat w0)) /\ det3 (s_total_moment (wc_sat w0)) <> 0 /\ unitq (q1 : quat) /\ unitq (v_att (y 0)) /\ (forall t, 0 <= t -> contin y t) /\
  slew w0 q1 (fun _ => zero3) y 1 T w /\ tr_mem (wc_trig w) = -1 /\ forall t, T < t -> leg w q1 (fun _ => zero3) y T t.
Proof.
  set (a0 := acos (- 0.3)). assert (CA : cos a0 = - 0.3) by (apply cos_acos; lra).
  assert (SA : 0 < sin a0). { unfold a0. rewrite sin_acos by lra. apply sqrt_lt_R0. unfold Rsqr. lra. }
  destruct (turn_ode 1 (2 * a0) 0.1 (or_introl eq_refl)) as (th1 & p1 & A1 & B1 & D1 & E1).
  destruct (turn_ode (-1) (2 * a0) 0.1 (or_intror eq_refl)) as (th2 & p2 & A2 & B2 & D2 & E2).
  assert (HC : forall th p : R -> R, (forall t, derivable_pt_lim th t (p t)) -> forall t, derivable_pt_lim (fun u => cos (th u / 2)) t (- sin (th t / 2) * (p t / 2))).
  { intros th p D t. apply (derivable_pt_lim_comp (fun u => th u / 2) cos); [|apply derivable_pt_lim_cos]. eapply d_eq; [unfold Rdiv; apply d_mult; [apply D|apply d_const]|]. cbv beta. field. }
  assert (BEF : exists d, 0 < d /\ forall t, - d < t < 0 -> - 0.3 < cos (th1 t / 2)).
  { assert (D := HC th1 p1 D1 0). rewrite A1, B1 in D. replace (2 * a0 / 2) with a0 in D by field. set (k := - sin a0 * (0.1 / 2)) in D. assert (K : k < 0) by (unfold k; lra).
    destruct (D (- k) ltac:(lra)) as (d & Hd). exists d. split; [apply cond_pos|]. intros t Ht. assert (Q := Hd t ltac:(lra) ltac:(rewrite Rabs_left; lra)). rewrite Rplus_0_l, A1 in Q. replace (2 * a0 / 2) with a0 in Q by field. rewrite CA in Q.
    apply Rabs_def2 in Q. destruct Q as [Q _]. assert (Q' : (cos (th1 t / 2) - - 0.3) / t < 0) by lra. assert (Z : (cos (th1 t / 2) - - 0.3) = (cos (th1 t / 2) - - 0.3) / t * t) by (field; lra). nra. }
  assert (AFT : forall t, 0 <= t -> cos (th2 t / 2) < 0.3).
  { intros t Ht. set (al := 2 * 0.1 ^ 2) in *. set (ga := 2 * 0.707 * 0.1) in *.
    assert (D : forall u, derivable_pt_lim (fun u => 2 * al * (1 + cos (th2 u / 2)) + p2 u * p2 u / 2) u (- ga * (p2 u * p2 u))).
    { intros u. eapply d_eq. { apply d_plus; [apply d_mult; [apply d_const|apply d_plus; [apply d_const|apply (HC th2 p2 D2)]]|unfold Rdiv; apply d_mult; [apply d_mult; apply E2|apply d_const]]. } cbv beta. field. }
    assert (K : 2 * al * (1 + cos (th2 t / 2)) + p2 t * p2 t / 2 <= 2 * al * (1 + cos (th2 0 / 2)) + p2 0 * p2 0 / 2).
    { destruct (Req_dec t 0) as [->|N]; [lra|]. apply (falls_open (fun u => 2 * al * (1 + cos (th2 u / 2)) + p2 u * p2 u / 2) (fun u => - ga * (p2 u * p2 u)) 0 t); [lra|intros; apply D|intros u _; apply derivable_continuous_pt; eexists; apply D|intros u _; unfold ga; nra]. }
    rewrite A2, B2 in K. replace (2 * a0 / 2) with a0 in K by field. rewrite CA in K. unfold al in K. assert (0 <= p2 t * p2 t) by nra. lra. }
  destruct BEF as (d & Hd & BEF). set (th := joined d th1 th2). set (p := joined d p1 p2).
  assert (CD : forall f df, (forall t, derivable_pt_lim f t (df t)) -> forall t, continuity_pt f t) by (intros g dg H t; apply derivable_continuous_pt; exists (dg t); apply H).
  assert (CT : forall t, continuity_pt th t) by (intros t; apply joined_c; [congruence|exact (CD _ _ D1)|exact (CD _ _ D2)]).
  assert (CP : forall t, continuity_pt p t) by (intros t; apply joined_c; [congruence|exact (CD _ _ E1)|exact (CD _ _ E2)]).
  assert (V1 : forall t, t < d -> th t = th1 (t - d) /\ p t = p1 (t - d)) by (intros t Ht; unfold th, p, joined; destruct (Rlt_dec t d); [split; reflexivity|lra]).
  assert (V2 : forall t, d <= t -> th t = th2 (t - d) /\ p t = p2 (t - d)) by (intros t Ht; unfold th, p, joined; destruct (Rlt_dec t d); [lra|split; reflexivity]).
  exists (turn_ctl 1), (fun t => axis_state (th t) (p t)), d, (turn_ctl (-1)).
  split; [reflexivity|]. split; [reflexivity|]. split; [reflexivity|]. split; [reflexivity|]. split; [reflexivity|]. split; [right; reflexivity|]. split; [exact free_ball_spanning|]. split; [exact ball_det|].
  split; [unfold unitq, q1; vunfoldg; cbn [qw qx qy qz]; rnumg; ring|].
  split. { unfold axis_state. cbn [v_att]. unfold unitq, dotq; cbn [qw qx qy qz]; rnumg. assert (H := sin2_cos2 (th 0 / 2)). unfold Rsqr in H. lra. }
  split. { intros t _. unfold contin, axis_state. cbn [v_att v_rate qw qx qy qz x3 y3 z3].
    assert (H2 : continuity_pt (fun u => th u / 2) t) by (unfold Rdiv; apply c_mult; [apply CT|apply c_const]).
    split; [apply (continuity_pt_comp (fun u => th u / 2) cos); [exact H2|apply continuity_cos]|]. split; [apply (continuity_pt_comp (fun u => th u / 2) sin); [exact H2|apply continuity_sin]|].
    split; [apply c_const|]. split; [apply c_const|]. split; [apply CP|]. split; apply c_const. }
  assert (FL : exists u, tracking (turn_ctl 1) (axis_state (th d) (p d)) zero3 zero3 q1 = Ok (turn_ctl (-1), u)).
  { destruct (V2 d ltac:(lra)) as [-> ->]. rewrite Rminus_eq_0, A2. assert (T := tracking_free (turn_ctl 1) (axis_state (2 * a0) (p2 0)) zero3 zero3 q1 (fun _ => ex) eq_refl (or_intror eq_refl) ltac:(cbn; lia)). cbv zeta in T. rewrite axis_error in T. cbn [qw] in T.
    replace (2 * a0 / 2) with a0 in T by field. rewrite CA in T. eexists. rewrite T. f_equal. f_equal. unfold turn_ctl, set_trig. cbn [axis_ctl wc_sat wc_alpha wc_gamma wc_trig wc_avoid wc_instr wc_sun]. f_equal.
    unfold trig_step. cbn [tr_mem tr_hw nmul nleb nopp RNum]. destruct (Rleb_spec (- 0.3 * 1) (- (0.3))) as [LE|LE]; [|lra]. unfold nsign. cbn [nltb neqb n0 n1 nopp RNum].
    destruct (Rltb_spec 0 (- 0.3)) as [P|P]; [lra|]. destruct (Rltb_spec (- 0.3) 0) as [Q|Q]; [|lra]. destruct (Reqb_spec (- (1)) 0) as [Z|Z]; [lra|]. cbn [negb]. f_equal. }
  destruct FL as [u FL]. split.
  { apply (slew_flip _ _ _ _ 0 0 (turn_ctl 1) d (turn_ctl (-1)) u); [apply slew_start|exact Hd| |exact FL|].
    - intros t Ht. destruct (V1 t ltac:(lra)) as [X1 X2]. assert (C := BEF (t - d) ltac:(lra)). rewrite <- X1 in C. split.
      + apply turn_obeys; [lra|rewrite X2; apply joined_l; [lra|apply D1]|rewrite X1, X2; apply joined_l; [lra|apply E1]].
      + eexists. apply turn_tracking. lra.
    - intros E. apply (f_equal (fun z => tr_mem (wc_trig z))) in E. cbn in E. lra. }
  split; [reflexivity|]. intros t1 Ht1 t Ht. destruct (V2 t ltac:(lra)) as [X1 X2]. assert (C := AFT (t - d) ltac:(lra)). rewrite <- X1 in C. split.
  - apply turn_obeys; [lra|rewrite X2; apply joined_r; [lra|apply D2]|rewrite X1, X2; apply joined_r; [lra|apply E2]].
  - eexists. apply turn_tracking. lra.
Qed.
