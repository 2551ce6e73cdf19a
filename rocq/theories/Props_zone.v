(** * Property C109: the allowable zone keeps its instruments out of the forbidden cones *)
From Coq Require Import Reals ZArith List Bool Lra Lia Psatz.
From Coquelicot Require Import Derive.
From Verif Require Import Num Vec M_vector M_quaternion M_jday M_struct M_dyn M_ctrl S_rot S_dyn S_ctrl.
From Verif Require Import P_detum P_quat P_struct P_wheel P_dyn P_dyn2 P_obs P_ctrl P_ctrl2 P_ctrl3 P_ctrl4 P_ctrl5 P_conv P_tot2 P_tot3 P_orb3 P_posf Props_ctrl2 Props_ctrl3 Props_conv Props_samp P_zone.
Import ListNotations.
Local Open Scope R_scope.

(** instrument k watches the sun (object 0): it must stay away from it by the angle bd (degrees) if fb, or within it otherwise *)
Definition watches (k : CInstr) (fb : bool) (bd : R) : Prop :=
  nth_error (i_forbidden (ci k)) 0 = Some fb /\ nth_error (i_bounds (ci k)) 0 = Some bd /\ In 0%Z (i_ids (ci k)).
(** how far the sun, in direction v of the body frame, is from the edge of the cone, in cosines; positive on the allowed side *)
Definition gap (k : CInstr) (fb : bool) (bd : R) (v : v3) : R :=
  if fb then cos (bd * (PI / 180)) - dot3 (i_boresight (ci k)) v else dot3 (i_boresight (ci k)) v - cos (bd * (PI / 180)).
(** attitude q points no instrument where it must not *)
Definition allowed (ks : list CInstr) (q : quat) (sunv : v3) : Prop := forall k fb bd, In k ks -> watches k fb bd -> 0 < gap k fb bd (sandwich q sunv).
(** the sun raises an alert of k *)
Definition alerted (k : CInstr) (fb : bool) (bd : R) (v : v3) : Prop := gap k fb bd v < 2 * threshold (ci_stop k) bd fb.
(** at time t the wheels obey the command the controller computes for the target attitude qc at rest, with the sign s of its trigger, and the
    satellite moves by the code's equations under that command and an external torque that accelerates it by no more than d *)
Definition zone_obeys (w : WhlCtl) (qc : quat) (s d : R) (y : R -> SVec) (t : R) : Prop :=
  exists tr F T w' u a, tracking (set_trig w tr) (y t) zero3 zero3 qc = Ok (w', u) /\ tr_mem (wc_trig w') = s /\
    unsaturated (s_rw (wc_sat w)) (opp3 u) /\ whl_actuator_commands w' u = Ok a /\ norm3 (mv (s_inv_tot (wc_sat w)) T) <= d /\
    deriv_sv y t (derivative (wc_sat w) (y t) F T (rw_torque (s_rw (wc_sat w)) a) (rw_momentum (s_rw (wc_sat w)) (v_whl (y t))) a).
Definition cont_att (y : R -> SVec) (t : R) : Prop :=
  continuity_pt (fun u => qw (v_att (y u))) t /\ continuity_pt (fun u => qx (v_att (y u))) t /\ continuity_pt (fun u => qy (v_att (y u))) t /\ continuity_pt (fun u => qz (v_att (y u))) t.

Lemma gap_margin k (fb : bool) bd v : margin (if fb then -1 else 1) (i_boresight (ci k)) (cos (bd * (PI / 180))) v = / 2 * gap k fb bd v.
Proof. unfold margin, gap. destruct fb; ring. Qed.
Lemma threshold_le stop bd (fb : bool) : threshold stop bd fb <= 1.
Proof.
  unfold threshold. set (a := cos (_ - _)). set (b := cos (bd * (PI / 180))). assert (A := COS_bound (bd * (PI / 180) - (if fb then -1 else 1) * stop)). assert (B := COS_bound (bd * (PI / 180))). fold a in A. fold b in B.
  assert (Rabs (a - b) <= 2) by (apply Rabs_le; lra). lra.
Qed.
Lemma c_plus f g t : continuity_pt f t -> continuity_pt g t -> continuity_pt (fun u => f u + g u) t. Proof. apply continuity_pt_plus. Qed.
Lemma c_minus f g t : continuity_pt f t -> continuity_pt g t -> continuity_pt (fun u => f u - g u) t. Proof. apply continuity_pt_minus. Qed.
Lemma c_mult f g t : continuity_pt f t -> continuity_pt g t -> continuity_pt (fun u => f u * g u) t. Proof. apply continuity_pt_mult. Qed.
Lemma c_opp f t : continuity_pt f t -> continuity_pt (fun u => - f u) t. Proof. apply continuity_pt_opp. Qed.
Lemma c_const c t : continuity_pt (fun _ => c) t. Proof. apply continuity_pt_const. intros ? ?. reflexivity. Qed.
Lemma c_sun (q : R -> quat) (b v : v3) t : continuity_pt (fun u => qw (q u)) t -> continuity_pt (fun u => qx (q u)) t -> continuity_pt (fun u => qy (q u)) t -> continuity_pt (fun u => qz (q u)) t ->
  continuity_pt (fun u => dot3 b (sandwich (q u) v)) t.
Proof.
  intros A B C D. destruct b as [b1 b2 b3], v as [v1 v2 v3]. unfold sandwich, conjugate, product, vec, pure. vunfoldg; cbn [x3 y3 z3 qw qx qy qz]; rnumg.
  repeat first [assumption|apply c_const|apply c_plus|apply c_minus|apply c_mult|apply c_opp].
Qed.
Lemma c_gap y k fb bd sunv t : cont_att y t -> continuity_pt (fun u => gap k fb bd (sandwich (v_att (y u)) sunv)) t.
Proof.
  intros (A & B & C & D). unfold gap. destruct fb; apply c_minus; try apply c_const; apply c_sun; assumption.
Qed.
(** the same alerts at two times are the same list with the sun moved *)
Lemma alerts_same1 k q0 q1 sunv n0 n1 : (forall i, In i (i_ids (ci k)) -> i = 0%Z) -> wf_instr 2 k ->
  (forall fb bd, watches k fb bd -> (alerted k fb bd (sandwich q0 sunv) <-> alerted k fb bd (sandwich q1 sunv))) ->
  alerts_from k 0 [sandwich q1 sunv; n1] = map (P_ctrl3.moved q1 sunv) (alerts_from k 0 [sandwich q0 sunv; n0]).
Proof.
  intros SO (W1 & W2 & W3) H. destruct (nth_some _ 0 (Nat.lt_le_trans 0 2 _ ltac:(lia) W1)) as [fb E1]. destruct (nth_some _ 0 (Nat.lt_le_trans 0 2 _ ltac:(lia) W2)) as [bd E2]. destruct (nth_some _ 0 (Nat.lt_le_trans 0 2 _ ltac:(lia) W3)) as [g E3].
  destruct (nth_some _ 1 (Nat.lt_le_trans 1 2 _ ltac:(lia) W1)) as [fb' E1']. destruct (nth_some _ 1 (Nat.lt_le_trans 1 2 _ ltac:(lia) W2)) as [bd' E2']. destruct (nth_some _ 1 (Nat.lt_le_trans 1 2 _ ltac:(lia) W3)) as [g' E3'].
  cbn [alerts_from]. rewrite E1, E2, E3, E1', E2', E3'. cbv zeta. cbn [al_sign al_bore al_cos al_sigma].
  destruct (in_dec Z.eq_dec (Z.of_nat 1) (i_ids (ci k))) as [I|_]; [apply SO in I; discriminate|].
  destruct (in_dec Z.eq_dec (Z.of_nat 0) (i_ids (ci k))) as [I|_]; [|reflexivity].
  assert (X := H fb bd (conj E1 (conj E2 I))). unfold alerted in X. rewrite !gap_margin. fold (threshold (ci_stop k) bd fb).
  destruct (Rlt_dec (/ 2 * gap k fb bd (sandwich q1 sunv)) (threshold (ci_stop k) bd fb)) as [L|L]; destruct (Rlt_dec (/ 2 * gap k fb bd (sandwich q0 sunv)) (threshold (ci_stop k) bd fb)) as [L'|L'].
  - reflexivity.
  - exfalso. apply L'. enough (gap k fb bd (sandwich q0 sunv) < 2 * threshold (ci_stop k) bd fb) by lra. apply X. lra.
  - exfalso. apply L. enough (gap k fb bd (sandwich q1 sunv) < 2 * threshold (ci_stop k) bd fb) by lra. apply X. lra.
  - reflexivity.
Qed.
Lemma alerts_same ks q0 q1 sunv n0 n1 : sun_only ks -> Forall (wf_instr 2) ks ->
  (forall k fb bd, In k ks -> watches k fb bd -> (alerted k fb bd (sandwich q0 sunv) <-> alerted k fb bd (sandwich q1 sunv))) ->
  alerts ks [sandwich q1 sunv; n1] = map (P_ctrl3.moved q1 sunv) (alerts ks [sandwich q0 sunv; n0]).
Proof.
  intros SO W H. induction ks as [|k ks IH]; [reflexivity|]. unfold alerts in *. cbn [flat_map]. rewrite map_app. inversion W as [|? ? W1 W2]; subst. f_equal.
  - apply alerts_same1; [intros i I; exact (SO k i (or_introl eq_refl) I)|exact W1|intros fb bd; apply H; left; reflexivity].
  - apply IH; [intros k' i I J; exact (SO k' i (or_intror I) J)|exact W2|intros k' fb bd I; apply H; right; exact I].
Qed.
(** what is known of an alert about the sun *)
Lemma alert_facts ks q sunv n a : sun_only ks -> In a (alerts ks [sandwich q sunv; n]) ->
  exists k fb bd g, In k ks /\ watches k fb bd /\ nth_error (ci_gains k) 0 = Some g /\ alerted k fb bd (sandwich q sunv) /\
  al_gain a = g /\ al_sign a = (if fb then -1 else 1) /\ al_sigma a = threshold (ci_stop k) bd fb /\ forall v, margin (al_sign a) (al_bore a) (al_cos a) v = / 2 * gap k fb bd v.
Proof.
  intros SO I. apply in_flat_map in I. destruct I as (k & K & I). destruct (alerts_from_spec _ _ 0 a I) as (i & o & fb & bd & g & A & B & C & D & F & -> & G). cbn [Nat.add] in *.
  assert (E := SO k _ K F). assert (i = 0)%nat by lia. subst i. injection A as <-. exists k, fb, bd, g. split; [exact K|]. split; [split; [exact B|split; [exact C|exact F]]|]. split; [exact D|].
  rewrite gap_margin in G. split; [unfold alerted; lra|]. split; [reflexivity|]. split; [reflexivity|]. split; [reflexivity|]. intros v. cbn [al_sign al_bore al_cos]. apply gap_margin.
Qed.
Lemma alert_here ks q sunv n k fb bd g : In k ks -> watches k fb bd -> nth_error (ci_gains k) 0 = Some g -> alerted k fb bd (sandwich q sunv) ->
  In (mkAl g (if fb then -1 else 1) (i_boresight (ci k)) (cos (bd * (PI / 180))) (threshold (ci_stop k) bd fb) (sandwich q sunv)) (alerts ks [sandwich q sunv; n]).
Proof.
  intros K (A & B & C) G H. apply in_flat_map. exists k. split; [exact K|]. apply (alerts_from_iff k _ 0). exists 0%nat, (sandwich q sunv), fb, bd, g. cbn [Nat.add]. repeat split; try assumption. rewrite gap_margin. unfold alerted in H. lra.
Qed.
(** away from the target, the margin of an alert stays above a positive bound for as long as the alert lasts *)
Lemma zone_bound w sunv qc (y : R -> SVec) s d N t0 t1 c0 : wc_sun w = Some (fun _ => sunv) -> wc_avoid w = true -> Forall (wf_instr 2) (wc_instr w) -> sun_only (wc_instr w) ->
  spanning (s_rw (wc_sat w)) -> det3 (s_total_moment (wc_sat w)) <> 0 -> 0 <= wc_gamma w -> unitq qc -> pm1 s -> 0 < c0 -> t0 < t1 ->
  (forall k g, In k (wc_instr w) -> nth_error (ci_gains k) 0 = Some g -> 0 < g) ->
  (forall t, t0 <= t < t1 -> unitq (v_att (y t)) /\ zone_obeys w qc s d y t /\ norm3 (v_rate (y t)) <= N /\ allowed (wc_instr w) (v_att (y t)) sunv /\ c0 <= 1 - s * qw (error_quat (v_att (y t)) qc) /\
    forall k fb bd, In k (wc_instr w) -> watches k fb bd -> (alerted k fb bd (sandwich (v_att (y t0)) sunv) <-> alerted k fb bd (sandwich (v_att (y t)) sunv))) ->
  exists B, forall t k fb bd g, t0 <= t < t1 -> In k (wc_instr w) -> watches k fb bd -> nth_error (ci_gains k) 0 = Some g -> alerted k fb bd (sandwich (v_att (y t0)) sunv) ->
    exp (- B / g) <= / 2 * gap k fb bd (sandwich (v_att (y t)) sunv).
Proof.
  intros HS HA HW SO SP DJ GA UC PS C0 LT HG H.
  set (A0 := alerts (wc_instr w) [sandwich (v_att (y t0)) sunv; opp3 (normalize3 (v_pos (y t0)))]).
  assert (SAME : forall t, t0 <= t < t1 -> alerts (wc_instr w) [sandwich (v_att (y t)) sunv; opp3 (normalize3 (v_pos (y t)))] = map (P_ctrl3.moved (v_att (y t)) sunv) A0).
  { intros t Ht. apply alerts_same; [exact SO|exact HW|]. apply (H t Ht). }
  assert (FA : forall a, In a A0 -> 0 < al_gain a /\ Rabs (al_sign a) <= 1 /\ forall t, t0 <= t < t1 -> 0 < margin (al_sign a) (al_bore a) (al_cos a) (sandwich (v_att (y t)) sunv) < 1).
  { intros a I. destruct (alert_facts _ _ _ _ a SO I) as (k & fb & bd & g & K & W & G & AL & E1 & E2 & E3 & E4). split; [rewrite E1; exact (HG k g K G)|]. split; [rewrite E2; destruct fb; [rewrite Rabs_left|rewrite Rabs_right]; lra|].
    intros t Ht. rewrite E4. destruct (H t Ht) as (_ & _ & _ & AW & _ & SM). assert (X := AW k fb bd K W). assert (Y := proj1 (SM k fb bd K W) AL). unfold alerted in Y. assert (Z := threshold_le (ci_stop k) bd fb). lra. }
  set (b := fun t => barrier (map (P_ctrl3.moved (v_att (y t)) sunv) A0)). set (c := fun t => 1 - s * qw (error_quat (v_att (y t)) qc)).
  assert (TERM : forall t, t0 <= t < t1 -> Forall (fun x => x <= 0) (map (fun a => al_gain a * ln (al_psi a)) (map (P_ctrl3.moved (v_att (y t)) sunv) A0))).
  { intros t Ht. rewrite map_map. apply Forall_forall. intros x I. apply in_map_iff in I. destruct I as (a & <- & I). destruct (FA a I) as (G & _ & M). specialize (M t Ht).
    unfold al_psi, P_ctrl3.moved. cbn [al_gain al_sign al_bore al_cos al_obj]. destruct (Rle_dec _ 0); [lra|]. assert (L : ln (margin (al_sign a) (al_bore a) (al_cos a) (sandwich (v_att (y t)) sunv)) < 0) by (rewrite <- ln_1; apply ln_increasing; lra). nra. }
  assert (BN : forall t, t0 <= t < t1 -> b t <= 0) by (intros t Ht; apply rsum_nonpos, TERM, Ht).
  assert (S1 : Rabs s = 1) by (destruct PS as [->| ->]; [rewrite Rabs_right|rewrite Rabs_left]; lra).
  set (G := / 2 * rsum (map al_gain A0)). assert (N0 : 0 <= N). { assert (X := proj1 (P_tot2.norm3_sq (v_rate (y t0)))). destruct (H t0 ltac:(lra)) as (_ & _ & Y & _). lra. }
  assert (G0 : 0 <= G). { unfold G. assert (X : forall l : list Alert, (forall a, In a l -> 0 < al_gain a) -> 0 <= rsum (map al_gain l)). { induction l as [|a l IH]; intros F; cbn; [lra|]. assert (P := F a (or_introl eq_refl)). assert (Q := IH (fun a' I => F a' (or_intror I))). unfold rsum in Q. lra. } assert (Y := X A0 (fun a I => proj1 (FA a I))). lra. }
  set (W := fun t => dot3 (v_rate (y t)) (v_rate (y t)) / 2 - c t * b t). set (K := 1 + N / (2 * c0)). set (q := N * (Rabs d + G + Rabs (wc_alpha w))).
  assert (Q0 : 0 <= q). { unfold q. assert (X := Rabs_pos d). assert (Z := Rabs_pos (wc_alpha w)). apply Rmult_le_pos; lra. }
  assert (K0 : 0 <= N / (2 * c0)) by (apply Rmult_le_pos; [exact N0|apply Rlt_le, Rinv_0_lt_compat; lra]).
  assert (WB : forall t, t0 <= t < t1 -> c0 * - b t <= W t).
  { intros t Ht. unfold W. assert (X := dot3_nonneg (v_rate (y t))). assert (Y := BN t Ht). destruct (H t Ht) as (_ & _ & _ & _ & Z & _). fold (c t) in Z. nra. }
  assert (DW : forall t, t0 <= t < t1 -> exists W', derivable_pt_lim W t W' /\ W' <= K * (W t + q)).
  { intros t Ht. destruct (H t Ht) as (UQ & (tr & F & T & w' & u & a & TR & ES & US & WA & TD & D) & NW & AW & CC & _).
    destruct (zone_rot w tr sunv y qc t F T w' u a HS HA HW SP DJ TR US WA D) as [D1 D2]. rewrite (SAME t Ht), ES in D2.
    assert (ZE := zone_energy (fun x => v_att (y x)) (fun x => v_rate (y x)) qc sunv A0 s (wc_alpha w) (wc_gamma w) t _ _ UQ UC D1 D2). cbv beta zeta in ZE.
    eexists. split. { unfold W, c, b. apply ZE. apply Forall_forall. intros a' I. exact (proj1 (proj2 (proj2 (FA a' I)) t Ht)). }
    clear ZE D2 D1. fold (b t). set (e := error_quat (v_att (y t)) qc). set (nu := vsum _). set (wr := v_rate (y t)). fold wr in NW.
    assert (B1 : Rabs (dot3 wr (mv (s_inv_tot (wc_sat w)) T)) <= N * Rabs d).
    { eapply Rle_trans; [apply dot_norm|]. assert (X := proj1 (P_tot2.norm3_sq wr)). assert (Y := proj1 (P_tot2.norm3_sq (mv (s_inv_tot (wc_sat w)) T))). assert (Z := Rle_abs d). apply Rmult_le_compat; lra. }
    assert (B2 : Rabs (dot3 wr nu) <= N * G).
    { eapply Rle_trans; [apply dot_norm|]. assert (X := proj1 (P_tot2.norm3_sq wr)). apply Rmult_le_compat; [exact X|exact (proj1 (P_tot2.norm3_sq nu))|exact NW|]. unfold nu, G. eapply Rle_trans; [apply pushes_norm|rewrite map_gain; lra].
      apply Forall_forall. intros a' I. apply in_map_iff in I. destruct I as (a0 & <- & I). destruct (FA a0 I) as (X1 & X2 & _). cbn [P_ctrl3.moved al_gain al_sign]. split; [lra|exact X2]. }
    assert (UE : unitq e) by (apply error_quat_unit; assumption).
    assert (B3 : Rabs (dot3 (vec e) wr) <= N).
    { eapply Rle_trans; [apply dot_norm|]. assert (X := P_tot2.norm3_sq (vec e)). assert (Y : dot3 (vec e) (vec e) <= 1). { unfold unitq in UE. clearbody e. destruct e as [e0 e1 e2 e3]. revert UE. vunfoldg; cbn [x3 y3 z3 qw qx qy qz]; rnumg. nra. }
      assert (Z : norm3 (vec e) <= 1) by nra. assert (V := proj1 (P_tot2.norm3_sq wr)). nra. }
    assert (NN := dot3_nonneg wr). assert (BT := BN t Ht). assert (WT := WB t Ht). set (dd := dot3 (vec e) wr) in *.
    assert (B4 : - s * (wc_alpha w - / 2 * b t) * dd <= (Rabs (wc_alpha w) - / 2 * b t) * N).
    { eapply Rle_trans; [apply Rle_abs|]. rewrite Rabs_mult. apply Rmult_le_compat; try apply Rabs_pos; [|exact B3]. rewrite Rabs_mult, Rabs_Ropp, S1, Rmult_1_l. eapply Rle_trans; [apply Rabs_triang|]. rewrite Rabs_Ropp, Rabs_mult, (Rabs_right (/ 2)), (Rabs_left1 (b t)) by lra. lra. }
    assert (B5 : - b t * N <= N / c0 * W t). { replace (- b t * N) with (N / c0 * (c0 * - b t)) by (field; lra). apply Rmult_le_compat_l; [|exact WT]. apply Rmult_le_pos; [exact N0|apply Rlt_le, Rinv_0_lt_compat; lra]. }
    assert (W0 : 0 <= W t) by nra. assert (GN : 0 <= wc_gamma w * dot3 wr wr) by (apply Rmult_le_pos; assumption).
    assert (X1 := Rle_abs (dot3 wr (mv (s_inv_tot (wc_sat w)) T))). assert (X2 := Rle_abs (dot3 wr nu)).
    assert (KW : / 2 * (N / c0) * W t + q <= K * (W t + q)). { unfold K. replace (N / (2 * c0)) with (/ 2 * (N / c0)) in * by (field; lra). nra. }
    eapply Rle_trans; [|exact KW]. unfold q. lra. }
  set (C := (W t0 + q) * exp (K * (t1 - t0))). exists (C / c0). intros t k fb bd g Ht IK WK GK AL.
  assert (CW : W t <= C).
  { assert (KP : 0 <= K) by (unfold K; lra). assert (HW' : forall u, t0 <= u < t1 -> derivable_pt_lim W u (Derive W u) /\ Derive W u <= K * (W u + q)).
    { intros u Hu. destruct (DW u Hu) as (W' & Y1 & Y2). assert (E : Derive W u = W') by (apply is_derive_unique, is_derive_Reals, Y1). rewrite E. split; assumption. }
    assert (Y := gronwall W (Derive W) K q t0 t (proj1 Ht) (fun u Hu => proj1 (HW' u (conj (proj1 Hu) (Rle_lt_trans _ _ _ (proj2 Hu) (proj2 Ht))))) (fun u Hu => proj2 (HW' u (conj (proj1 Hu) (Rle_lt_trans _ _ _ (proj2 Hu) (proj2 Ht)))))).
    assert (W0 : 0 <= W t0) by (assert (P := WB t0 ltac:(lra)); assert (Q := BN t0 ltac:(lra)); nra).
    assert (E : exp (K * (t - t0)) <= exp (K * (t1 - t0))). { destruct (Req_dec (K * (t - t0)) (K * (t1 - t0))) as [->|NE]; [lra|]. apply Rlt_le, exp_increasing. nra. }
    unfold C. assert ((W t0 + q) * exp (K * (t - t0)) <= (W t0 + q) * exp (K * (t1 - t0))) by (apply Rmult_le_compat_l; lra). lra. }
  assert (BB : - b t <= C / c0). { apply (Rmult_le_reg_l c0); [exact C0|]. replace (c0 * (C / c0)) with C by (field; lra). assert (X := WB t Ht). lra. }
  assert (IA := alert_here (wc_instr w) (v_att (y t0)) sunv (opp3 (normalize3 (v_pos (y t0)))) k fb bd g IK WK GK AL). fold A0 in IA. set (a := mkAl g _ _ _ _ _) in IA.
  destruct (FA a IA) as (_ & _ & MM). specialize (MM t Ht). assert (EM : margin (al_sign a) (al_bore a) (al_cos a) (sandwich (v_att (y t)) sunv) = / 2 * gap k fb bd (sandwich (v_att (y t)) sunv)) by (unfold a; cbn [al_sign al_bore al_cos]; apply gap_margin).
  rewrite EM in MM. set (p := / 2 * gap k fb bd (sandwich (v_att (y t)) sunv)) in *.
  assert (LE : b t <= g * ln p).
  { apply (rsum_le_one _ _ (TERM t Ht)). apply in_map_iff. exists (P_ctrl3.moved (v_att (y t)) sunv a). split; [|apply in_map, IA]. unfold al_psi, P_ctrl3.moved. cbn [al_gain al_sign al_bore al_cos al_obj]. rewrite EM. destruct (Rle_dec p 0); [lra|reflexivity]. }
  assert (G1 := HG k g IK GK). rewrite <- (exp_ln p) by lra. assert (LL : - (C / c0) / g <= ln p). { apply (Rmult_le_reg_l g); [exact G1|]. replace (g * (- (C / c0) / g)) with (- (C / c0)) by (field; lra). lra. }
  destruct LL as [LL|LL]; [apply Rlt_le, exp_increasing, LL|rewrite LL; lra].
Qed.
Lemma real_induction (P : R -> Prop) T : P 0 -> (forall t1, 0 < t1 <= T -> (forall t, 0 <= t < t1 -> P t) -> P t1) -> (forall t, 0 <= t <= T -> P t -> exists d, 0 < d /\ forall u, t <= u < t + d -> P u) ->
  forall t, 0 <= t <= T -> P t.
Proof.
  intros H0 HL HR t Ht. set (E := fun x => 0 <= x <= T /\ forall u, 0 <= u <= x -> P u).
  assert (B : bound E) by (exists T; intros x [X _]; lra). assert (NE : exists x, E x) by (exists 0; split; [lra|intros u Hu; replace u with 0 by lra; exact H0]).
  destruct (completeness E B NE) as (m & [M1 M2]). assert (m0 : 0 <= m) by (apply M1; split; [lra|intros u Hu; replace u with 0 by lra; exact H0]). assert (mT : m <= T) by (apply M2; intros x [X _]; lra).
  assert (LOW : forall u, 0 <= u < m -> P u).
  { intros u Hu. destruct (Classical_Prop.classic (exists x, E x /\ u < x)) as [(x & [X1 X2] & X3)|N]; [apply X2; lra|]. exfalso. assert (m <= u); [|lra]. apply M2. intros x X. apply Rnot_lt_le. intros L. apply N. exists x. split; assumption. }
  assert (PM : P m) by (destruct (Req_dec m 0) as [->|N]; [exact H0|apply HL; [lra|exact LOW]]).
  destruct (HR m (conj m0 mT) PM) as (d & D & HD).
  assert (UP : forall u, 0 <= u < m + d -> P u) by (intros u Hu; destruct (Rlt_dec u m); [apply LOW; lra|apply HD; lra]).
  destruct (Rlt_dec m T) as [L|L]; [|apply UP; lra]. exfalso. set (x := Rmin T (m + d / 2)). assert (X1 : x <= T) by apply Rmin_l. assert (X2 : x <= m + d / 2) by apply Rmin_r. assert (X3 : m < x) by (apply Rmin_glb_lt; lra).
  assert (x <= m); [|lra]. apply M1. split; [lra|]. intros u Hu. apply UP. lra.
Qed.
Lemma pos_side f t : continuity_pt f t -> 0 < f t -> exists d, 0 < d /\ forall u, Rabs (u - t) < d -> 0 < f u.
Proof.
  intros C P. destruct (C (f t) P) as (d & D & X). exists d. split; [exact D|]. intros u Hu. destruct (Req_dec u t) as [->|N]; [exact P|].
  assert (Y : Rabs (f u - f t) < f t). { apply X. split; [split; [exact I|intros E; apply N; symmetry; exact E]|exact Hu]. } apply Rabs_def2 in Y. lra.
Qed.
Lemma allowed_open ks sunv y t : cont_att y t -> allowed ks (v_att (y t)) sunv -> exists d, 0 < d /\ forall u, Rabs (u - t) < d -> allowed ks (v_att (y u)) sunv.
Proof.
  intros C. induction ks as [|k ks IH]; intros A. { exists 1. split; [lra|]. intros u _ k fb bd []. }
  destruct IH as (d & D & X). { intros k' fb bd I. apply A. right. exact I. }
  assert (K : exists d', 0 < d' /\ forall u, Rabs (u - t) < d' -> forall fb bd, watches k fb bd -> 0 < gap k fb bd (sandwich (v_att (y u)) sunv)).
  { destruct (Classical_Prop.classic (exists fb bd, watches k fb bd)) as [(fb & bd & W)|N].
    - destruct (pos_side _ t (c_gap y k fb bd sunv t C) (A k fb bd (or_introl eq_refl) W)) as (d' & D' & X'). exists d'. split; [exact D'|]. intros u Hu fb' bd' W'. destruct W as (W1 & W2 & _), W' as (W1' & W2' & _).
      assert (fb' = fb) by congruence. assert (bd' = bd) by congruence. subst. apply X', Hu.
    - exists 1. split; [lra|]. intros u _ fb bd W. exfalso. apply N. exists fb, bd. exact W. }
  destruct K as (d' & D' & X'). exists (Rmin d d'). split; [apply Rmin_pos; assumption|]. intros u Hu k' fb bd [<-|I] W.
  - apply (X' u); [eapply Rlt_le_trans; [exact Hu|apply Rmin_r]|exact W].
  - apply (X u); [eapply Rlt_le_trans; [exact Hu|apply Rmin_l]|exact I|exact W].
Qed.
Lemma at_target q qc s v : unitq q -> unitq qc -> pm1 s -> s * qw (error_quat q qc) = 1 -> sandwich q v = sandwich qc v.
Proof.
  intros U UC PS E. assert (UE := error_quat_unit q qc U UC). assert (Q : error_quat q qc = scaleq s q1).
  { revert UE E. generalize (error_quat q qc). intros [a b c d]. unfold unitq, dotq. cbn [qw qx qy qz]. rnumg. intros UE E. assert (SS : s * s = 1) by (destruct PS as [->| ->]; ring). assert (A : a = s) by (transitivity (s * s * a); [rewrite SS; ring|transitivity (s * (s * a)); [ring|rewrite E; ring]]).
    assert (Z : b * b + c * c + d * d = 0) by (subst a; lra). assert (b = 0) by nra. assert (c = 0) by nra. assert (d = 0) by nra. subst. unfold q1, scaleq. cbn [qw qx qy qz]. apply mkq_c; rnumg; ring. }
  rewrite <- (error_quat_back q qc UC), Q. destruct PS as [->| ->]; destruct qc as [a b c d], v as [v1 v2 v3]; unfold sandwich, conjugate, product, scaleq, q1, pure, vec; vunfoldg; cbn [x3 y3 z3 qw qx qy qz]; rnumg; apply mk3_c; ring.
Qed.
Lemma c_err y qc s t : cont_att y t -> continuity_pt (fun u => 1 - s * qw (error_quat (v_att (y u)) qc)) t.
Proof.
  intros (A & B & C & D). destruct qc as [a b c d]. unfold error_quat, conjugate, product. vunfoldg; cbn [x3 y3 z3 qw qx qy qz]; rnumg.
  repeat first [assumption|apply c_const|apply c_plus|apply c_minus|apply c_mult|apply c_opp].
Qed.

(** however the satellite starts, whatever bounded disturbance acts, and however often the alerts and the trigger switch (though not infinitely often before any time): as long as its rate
    stays bounded, no instrument ever reaches the edge of a cone it must avoid, unless the target attitude itself puts the sun exactly on that edge *)
Theorem C109_keeps_out : forall w sunv qc (y : R -> SVec) T N d, wc_sun w = Some (fun _ => sunv) -> wc_avoid w = true -> Forall (wf_instr 2) (wc_instr w) -> sun_only (wc_instr w) ->
  spanning (s_rw (wc_sat w)) -> det3 (s_total_moment (wc_sat w)) <> 0 -> 0 <= wc_gamma w -> unitq qc ->
  (forall k g, In k (wc_instr w) -> nth_error (ci_gains k) 0 = Some g -> 0 < g) ->
  (forall k fb bd, In k (wc_instr w) -> watches k fb bd -> 0 < threshold (ci_stop k) bd fb /\ gap k fb bd (sandwich qc sunv) <> 0) ->
  (forall t, 0 <= t <= T -> unitq (v_att (y t)) /\ cont_att y t /\ norm3 (v_rate (y t)) <= N) ->
  (forall t1, 0 < t1 <= T -> exists t0 s, 0 <= t0 < t1 /\ pm1 s /\ forall t, t0 <= t < t1 -> zone_obeys w qc s d y t /\
    forall k fb bd, In k (wc_instr w) -> watches k fb bd -> (alerted k fb bd (sandwich (v_att (y t0)) sunv) <-> alerted k fb bd (sandwich (v_att (y t)) sunv))) ->
  allowed (wc_instr w) (v_att (y 0)) sunv -> forall t, 0 <= t <= T -> allowed (wc_instr w) (v_att (y t)) sunv.
Proof.
  intros w sunv qc y T N d HS HA HW SO SP DJ GA UC HG HK HY HZ H0.
  apply real_induction; [exact H0| |].
  2:{ intros t Ht A. destruct (allowed_open _ sunv y t (proj1 (proj2 (HY t Ht))) A) as (e & E & X). exists e. split; [exact E|]. intros u Hu. apply X. rewrite Rabs_right; lra. }
  intros t1 Ht1 LOW k fb bd IK WK. destruct (HZ t1 Ht1) as (t0 & s & T0 & PS & OB). destruct (HY t1 ltac:(lra)) as (U1 & C1 & _). destruct (HK k fb bd IK WK) as [TH NE].
  set (f := fun u => gap k fb bd (sandwich (v_att (y u)) sunv)). assert (CF : continuity_pt f t1) by apply c_gap, C1.
  assert (F0 : 0 <= f t1). { apply (left_limit f t0 t1 0 (proj2 T0) CF). intros t Ht. apply Rlt_le. apply (LOW t ltac:(lra) k fb bd IK WK). }
  destruct F0 as [F0|F0]; [exact F0|exfalso].
  set (c := fun u => 1 - s * qw (error_quat (v_att (y u)) qc)). assert (CC : continuity_pt c t1) by apply c_err, C1.
  assert (C0 : 0 < c t1).
  { unfold c. assert (X := error_quat_unit _ _ U1 UC). assert (Y : s * qw (error_quat (v_att (y t1)) qc) <= 1).
    { revert X. generalize (error_quat (v_att (y t1)) qc). intros [a b e g]. unfold unitq, dotq. cbn [qw qx qy qz]. rnumg. intros X. destruct PS as [->| ->]; nra. }
    destruct Y as [Y|Y]; [lra|]. exfalso. apply NE. rewrite <- (at_target _ _ s sunv U1 UC PS Y). symmetry. exact F0. }
  destruct (pos_side (fun u => c u - c t1 / 2) t1) as (d1 & D1 & X1); [apply c_minus; [exact CC|apply c_const]|lra|].
  destruct (pos_side (fun u => 2 * threshold (ci_stop k) bd fb - f u) t1) as (d2 & D2 & X2); [apply c_minus; [apply c_const|exact CF]|lra|].
  set (dd := Rmin d1 d2). assert (DD : 0 < dd) by (apply Rmin_pos; assumption). assert (DD1 : dd <= d1) by apply Rmin_l. assert (DD2 : dd <= d2) by apply Rmin_r.
  set (t2 := Rmax t0 (t1 - dd / 2)). assert (T1 : t0 <= t2) by apply Rmax_l. assert (T2 : t1 - dd / 2 <= t2) by apply Rmax_r. assert (T3 : t2 < t1) by (apply Rmax_lub_lt; lra).
  assert (NEAR : forall t, t2 <= t < t1 -> Rabs (t - t1) < dd) by (intros t Ht; rewrite Rabs_left; lra).
  destruct (zone_bound w sunv qc y s d N t2 t1 (c t1 / 2) HS HA HW SO SP DJ GA UC PS ltac:(lra) T3 HG) as (B & HB).
  { intros t Ht. destruct (HY t ltac:(lra)) as (Ut & _ & Nt). destruct (OB t ltac:(lra)) as [O1 O2]. split; [exact Ut|]. split; [exact O1|]. split; [exact Nt|]. split; [apply LOW; lra|].
    split; [assert (P := X1 t ltac:(assert (Q := NEAR t Ht); lra)); unfold c in *; lra|]. intros k' fb' bd' I W. destruct (OB t2 ltac:(lra)) as [_ O3]. assert (Q1 := O2 k' fb' bd' I W). assert (Q3 := O3 k' fb' bd' I W). tauto. }
  destruct WK as (W1 & W2 & W3). assert (WF := HW). rewrite Forall_forall in WF. destruct (WF k IK) as (_ & _ & L3). destruct (nth_some _ 0 (Nat.lt_le_trans 0 2 _ ltac:(lia) L3)) as [g EG].
  assert (AL : alerted k fb bd (sandwich (v_att (y t2)) sunv)). { unfold alerted. assert (P := X2 t2 ltac:(assert (Q := NEAR t2 ltac:(lra)); lra)). unfold f in P. lra. }
  assert (LIM := left_limit f t2 t1 (2 * exp (- B / g)) T3 CF). assert (EP := exp_pos (- B / g)).
  assert (2 * exp (- B / g) <= f t1); [|lra]. apply LIM. intros t Ht. assert (Q := HB t k fb bd g Ht IK (conj W1 (conj W2 W3)) EG AL). unfold f. lra.
Qed.
Print Assumptions C109_keeps_out.
(** a controller built by the code alerts up to the cosine of the bound; bounded by a right angle, an instrument is never alerted on the allowed side, so the law is plain feedback *)
Theorem C109_right_angle_refuted : forall sat i f damping freq w fb dq dw v n, whl_new sat [i] f damping freq = Ok w ->
  nth_error (i_forbidden i) 0 = Some fb -> nth_error (i_bounds i) 0 = Some 90 -> i_ids i = [0%Z] -> (2 <= length (i_forbidden i))%nat -> (2 <= length (i_bounds i))%nat ->
  0 <= (if fb then - dot3 (i_boresight i) v else dot3 (i_boresight i) v) ->
  exists tr, allowable_zone w dq dw [v; n] = Ok (tr, scale3 (- tr_mem tr * wc_alpha w) (vec dq)).
Proof.
  intros sat i f damping freq w fb dq dw v n HW HF HB HI L1 L2 G. unfold whl_new in HW. destruct (forallb _ [i]); [|discriminate]. injection HW as <-.
  apply Props_ctrl3.C55_quiet; cbn [wc_instr map].
  - apply Forall_cons; [|apply Forall_nil]. split; [exact L1|]. split; [exact L2|]. cbn. lia.
  - intros k j o fb' bd' [<-|[]] E1 E2 E3 E4. cbn [ci ci_stop i_ids] in *. rewrite HI in E4. destruct E4 as [E4|[]]. assert (j = 0)%nat by lia. subst j. cbn [nth_error] in E1. injection E1 as <-.
    rewrite HF in E2. injection E2 as <-. rewrite HB in E3. injection E3 as <-. unfold threshold, margin. assert (C90 : cos (90 * (PI / 180)) = 0) by (replace (90 * (PI / 180)) with (PI / 2) by field; apply cos_PI2). rewrite C90.
    assert (Z : cos (90 * (PI / 180) - (if fb then -1 else 1) * PI) = 0). { destruct fb; [replace (90 * (PI / 180) - -1 * PI) with (PI / 2 + PI) by field; rewrite neg_cos, cos_PI2; ring|replace (90 * (PI / 180) - 1 * PI) with (- (PI / 2)) by field; rewrite cos_neg; apply cos_PI2]. }
    rewrite Z, Rminus_0_r, Rabs_R0. destruct fb; lra.
Qed.
Print Assumptions C109_right_angle_refuted.

(** a camera along y that must stay 60 degrees away from the sun, which is along z *)
Definition cam : Instrument := mkI ey [60; 60] [true; true] [0%Z].
Definition cam_ctl : WhlCtl := mkWC free_ball (2 * 0.1 ^ 2) (2 * 0.707 * 0.1) (mkTr 1 0.3) true [mkCI cam PI [2 * 0.1 ^ 2 * 1; 2 * 0.1 ^ 2 * 1]] (Some (fun _ => ez)).
Lemma cam_new : whl_new free_ball [cam] (Some (fun _ => ez)) 0.707 0.1 = Ok cam_ctl.
Proof.
  unfold whl_new, cam_ctl. assert (E : forallb (fun i => Nat.leb (length (i_forbidden i)) 2) [cam] = true) by reflexivity.
  match goal with |- (if ?b then _ else _) = _ => destruct b eqn:B end; [|vm_compute in B; discriminate].
  cbn [map]. f_equal. f_equal. rewrite trig_new_eq. destruct (Rlt_dec 1 0); [lra|reflexivity].
Qed.
Lemma cam_watch fb bd : watches (mkCI cam PI [2 * 0.1 ^ 2 * 1; 2 * 0.1 ^ 2 * 1]) fb bd -> fb = true /\ bd = 60.
Proof. intros (A & B & _). cbn in A, B. split; congruence. Qed.
Lemma cos60 : cos (60 * (PI / 180)) = / 2. Proof. replace (60 * (PI / 180)) with (PI / 3) by field. rewrite cos_PI3. lra. Qed.
Lemma cam_threshold : threshold PI 60 true = / 2.
Proof. unfold threshold. replace (60 * (PI / 180)) with (PI / 3) by field. replace (PI / 3 - -1 * PI) with (PI / 3 + PI) by ring. rewrite neg_cos, cos_PI3, Rabs_left by lra. lra. Qed.
Lemma cam_sun th p : sandwich (v_att (axis_state th p)) ez = mk3 0 (sin th) (cos th).
Proof.
  replace (sin th) with (2 * sin (th / 2) * cos (th / 2)) by (rewrite <- sin_2a; f_equal; field). replace (cos th) with (cos (th / 2) * cos (th / 2) - sin (th / 2) * sin (th / 2)) by (rewrite <- cos_2a; f_equal; field).
  unfold axis_state, ez. cbn [v_att]. generalize (sin (th / 2)) (cos (th / 2)). intros s c. unfold sandwich, conjugate, product, pure, vec. vunfoldg; cbn [x3 y3 z3 qw qx qy qz]; rnumg. apply mk3_c; ring.
Qed.
Lemma cam_gap th p l : gap (mkCI cam PI l) true 60 (sandwich (v_att (axis_state th p)) ez) = / 2 - sin th.
Proof. rewrite cam_sun. unfold gap. rewrite cos60. unfold cam, ey. cbn [ci i_boresight]. vunfoldg; cbn [x3 y3 z3]; rnumg. ring. Qed.
(** one axis under a constant command *)
Lemma axis_moves t0 th p u t : let T := fun t => th + p * (t - t0) + u * (t - t0) ^ 2 / 2 in let P := fun t => p + u * (t - t0) in
  deriv_sv (fun t => axis_state (T t) (P t)) t (derivative free_ball (axis_state (T t) (P t)) zero3 zero3 (rw_torque (s_rw free_ball) [- (4 * u); 0; 0]) (rw_momentum (s_rw free_ball) (v_whl (axis_state (T t) (P t)))) [- (4 * u); 0; 0]).
Proof.
  intros T P.
  assert (DL : derivable_pt_lim (fun t => t - t0) t 1) by (eapply d_eq; [apply d_minus; [apply d_id|apply d_const]|]; ring).
  assert (DP : derivable_pt_lim P t u) by (unfold P; eapply d_eq; [apply d_plus; [apply d_const|apply d_scal, DL]|]; ring).
  assert (DT : derivable_pt_lim T t (P t)). { unfold T, P. eapply d_eq; [apply d_plus; [apply d_plus; [apply d_const|apply d_scal, DL]|unfold Rdiv; apply d_mult; [apply d_scal; cbn [pow]; apply d_mult; [exact DL|apply d_mult; [exact DL|apply d_const]]|apply d_const]]|]. cbv beta. field. }
  assert (H2 : derivable_pt_lim (fun u => T u / 2) t (P t / 2)) by (eapply d_eq; [unfold Rdiv; apply d_mult; [exact DT|apply d_const]|]; cbv beta; field).
  assert (DC : derivable_pt_lim (fun u => cos (T u / 2)) t (- sin (T t / 2) * (P t / 2))) by (apply (derivable_pt_lim_comp (fun u => T u / 2) cos); [exact H2|apply derivable_pt_lim_cos]).
  assert (DS : derivable_pt_lim (fun u => sin (T u / 2)) t (cos (T t / 2) * (P t / 2))) by (apply (derivable_pt_lim_comp (fun u => T u / 2) sin); [exact H2|apply derivable_pt_lim_sin]).
  unfold derivative. cbn [axis_state v_pos v_vel v_att v_rate v_whl]. split; [|split; [|split; [|split]]]; unfold axis_state; cbn [v_pos v_vel v_att v_rate v_whl].
  - exact (d3_const zero3 t).
  - eapply d3_eq; [exact (d3_const zero3 t)|]. vunfoldg; cbn [x3 y3 z3]; rnumg. apply mk3_c; unfold Rdiv; ring.
  - unfold derivq, product, scaleq. cbn [qw qx qy qz x3 y3 z3]. vunfoldg; cbn [x3 y3 z3 qw qx qy qz]; rnumg. replace 0.5 with (1 / 2) by lra.
    split; [|split; [|split]]; (eapply d_eq; [first [exact DC|exact DS|exact (d_const 0 t)]|]); field.
  - eapply (d3_eq _ _ (mk3 u 0 0)); [split; [exact DP|split; exact (d_const 0 t)]|].
    change (s_inv_tot free_ball) with (inv3 (s_total_moment free_ball)). rewrite free_ball_total. unfold rw_torque, rw_momentum, w_momentum, w_torque.
    cbn [free_ball s_rw rw_wheels zip_with sum3 fold_right w_par w_axis]. clearbody T P. vunfoldg; cbn [x3 y3 z3 row1 row2 row3]; rnumg. apply mk3_c; field.
  - intros i. destruct i as [|[|[|i]]]; cbn [nth].
    + eapply d_eq; [apply d_scal; exact DP|]. ring.
    + exact (d_const 0 t).
    + exact (d_const 0 t).
    + destruct i; exact (d_const 0 t).
Qed.
(** on one axis the pushes vanish *)
Lemma cam_pushes s c0 s0 dw ks n th p : ks = [mkCI cam PI [2 * 0.1 ^ 2 * 1; 2 * 0.1 ^ 2 * 1]] -> vsum (map (P_ctrl3.push s (mkq c0 s0 0 0) dw) (alerts ks [sandwich (v_att (axis_state th p)) ez; n])) = zero3.
Proof.
  intros ->. apply vsum_zero. intros a I. apply in_flat_map in I. destruct I as (k & K & I). destruct K as [<-|[]]. destruct (alerts_from_spec _ _ 0 a I) as (i & o & fb & bd & g & A & B & C & D & F & -> & G). cbn [Nat.add] in *.
  cbn in F. destruct F as [F|[]]. assert (i = 0)%nat by lia. subst i. cbn [nth_error] in A. assert (EO : o = sandwich (v_att (axis_state th p)) ez) by congruence. rewrite cam_sun in EO. subst o. unfold P_ctrl3.push. cbn [al_bore al_obj]. change (i_boresight (ci (mkCI cam PI [2 * 0.1 ^ 2 * 1; 2 * 0.1 ^ 2 * 1]))) with ey.
  destruct (Rlt_dec _ _); [|reflexivity]. cbv zeta. match goal with |- scale3 _ (normalize3 ?v) = _ => replace v with (zero3 (T:=R)) end; [|unfold ey; vunfoldg; cbn [x3 y3 z3 qw qx qy qz]; rnumg; apply mk3_c; ring].
  rewrite normalize3_zero. vunfoldg; cbn [x3 y3 z3]; rnumg. apply mk3_c; ring.
Qed.
(** with the command held between calls, however short the period, a turn that is fast enough carries the camera across the sun before the next call *)
Theorem C109_sampled_refuted : forall h, 0 < h -> exists y w', held cam_ctl q1 (fun _ => zero3) y 0 h w' /\ allowed (wc_instr cam_ctl) (v_att (y 0)) ez /\ unitq (v_att (y 0)) /\
  exists t, 0 < t <= h /\ sandwich (v_att (y t)) ez = i_boresight cam.
Proof.
  intros h H. set (ga := 2 * 0.707 * 0.1). set (ta := Rmin h 1). assert (T0 : 0 < ta) by (apply Rmin_pos; lra). assert (T1 : ta <= h) by apply Rmin_l. assert (T2 : ta <= 1) by apply Rmin_r.
  assert (DN : 0 < ta - ga * ta ^ 2 / 2) by (unfold ga; nra).
  set (p := PI / 2 / (ta - ga * ta ^ 2 / 2)). set (u := - ga * p).
  set (y := fun t => axis_state (0 + p * (t - 0) + u * (t - 0) ^ 2 / 2) (p + u * (t - 0))).
  assert (Y0 : y 0 = axis_state 0 p) by (unfold y; f_equal; field).
  exists y, (set_trig cam_ctl (mkTr 1 0.3)). split; [|split; [|split]].
  - exists (mk3 (4 * u) 0 0), [- (4 * u); 0; 0], y, (-1), (h + 1). split; [|split; [left; reflexivity|split; [exact (axis_accel (4 * u))|split; [lra|split; [lra|split; [reflexivity|]]]]]].
    + rewrite Y0. assert (WF : Forall (wf_instr 2) (wc_instr cam_ctl)) by (apply Forall_cons; [unfold wf_instr; cbn; lia|apply Forall_nil]).
      assert (TZ := tracking_zone cam_ctl (axis_state 0 p) zero3 zero3 q1 (fun _ => ez) eq_refl eq_refl WF ltac:(cbn; lia)). cbv beta zeta in TZ.
      rewrite axis_error in TZ. rewrite Rdiv_0_l in TZ || replace (0 / 2) with 0 in TZ by field. rewrite cos_0, sin_0 in TZ. cbn [qw] in TZ. rewrite (trig_keep 1 (wc_trig cam_ctl)) in TZ by (cbn; lra).
      rewrite (cam_pushes _ 1 0 _ _ _ 0 p eq_refl) in TZ. rewrite TZ. f_equal. f_equal. clear TZ.
      set (A := alerts _ _). change (wc_sat cam_ctl) with free_ball. change (tr_mem (wc_trig cam_ctl)) with 1. change (wc_gamma cam_ctl) with ga. change (wc_alpha cam_ctl) with (2 * 0.1 ^ 2). rewrite free_ball_total, !sandwich_0, cross_0_r.
      unfold u. generalize (barrier A) (barrier_axis A) (2 * 0.1 ^ 2). clearbody ga p. intros b [a1 a2 a3] al.
      unfold rw_momentum, w_momentum. cbn [free_ball s_rw rw_wheels zip_with axis_state v_whl v_rate sum3 fold_right w_par w_axis vec qx qy qz]. vunfoldg; cbn [x3 y3 z3 row1 row2 row3]; rnumg. apply mk3_c; field.
    + intros t _. exact (axis_moves 0 0 p u t).
  - intros k fb bd [<-|[]] W. destruct (cam_watch _ _ W) as [-> ->]. rewrite Y0, cam_gap, sin_0. lra.
  - rewrite Y0. apply ax_unit.
  - exists ta. split; [lra|]. unfold y. rewrite cam_sun. assert (E : 0 + p * (ta - 0) + u * (ta - 0) ^ 2 / 2 = PI / 2) by (unfold u, p; field; lra). rewrite E, sin_PI2, cos_PI2. reflexivity.
Qed.
Print Assumptions C109_sampled_refuted.

(** a satellite held off its target, inside the alert zone, by an external torque *)
Example C109_ex : exists (y : R -> SVec) d, let w := cam_ctl in let k := mkCI cam PI [2 * 0.1 ^ 2 * 1; 2 * 0.1 ^ 2 * 1] in whl_new free_ball [cam] (Some (fun _ => ez)) 0.707 0.1 = Ok w /\ wc_instr w = [k] /\ Forall (wf_instr 2) (wc_instr w) /\ sun_only (wc_instr w) /\
  spanning (s_rw (wc_sat w)) /\ det3 (s_total_moment (wc_sat w)) <> 0 /\ 0 <= wc_gamma w /\ unitq (q1 : quat) /\
  (forall k g, In k (wc_instr w) -> nth_error (ci_gains k) 0 = Some g -> 0 < g) /\
  (forall k fb bd, In k (wc_instr w) -> watches k fb bd -> 0 < threshold (ci_stop k) bd fb /\ gap k fb bd (sandwich q1 ez) <> 0) /\ watches k true 60 /\
  (forall t, unitq (v_att (y t)) /\ cont_att y t /\ norm3 (v_rate (y t)) <= 0) /\
  (forall t, zone_obeys w q1 1 d y t /\ alerted k true 60 (sandwich (v_att (y t)) ez)) /\ v_att (y 0) <> q1 /\ allowed (wc_instr w) (v_att (y 0)) ez.
Proof.
  set (th := 1 / 4). assert (P1 := PI2_3_2). assert (S1 : sin th < 1 / 4) by (apply sin_lt_x; unfold th; lra). assert (S0 : 0 < sin th) by (apply sin_gt_0; unfold th; lra).
  assert (SH : 0 < sin (th / 2)) by (apply sin_gt_0; unfold th; lra). assert (CH : 0 < cos (th / 2)) by (apply cos_gt_0; unfold th; lra).
  set (k := mkCI cam PI [2 * 0.1 ^ 2 * 1; 2 * 0.1 ^ 2 * 1]). set (al := 2 * 0.1 ^ 2).
  set (A := alerts [k] [sandwich (v_att (axis_state th 0)) ez; opp3 (normalize3 zero3)]).
  set (X := 4 * x3 (add3 (scale3 (- (1) * (al - barrier A)) (mk3 (sin (th / 2)) 0 0)) (scale3 (/ 2 * (1 - 1 * cos (th / 2))) (barrier_axis A)))).
  set (y := fun t => mkSV zero3 zero3 (mkq (cos (th / 2)) (sin (th / 2)) 0 0) zero3 [- X * t; 0; 0] : SVec).
  assert (WF : Forall (wf_instr 2) (wc_instr cam_ctl)) by (apply Forall_cons; [unfold wf_instr; cbn; lia|apply Forall_nil]).
  exists y, (norm3 (mv (s_inv_tot free_ball) (mk3 (- X) 0 0))). split; [exact cam_new|]. split; [reflexivity|]. split; [exact WF|]. split. { intros k' i [<-|[]] I. cbn in I. destruct I as [I|[]]. symmetry; exact I. }
  split; [exact free_ball_spanning|]. split; [exact ball_det|]. split; [cbn; lra|]. split; [unfold unitq, q1; vunfoldg; cbn [qw qx qy qz]; rnumg; ring|].
  split. { intros k' g [<-|[]] G. cbn in G. injection G as <-. lra. }
  split. { intros k' fb bd [<-|[]] W. destruct (cam_watch _ _ W) as [-> ->]. cbn [ci_stop]. rewrite cam_threshold. split; [lra|]. assert (E := cam_gap 0 0 [2 * 0.1 ^ 2 * 1; 2 * 0.1 ^ 2 * 1]). replace (v_att (axis_state 0 0)) with q1 in E. 2:{ unfold axis_state. cbn [v_att]. replace (0 / 2) with 0 by field. rewrite cos_0, sin_0. reflexivity. } rewrite E, sin_0. lra. }
  split; [split; [reflexivity|split; [reflexivity|left; reflexivity]]|].
  split. { intros t. split; [exact (ax_unit th 0)|]. split; [unfold cont_att, y; cbn [v_att qw qx qy qz]; split; [|split; [|split]]; apply c_const|]. unfold y. cbn [v_rate]. unfold norm3. replace (dot3 (zero3 (T:=R)) zero3) with 0 by (vunfoldg; rnumg; ring). rnumg. rewrite sqrt_0. lra. }
  assert (GP : forall t, gap k true 60 (sandwich (v_att (y t)) ez) = / 2 - sin th) by (intros t; exact (cam_gap th 0 _)).
  split. 2:{ split; [|intros k' fb bd [<-|[]] W; destruct (cam_watch _ _ W) as [-> ->]; change (mkCI cam PI _) with k; rewrite GP; lra]. unfold y, q1. cbn [v_att]. intros E. injection E as _ E. lra. }
  intros t. split. 2:{ unfold alerted. rewrite GP. change (ci_stop k) with PI. rewrite cam_threshold. lra. }
  exists (mkTr 1 0.3), zero3, (mk3 (- X) 0 0), cam_ctl, (mk3 X 0 0), [- X; 0; 0]. split; [|split; [reflexivity|split; [left; reflexivity|split; [exact (axis_accel X)|split; [apply Rle_refl|]]]]].
  { assert (TZ := tracking_zone (set_trig cam_ctl (mkTr 1 0.3)) (y t) zero3 zero3 q1 (fun _ => ez) eq_refl eq_refl WF ltac:(cbn; lia)). cbv beta zeta in TZ. change (v_att (y t)) with (v_att (axis_state th 0)) in TZ. rewrite axis_error in TZ. cbn [qw] in TZ.
    change (wc_trig (set_trig cam_ctl (mkTr 1 0.3))) with (mkTr 1 0.3) in TZ. rewrite (trig_keep (cos (th / 2)) (mkTr 1 0.3)) in TZ by (cbn [tr_hw tr_mem]; lra). rewrite (cam_pushes _ _ _ _ _ _ th 0 eq_refl) in TZ. rewrite TZ. f_equal. f_equal. clear TZ.
    change (v_pos (y t)) with (zero3 (T:=R)). change (wc_instr (set_trig cam_ctl (mkTr 1 0.3))) with [k]. fold A. change (tr_mem (mkTr 1 0.3)) with 1. change (wc_alpha (set_trig cam_ctl (mkTr 1 0.3))) with al. change (wc_gamma (set_trig cam_ctl (mkTr 1 0.3))) with (2 * 0.707 * 0.1).
    change (wc_sat (set_trig cam_ctl (mkTr 1 0.3))) with free_ball. rewrite free_ball_total, !sandwich_0, cross_0_r. change (v_rate (y t)) with (zero3 (T:=R)).
    assert (AX : y3 (barrier_axis A) = 0 /\ z3 (barrier_axis A) = 0).
    { unfold barrier_axis. assert (FA : forall a, In a A -> al_bore a = ey /\ al_obj a = mk3 0 (sin th) (cos th)).
      { intros a I. apply in_flat_map in I. destruct I as (k' & K & I). destruct K as [<-|[]]. destruct (alerts_from_spec _ _ 0 a I) as (i & o & fb & bd & g & E1 & B & C & D & F & -> & G). cbn [Nat.add] in *.
        cbn in F. destruct F as [F|[]]. assert (i = 0)%nat by lia. subst i. cbn [nth_error] in E1. assert (EO : o = sandwich (v_att (axis_state th 0)) ez) by congruence. rewrite cam_sun in EO. subst o. split; reflexivity. }
      revert FA. generalize A. intros A' FA. induction A' as [|a l IH]; [split; reflexivity|]. cbn [map]. rewrite vsum_cons. destruct (FA a (or_introl eq_refl)) as [E1 E2]. rewrite E1, E2. destruct (IH (fun a' I => FA a' (or_intror I))) as [I1 I2].
      unfold add3. cbn [y3 z3]. rewrite I1, I2. unfold ey. vunfoldg; cbn [x3 y3 z3]; rnumg. split; ring. }
    destruct AX as [AX1 AX2]. match goal with |- context [rw_momentum ?r ?l] => generalize (rw_momentum r l) end. intros [m1 m2 m3]. unfold X. clear GP. clearbody y. generalize (barrier A). revert AX1 AX2. generalize (barrier_axis A). intros [a1 a2 a3]. cbn [y3 z3]. intros -> -> b.
    clearbody al. generalize (sin (th / 2)) (cos (th / 2)). intros s1 c1.
    vunfoldg; cbn [x3 y3 z3 row1 row2 row3 vec qx qy qz]; rnumg. apply mk3_c; ring. }
  unfold derivative. cbn [cam_ctl wc_sat]. unfold y. cbn [v_pos v_vel v_att v_rate v_whl]. split; [|split; [|split; [|split]]]; cbn [v_pos v_vel v_att v_rate v_whl].
  - exact (d3_const zero3 t).
  - eapply d3_eq; [exact (d3_const zero3 t)|]. vunfoldg; cbn [x3 y3 z3]; rnumg. apply mk3_c; unfold Rdiv; ring.
  - unfold derivq, product, scaleq. cbn [qw qx qy qz x3 y3 z3]. vunfoldg; cbn [x3 y3 z3 qw qx qy qz]; rnumg. replace 0.5 with (1 / 2) by lra.
    split; [|split; [|split]]; (eapply d_eq; [exact (d_const _ t)|]); field.
  - eapply d3_eq; [exact (d3_const zero3 t)|].
    change (s_inv_tot free_ball) with (inv3 (s_total_moment free_ball)). rewrite free_ball_total. unfold rw_torque, rw_momentum, w_momentum, w_torque.
    cbn [free_ball s_rw rw_wheels zip_with sum3 fold_right w_par w_axis]. clearbody X. vunfoldg; cbn [x3 y3 z3 row1 row2 row3]; rnumg. apply mk3_c; field.
  - intros i. destruct i as [|[|[|i]]]; cbn [nth].
    + eapply d_eq; [apply d_scal, d_id|]. ring.
    + exact (d_const 0 t).
    + exact (d_const 0 t).
    + destruct i; exact (d_const 0 t).
Qed.
