(** * Lemmas about the controllers: Lyapunov functions, the allowable zone *)
From Coq Require Import Reals ZArith List Bool Lra Lia Psatz.
From Verif Require Import Num Vec M_vector M_quaternion M_struct M_dyn S_dyn P_quat P_sat P_struct P_wheel P_dyn P_dyn2 P_obs M_ctrl S_ctrl P_ctrl P_ctrl2.
Import ListNotations.
Local Open Scope R_scope.

Lemma d3_sub f g t a b : deriv3 f t a -> deriv3 g t b -> deriv3 (fun u => sub3 (f u) (g u)) t (sub3 a b).
Proof. intros (A1 & A2 & A3) (B1 & B2 & B3). unfold deriv3. split; [|split]; apply d_minus; assumption. Qed.
Lemma dot_half f t d : deriv3 f t d -> derivable_pt_lim (fun u => dot3 (f u) (f u) / 2) t (dot3 (f t) d).
Proof.
  intros H. eapply d_eq. { unfold Rdiv. apply d_mult; [apply d_dot3; exact H|apply d_const]. }
  cbv beta. generalize (f t). intros v. rewrite (dot_comm3 d v). field.
Qed.
Lemma sandwich_axis (e : quat) (x : v3) : unitq e -> dot3 (vec e) (sandwich e x) = dot3 (vec e) x.
Proof.
  intros U. transitivity (dotq e e * dot3 (vec e) x); [|rewrite U; ring]. clear U. destruct e as [a b c d], x as [x y z].
  unfold sandwich. qring.
Qed.
(** moving reference: qc' = qc (0, wc)/2, wc' = wcd *)
Lemma lyapunov q qc wr wc wcd t s alpha gamma :
  let e := fun u => error_quat (q u) (qc u) in
  let dl := fun u => sub3 (wr u) (sandwich (e u) (wc u)) in
  unitq (q t) -> unitq (qc t) ->
  derivq q t (scaleq 0.5 (product (q t) (pure (wr t)))) -> derivq qc t (scaleq 0.5 (product (qc t) (pure (wc t)))) -> deriv3 wc t wcd ->
  deriv3 wr t (sub3 (sub3 (scale3 (- s * alpha) (vec (e t))) (scale3 gamma (dl t))) (add3 (cross3 (wr t) (sandwich (e t) (wc t))) (sandwich (e t) wcd))) ->
  derivable_pt_lim (fun u => 2 * alpha * (1 - s * qw (e u)) + dot3 (dl u) (dl u) / 2) t (- gamma * dot3 (dl t) (dl t) - 2 * dot3 (dl t) (sandwich (e t) wcd)).
Proof.
  intros e dl U UC Q QC WC WR. assert (E := dq_error q qc t (wr t) (wc t) Q QC U UC). fold e in E.
  assert (UE : unitq (e t)) by (apply error_quat_unit; assumption).
  fold (dl t) in E. change (derivq e t (scaleq 0.5 (product (e t) (pure (dl t))))) in E.
  assert (SW := d3_sandwich e wc t wcd (dl t) E WC). assert (D := d3_sub wr (fun u => sandwich (e u) (wc u)) t _ _ WR SW).
  assert (DH := dot_half dl t _ D). cbv beta in DH.
  eapply d_eq. { apply d_plus; [|exact DH]. apply d_mult; [apply d_const|]. apply d_minus; [apply d_const|]. apply d_mult; [apply d_const|exact (proj1 E)]. }
  cbv beta. clear DH D SW E WR QC Q WC.
  assert (X : cross3 (sandwich (e t) (wc t)) (dl t) = opp3 (cross3 (wr t) (sandwich (e t) (wc t)))).
  { unfold dl. generalize (sandwich (e t) (wc t)) (wr t). vring. }
  rewrite X. replace (qw (scaleq 0.5 (product (e t) (pure (dl t))))) with (- / 2 * dot3 (vec (e t)) (dl t)).
  2:{ generalize (e t) (dl t). clear. intros [a b c d] [x y z]. unfold product, pure. replace 0.5 with (1/2) by lra. vunfold; rnum. field. }
  generalize (cross3 (wr t) (sandwich (e t) (wc t))) (sandwich (e t) wcd) (vec (e t)) (dl t) (qw (e t)). clear. intros [a b c] [d e f] [g h i] [j k l] m.
  vunfoldg; cbn [x3 y3 z3]; rnumg. field.
Qed.

(** ** the allowable zone *)
Definition wf_instr (n : nat) (k : CInstr) : Prop :=
  (n <= length (i_forbidden (ci k)))%nat /\ (n <= length (i_bounds (ci k)))%nat /\ (n <= length (ci_gains k))%nat.
Fixpoint alerts_from (k : CInstr) (j : nat) (objs : list v3) : list Alert :=
  match objs with
  | [] => []
  | o :: r =>
    match nth_error (i_forbidden (ci k)) j, nth_error (i_bounds (ci k)) j, nth_error (ci_gains k) j with
    | Some fb, Some bd, Some g =>
      let sgn := if fb : bool then -1 else 1 in
      let a := mkAl g sgn (i_boresight (ci k)) (cos (bd * (PI / 180)))
                    (/ 2 * Rabs (cos (bd * (PI / 180) - sgn * ci_stop k) - cos (bd * (PI / 180)))) o in
      if in_dec Z.eq_dec (Z.of_nat j) (i_ids (ci k)) then
        (if Rlt_dec (margin (al_sign a) (al_bore a) (al_cos a) o) (al_sigma a) then [a] else [])
      else []
    | _, _, _ => []
    end ++ alerts_from k (S j) r
  end.
Definition alerts (ks : list CInstr) (objs : list v3) : list Alert := flat_map (fun k => alerts_from k 0 objs) ks.
(** the extra push of one alert closer than a quarter of the threshold *)
Definition push (s : R) (dq : quat) (dw : v3) (a : Alert) : v3 :=
  if Rlt_dec (al_psi a) (al_sigma a / 4) then
    let z := normalize3 (scale3 s (cross3 (vec dq) (cross3 (al_bore a) (al_obj a)))) in
    let d := dot3 dw z in
    scale3 (- (/ 2 * al_gain a * (if Rlt_dec d 0 then -1 else if Rlt_dec 0 d then 1 else al_sign a))) z
  else mk3 0 0 0.
Lemma nth_some {A} (l : list A) j : (j < length l)%nat -> exists a, nth_error l j = Some a.
Proof. intros H. destruct (nth_error l j) eqn:E; [eauto|]. apply nth_error_None in E. lia. Qed.
Lemma nth_zip {A B C} (f : A -> B -> C) l r j a b : nth_error l j = Some a -> nth_error r j = Some b -> nth_error (zip_with f l r) j = Some (f a b).
Proof. revert r j. induction l as [|x l IH]; intros [|y r] [|j] H K; try discriminate; cbn in *; [congruence|apply IH; assumption]. Qed.
Lemma existsb_in j ids : existsb (Z.eqb j) ids = if in_dec Z.eq_dec j ids then true else false.
Proof.
  destruct (in_dec Z.eq_dec j ids) as [I|I].
  - apply existsb_exists. exists j. split; [exact I|apply Z.eqb_refl].
  - apply not_true_is_false. intros E. apply existsb_exists in E. destruct E as (x & X & Y). apply Z.eqb_eq in Y. subst. contradiction.
Qed.
Lemma nsign_cases (d sgn : R) : (if negb (Reqb (nsign d) 0) then nsign d else sgn) = if Rlt_dec d 0 then -1 else if Rlt_dec 0 d then 1 else sgn.
Proof.
  destruct (Rlt_dec d 0); [rewrite nsign_neg by lra; destruct (Reqb_spec (-1) 0); simpl; lra|].
  destruct (Rlt_dec 0 d); [rewrite nsign_pos by lra; destruct (Reqb_spec 1 0); simpl; lra|].
  replace d with 0 by lra. rewrite nsign_0. destruct (Reqb_spec 0 0); simpl; lra.
Qed.
Definition acc_add (acc : zone_acc) (s : R) (dq : quat) (dw : v3) (l : list Alert) : zone_acc :=
  let '(c, ax, nu) := acc in (c - barrier l, add3 ax (barrier_axis l), add3 nu (vsum (map (push s dq dw) l))).
Lemma add3_assoc (a b c : v3) : add3 a (add3 b c) = add3 (add3 a b) c. Proof. vring. Qed.
Lemma vsum_cons a l : vsum (a :: l) = add3 a (vsum l). Proof. reflexivity. Qed.
Lemma zone_step_eq s dq dw k j o r acc : (j < length (i_forbidden (ci k)))%nat -> (j < length (i_bounds (ci k)))%nat -> (j < length (ci_gains k))%nat ->
  exists l, alerts_from k j (o :: r) = l ++ alerts_from k (S j) r /\ zone_step s dq dw k j o acc = Ok (acc_add acc s dq dw l).
Proof.
  intros H1 H2 H3. destruct (nth_some _ _ H1) as [fb E1]. destruct (nth_some _ _ H2) as [bd E2]. destruct (nth_some _ _ H3) as [g E3].
  cbn [alerts_from]. rewrite E1, E2, E3. eexists. split; [reflexivity|].
  destruct acc as [[c ax] nu]. unfold zone_step, nthr. rewrite E1. cbn [rbind].
  assert (EC : nth_error (i_cos_psi (ci k)) j = Some (cos (i_rad bd))) by (unfold i_cos_psi; rewrite nth_error_map, E2; reflexivity).
  rewrite EC. cbn [rbind]. unfold cares_about, nthr. rewrite existsb_in.
  assert (ES : nth_error (i_sigma (ci k) (ci_stop k)) j = Some (i_sigma1 (ci_stop k) bd fb)) by (unfold i_sigma; apply nth_zip; assumption).
  assert (EI : nth_error (i_iota (ci k) (ci_stop k)) j = Some (0.25 * i_sigma1 (ci_stop k) bd fb)) by (unfold i_iota; rewrite nth_error_map, ES; reflexivity).
  set (sgn := i_sign fb). set (p := 0.5 * sgn * (dot3 (i_boresight (ci k)) o - cos (i_rad bd))).
  assert (EP : margin sgn (i_boresight (ci k)) (cos (bd * (PI / 180))) o = p) by (unfold margin, p, i_rad; lra).
  assert (Z : (c, ax, nu) = acc_add (c, ax, nu) s dq dw []).
  { unfold acc_add, barrier, barrier_axis. cbn. change (mk3 0 0 0) with (zero3 (T:=R)). rewrite !add3_0_r. f_equal. f_equal. ring. }
  cbv zeta. cbn [al_sign al_bore al_cos al_sigma]. change (if fb then -1 else 1) with sgn.
  destruct (in_dec Z.eq_dec (Z.of_nat j) (i_ids (ci k))) as [I|I]; [|cbn [rbind]; f_equal; exact Z].
  rewrite ES. cbn [rbind].
  assert (EG : / 2 * Rabs (cos (bd * (PI / 180) - sgn * ci_stop k) - cos (bd * (PI / 180))) = i_sigma1 (ci_stop k) bd fb) by (unfold i_sigma1, i_rad, sgn; lra).
  rewrite EP, EG. destruct (Rlt_dec p (i_sigma1 (ci_stop k) bd fb)) as [L|L]; destruct (Rltb_spec p (i_sigma1 (ci_stop k) bd fb)) as [L'|L']; try lra.
  2:{ f_equal; exact Z. }
  rewrite E3. cbn [rbind]. rewrite EI. cbn [rbind].
  set (a := mkAl g sgn (i_boresight (ci k)) (cos (bd * (PI / 180))) (i_sigma1 (ci_stop k) bd fb) o).
  assert (PP : (if Rleb p 0 then 1 / 10000 else p) = al_psi a).
  { unfold al_psi, a. cbn [al_sign al_bore al_cos al_obj]. rewrite EP. destruct (Rleb_spec p 0), (Rle_dec p 0); lra. }
  rewrite PP. change g with (al_gain a). change sgn with (al_sign a). change (i_boresight (ci k)) with (al_bore a). change o with (al_obj a).
  assert (B1 : barrier [a] = al_gain a * ln (al_psi a)) by (unfold barrier; cbn; ring).
  assert (B2 : barrier_axis [a] = scale3 (al_gain a * al_sign a / al_psi a) (cross3 (al_bore a) (al_obj a))).
  { unfold barrier_axis. cbn [map]. rewrite vsum_cons. apply add3_0_r. }
  assert (B3 : vsum (map (push s dq dw) [a]) = push s dq dw a) by (cbn [map]; rewrite vsum_cons; apply add3_0_r).
  change (0.25 * i_sigma1 (ci_stop k) bd fb) with (0.25 * al_sigma a).
  unfold acc_add. rewrite B1, B2, B3. unfold push. rewrite nsign_cases.
  destruct (Rltb_spec (al_psi a) (0.25 * al_sigma a)) as [K|K]; destruct (Rlt_dec (al_psi a) (al_sigma a / 4)) as [K'|K']; try lra.
  - f_equal. f_equal. replace 0.5 with (/ 2) by lra. match goal with |- sub3 _ (scale3 ?q _) = _ => generalize q end. intros q.
    generalize (normalize3 (scale3 s (cross3 (vec dq) (cross3 (al_bore a) (al_obj a))))). clear. intros. vring.
  - f_equal. f_equal. symmetry. apply add3_0_r.
Qed.
Lemma barrier_app l r : barrier (l ++ r) = barrier l + barrier r.
Proof. unfold barrier, rsum. rewrite map_app. induction (map _ l); cbn; [ring|]. rewrite IHl0. ring. Qed.
Lemma vsum_app l r : vsum (l ++ r) = add3 (vsum l) (vsum r).
Proof. induction l as [|a l IH]; cbn [app]; [symmetry; apply (add3_0_l (vsum r))|]. rewrite !vsum_cons, IH. apply add3_assoc. Qed.
Lemma acc_app acc s dq dw l r : acc_add (acc_add acc s dq dw l) s dq dw r = acc_add acc s dq dw (l ++ r).
Proof.
  destruct acc as [[c ax] nu]. unfold acc_add, barrier_axis. rewrite barrier_app, !map_app, !vsum_app, !add3_assoc. f_equal. f_equal. ring.
Qed.
Lemma acc_nil acc s dq dw : acc_add acc s dq dw [] = acc.
Proof. destruct acc as [[c ax] nu]. unfold acc_add, barrier, barrier_axis. cbn. change (mk3 0 0 0) with (zero3 (T:=R)). rewrite !add3_0_r. f_equal. f_equal. ring. Qed.
Lemma zone_objs_eq s dq dw k objs : forall j acc, wf_instr (j + length objs) k -> zone_objs s dq dw k j objs acc = Ok (acc_add acc s dq dw (alerts_from k j objs)).
Proof.
  induction objs as [|o objs IH]; intros j acc W; [cbn [zone_objs alerts_from]; rewrite acc_nil; reflexivity|].
  destruct W as (W1 & W2 & W3). cbn [length] in *.
  destruct (zone_step_eq s dq dw k j o objs acc ltac:(lia) ltac:(lia) ltac:(lia)) as (l & E1 & E2).
  cbn [zone_objs]. rewrite E2. cbn [rbind]. rewrite IH by (repeat split; lia). rewrite acc_app, E1. reflexivity.
Qed.
Lemma zone_loop_eq s dq dw ks objs : forall acc, Forall (wf_instr (length objs)) ks -> zone_loop s dq dw ks objs acc = Ok (acc_add acc s dq dw (alerts ks objs)).
Proof.
  induction ks as [|k ks IH]; intros acc W; [cbn [zone_loop alerts flat_map]; rewrite acc_nil; reflexivity|].
  inversion W as [|? ? W1 W2]; subst. cbn [zone_loop]. rewrite (zone_objs_eq s dq dw k objs 0 acc W1). cbn [rbind]. rewrite IH by exact W2. rewrite acc_app. reflexivity.
Qed.
Lemma zone_eq w dq dw objs : Forall (wf_instr (length objs)) (wc_instr w) ->
  let tr := trig_step (qw dq) (wc_trig w) in let s := tr_mem tr in let A := alerts (wc_instr w) objs in
  allowable_zone w dq dw objs = Ok (tr, add3 (add3 (scale3 (- s * (wc_alpha w - barrier A)) (vec dq)) (scale3 (/ 2 * (1 - s * qw dq)) (barrier_axis A)))
                                             (vsum (map (push s dq dw) A))).
Proof.
  intros W tr s A. unfold allowable_zone, trig_sign. fold tr. fold s. rewrite zone_loop_eq by exact W. cbn [rbind]. fold A. unfold acc_add, zone_result.
  replace 0.5 with (/ 2) by lra. rewrite !add3_0_l.
  reflexivity.
Qed.
(** alerts only occur where margin < sigma *)
Lemma vsum_zero (l : list Alert) f : (forall a, In a l -> f a = mk3 0 0 0) -> vsum (map f l) = mk3 0 0 0.
Proof. intros H. induction l as [|a l IH]; [reflexivity|]. cbn [map]. rewrite vsum_cons, IH, (H a (or_introl eq_refl)) by (intros b Hb; apply H; right; exact Hb). vring. Qed.
(** ** tracking with the zone *)
Lemma tracking_zone w v rc rcd qc f : wc_sun w = Some f -> wc_avoid w = true -> Forall (wf_instr 2) (wc_instr w) -> (length (rw_wheels (s_rw (wc_sat w))) <= length (v_whl v))%nat ->
  let J := s_total_moment (wc_sat w) in let e := error_quat (v_att v) qc in
  let s := tr_mem (trig_step (qw e) (wc_trig w)) in let wcB := sandwich e rc in
  let A := alerts (wc_instr w) [sandwich (v_att v) (f (v_pos v)); opp3 (normalize3 (v_pos v))] in
  let z := add3 (add3 (scale3 (- s * (wc_alpha w - barrier A)) (vec e)) (scale3 (/ 2 * (1 - s * qw e)) (barrier_axis A))) (vsum (map (push s e (sub3 (v_rate v) wcB)) A)) in
  tracking w v rc rcd qc = Ok (set_trig w (trig_step (qw e) (wc_trig w)),
    add3 (cross3 (v_rate v) (add3 (mv J (v_rate v)) (rw_momentum (s_rw (wc_sat w)) (v_whl v))))
         (mv J (sub3 (sub3 z (scale3 (wc_gamma w) (sub3 (v_rate v) wcB))) (add3 (cross3 (v_rate v) wcB) (sandwich e rcd))))).
Proof.
  intros HS HA HW HL J e s wcB A z. unfold tracking, objects. rewrite HS. cbn [rbind].
  unfold rw_momentum_r. replace (Nat.ltb (length (v_whl v)) (length (rw_wheels (s_rw (wc_sat w))))) with false by (symmetry; apply PeanoNat.Nat.ltb_ge; exact HL).
  cbn [rbind]. fold e. fold J. fold wcB. rewrite HA.
  rewrite (zone_eq w e (sub3 (v_rate v) wcB) [sandwich (v_att v) (f (v_pos v)); opp3 (normalize3 (v_pos v))] HW). cbn [rbind].
  fold s. fold A. fold z. f_equal. f_equal. rewrite !mv_sub3, !mv_scale3, !mv_sub3.
  generalize (cross3 (v_rate v) (add3 (mv J (v_rate v)) (rw_momentum (s_rw (wc_sat w)) (v_whl v)))) (mv J z) (mv J (v_rate v)) (mv J wcB) (mv J (add3 (cross3 (v_rate v) wcB) (sandwich e rcd))) (wc_gamma w).
  intros. vring.
Qed.
(** the gyroscopic cancellation, whatever the rest of the law *)
Lemma cancels sat v (z : v3) : spanning (s_rw sat) -> det3 (s_total_moment sat) <> 0 ->
  let u := add3 (cross3 (v_rate v) (add3 (mv (s_total_moment sat) (v_rate v)) (rw_momentum (s_rw sat) (v_whl v)))) (mv (s_total_moment sat) z) in
  unsaturated (s_rw sat) (opp3 u) ->
  exists a, rw_accelerations (s_rw sat) (opp3 u) = Ok a /\ rw_torque (s_rw sat) a = opp3 u /\
  forall F T, v_rate (derivative sat v F T (rw_torque (s_rw sat) a) (rw_momentum (s_rw sat) (v_whl v)) a) = add3 (mv (s_inv_tot sat) T) z.
Proof.
  intros SP DJ u U. destruct (unsat_torque _ _ SP U) as (a & EA & _ & TA). exists a. split; [exact EA|]. split; [exact TA|]. intros F T. rewrite TA. cbn [derivative v_rate].
  unfold u. set (J := s_total_moment sat) in *. set (h := rw_momentum (s_rw sat) (v_whl v)).
  rewrite <- (inv3_mv J z DJ) at 2. change (s_inv_tot sat) with (inv3 J). rewrite <- mv_add3. f_equal.
  generalize (mv J z) (mv J (v_rate v)) (v_rate v) h. vring.
Qed.
(** ** the barrier along a motion *)
Definition moved (q : quat) (sunv : v3) (a : Alert) : Alert := mkAl (al_gain a) (al_sign a) (al_bore a) (al_cos a) (al_sigma a) (sandwich q sunv).
Lemma d_ln f t a : 0 < f t -> derivable_pt_lim f t a -> derivable_pt_lim (fun u => ln (f u)) t (a / f t).
Proof.
  intros P H. eapply d_eq. { apply (derivable_pt_lim_comp f ln t a (/ f t) H). apply derivable_pt_lim_ln, P. } unfold Rdiv. ring.
Qed.
(** near t the margin stays positive, so the substituted value is never used *)
Lemma pos_near f t a : 0 < f t -> derivable_pt_lim f t a -> exists d : posreal, forall h, Rabs h < d -> 0 < f (t + h).
Proof.
  intros P H. assert (C : continuity_pt f t) by (apply derivable_continuous_pt; exists a; exact H).
  destruct (C (f t) P) as (d & D1 & D2). exists (mkposreal d D1). intros h Hh. cbn in Hh.
  destruct (Req_dec h 0) as [->|N]; [rewrite Rplus_0_r; exact P|].
  assert (K : Rabs (f (t + h) - f t) < f t). { apply D2. split; [split; [exact I|intros E; apply N; lra]|]. cbn. unfold R_dist. replace (t + h - t) with h by ring. exact Hh. }
  apply Rabs_def2 in K. lra.
Qed.
Lemma d_local f g t a : (exists d : posreal, forall h, Rabs h < d -> f (t + h) = g (t + h)) -> derivable_pt_lim f t a -> derivable_pt_lim g t a.
Proof.
  intros (d & E) H eps Heps. destruct (H eps Heps) as (d' & D). assert (M : 0 < Rmin d d') by (apply Rmin_pos; apply cond_pos).
  exists (mkposreal _ M). intros h Hn Hh. cbn in Hh. rewrite <- E by (apply Rlt_le_trans with (1 := Hh); apply Rmin_l).
  rewrite <- (Rplus_0_r t) at 2. rewrite <- E by (rewrite Rabs_R0; apply cond_pos). rewrite Rplus_0_r. apply D; [exact Hn|]. apply Rlt_le_trans with (1 := Hh). apply Rmin_r.
Qed.
Lemma d_psi q sunv a t w : derivq q t (scaleq 0.5 (product (q t) (pure w))) ->
  0 < margin (al_sign a) (al_bore a) (al_cos a) (sandwich (q t) sunv) ->
  derivable_pt_lim (fun u => al_gain a * ln (al_psi (moved (q u) sunv a))) t
    (al_gain a * (/ 2 * al_sign a * dot3 w (cross3 (al_bore a) (sandwich (q t) sunv)) / al_psi (moved (q t) sunv a))).
Proof.
  intros Q P. assert (S := d3_sandwich q (fun _ => sunv) t zero3 w Q (d3_const sunv t)). cbv beta in S.
  set (mg := fun u => margin (al_sign a) (al_bore a) (al_cos a) (sandwich (q u) sunv)).
  assert (M : derivable_pt_lim mg t (/ 2 * al_sign a * dot3 w (cross3 (al_bore a) (sandwich (q t) sunv)))).
  { unfold mg, margin. eapply d_eq. { apply d_mult; [apply d_const|]. apply d_mult; [apply d_const|]. apply d_minus; [|apply d_const]. apply d_dot3; [apply d3_const|exact S]. }
    cbv beta. replace (sandwich (q t) zero3) with (zero3 (T:=R)). 2:{ generalize (q t). clear. intros [a b c d]. unfold sandwich. qring. }
    generalize (sandwich (q t) sunv) (al_bore a) (al_sign a). clear. intros [x y z] [b c d] s. destruct w as [p r i]. vunfoldg; cbn [x3 y3 z3]; rnumg. field. }
  assert (PS : forall u, 0 < mg u -> al_psi (moved (q u) sunv a) = mg u).
  { intros u Hu. unfold al_psi, moved, mg in *. cbn [al_sign al_bore al_cos al_obj]. destruct (Rle_dec _ 0); [lra|reflexivity]. }
  assert (P' : 0 < mg t) by exact P. rewrite (PS t P').
  apply (d_local (fun u => al_gain a * ln (mg u))).
  { destruct (pos_near mg t _ P' M) as (d & D). exists d. intros h Hh. rewrite PS by (apply D, Hh). reflexivity. }
  eapply d_eq. { apply d_mult; [apply d_const|]. apply d_ln; [exact P'|exact M]. } cbv beta. ring.
Qed.
Lemma d_barrier q sunv t w (A : list Alert) : derivq q t (scaleq 0.5 (product (q t) (pure w))) ->
  Forall (fun a => 0 < margin (al_sign a) (al_bore a) (al_cos a) (sandwich (q t) sunv)) A ->
  derivable_pt_lim (fun u => barrier (map (moved (q u) sunv) A)) t (/ 2 * dot3 w (barrier_axis (map (moved (q t) sunv) A))).
Proof.
  intros Q F. induction A as [|a A IH]; [apply (d_eq (fun _ => 0) t 0); [apply d_const|destruct w as [i j k]; vunfoldg; cbn; rnumg; ring]|].
  inversion F as [|? ? F1 F2]; subst. eapply d_eq. { apply (d_plus (fun u => al_gain a * ln (al_psi (moved (q u) sunv a))) (fun u => barrier (map (moved (q u) sunv) A))); [apply d_psi; eassumption|apply IH, F2]. }
  unfold barrier_axis at 2. cbn [map]. rewrite vsum_cons. fold (barrier_axis (map (moved (q t) sunv) A)). cbn [moved al_gain al_sign al_bore al_obj].
  assert (al_psi (moved (q t) sunv a) <> 0).
  { unfold al_psi, moved. cbn [al_sign al_bore al_cos al_obj]. destruct (Rle_dec _ 0); lra. }
  generalize (barrier_axis (map (moved (q t) sunv) A)) (cross3 (al_bore a) (sandwich (q t) sunv)) (al_gain a) (al_sign a). intros [x y z] [b c d] g s.
  revert H. generalize (al_psi (moved (q t) sunv a)). intros p H. destruct w as [i j k]. vunfoldg; cbn [x3 y3 z3]; rnumg. field. exact H.
Qed.
