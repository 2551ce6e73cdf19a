(** * C105: does detumbling bring the satellite to rest? *)
From Coq Require Import Reals ZArith List Bool Arith Lra Psatz Lia.
From Coquelicot Require Import Coquelicot.
From Verif Require Import Num Vec M_vector M_quaternion M_struct M_env M_dyn M_ctrl S_rot S_dyn P_quat P_wheel P_dyn P_dyn2 P_ctrl2 P_detum P_detum2.
Import ListNotations.
Local Open Scope R_scope.

(** the field [B] (inertial axes) as the body sees it *)
Definition seen (B : R -> v3) (y : R -> SVec) (t : R) : v3 := sandwich (v_att (y t)) (B t).
(** wheels at rest, no torque but the magnetic one: from time 0 on, the motion follows the moment that detumble commands (before distribute) *)
Definition detumbled (sat : Satellite) (B : R -> v3) (F : R -> v3) (accl : R -> list R) (y : R -> SVec) : Prop :=
  unitq (v_att (y 0)) /\
  forall t, 0 <= t -> deriv_sv y t (derivative sat (y t) (F t) (cross3 (mag_moment_cmd (seen B y t) (detumble_torque sat (v_rate (y t)))) (seen B y t)) zero3 zero3 (accl t)).
Definition spin_of (sat : Satellite) (y : R -> SVec) (t : R) : v3 := mv (s_total_moment sat) (v_rate (y t)).
(** a field that is never zero, continuous, with no other restriction *)
Definition field (B : R -> v3) : Prop := (forall t, B t <> zero3) /\
  forall t, continuous (fun s => x3 (B s)) t /\ continuous (fun s => y3 (B s)) t /\ continuous (fun s => z3 (B s)) t.

Lemma keeps_unit sat B F accl y : detumbled sat B F accl y -> forall t, 0 <= t -> unitq (v_att (y t)).
Proof.
  intros (U & D) t Ht.
  assert (G : forall u, 0 <= u -> derivable_pt_lim (fun s => dotq (v_att (y s)) (v_att (y s))) u 0).
  { intros u Hu. destruct (D u Hu) as (_ & _ & DQ & _). unfold derivative in DQ. cbn [v_att] in DQ.
    eapply d_eq; [apply d_dotq; exact DQ|cbv beta]. generalize (v_att (y u)) (v_rate (y u)). replace 0.5 with (1 / 2) by lra. clear. intros [a b c d] [p q r]. unfold product. vunfold; rnum. field. }
  assert (A := le_of_deriv _ (fun _ => 0) 0 t Ht (fun u Hu => G u ltac:(lra)) ltac:(intros; lra)).
  assert (C := le_of_deriv _ (fun _ => -1 * 0) 0 t Ht (fun u Hu => d_lin _ _ _ (-1) (G u ltac:(lra))) ltac:(intros; lra)). cbv beta in *. unfold unitq in *. lra.
Qed.
Lemma sopp_scale (q : quat) a (v : v3) : unitq q -> sandwich_opp q (scale3 a v) = scale3 a (sandwich_opp q v).
Proof. intros U. destruct (sandwich_opp_rigid q U) as (_ & _ & _ & R4). apply R4. Qed.
Lemma inertial_law sat B F accl y : det3 (s_total_moment sat) <> 0 -> (forall t, B t <> zero3) -> detumbled sat B F accl y ->
  forall t, 0 <= t -> deriv3 (fun u => sandwich_opp (v_att (y u)) (spin_of sat y u)) t (scale3 (- K_BBQ) (rej (B t) (sandwich_opp (v_att (y t)) (spin_of sat y t)))).
Proof.
  intros DJ NB M t Ht. assert (U := keeps_unit _ _ _ _ _ M t Ht). destruct M as (_ & D). destruct (D t Ht) as (_ & _ & DQ & DW & _). unfold derivative in DQ, DW. cbn [v_att v_rate] in DQ, DW.
  assert (NS : seen B y t <> zero3).
  { intros E. apply (NB t). rewrite <- (sandwich_opp_sandwich (v_att (y t)) (B t) U). change (sandwich (v_att (y t)) (B t)) with (seen B y t). rewrite E. apply opp_zero. }
  assert (DHh := d3_mv (s_total_moment sat) _ t _ DW). unfold s_inv_tot in DHh. rewrite mv_inv3 in DHh by exact DJ. cbv beta in DHh.
  eapply d3_eq; [apply (d3_sandwich_opp _ (spin_of sat y) t _ (v_rate (y t)) DQ DHh)|].
  rewrite mag_torque by exact NS. unfold detumble_torque. change (mv (s_total_moment sat) (v_rate (y t))) with (spin_of sat y t).
  rewrite <- rej_turn, <- sopp_scale by exact U. change (sandwich (v_att (y t)) (B t)) with (seen B y t). f_equal. assert (P := dpos _ NS). unfold rej.
  generalize (spin_of sat y t) (v_rate (y t)) K_BBQ (seen B y t) P. clear. intros [h1 h2 h3] [w1 w2 w3] k [b1 b2 b3]. vunfoldg. cbn [x3 y3 z3]. rnumg. intros P. apply mk3_c; field; lra.
Qed.
Lemma turned_norm (q : quat) (v : v3) : unitq q -> dot3 (sandwich_opp q v) (sandwich_opp q v) = dot3 v v.
Proof. intros U. destruct (sandwich_opp_rigid q U) as (R1 & _). apply R1. Qed.
Lemma mv_bounded (m : m3) : exists L, 0 < L /\ forall v, dot3 (mv m v) (mv m v) <= L * dot3 v v.
Proof.
  exists (dot3 (row1 m) (row1 m) + dot3 (row2 m) (row2 m) + dot3 (row3 m) (row3 m) + 1).
  assert (CS : forall a b : v3, dot3 a b * dot3 a b <= dot3 a a * dot3 b b).
  { intros a b. assert (P := dot3_nonneg (cross3 a b)). assert (E : dot3 (cross3 a b) (cross3 a b) = dot3 a a * dot3 b b - dot3 a b * dot3 a b) by (destruct a as [a1 a2 a3], b as [b1 b2 b3]; vunfoldg; cbn [x3 y3 z3]; rnumg; ring). lra. }
  assert (A := dot3_nonneg (row1 m)). assert (B := dot3_nonneg (row2 m)). assert (C := dot3_nonneg (row3 m)). split; [lra|]. intros v.
  assert (E : dot3 (mv m v) (mv m v) = dot3 (row1 m) v * dot3 (row1 m) v + dot3 (row2 m) v * dot3 (row2 m) v + dot3 (row3 m) v * dot3 (row3 m) v) by reflexivity.
  assert (X := CS (row1 m) v). assert (Y := CS (row2 m) v). assert (Z := CS (row3 m) v). assert (V := dot3_nonneg v). rewrite E. nra.
Qed.
Lemma rate_lim sat y (T : R) : det3 (s_total_moment sat) <> 0 -> is_lim (fun t => dot3 (spin_of sat y t) (spin_of sat y t)) p_infty 0 -> is_lim (fun t => norm3 (v_rate (y t))) p_infty 0.
Proof.
  intros DJ L. destruct (mv_bounded (inv3 (s_total_moment sat))) as (K & Kp & HK). apply is_lim_spec. apply is_lim_spec in L. intros [e ep]. cbn [pos].
  destruct (L (mkposreal (e * e / K) ltac:(apply Rdiv_lt_0_compat; nra))) as (M & HM). cbn [pos] in HM. exists M. intros t Ht. specialize (HM t Ht).
  rewrite Rminus_0_r in *. rewrite Rabs_pos_eq in HM by apply dot3_nonneg. assert (X := HK (spin_of sat y t)). unfold spin_of at 1 2 in X. rewrite inv3_mv in X by exact DJ.
  assert (Y : dot3 (v_rate (y t)) (v_rate (y t)) < e * e). { eapply Rle_lt_trans; [exact X|]. replace (e * e) with (K * (e * e / K)) by (field; lra). apply Rmult_lt_compat_l; assumption. }
  unfold norm3. rnumg. rewrite Rabs_pos_eq by apply sqrt_pos. rewrite <- (sqrt_square e) by lra. apply sqrt_lt_1_alt. split; [apply dot3_nonneg|exact Y].
Qed.

(** ** C105 *)
(** if on every window of length T the field strays from each fixed direction (mean squared sine at least c/T), the squared momentum
    falls geometrically, window by window, at a rate given by the gain alone, and the satellite comes to rest *)
Theorem C105_turning : forall sat B F accl y T c, det3 (s_total_moment sat) <> 0 -> field B -> 0 < T -> 0 < c ->
  (forall t v, 0 <= t -> unit3 v -> c <= RInt (fun s => dot3 (cross3 v (B s)) (cross3 v (B s)) / dot3 (B s) (B s)) t (t + T)) ->
  detumbled sat B F accl y ->
  let h := spin_of sat y in let rho := 1 - c * K_BBQ / (1 + K_BBQ ^ 2 * T ^ 2) in
  0 < rho < 1 /\
  (forall t, 0 <= t -> dot3 (h (t + T)) (h (t + T)) <= rho * dot3 (h t) (h t)) /\
  (forall n, dot3 (h (INR n * T)) (h (INR n * T)) <= rho ^ n * dot3 (h 0) (h 0)) /\
  is_lim (fun t => norm3 (v_rate (y t))) p_infty 0.
Proof.
  intros sat B F accl y T c DJ (NB & CB) Tp cp TU M h rho. assert (KU := keeps_unit _ _ _ _ _ M). assert (IL := inertial_law _ _ _ _ _ DJ NB M).
  set (H := fun u => sandwich_opp (v_att (y u)) (spin_of sat y u)) in *. assert (kp := K_pos).
  assert (E : forall t, 0 <= t -> dot3 (H t) (H t) = dot3 (h t) (h t)) by (intros t Ht; exact (turned_norm (v_att (y t)) (spin_of sat y t) (KU t Ht))).
  assert (ER : rho = 1 - c * K_BBQ / (1 + K_BBQ * K_BBQ * (T * T))) by (unfold rho; do 2 f_equal; ring).
  split; [rewrite ER; apply (rho_range B K_BBQ T c kp Tp cp NB CB TU)|]. split; [|split].
  - intros t Ht. assert (X := window H B K_BBQ kp NB CB IL t T c Ht Tp (turning_any B T c t (H t) CB NB TU Ht)). cbv beta in X. rewrite !E in X by lra. rewrite ER. exact X.
  - intros n. assert (X := steps H B K_BBQ T c kp Tp cp NB CB TU IL n). assert (P := pos_INR n). rewrite !E in X by nra. rewrite ER. exact X.
  - apply (rate_lim sat y T DJ). apply is_lim_ext_loc with (fun t => dot3 (H t) (H t)); [|apply (V_lim H B K_BBQ T c kp Tp cp NB CB TU IL)].
    exists 0. intros t Ht. apply E. lra.
Qed.
Print Assumptions C105_turning.
(** so in every periodic field (an orbit repeating its field) that does not keep one line for ever, every tumbling satellite comes to rest *)
Theorem C105_periodic : forall sat B F accl y P t1 t2, det3 (s_total_moment sat) <> 0 -> field B -> 0 < P -> (forall t, B (t + P) = B t) ->
  cross3 (B t1) (B t2) <> zero3 -> detumbled sat B F accl y -> is_lim (fun t => norm3 (v_rate (y t))) p_infty 0.
Proof.
  intros sat B F accl y P t1 t2 DJ FB Pp PB X M. destruct FB as (NB & CB). destruct (periodic_turning B P t1 t2 CB NB Pp PB X) as (T & c & Tp & cp & TU).
  destruct (C105_turning sat B F accl y T c DJ (conj NB CB) Tp cp TU M) as (_ & _ & _ & L). exact L.
Qed.
Print Assumptions C105_periodic.
(** but not in a field that keeps to one line of inertial space: the momentum along that line never changes, so the "globally
    asymptotically stable" law leaves every satellite that has some turning for ever *)
Theorem C105_fixed_refuted : forall sat B F accl y n, det3 (s_total_moment sat) <> 0 -> field B -> n <> zero3 -> (forall t, cross3 (B t) n = zero3) -> detumbled sat B F accl y ->
  let h := spin_of sat y in let p := dot3 (sandwich_opp (v_att (y 0)) (h 0)) n in
  (forall t, 0 <= t -> dot3 (sandwich_opp (v_att (y t)) (h t)) n = p /\ p ^ 2 / dot3 n n <= dot3 (h t) (h t)) /\
  (p <> 0 -> ~ is_lim (fun t => norm3 (v_rate (y t))) p_infty 0).
Proof.
  intros sat B F accl y n DJ (NB & CB) Nn PN M h p. assert (KU := keeps_unit _ _ _ _ _ M). assert (IL := inertial_law _ _ _ _ _ DJ NB M).
  assert (K := kept _ B K_BBQ NB IL n PN). cbv beta in K. assert (nn := dpos n Nn).
  assert (A : forall t, 0 <= t -> dot3 (sandwich_opp (v_att (y t)) (h t)) n = p /\ p ^ 2 / dot3 n n <= dot3 (h t) (h t)).
  { intros t Ht. assert (E := K t Ht). split; [exact E|]. rewrite <- (turned_norm (v_att (y t)) (h t)) by (apply KU, Ht). change (dot3 (sandwich_opp (v_att (y t)) (h t)) n = p) in E. rewrite <- E.
    set (g := sandwich_opp (v_att (y t)) (h t)). assert (Q := across_pos g n Nn). rewrite across_raw in Q by lra. replace (dot3 g n ^ 2) with (dot3 g n * dot3 g n) by ring. lra. }
  split; [exact A|]. intros Np L. destruct (mv_bounded (s_total_moment sat)) as (k & kp & HK).
  assert (pp : 0 < p ^ 2 / dot3 n n) by (apply Rdiv_lt_0_compat; [|exact nn]; assert (Z := Rsqr_pos_lt p Np); unfold Rsqr in Z; nra).
  apply is_lim_spec in L. assert (ep : 0 < sqrt (p ^ 2 / dot3 n n / k)) by (apply sqrt_lt_R0, Rdiv_lt_0_compat; assumption).
  destruct (L (mkposreal _ ep)) as (m & Hm). cbn [pos] in Hm. set (t := Rmax (m + 1) 1). assert (T1 : m < t) by (unfold t; assert (Q := Rmax_l (m + 1) 1); lra). assert (T2 : 0 <= t) by (unfold t; assert (Q := Rmax_r (m + 1) 1); lra).
  specialize (Hm t T1). rewrite Rminus_0_r in Hm. unfold norm3 in Hm. rnumg. rewrite Rabs_pos_eq in Hm by apply sqrt_pos. apply sqrt_lt_0_alt in Hm.
  destruct (A t T2) as (_ & Z). assert (W := HK (v_rate (y t))). change (mv (s_total_moment sat) (v_rate (y t))) with (h t) in W.
  assert (V : k * dot3 (v_rate (y t)) (v_rate (y t)) < p ^ 2 / dot3 n n). { replace (p ^ 2 / dot3 n n) with (k * (p ^ 2 / dot3 n n / k)) by (field; lra). apply Rmult_lt_compat_l; assumption. }
  lra.
Qed.
Print Assumptions C105_fixed_refuted.
(** motions that meet the hypotheses: a ball spinning about x; in a field turning in the y-z plane its spin dies like exp(-k t), in a
    field along x it spins on unchanged *)
Definition spinning (th w : R -> R) (t : R) : SVec := mkSV zero3 zero3 (mkq (cos (th t / 2)) (sin (th t / 2)) 0 0) (mk3 (w t) 0 0) [].
Lemma spinning_deriv th w t w' : derivable_pt_lim th t (w t) -> derivable_pt_lim w t w' ->
  deriv_sv (spinning th w) t (mkSV zero3 zero3 (scaleq 0.5 (product (v_att (spinning th w t)) (mkq 0 (w t) 0 0))) (mk3 w' 0 0) []).
Proof.
  intros D1 D2. assert (D3 : derivable_pt_lim (fun u => th u / 2) t (w t / 2)) by (eapply d_eq; [unfold Rdiv; apply d_mult; [exact D1|apply d_const]|cbv beta; field]).
  unfold deriv_sv, spinning. cbn [v_pos v_vel v_att v_rate v_whl]. split; [apply d3_const|]. split; [apply d3_const|]. split; [|split].
  - unfold product, scaleq. vunfoldg. cbn [qw qx qy qz x3 y3 z3]. rnumg. repeat split; cbn [qw qx qy qz].
    + eapply d_eq; [apply (derivable_pt_lim_comp (fun u => th u / 2) cos); [exact D3|apply derivable_pt_lim_cos]|lra].
    + eapply d_eq; [apply (derivable_pt_lim_comp (fun u => th u / 2) sin); [exact D3|apply derivable_pt_lim_sin]|lra].
    + eapply d_eq; [apply d_const|lra].
    + eapply d_eq; [apply d_const|lra].
  - repeat split; cbn [x3 y3 z3]; [exact D2|apply d_const..].
  - intros i. destruct i; cbn [nth]; apply d_const.
Qed.
Lemma ball_inv (v : v3) : mv (s_inv_tot ball) (mv (s_total_moment ball) v) = v. Proof. unfold s_inv_tot. apply inv3_mv, ball_det. Qed.
Lemma ball_mv (v : v3) : mv (s_total_moment ball) v = scale3 4 v. Proof. rewrite ball_total. destruct v as [a b c]. vunfoldg. cbn [x3 y3 z3 row1 row2 row3]. rnumg. apply mk3_c; ring. Qed.
Lemma spinning_detumbled th w B : (forall t, derivable_pt_lim th t (w t)) ->
  (forall t, B t <> zero3) -> (forall t, derivable_pt_lim w t (- K_BBQ * (w t - w t * x3 (B t) * x3 (B t) / dot3 (B t) (B t)))) -> (forall t, (y3 (B t) = 0 /\ z3 (B t) = 0) \/ x3 (B t) = 0) ->
  detumbled ball B (fun _ => zero3) (fun _ => []) (spinning th w).
Proof.
  intros D1 NB D2 AX. split.
  { unfold unitq, spinning. cbn [v_att]. vunfoldg. cbn [qw qx qy qz]. rnumg. assert (X := sin2_cos2 (th 0 / 2)). unfold Rsqr in X. lra. }
  intros t _. assert (U : unitq (v_att (spinning th w t))) by (unfold unitq, spinning; cbn [v_att]; vunfoldg; cbn [qw qx qy qz]; rnumg; assert (X := sin2_cos2 (th t / 2)); unfold Rsqr in X; lra).
  assert (S := spinning_deriv th w t _ (D1 t) (D2 t)).
  assert (NS : seen B (spinning th w) t <> zero3).
  { intros E. apply (NB t). rewrite <- (sandwich_opp_sandwich (v_att (spinning th w t)) (B t) U). unfold seen in E. rewrite E. apply opp_zero. }
  assert (Q : mv (s_inv_tot ball) (sub3 (sub3 (cross3 (mag_moment_cmd (seen B (spinning th w) t) (detumble_torque ball (v_rate (spinning th w t)))) (seen B (spinning th w) t)) zero3) (cross3 (v_rate (spinning th w t)) (add3 zero3 (mv (s_total_moment ball) (v_rate (spinning th w t)))))) = mk3 (- K_BBQ * (w t - w t * x3 (B t) * x3 (B t) / dot3 (B t) (B t))) 0 0).
  { rewrite mag_torque by exact NS. rewrite <- (ball_inv (mk3 _ 0 0)). f_equal. rewrite (ball_mv (mk3 _ 0 0)). unfold detumble_torque. rewrite !ball_mv. change (v_rate (spinning th w t)) with (mk3 (w t) 0 0).
    assert (SS : dot3 (seen B (spinning th w) t) (seen B (spinning th w) t) = dot3 (B t) (B t)) by (unfold seen; destruct (sandwich_rigid _ U) as (R1 & _); apply R1). rewrite SS.
    assert (P := dpos _ (NB t)). assert (XS : x3 (seen B (spinning th w) t) = x3 (B t)).
    { unfold seen, spinning. cbn [v_att]. assert (X := sin2_cos2 (th t / 2)). unfold Rsqr in X. generalize (cos (th t / 2)) (sin (th t / 2)) (B t) X. clear. intros c s [a b d] X. transitivity ((s * s + c * c) * a); [|rewrite X; cbn [x3]; ring]. unfold sandwich, product, conjugate. vunfoldg. cbn [qw qx qy qz x3 y3 z3]. rnumg. ring. }
    assert (CO : seen B (spinning th w) t = mk3 (x3 (B t)) 0 0 \/ x3 (seen B (spinning th w) t) = 0).
    { destruct (AX t) as [[A1 A2]|A]; [left|right; congruence].
      assert (R : dot3 (seen B (spinning th w) t) (seen B (spinning th w) t) = x3 (B t) * x3 (B t)) by (rewrite SS; unfold dot3; rnumg; rewrite A1, A2; ring).
      revert R XS. destruct (seen B (spinning th w) t) as [p q r]. vunfoldg. cbn [x3 y3 z3]. rnumg. intros R XS. subst p. assert (Q1 := Rle_0_sqr q). assert (Q2 := Rle_0_sqr r). unfold Rsqr in *. apply mk3_c; [reflexivity| |]; apply Rsqr_0_uniq; unfold Rsqr; lra. }
    destruct CO as [CO|CO].
    - rewrite CO. revert P. generalize (x3 (B t)) (dot3 (B t) (B t)) (w t). clear. intros b d a P. vunfoldg. cbn [x3 y3 z3]. rnumg. apply mk3_c; field; lra.
    - assert (Z : x3 (B t) = 0) by congruence. revert CO P. rewrite Z. destruct (seen B (spinning th w) t) as [p q r]. cbn [x3]. intros -> P. revert P. generalize (dot3 (B t) (B t)) (w t). clear. intros d a P. vunfoldg. cbn [x3 y3 z3]. rnumg. apply mk3_c; field; lra. }
  unfold derivative. rewrite Q. assert (DZ : div3 zero3 (s_mass ball) = zero3) by (unfold ball; cbn [s_mass]; vunfoldg; cbn [x3 y3 z3]; rnumg; apply mk3_c; unfold Rdiv; ring). rewrite DZ. exact S.
Qed.
Lemma turned_field (t : R) : mk3 0 (cos t) (sin t) <> zero3 :> v3.
Proof. intros E. injection E as E1 E2. assert (X := sin2_cos2 t). unfold Rsqr in X. rewrite E1, E2 in X. rnumg. lra. Qed.
Example C105_ex :
  let B := fun t => mk3 0 (cos t) (sin t) in let C := fun t : R => mk3 2 0 0 in
  det3 (s_total_moment ball) <> 0 /\
  field B /\ (forall t, B (t + 2 * PI) = B t) /\ cross3 (B 0) (B (PI / 2)) <> zero3 /\
  detumbled ball B (fun _ => zero3) (fun _ => []) (spinning (fun t => (1 - exp (- K_BBQ * t)) / K_BBQ) (fun t => exp (- K_BBQ * t))) /\
  field C /\ (forall t, cross3 (C t) (mk3 1 0 0) = zero3) /\ detumbled ball C (fun _ => zero3) (fun _ => []) (spinning (fun t => t) (fun _ => 1)) /\
  dot3 (sandwich_opp (v_att (spinning (fun t => t) (fun _ => 1) 0)) (spin_of ball (spinning (fun t => t) (fun _ => 1)) 0)) (mk3 1 0 0) = 4.
Proof.
  intros B C. assert (kp := K_pos). assert (DE : forall t, derivable_pt_lim (fun t => exp (- K_BBQ * t)) t (- K_BBQ * exp (- K_BBQ * t))).
  { intros t. eapply d_eq; [apply (derivable_pt_lim_comp (fun t => - K_BBQ * t) exp); [apply d_lin, d_id|apply derivable_pt_lim_exp]|ring]. }
  assert (CC : forall t, continuous cos t) by (intros t; apply continuity_pt_filterlim, continuity_cos). assert (CS : forall t, continuous sin t) by (intros t; apply continuity_pt_filterlim, continuity_sin).
  assert (NB : forall t, B t <> zero3) by (intros t; apply turned_field). assert (NC : forall t, C t <> zero3) by (intros t E; injection E as E; rnumg; lra).
  split; [apply ball_det|]. split; [split; [exact NB|intros t; repeat split; unfold B; cbn [x3 y3 z3]; [apply continuous_const|apply CC|apply CS]]|].
  split; [intros t; unfold B; rewrite cos_plus, sin_plus, cos_2PI, sin_2PI; apply mk3_c; ring|].
  split. { unfold B. rewrite cos_0, sin_0, cos_PI2, sin_PI2. intros E. assert (X : x3 (cross3 (mk3 0 1 0) (mk3 0 0 1)) = 0 :> R) by (rewrite E; reflexivity). revert X. vunfoldg. cbn [x3 y3 z3]. rnumg. lra. }
  split. { apply spinning_detumbled; [|exact NB| |].
    - intros t. eapply d_eq; [exact (d_mult _ _ t _ _ (d_minus _ _ t _ _ (d_const 1 t) (DE t)) (d_const (/ K_BBQ) t))|]. cbv beta. field. lra.
    - intros t. eapply d_eq; [apply DE|]. unfold B. cbn [x3]. unfold Rdiv. ring.
    - intros t. right. reflexivity. }
  split; [split; [exact NC|intros t; repeat split; unfold C; cbn [x3 y3 z3]; apply continuous_const]|].
  split; [intros t; unfold C; vunfoldg; cbn [x3 y3 z3]; rnumg; apply mk3_c; ring|].
  split. { apply spinning_detumbled; [intros t; apply d_id|exact NC| |].
    - intros t. eapply d_eq; [apply d_const|]. unfold C. vunfoldg. cbn [x3 y3 z3]. rnumg. field.
    - intros t. left. split; reflexivity. }
  unfold spin_of. rewrite ball_mv. unfold spinning. cbn [v_att v_rate]. replace (0 / 2) with 0 by field. rewrite cos_0, sin_0. unfold sandwich_opp, sandwich, product, conjugate. vunfoldg. cbn [qw qx qy qz x3 y3 z3]. rnumg. ring.
Qed.
