(** * Properties of the simulation's attitude loop: C79-C83 *)
From Coq Require Import Reals List Bool Lra Psatz Lia.
From Coquelicot Require Import Coquelicot.
From Verif Require Import Num Vec Mat6 M_vector M_quaternion M_struct M_sim M_lqr S_rot S_sim S_obs S_lqr P_quat P_sim P_wheel P_obs P_lqr P_lqr2 P_lqr3 P_slew P_ode Props_sim.
Import ListNotations.
Local Open Scope R_scope.

(** ** C79: the linear-quadratic gain *)
(** one sample of e' = w / 2, J w' = u, written out *)
Definition design_A (Ts : R) : M6 := mkB id3 (scalem (Ts / 2) id3) zerom id3.
Definition design_B (Ts : R) (J : m3) : M63 := mkC (scalem (Ts ^ 2 / 4) (inv3 J)) (scalem Ts (inv3 J)).
Definition weight_x (max_error max_rate : R) : M6 := diag6 (/ max_error ^ 2) (/ max_rate ^ 2).
Definition weight_u : m3 := diag3 625 625 625.
Lemma m63_ext a b : (forall u, mv63 a u = mv63 b u) -> a = b.
Proof.
  intros H. destruct a as [a1 a2], b as [d1 d2]. f_equal; apply m3_ext; intros x; assert (E := H x); unfold mv63 in E; cbn in E; [exact (f_equal u1 E)|exact (f_equal u2 E)].
Qed.
Lemma cont2discrete_eq J Ts : cont2discrete lqr_A (lqr_B (inv3 J)) Ts = (design_A Ts, design_B Ts J).
Proof.
  unfold cont2discrete. f_equal.
  - apply m6_ext. intros [x1 x2]. rewrite expm_A_mv, lqr_A_mv by lia. unfold design_A. unf6. rewrite mv_scalem, !mv_id3, mv_zerom. destruct x1 as [a b c], x2 as [d e f]. f_equal; vunfoldg; rnumg; apply mk3_c; field.
  - apply m63_ext. intros u. rewrite expm_B_mv, lqr_A_mv by lia. unfold design_B, lqr_B. unf63. rewrite mv_zerom, !mv_scalem. unf6.
    set (g := mv (inv3 J) u). clearbody g. destruct g as [a b c]. f_equal; vunfoldg; rnumg; apply mk3_c; field.
Qed.
Lemma lqr_Q_eq e w : lqr_Q e w = weight_x e w.
Proof. unfold lqr_Q, weight_x. f_equal; unfold Rdiv; ring. Qed.
Lemma lqr_R_eq : lqr_R = weight_u.
Proof. unfold lqr_R, weight_u. vunfoldg; rnumg. apply mkm_c; apply mk3_c; lra. Qed.

(** the matrices given to the Riccati solver are the sampled system: the exponential series is finite, and its sum carries every
    solution of e' = w / 2, w' = J^-1 u over one sample *)
Theorem C79_zoh : forall J Ts,
  cont2discrete lqr_A (lqr_B (inv3 J)) Ts = (design_A Ts, design_B Ts J) /\
  (forall n, (2 <= n)%nat -> expm_A lqr_A Ts n = design_A Ts /\ expm_B lqr_A (lqr_B (inv3 J)) Ts n = design_B Ts J) /\
  (forall u (e w : R -> v3), (forall t, deriv3 e t (scale3 (1 / 2) (w t))) -> (forall t, deriv3 w t (mv (inv3 J) u)) ->
     mk6 (e Ts) (w Ts) = add6 (mv6 (design_A Ts) (mk6 (e 0) (w 0))) (mv63 (design_B Ts J) u)).
Proof.
  intros J Ts. assert (C := cont2discrete_eq J Ts). assert (C' := C). unfold cont2discrete in C'. apply pair_equal_spec in C'. destruct C' as [CA CB].
  split; [exact C|]. split.
  - intros n Hn. rewrite <- CA, <- CB. split; [apply m6_ext; intros x; rewrite !expm_A_mv by lia; reflexivity|apply m63_ext; intros u; rewrite !expm_B_mv by lia; reflexivity].
  - intros u e w He Hw. rewrite <- CA, <- CB. apply flow_exact; assumption.
Qed.
Print Assumptions C79_zoh.
(** the gain: for every inertia, sample time and weights, if the solver meets its contract then the gain exists, minimises the
    quadratic cost over all input sequences, and makes every motion of the design model die out geometrically *)
Theorem C79_gain : forall dare J Ts max_error max_rate P, det3 J <> 0 -> max_error <> 0 -> max_rate <> 0 ->
  dare (design_A Ts) (design_B Ts J) (weight_x max_error max_rate) weight_u = Ok P ->
  riccati (design_A Ts) (design_B Ts J) (weight_x max_error max_rate) weight_u P ->
  exists K, get_gain_matrix dare J Ts max_error max_rate = Ok K /\
    (exists C rho, 0 <= C /\ 0 <= rho < 1 /\ forall x n, let y := looped (design_A Ts) (design_B Ts J) K x n in dot6 y y <= C * rho ^ n * dot6 x x) /\
    dies_out (looped (design_A Ts) (design_B Ts J) K) /\
    (forall x u n, let y := driven (design_A Ts) (design_B Ts J) u x in
       dot6 x (mv6 P x) <= cost (weight_x max_error max_rate) weight_u y u n + dot6 (y n) (mv6 P (y n))) /\
    (forall x n, let y := looped (design_A Ts) (design_B Ts J) K x in
       dot6 x (mv6 P x) = cost (weight_x max_error max_rate) weight_u y (fun n => opp3 (mv36 K (y n))) n + dot6 (y n) (mv6 P (y n))) /\
    (forall x, Un_cv (cost (weight_x max_error max_rate) weight_u (looped (design_A Ts) (design_B Ts J) K x) (fun n => opp3 (mv36 K (looped (design_A Ts) (design_B Ts J) K x n)))) (dot6 x (mv6 P x))).
Proof.
  intros dare J Ts e w P DJ NE NW HD HR. assert (HP : psd6 P) by (destruct HR as (_ & H & _); exact H).
  destruct (lqr_K_ok (design_A Ts) (design_B Ts J) P HP) as (K & HK). exists K.
  split.
  { unfold get_gain_matrix. destruct (Reqb_spec e 0); [contradiction|]. destruct (Reqb_spec w 0); [contradiction|]. destruct (Reqb_spec (det3 J) 0); [contradiction|].
    rewrite cont2discrete_eq, lqr_Q_eq, lqr_R_eq, HD. cbn [rbind]. rewrite <- lqr_R_eq. exact HK. }
  rewrite <- lqr_R_eq in *.
  assert (QL : exists m, 0 < m /\ forall x, m * dot6 x x <= dot6 x (mv6 (weight_x e w) x)).
  { assert (E2 : 0 < / e ^ 2) by (apply Rinv_0_lt_compat; nra). assert (W2 : 0 < / w ^ 2) by (apply Rinv_0_lt_compat; nra).
    exists (Rmin (/ e ^ 2) (/ w ^ 2)). split; [apply Rmin_pos; assumption|]. intros x. unfold weight_x. rewrite diag6_form. unfold dot6.
    assert (A := Rmin_l (/ e ^ 2) (/ w ^ 2)). assert (B := Rmin_r (/ e ^ 2) (/ w ^ 2)). assert (N1 := dot3_nonneg (u1 x)). assert (N2 := dot3_nonneg (u2 x)). nra. }
  destruct QL as (m & Hm & QL). destruct (lqr_decay _ _ _ P K m HR HK Hm QL) as (C & rho & HC & Hr & HB).
  assert (DO : dies_out (looped (design_A Ts) (design_B Ts J) K)).
  { intros x. apply (decay_dies C rho _ (dot6 x x) HC Hr (dot6_nonneg x)). intros n. split; [apply dot6_nonneg|apply HB]. }
  split; [exists C, rho; auto|]. split; [exact DO|].
  split; [intros x; apply (optimal_cost _ _ _ P K x HR HK)|]. split; [intros x; apply (optimal_cost _ _ _ P K x HR HK)|].
  intros x. destruct (optimal_cost _ _ _ P K x HR HK) as [_ EQ]. destruct (bounded6 P) as (c & Hc & BP).
  intros eps He. destruct (DO x (eps / c)) as (N & HN); [apply Rdiv_lt_0_compat; assumption|]. exists N. intros n Hn. specialize (HN n Hn). specialize (EQ n).
  unfold R_dist in *. rewrite Rminus_0_r in HN. set (y := looped (design_A Ts) (design_B Ts J) K x n) in *. assert (Py := HP y). assert (By := BP y). assert (Ny := dot6_nonneg y).
  rewrite Rabs_right in HN by lra. rewrite Rabs_left1 by lra. assert (c * dot6 y y < eps). { apply (Rmult_lt_compat_l c) in HN; [|exact Hc]. replace (c * (eps / c)) with eps in HN by (field; lra). exact HN. } lra.
Qed.
Print Assumptions C79_gain.
Theorem C79_errors : forall dare J Ts e w,
  (e = 0 \/ w = 0 -> get_gain_matrix dare J Ts e w = Raise ZeroDivisionError) /\
  (e <> 0 -> w <> 0 -> det3 J = 0 -> get_gain_matrix dare J Ts e w = Raise LinAlgError).
Proof.
  intros dare J Ts e w. unfold get_gain_matrix. split.
  - intros H. destruct (Reqb_spec e 0); [reflexivity|]. destruct (Reqb_spec w 0); [reflexivity|]. destruct H; contradiction.
  - intros NE NW D. destruct (Reqb_spec e 0); [contradiction|]. destruct (Reqb_spec w 0); [contradiction|]. destruct (Reqb_spec (det3 J) 0); [reflexivity|contradiction].
Qed.
Print Assumptions C79_errors.
(** J = 1, Ts = 2 and weights for which the Riccati equation has a rational solution *)
Definition ex_P : M6 := mkB (scalem 5 id3) (scalem 5 id3) (scalem 5 id3) (scalem 295 id3).
Lemma inv3_id : inv3 (id3 : m3) = id3. Proof. vunfoldg; rnumg. apply mkm_c; apply mk3_c; field. Qed.
Example C79_ex : let e := sqrt (1830 / 225) in let w := sqrt (1830 / 344650) in
  det3 (id3 : m3) <> 0 /\ e <> 0 /\ w <> 0 /\ riccati (design_A 2) (design_B 2 id3) (weight_x e w) weight_u ex_P.
Proof.
  cbv zeta. assert (DJ : det3 (id3 : m3) <> 0) by (vunfoldg; rnumg; lra). assert (SE : 0 < sqrt (1830 / 225)) by (apply sqrt_lt_R0; lra). assert (SW : 0 < sqrt (1830 / 344650)) by (apply sqrt_lt_R0; lra).
  split; [exact DJ|]. split; [lra|]. split; [lra|].
  assert (Q : weight_x (sqrt (1830 / 225)) (sqrt (1830 / 344650)) = diag6 (225 / 1830) (344650 / 1830)).
  { unfold weight_x. f_equal; rewrite pow2_sqrt by lra; field. }
  assert (PM : forall x, mv6 ex_P x = mk6 (add3 (scale3 5 (u1 x)) (scale3 5 (u2 x))) (add3 (scale3 5 (u1 x)) (scale3 295 (u2 x)))).
  { intros [x1 x2]. unfold ex_P. unf6. rewrite !mv_scalem, !mv_id3. reflexivity. }
  assert (AM : forall x, mv6 (design_A 2) x = mk6 (add3 (u1 x) (u2 x)) (u2 x)).
  { intros [x1 x2]. unfold design_A. unf6. rewrite mv_scalem, !mv_id3, mv_zerom. f_equal; [destruct x1 as [? ? ?], x2 as [? ? ?]; vunfoldg; rnumg; apply mk3_c; field|apply add3_0_l]. }
  assert (AT : forall x, mv6 (tr6 (design_A 2)) x = mk6 (u1 x) (add3 (u1 x) (u2 x))).
  { intros [x1 x2]. unfold design_A. unf6. destruct x1 as [? ? ?], x2 as [? ? ?]. f_equal; vunfoldg; rnumg; apply mk3_c; field. }
  assert (BM : forall u, mv63 (design_B 2 id3) u = mk6 u (scale3 2 u)).
  { intros [u1' u2' u3']. unfold design_B. rewrite inv3_id. unf63. f_equal; vunfoldg; rnumg; apply mk3_c; field. }
  assert (BT : forall x, mv36 (tr63 (design_B 2 id3)) x = add3 (u1 x) (scale3 2 (u2 x))).
  { intros [[? ? ?] [? ? ?]]. unfold design_B. rewrite inv3_id. unf63. vunfoldg; rnumg; apply mk3_c; field. }
  assert (RM : forall u, mv weight_u u = scale3 625 u) by (unfold weight_u; vring).
  rewrite Q. split; [|split].
  - unfold symm6, ex_P. unf6. f_equal; vring.
  - intros [[a b c] [d e f]]. rewrite PM. unf6. vunfoldg; rnumg. assert (0 <= 5 * (a + d) ^ 2 + 290 * d ^ 2 + (5 * (b + e) ^ 2 + 290 * e ^ 2) + (5 * (c + f) ^ 2 + 290 * f ^ 2)); [|lra].
    assert (H := fun x : R => pow2_ge_0 x). assert (H1 := H (a + d)). assert (H2 := H (b + e)). assert (H3 := H (c + f)). assert (H4 := H d). assert (H5 := H e). assert (H6 := H f). lra.
  - exists (scalem (1 / 1830) id3). split.
    + intros u. rewrite RM, BM, PM, BT. cbn [u1 u2]. destruct u as [a b c]. vunfoldg; rnumg. apply mk3_c; field.
    + intros [[a b c] [d e f]]. repeat (rewrite ?AM, ?PM, ?AT, ?BT, ?BM, ?diag6_mv). unf6. f_equal; vunfoldg; rnumg; apply mk3_c; field.
Qed.

(** ** C80: the error quaternion moves the other way *)
(** along every motion of the body, the rate of the error quaternion *)
Theorem C80_rate : forall target (q : R -> S4 R) t w, slen2 target = 1 -> (forall t, slen2 (q t) = 1) -> turning q t w ->
  (let err := quat_error target (q t) in let W := turns (q t) w in
   deriv3 (fun t => svec (quat_error target (q t))) t (scale3 (- (1 / 2)) (add3 (scale3 (ss err) W) (cross3 (svec err) W))) /\
   derivable_pt_lim (fun t => ss (quat_error target (q t))) t (dot3 (svec err) W / 2)) /\
  (q t = target -> deriv3 (fun t => svec (quat_error target (q t))) t (scale3 (- (1 / 2)) (turns target w))).
Proof.
  intros target q t w UT UQ HT. assert (E := error_rate target q t w UT UQ HT). split; [exact E|]. intros EQ. cbv zeta in E. destruct E as [E _].
  destruct C67_error as (_ & _ & I). rewrite EQ in E. rewrite (I target UT) in E. unfold svec at 2 in E. cbn [ss sx sy sz] in E.
  replace (scale3 (- (1 / 2)) (turns target w)) with (scale3 (- (1 / 2)) (add3 (scale3 1 (turns target w)) (cross3 (mk3 0 0 0) (turns target w)))); [exact E|].
  set (W := turns target w). clearbody W. vring.
Qed.
Print Assumptions C80_rate.
(** so the design model e' = w / 2 has the wrong sign (and the wrong axes: w is in body axes, e in inertial ones) *)
Lemma dlim_const c t : derivable_pt_lim (fun _ => c) t 0.
Proof. apply derivable_pt_lim_const. Qed.
Theorem C80_sign_refuted : ~ forall target (q : R -> S4 R) t w, slen2 target = 1 -> (forall t, slen2 (q t) = 1) -> turning q t w -> q t = target ->
  deriv3 (fun t => svec (quat_error target (q t))) t (scale3 (1 / 2) w).
Proof.
  intros H. set (q := fun t : R => mks (sin (t / 2)) 0 0 (cos (t / 2))).
  assert (DS : derivable_pt_lim (fun t => sin (t / 2)) 0 (1 / 2)) by (apply is_derive_Reals; auto_derive; [exact I|]; unfold Rdiv; rewrite Rmult_0_l, cos_0; field).
  assert (DC : derivable_pt_lim (fun t => cos (t / 2)) 0 0) by (apply is_derive_Reals; auto_derive; [exact I|]; unfold Rdiv; rewrite Rmult_0_l, sin_0; field).
  assert (Q0 : q 0 = mks 0 0 0 1) by (unfold q; unfold Rdiv; rewrite Rmult_0_l, sin_0, cos_0; reflexivity).
  assert (UQ : forall t, slen2 (q t) = 1) by (intros t; unfold slen2, q; cbn; assert (S1 := sc1 (t / 2)); nra).
  assert (U1 : slen2 (mks 0 0 0 1) = 1) by (unfold slen2; cbn; ring).
  assert (TU : turning q 0 ex).
  { unfold turning. rewrite Q0. unfold svec. cbn [sx sy sz ss]. unfold ex. split; [split; [|split]|].
    - eapply eq_ind; [exact DS|]. vunfoldg; cbn; rnumg; field.
    - eapply eq_ind; [apply (dlim_const 0)|]. vunfoldg; cbn; rnumg; field.
    - eapply eq_ind; [apply (dlim_const 0)|]. vunfoldg; cbn; rnumg; field.
    - eapply eq_ind; [exact DC|]. vunfoldg; cbn; rnumg; field. }
  destruct (H (mks 0 0 0 1) q 0 ex U1 UQ TU Q0) as [H1 _]. destruct (C80_rate (mks 0 0 0 1) q 0 ex U1 UQ TU) as [_ H2]. destruct (H2 Q0) as [H3 _].
  assert (E := uniqueness_limite _ _ _ _ H1 H3). revert E. unfold ex, turns, svec. cbn. vunfoldg; cbn; rnumg. lra.
Qed.
Print Assumptions C80_sign_refuted.
(** the sampled error e' = - w / 2 *)
Theorem C80_flow : forall J Ts u (e w : R -> v3), (forall t, deriv3 e t (scale3 (- (1 / 2)) (w t))) -> (forall t, deriv3 w t (mv (inv3 J) u)) ->
  mk6 (e Ts) (w Ts) = add6 (mv6 (turned_A Ts) (mk6 (e 0) (w 0))) (mv63 (turned_B Ts (inv3 J)) u).
Proof.
  intros J Ts u e w He Hw. destruct (C79_zoh J Ts) as (_ & _ & F). specialize (F u (fun t => opp3 (e t)) w).
  assert (N : forall t, deriv3 (fun t => opp3 (e t)) t (scale3 (1 / 2) (w t))).
  { intros t. destruct (He t) as (A & B & C). unfold deriv3, opp3, scale3 in *. cbn [x3 y3 z3] in *. rnumg.
    assert (G : forall f d d', derivable_pt_lim f t d -> d' = - d -> derivable_pt_lim (fun t => - f t) t d') by (intros f d d' D ->; apply (derivable_pt_lim_opp f), D).
    split; [|split]; eapply G; try eassumption; rnumg; field. }
  specialize (F N Hw). unfold design_A, design_B in F. unfold turned_A, turned_B. revert F. unf63. unf6. rewrite !mv_scalem, !mv_id3, !mv_zerom.
  set (g := mv (inv3 J) u). clearbody g. intros F. assert (F1 := f_equal u1 F). assert (F2 := f_equal u2 F). cbn [u1 u2] in F1, F2. rewrite F2. f_equal.
  rewrite <- (opp3_invol (e Ts)), F1. destruct g as [g1 g2 g3], (e 0) as [e1 e2 e3], (w 0) as [w1 w2 w3]. vunfoldg; rnumg; apply mk3_c; field.
Qed.
Print Assumptions C80_flow.
(** every gain that stabilises the design model destabilises the error that the controller is given *)
Theorem C80_unstable : forall J Ts K, det3 J <> 0 -> 0 < Ts -> dies_out (looped (design_A Ts) (design_B Ts J) K) ->
  exists l x, 1 < l /\ x <> zero6 /\ forall n, looped (turned_A Ts) (turned_B Ts (inv3 J)) K x n = scale6 (l ^ n) x.
Proof.
  intros J Ts [Kq Kw] DJ HT D.
  assert (EA : smp_A Ts 1 = design_A Ts) by (unfold smp_A, design_A; f_equal; f_equal; ring). assert (EB : smp_B Ts 1 (inv3 J) = design_B Ts J) by (unfold smp_B, design_B; f_equal; f_equal; ring).
  assert (EA' : smp_A Ts (-1) = turned_A Ts) by (unfold smp_A, turned_A; f_equal; f_equal; ring). assert (EB' : smp_B Ts (-1) (inv3 J) = turned_B Ts (inv3 J)) by (unfold smp_B, turned_B; f_equal; f_equal; ring).
  rewrite <- EA, <- EB in D. assert (W := wrong_sign_unstable J Kq Kw Ts 1 DJ HT ltac:(lra) D). replace (- (1)) with (-1) in W by lra. rewrite EA', EB' in W. exact W.
Qed.
Print Assumptions C80_unstable.
(** ... in particular the gain of get_gain_matrix *)
Theorem C80_lqr_unstable : forall dare J Ts max_error max_rate P K, det3 J <> 0 -> 0 < Ts -> max_error <> 0 -> max_rate <> 0 ->
  dare (design_A Ts) (design_B Ts J) (weight_x max_error max_rate) weight_u = Ok P ->
  riccati (design_A Ts) (design_B Ts J) (weight_x max_error max_rate) weight_u P ->
  get_gain_matrix dare J Ts max_error max_rate = Ok K ->
  exists l x, 1 < l /\ x <> zero6 /\ forall n, looped (turned_A Ts) (turned_B Ts (inv3 J)) K x n = scale6 (l ^ n) x.
Proof.
  intros dare J Ts e w P K DJ HT NE NW HD HR HK. destruct (C79_gain dare J Ts e w P DJ NE NW HD HR) as (K' & HK' & _ & D & _).
  rewrite HK in HK'. injection HK' as <-. apply C80_unstable; assumption.
Qed.
Print Assumptions C80_lqr_unstable.
Example C80_ex : exists K, get_gain_matrix (fun _ _ _ _ => Ok ex_P) id3 2 (sqrt (1830 / 225)) (sqrt (1830 / 344650)) = Ok K /\ dies_out (looped (design_A 2) (design_B 2 id3) K).
Proof.
  destruct C79_ex as (DJ & NE & NW & HR). destruct (C79_gain (fun _ _ _ _ => Ok ex_P) id3 2 _ _ ex_P DJ NE NW eq_refl HR) as (K & HK & _ & D & _). exists K. split; assumption.
Qed.

(** ** C81: a slew goes the long way round *)
(** A body turning about a unit axis n, an eigenvector of the gains, with moment of inertia j about it, from rest at the angle a0,
    the target being at b, 0 < b - a0 < 2 pi: it is driven away from the target and comes to rest at b - 2 pi. *)
Theorem C81_long_way : forall Kq Kw n kq kw j (a w : R -> R) b, unit3 n -> 0 < kq -> 0 < kw -> 0 < j ->
  mv Kq n = scale3 kq n -> mv Kw n = scale3 kw n ->
  (forall t, derivable_pt_lim a t (w t)) ->
  (forall t, derivable_pt_lim w t (dot3 n (controller_step Kq Kw zero3
     (quat_error (axis_angle_to_quaternion n (b * (180 / PI))) (axis_angle_to_quaternion n (a t * (180 / PI)))) (scale3 (w t) n)) / j)) ->
  w 0 = 0 -> 0 < b - a 0 < 2 * PI ->
  (forall t, 0 <= t -> b - a 0 <= b - a t <= 4 * PI - (b - a 0)) /\
  (forall eps, 0 < eps -> exists T, 0 <= T /\ forall t, T <= t -> Rabs (a t - (b - 2 * PI)) < eps /\ Rabs (w t) < eps).
Proof.
  intros Kq Kw n kq kw j a w b U Hq Hw Hj EQ EW Da Dw W0 B0. assert (PP := PI_RGT_0).
  assert (TQ : forall t, dot3 n (controller_step Kq Kw zero3 (quat_error (axis_angle_to_quaternion n (b * (180 / PI))) (axis_angle_to_quaternion n (a t * (180 / PI)))) (scale3 (w t) n)) / j
              = - (kq / j) * sin ((b - a t) / 2) - kw / j * w t).
  { intros t. rewrite (proj1 (C71_undone Kq Kw zero3 _ _)). rewrite (proj1 (same_axis n _ _ U)). rewrite mv_scale3, EQ.
    replace (sub3 (scale3 (w t) n) zero3) with (scale3 (w t) n) by vring. rewrite mv_scale3, EW.
    replace ((b * (180 / PI) - a t * (180 / PI)) * (PI / 180) / 2) with ((b - a t) / 2) by (field; lra).
    set (s := sin ((b - a t) / 2)). clearbody s. assert (X : dot3 n (opp3 (add3 (scale3 s (scale3 kq n)) (scale3 (w t) (scale3 kw n)))) = - (s * kq + w t * kw) * dot3 n n) by (set (wt := w t); clearbody wt; vring).
    rewrite X, U. field. lra. }
  assert (K1 : 0 < kq / j) by (apply Rdiv_lt_0_compat; assumption). assert (K2 : 0 < kw / j) by (apply Rdiv_lt_0_compat; assumption).
  set (e := fun t => b - a t).
  assert (De : forall t, is_derive e t (- w t)).
  { intros t. apply is_derive_Reals. replace (- w t) with (0 - w t) by ring. apply (derivable_pt_lim_minus (fun _ => b) a); [apply derivable_pt_lim_const|apply Da]. }
  assert (Dp : forall t, is_derive w t (- (kq / j) * sin (e t / 2) - kw / j * w t)) by (intros t; apply is_derive_Reals; unfold e; rewrite <- TQ; apply Dw).
  split; [intros t Ht; apply (sl_trapped e w (kq / j) (kw / j) K1 K2 De Dp W0 B0 t Ht)|].
  intros eps He. destruct (sl_limit e w (kq / j) (kw / j) K1 K2 De Dp W0 B0 eps He) as (T & HT & L). exists T. split; [exact HT|]. intros t Ht. destruct (L t Ht) as [L1 L2].
  split; [|exact L2]. unfold e in L1. replace (a t - (b - 2 * PI)) with (- (b - a t - 2 * PI)) by ring. rewrite Rabs_Ropp. exact L1.
Qed.
Print Assumptions C81_long_way.
(** such a motion exists for every axis, gains, inertia, target and start *)
Lemma sin_lip x y : Rabs (sin x - sin y) <= Rabs (x - y).
Proof.
  destruct (MVT_gen sin x y cos) as (c & _ & E).
  - intros z _. apply is_derive_Reals, derivable_pt_lim_sin.
  - intros z _. apply continuity_sin.
  - rewrite Rabs_minus_sym, (Rabs_minus_sym x), E, Rabs_mult. assert (B := COS_bound c). assert (Rabs (cos c) <= 1) by (apply Rabs_le; lra). assert (A := Rabs_pos (y - x)). nra.
Qed.
Theorem C81_motion : forall Kq Kw n kq kw j a0 b, unit3 n -> 0 < kq -> 0 < kw -> 0 < j -> mv Kq n = scale3 kq n -> mv Kw n = scale3 kw n ->
  exists a w : R -> R, a 0 = a0 /\ w 0 = 0 /\ (forall t, derivable_pt_lim a t (w t)) /\
    (forall t, derivable_pt_lim w t (dot3 n (controller_step Kq Kw zero3
       (quat_error (axis_angle_to_quaternion n (b * (180 / PI))) (axis_angle_to_quaternion n (a t * (180 / PI)))) (scale3 (w t) n)) / j)).
Proof.
  intros Kq Kw n kq kw j a0 b U Hq Hw Hj EQ EW. assert (PP := PI_RGT_0).
  assert (K1 : 0 < kq / j) by (apply Rdiv_lt_0_compat; assumption). assert (K2 : 0 < kw / j) by (apply Rdiv_lt_0_compat; assumption).
  destruct (picard (fun a w => w) (fun a w => - (kq / j) * sin ((b - a) / 2) - kw / j * w) (2 * (1 + kq / j + kw / j)) a0 0) as (a & w & A0 & W0 & Da & Dw); [lra| | |].
  - intros p q r s. assert (X := Rabs_pos (p - r)). assert (Y := Rabs_pos (q - s)). nra.
  - intros p q r s. assert (X := Rabs_pos (p - r)). assert (Y := Rabs_pos (q - s)). assert (L := sin_lip ((b - p) / 2) ((b - r) / 2)).
    replace ((b - p) / 2 - (b - r) / 2) with (- ((p - r) / 2)) in L by field. rewrite Rabs_Ropp in L. unfold Rdiv in L at 3. rewrite Rabs_mult, (Rabs_right (/ 2)) in L by lra.
    replace (- (kq / j) * sin ((b - p) / 2) - kw / j * q - (- (kq / j) * sin ((b - r) / 2) - kw / j * s)) with (- (kq / j) * (sin ((b - p) / 2) - sin ((b - r) / 2)) + - (kw / j) * (q - s)) by ring.
    eapply Rle_trans; [apply Rabs_triang|]. rewrite !Rabs_mult, !Rabs_Ropp, !(Rabs_right (_ / j)) by lra. set (d := Rabs (sin ((b - p) / 2) - sin ((b - r) / 2))) in *. clearbody d.
    set (ka := kq / j) in *. set (kb := kw / j) in *. clearbody ka kb. assert (ka * d <= ka * (Rabs (p - r) * / 2)) by (apply Rmult_le_compat_l; lra). nra.
  - exists a, w. split; [exact A0|]. split; [exact W0|]. split; [exact Da|]. intros t. eapply eq_ind; [apply Dw|].
    rewrite (proj1 (C71_undone Kq Kw zero3 _ _)). rewrite (proj1 (same_axis n _ _ U)). rewrite mv_scale3, EQ.
    replace (sub3 (scale3 (w t) n) zero3) with (scale3 (w t) n) by vring. rewrite mv_scale3, EW.
    replace ((b * (180 / PI) - a t * (180 / PI)) * (PI / 180) / 2) with ((b - a t) / 2) by (field; lra).
    set (s := sin ((b - a t) / 2)). clearbody s. assert (X : dot3 n (opp3 (add3 (scale3 s (scale3 kq n)) (scale3 (w t) (scale3 kw n)))) = - (s * kq + w t * kw) * dot3 n n) by (set (wt := w t); clearbody wt; vring).
    rewrite X, U. field. lra.
Qed.
Print Assumptions C81_motion.
(** about the y axis with unit gains, from 0 to a target at 90 degrees *)
Example C81_ex : unit3 ey /\ mv id3 ey = scale3 1 ey /\ 0 < PI / 2 - 0 < 2 * PI.
Proof. assert (P := PI_RGT_0). split; [unfold unit3, ey; vunfoldg; rnumg; ring|]. split; [unfold ey; vunfoldg; rnumg; apply mk3_c; ring|lra]. Qed.

(** ** C82: from the torque to the wheels *)
(** with wheels that span space the reaction of the four commands is the torque asked for, and no other commands with that reaction are smaller *)
Theorem C82_convert : forall axes tau, det3 (g_gram axes) <> 0 ->
  reaction axes (convert_torque_to_wheels axes tau) = tau /\
  forall u, length u = length axes -> reaction axes u = tau ->
    fold_right (fun x s => x ^ 2 + s) 0 (convert_torque_to_wheels axes tau) <= fold_right (fun x s => x ^ 2 + s) 0 u.
Proof. intros axes tau D. split; [apply reaction_convert, D|]. intros u L E. apply convert_least; assumption. Qed.
Print Assumptions C82_convert.
(** the simulation's four wheels do *)
Theorem C82_sim : det3 (g_gram sim_wheels) <> 0 /\ length sim_wheels = 4%nat.
Proof. split; [apply sim_det|reflexivity]. Qed.
Print Assumptions C82_sim.
Lemma reaction_skip axes : forall u v, (length axes <= length u)%nat -> (length axes <= length v)%nat -> (forall i, (i < length axes)%nat -> nth i u 0 = nth i v 0) -> reaction axes u = reaction axes v.
Proof.
  induction axes as [|a axes IH]; intros u v Lu Lv H; [reflexivity|]. destruct u as [|x u]; [cbn in Lu; lia|]. destruct v as [|y v]; [cbn in Lv; lia|].
  cbn [reaction]. cbn in Lu, Lv. rewrite (IH u v); [|lia|lia|intros i Hi; apply (H (S i)); cbn; lia]. assert (E := H O ltac:(cbn; lia)). cbn in E. rewrite E. reflexivity.
Qed.
(** feasible commands reach the body unchanged *)
Theorem C82_applied : forall (p : Wheels R) axes tau speeds vals, good_wheels p -> det3 (g_gram axes) <> 0 -> length axes = 4%nat -> (4 <= length speeds)%nat -> (4 <= length vals)%nat ->
  (forall i, (i < 4)%nat -> let u := nth i (convert_torque_to_wheels axes tau) 0 in Rabs u <= wh_maxT p /\ Rabs (wheel_next (wh_J p) (wh_dt p) (nth i speeds 0) u) <= wh_maxS p) ->
  exists r, check_torque_vals p (convert_torque_to_wheels axes tau) speeds vals = Ok r /\ reaction axes r = tau.
Proof.
  intros p axes tau speeds vals G D LA LS LV H. assert (LC : length (convert_torque_to_wheels axes tau) = 4%nat) by (unfold convert_torque_to_wheels; rewrite map_length; exact LA).
  destruct (clamp_all_spec p 4 (convert_torque_to_wheels axes tau) speeds vals) as (r & E & L & _ & N); [lia|lia|lia|]. exists r. split; [exact E|].
  transitivity (reaction axes (convert_torque_to_wheels axes tau)); [|apply reaction_convert, D]. apply reaction_skip; [lia|lia|]. intros i Hi. rewrite N by lia. destruct (H i ltac:(lia)) as [H1 H2]. apply C69_untouched; assumption.
Qed.
Print Assumptions C82_applied.
(** commands that are not feasible are cut one by one, which turns the torque on the body: asked for a torque along (8 g, 8 g, 1), the
    wheels at rest give one along (4 g, 4 g, 1), g the cosine of the wheels' angle to the x and y axes *)
Theorem C82_direction_refuted : forall (p : Wheels R) vals, good_wheels p -> 0 < wh_maxT p -> wh_maxT p * wh_dt p / wh_J p <= wh_maxS p -> (4 <= length vals)%nat ->
  let m := wh_maxT p in let tau := scale3 m (mk3 (8 * g_xy) (8 * g_xy) 1) in
  exists r, check_torque_vals p (convert_torque_to_wheels sim_wheels tau) [0; 0; 0; 0] vals = Ok r /\
    reaction sim_wheels r = scale3 (m / 2) (mk3 (4 * g_xy) (4 * g_xy) 1) /\ cross3 tau (reaction sim_wheels r) <> zero3.
Proof.
  intros p vals G MP LS LV m tau. assert (GP := g_xy_pos). assert (ET : tau = mk3 (8 * g_xy * m) (8 * g_xy * m) m) by (unfold tau; vunfoldg; rnumg; apply mk3_c; ring).
  destruct (clamp_all_spec p 4 (convert_torque_to_wheels sim_wheels tau) [0; 0; 0; 0] vals) as (r & E & L & _ & N); [rewrite ET, sim_convert; cbn; lia|cbn; lia|lia|].
  exists r. split; [exact E|].
  assert (GM : 0 <= m) by (unfold m; lra).
  assert (CL : forall t, wheel_clamp p t 0 = clamp m t).
  { intros t. destruct (wheel_clamp_cases p t 0 G) as [[_ X]|(L2 & sg & SG & X)]; [exact X|]. rewrite X. destruct G as (HM & HS & HJ & HD).
    assert (KP : 0 < wh_dt p / wh_J p) by (apply Rdiv_lt_0_compat; assumption). rewrite Rplus_0_l, Rminus_0_r in *. replace (wh_maxT p * wh_dt p / wh_J p) with (m * (wh_dt p / wh_J p)) in LS by (unfold m; field; lra).
    set (K := wh_dt p / wh_J p) in *. assert (ML : m <= wh_maxS p / K) by (apply (Rmult_le_reg_r K); [exact KP|]; replace (wh_maxS p / K * K) with (wh_maxS p) by (field; lra); exact LS).
    fold m. destruct SG as [[-> [?|[_ TP]]]|[-> [?|[_ TN]]]]; try lra.
    - rewrite Rabs_right in L2 by nra. assert (m <= t). { apply Rmult_le_reg_r with K; [exact KP|]. lra. }
      replace (1 * wh_maxS p / K) with (wh_maxS p / K) by (field; lra).
      destruct (clamp_cases m t HM) as [[-> B]|[[-> B]|[-> B]]]; destruct (clamp_cases m (wh_maxS p / K) HM) as [[-> B']|[[-> B']|[-> B']]]; lra.
    - rewrite Rabs_left in L2 by nra. assert (t <= - m). { apply Rmult_le_reg_r with K; [exact KP|]. lra. }
      replace (-1 * wh_maxS p / K) with (- (wh_maxS p / K)) by (field; lra).
      destruct (clamp_cases m t HM) as [[-> B]|[[-> B]|[-> B]]]; destruct (clamp_cases m (- (wh_maxS p / K)) HM) as [[-> B']|[[-> B']|[-> B']]]; lra. }
  assert (RR : reaction sim_wheels r = reaction sim_wheels [- m; m / 2; m; m / 2]).
  { apply reaction_skip; [cbn; lia|cbn; lia|]. intros i Hi. cbn in Hi. rewrite N by lia. rewrite ET, sim_convert.
    assert (Z : nth i [0; 0; 0; 0] 0 = 0) by (destruct i as [|[|[|[|i]]]]; reflexivity || lia). rewrite Z, CL.
    destruct i as [|[|[|[|i]]]]; cbn [nth]; [| | | |lia].
    - replace (- (8 * g_xy * m + 8 * g_xy * m) / (4 * g_xy) + m / 2) with (- (7 / 2) * m) by (field; lra). destruct (clamp_cases m (- (7 / 2) * m) GM) as [[-> B]|[[-> B]|[-> B]]]; lra.
    - replace (- (8 * g_xy * m - 8 * g_xy * m) / (4 * g_xy) + m / 2) with (m / 2) by (field; lra). destruct (clamp_cases m (m / 2) GM) as [[-> B]|[[-> B]|[-> B]]]; lra.
    - replace ((8 * g_xy * m + 8 * g_xy * m) / (4 * g_xy) + m / 2) with (9 / 2 * m) by (field; lra). destruct (clamp_cases m (9 / 2 * m) GM) as [[-> B]|[[-> B]|[-> B]]]; lra.
    - replace ((8 * g_xy * m - 8 * g_xy * m) / (4 * g_xy) + m / 2) with (m / 2) by (field; lra). destruct (clamp_cases m (m / 2) GM) as [[-> B]|[[-> B]|[-> B]]]; lra. }
  assert (RV : reaction sim_wheels r = scale3 (m / 2) (mk3 (4 * g_xy) (4 * g_xy) 1)).
  { rewrite RR. unfold sim_wheels. cbn [reaction]. rewrite g_z_half. vunfoldg; rnumg. apply mk3_c; field. }
  split; [exact RV|]. rewrite RV, ET. vunfoldg; rnumg. intros Z. apply mk3_inj in Z. destruct Z as (Z & _). assert (0 < g_xy * m) by (apply Rmult_lt_0_compat; assumption). assert (0 < g_xy * m * m) by (apply Rmult_lt_0_compat; assumption). lra.
Qed.
Print Assumptions C82_direction_refuted.
(** the simulation's constants: 0.01 Nm, 1047 rad/s, 4.2946e-6 kg m^2, 0.1 s *)
Example C82_ex : let p := mkWh 0.01 1047 (4.2946 / 10 ^ 6) 0.1 in good_wheels p /\ 0 < wh_maxT p /\ wh_maxT p * wh_dt p / wh_J p <= wh_maxS p.
Proof. cbv zeta. unfold good_wheels. cbn. split; [lra|]. split; [lra|]. apply (Rmult_le_reg_r (4.2946 / 10 ^ 6)); [cbn; lra|]. unfold Rdiv at 1. rewrite Rmult_assoc, Rinv_l by (cbn; lra). cbn. lra. Qed.

(** ** C83: the nadir-pointing quaternion *)
(** for every position and body axis: a unit quaternion that turns the axis to the direction of the Earth's centre, exactly unless
    they are within 1e-8 of parallel and then to 2e-8, by the smallest angle *)
Theorem C83_nadir : forall r body, r <> zero3 -> body <> zero3 ->
  let q := nadir_quaternion r body in let rh := scale3 (- / norm3 r) r in let bh := scale3 (/ norm3 body) body in
  slen2 q = 1 /\ norm3 (sub3 (turns q bh) rh) <= 2 / 10 ^ 8 /\
  (1 / 10 ^ 8 <= norm3 (cross3 bh rh) -> turns q bh = rh /\ get_rotation_angle q = acos (dot3 bh rh)).
Proof. exact nadir_spec. Qed.
Print Assumptions C83_nadir.
(** the quaternion depends only on the directions of its arguments *)
Theorem C83_scale : forall r body k l, 0 < k -> 0 < l -> nadir_quaternion (scale3 k r) (scale3 l body) = nadir_quaternion r body.
Proof.
  intros r body k l Hk Hl.
  assert (N : forall k (v : v3), 0 < k -> norm3 (scale3 k v) = k * norm3 v).
  { intros c v Hc. unfold norm3. rnumg. replace (dot3 (scale3 c v) (scale3 c v)) with (c * c * dot3 v v) by vring. rewrite sqrt_mult_alt by nra. rewrite sqrt_square by lra. reflexivity. }
  assert (S1 : div3 (opp3 (scale3 k r)) (norm3 (scale3 k r)) = div3 (opp3 r) (norm3 r)).
  { rewrite N by exact Hk. set (m := norm3 r). clearbody m. destruct r as [x y z]. vunfoldg; rnumg. destruct (Req_dec m 0) as [->|M]; [rewrite Rmult_0_r; unfold Rdiv; rewrite !Rinv_0; apply mk3_c; ring|apply mk3_c; field; lra]. }
  assert (S2 : div3 (scale3 l body) (norm3 (scale3 l body)) = div3 body (norm3 body)).
  { rewrite N by exact Hl. set (m := norm3 body). clearbody m. destruct body as [x y z]. vunfoldg; rnumg. destruct (Req_dec m 0) as [->|M]; [rewrite Rmult_0_r; unfold Rdiv; rewrite !Rinv_0; apply mk3_c; ring|apply mk3_c; field; lra]. }
  unfold nadir_quaternion. rewrite S1, S2. reflexivity.
Qed.
Print Assumptions C83_scale.
(** above the equator on the x axis, boresight z: a quarter turn *)
Example C83_ex : let r := mk3 7000 0 0 in let rh := scale3 (- / norm3 r) r in let bh := scale3 (/ norm3 (ez : v3)) ez in
  r <> zero3 /\ (ez : v3) <> zero3 /\ 1 / 10 ^ 8 <= norm3 (cross3 bh rh).
Proof.
  cbv zeta. assert (N1 : norm3 (mk3 7000 0 0 : v3) = 7000) by (unfold norm3; vunfoldg; rnumg; replace (7000 * 7000 + 0 * 0 + 0 * 0) with (7000 * 7000) by ring; apply sqrt_square; lra).
  assert (N2 : norm3 (ez : v3) = 1) by (unfold norm3, ez; vunfoldg; rnumg; replace (0 * 0 + 0 * 0 + 1 * 1) with (1 * 1) by ring; apply sqrt_square; lra).
  split; [intros E; apply mk3_inj in E; rnum; lra|]. split; [intros E; apply mk3_inj in E; rnum; lra|]. rewrite N1, N2.
  match goal with |- _ <= norm3 ?v => assert (E : v = mk3 0 (-1) 0) end. { unfold ez. vunfoldg; rnumg. apply mk3_c; field. }
  rewrite E. replace (norm3 (mk3 0 (-1) 0 : v3)) with 1; [lra|]. symmetry. unfold norm3; vunfoldg; rnumg. replace (0 * 0 + -1 * -1 + 0 * 0) with (1 * 1) by ring. apply sqrt_square. lra.
Qed.
