(** * C122: dumping the wheels' momentum as it is wired up, through distribute and the torquers *)
From Coq Require Import Reals ZArith List Bool Arith Lra Psatz Lia.
From Coquelicot Require Import Coquelicot.
From Verif Require Import Num Vec M_vector M_quaternion M_jday M_struct M_env M_dyn M_ctrl S_rot S_dyn S_ctrl.
From Verif Require Import P_quat P_struct P_wheel P_dyn P_dyn2 P_obs P_sat P_ctrl P_ctrl2 P_ctrl3 P_ctrl4 P_ctrl5 P_conv P_detum P_detum2 Props_ctrl Props_ctrl2 Props_ctrl3 Props_conv Props_detum P_dump P_dump2 Props_wired Props_dump.
Import ListNotations.
Local Open Scope R_scope.

(** at time t the torquers' moment is what they make of the currents desaturate returns *)
Definition wired_dump (sat : Satellite) (p q r : R) (ref : list R) (B : R -> v3) (m : R -> v3) (y : R -> SVec) (t : R) : Prop :=
  exists ctl cur, desaturate (mag_new sat (lin3 p q r) false) (mkCS (y t) (seen B y t)) ref = Ok (ctl, cur) /\ sys_actuate (lin3 p q r) cur = Ok (m t).
(** the wheels' momentum beyond the one asked for, and the moment desaturate asks for *)
Definition excess (sat : Satellite) (hr : v3) (y : R -> SVec) (t : R) : v3 := sub3 (held sat (y t)) hr.
Definition wanted (sat : Satellite) (hr : v3) (B : R -> v3) (y : R -> SVec) (t : R) : v3 := mag_moment_cmd (seen B y t) (scale3 (- K_BBQ) (excess sat hr y t)).

(** the work done on a momentum e by the moment wired from the one asked for against it *)
Lemma wired_work p q r (e b : v3) : 0 < p -> 0 < q -> 0 < r -> b <> zero3 -> let m := mag_moment_cmd b (scale3 (- K_BBQ) e) in
  exists cur M, distribute (lin3 p q r) [x3 m; y3 m; z3 m] = Ok cur /\ sys_actuate (lin3 p q r) cur = Ok M /\
    (has_negative m -> 0 < dot3 e (cross3 M b) /\ 1.86 * Rmin p (Rmin q r) * norm3 (cross3 e b) <= dot3 e (cross3 M b)) /\
    (~ has_negative m -> exists s, 0 < s <= 1 /\ dot3 e (cross3 M b) = - s * K_BBQ * (dot3 (cross3 e b) (cross3 e b) / dot3 b b)).
Proof.
  intros A1 A2 A3 NB m. assert (K := K_pos). assert (PW : dot3 e (cross3 m b) = - K_BBQ * across e b) by (apply mag_power, NB). assert (PB := dpos b NB). destruct (across_nonneg e b NB) as [Q1 Q2].
  assert (MS : dot3 m m = K_BBQ * K_BBQ * across e b / dot3 b b) by (apply ask_size; assumption).
  assert (SP : forall s, dot3 e (cross3 (scale3 s m) b) = - s * K_BBQ * across e b). { intros s. transitivity (s * dot3 e (cross3 m b)); [|rewrite PW; ring]. generalize e m b. clear. vring. }
  assert (DECN : has_negative m \/ ~ has_negative m) by (unfold has_negative; destruct (Rlt_dec (x3 m) 0), (Rlt_dec (y3 m) 0), (Rlt_dec (z3 m) 0); tauto).
  destruct DECN as [N|N].
  - destruct (lin_negative p q r m A1 A2 A3 N) as (cur & s & E & Hs & EM & G1 & G2 & G3). exists cur, (scale3 s m). split; [exact E|]. split; [exact EM|]. split; [|intros X; contradiction]. intros _. rewrite SP.
    set (mu := Rmin p (Rmin q r)). assert (Mu0 : 0 < mu) by (unfold mu; repeat apply Rmin_pos; assumption). assert (U1 : mu <= p) by apply Rmin_l. assert (U2 : mu <= q) by (unfold mu; eapply Rle_trans; [apply Rmin_r|apply Rmin_l]). assert (U3 : mu <= r) by (unfold mu; eapply Rle_trans; [apply Rmin_r|apply Rmin_r]).
    set (n := norm3 m). assert (NN : n * n = dot3 m m) by (unfold n, norm3; rnumg; apply sqrt_sqrt, dot3_nonneg). assert (N0 : 0 <= n) by (unfold n, norm3; rnumg; apply sqrt_pos).
    assert (CX : forall x, x * x <= dot3 m m -> x < 0 -> 1.86 * mu <= x * s -> 1.86 * mu <= n * - s). { intros x H1 H2 H3. assert (- x <= n) by (apply Rsqr_incr_0; [unfold Rsqr; lra|lra|lra]). assert (- x * - s <= n * - s) by (apply Rmult_le_compat_r; lra). lra. }
    assert (SZ : x3 m * x3 m <= dot3 m m /\ y3 m * y3 m <= dot3 m m /\ z3 m * z3 m <= dot3 m m). { generalize m. clear. intros [a b c]. vunfoldg. cbn [x3 y3 z3]. rnumg. assert (Z1 := Rle_0_sqr a). assert (Z2 := Rle_0_sqr b). assert (Z3 := Rle_0_sqr c). unfold Rsqr in *. lra. }
    assert (NS : 1.86 * mu <= n * - s). { destruct SZ as (S1 & S2 & S3). destruct N as [N|[N|N]]; [apply (CX (x3 m))|apply (CX (y3 m))|apply (CX (z3 m))]; try assumption; [specialize (G1 N)|specialize (G2 N)|specialize (G3 N)]; lra. }
    assert (NP : 0 < n). { destruct (Rle_lt_or_eq_dec 0 n N0) as [L|L]; [exact L|]. rewrite <- L in NS. lra. }
    assert (AC : 0 < across e b). { assert (0 < n * n) by (apply Rmult_lt_0_compat; exact NP). rewrite NN, MS in H. destruct (Rle_lt_or_eq_dec _ _ Q1) as [L|L]; [exact L|]. rewrite <- L in H. unfold Rdiv in H. rewrite Rmult_0_r, Rmult_0_l in H. lra. }
    set (X := norm3 (cross3 e b)). assert (XX : X * X = across e b * dot3 b b). { unfold X, norm3. rnumg. rewrite sqrt_sqrt by apply dot3_nonneg. unfold across. field. lra. } assert (X0 : 0 <= X) by (unfold X, norm3; rnumg; apply sqrt_pos).
    assert (NX : n * dot3 b b = K_BBQ * X). { apply Rsqr_inj; [apply Rmult_le_pos; lra|apply Rmult_le_pos; lra|]. unfold Rsqr. transitivity ((n * n) * (dot3 b b * dot3 b b)); [ring|]. rewrite NN, MS. transitivity (K_BBQ * K_BBQ * (across e b * dot3 b b)); [field; lra|]. rewrite <- XX. ring. }
    split; [assert (0 < - s * K_BBQ) by (apply Rmult_lt_0_compat; lra); assert (0 < - s * K_BBQ * across e b) by (apply Rmult_lt_0_compat; assumption); lra|].
    assert (EQ : - s * K_BBQ * across e b = (n * - s) * X). { apply Rmult_eq_reg_r with (dot3 b b); [|lra]. transitivity (- s * K_BBQ * (X * X)); [rewrite XX; ring|]. transitivity (- s * X * (n * dot3 b b)); [rewrite NX; ring|ring]. }
    rewrite EQ. apply Rmult_le_compat_r; assumption.
  - destruct (lin_positive p q r m A1 A2 A3 N) as (cur & s & E & Hs & EM). exists cur, (scale3 s m). split; [exact E|]. split; [exact EM|]. split; [intros Y; contradiction|]. intros _. exists s. split; [exact Hs|]. apply SP.
Qed.
Lemma wired_moment sat p q r ref hr B m y t : 0 < p -> 0 < q -> 0 < r -> seen B y t <> zero3 -> rw_momentum_r (s_rw sat) ref = Ok hr -> wired_dump sat p q r ref B m y t ->
  let e := excess sat hr y t in let b := seen B y t in let a := wanted sat hr B y t in
    (has_negative a -> 0 < dot3 e (cross3 (m t) b) /\ 1.86 * Rmin p (Rmin q r) * norm3 (cross3 e b) <= dot3 e (cross3 (m t) b)) /\
    (~ has_negative a -> exists s, 0 < s <= 1 /\ dot3 e (cross3 (m t) b) = - s * K_BBQ * (dot3 (cross3 e b) (cross3 e b) / dot3 b b)).
Proof.
  intros A1 A2 A3 NB HR (ctl & cur & D & EM) e b a. destruct (wired_work p q r e b A1 A2 A3 NB) as (cur' & M & E & EM' & W). fold a in E.
  unfold desaturate, desaturate_torque in D. cbn [mag_new mc_sat cs_v] in D. unfold rw_momentum_r at 1 in D. destruct (Nat.ltb (length (v_whl (y t))) _); [discriminate|]. cbn [rbind] in D. rewrite HR in D. cbn [rbind] in D.
  change (sub3 (rw_momentum (s_rw sat) (v_whl (y t))) hr) with e in D. rewrite C53_commands in D by reflexivity. cbn [mc_torquers mag_new cs_mag] in D. change (mag_moment_cmd (seen B y t) (scale3 (- K_BBQ) e)) with a in D. change (mag_moment_cmd b (scale3 (- K_BBQ) e)) with a in E. rewrite E in D. assert (cur' = cur) by congruence. subst cur'. rewrite EM in EM'. injection EM' as ->. exact W.
Qed.
(** on the reference the wheels take exactly what the torquers give *)
Lemma on_reference w f m B qc wc F y t hr : wc_sun w = Some f -> zone_free w -> spanning (s_rw (wc_sat w)) -> det3 (s_total_moment (wc_sat w)) <> 0 -> follows w m B qc wc F y t -> unitq (qc t) ->
  v_att (y t) = qc t -> v_rate (y t) = wc -> cross3 wc (add3 (mv (s_total_moment (wc_sat w)) wc) hr) = zero3 ->
  deriv3 (fun u => held (wc_sat w) (y u)) t (sub3 (cross3 (m t) (seen B y t)) (cross3 wc (excess (wc_sat w) hr y t))).
Proof.
  intros HS HZ SP DJ FO U EA ER PR. destruct (follows_torque _ _ _ _ _ _ _ _ SP FO) as (w' & u & acc & TR & TA & (_ & _ & _ & _ & DL)). cbn [derivative v_whl] in DL.
  assert (HL := tracking_len _ _ _ _ _ _ TR). assert (T := tracking_free w (y t) wc zero3 (qc t) f HS HZ HL). cbv zeta in T. rewrite TR in T. assert (EU := f_equal (fun r => match r with Ok (_, x) => x | _ => zero3 end) T). cbv beta iota in EU. clear T.
  assert (EQ : error_quat (v_att (y t)) (qc t) = mkq 1 0 0 0). { rewrite EA. unfold unitq in U. unfold error_quat. transitivity (mkq (dotq (qc t) (qc t)) 0 0 0); [|rewrite U; reflexivity]. generalize (qc t). clear. intros [a b c d]. unfold conjugate, product. vunfoldg. cbn [x3 y3 z3 qw qx qy qz]. rnumg. apply mkq_c; ring. }
  rewrite EQ, ER in EU. assert (ID : forall v : v3, sandwich (mkq 1 0 0 0) v = v). { clear. intros [p q r]. unfold sandwich, conjugate, product. vunfoldg. cbn [x3 y3 z3 qw qx qy qz]. rnumg. apply mk3_c; ring. }
  rewrite !ID in EU. fold (held (wc_sat w) (y t)) in EU. set (J := s_total_moment (wc_sat w)) in *. set (h := held (wc_sat w) (y t)) in *.
  assert (EU2 : u = cross3 wc (add3 (mv J wc) h)).
  { rewrite EU. match goal with |- add3 _ (mv J ?z) = _ => assert (Z : z = zero3) end. { generalize (- tr_mem (trig_step (qw (mkq 1 0 0 0)) (wc_trig w)) * wc_alpha w) (wc_gamma w). clear. intros k g. destruct wc as [a b c]. unfold vec. vunfoldg. cbn [x3 y3 z3 qx qy qz]. rnumg. apply mk3_c; ring. }
    rewrite Z. assert (MZ : mv J zero3 = zero3) by (generalize J; clear; intros [[a1 a2 a3] [b1 b2 b3] [c1 c2 c3]]; vunfoldg; cbn [x3 y3 z3 row1 row2 row3]; rnumg; apply mk3_c; ring). rewrite MZ. generalize (cross3 wc (add3 (mv J wc) h)). clear. vring. }
  eapply d3_eq; [exact (d3_momentum (s_rw (wc_sat w)) (fun u => v_whl (y u)) t acc DL)|]. rewrite TA, EU2. unfold excess. fold h.
  transitivity (sub3 (sub3 (cross3 (m t) (seen B y t)) (cross3 wc (sub3 h hr))) (cross3 wc (add3 (mv J wc) hr))); [generalize (cross3 (m t) (seen B y t)) h (mv J wc); clear; intros x h v; destruct x as [x1 x2 x4], h as [h1 h2 h3], v as [v1 v2 v4], wc as [w1 w2 w3], hr as [r1 r2 r3]; vunfoldg; cbn [x3 y3 z3]; rnumg; apply mk3_c; ring|].
  rewrite PR. generalize (sub3 (cross3 (m t) (seen B y t)) (cross3 wc (sub3 h hr))). clear. vring.
Qed.
(** ** the wheels' excess momentum grows whenever a component asked for is negative, and falls otherwise *)
Theorem C122_power : forall w f p q r ref hr m B qc wc F y t, 0 < p -> 0 < q -> 0 < r -> wc_sun w = Some f -> zone_free w -> spanning (s_rw (wc_sat w)) -> det3 (s_total_moment (wc_sat w)) <> 0 ->
  unitq (qc t) -> seen B y t <> zero3 -> rw_momentum_r (s_rw (wc_sat w)) ref = Ok hr -> cross3 wc (add3 (mv (s_total_moment (wc_sat w)) wc) hr) = zero3 ->
  v_att (y t) = qc t -> v_rate (y t) = wc -> follows w m B qc wc F y t -> wired_dump (wc_sat w) p q r ref B m y t ->
  let e := excess (wc_sat w) hr y in let a := wanted (wc_sat w) hr B y t in exists d, derivable_pt_lim (fun u => dot3 (e u) (e u)) t d /\
    (has_negative a -> 0 < d /\ 3.72 * Rmin p (Rmin q r) * norm3 (cross3 (e t) (seen B y t)) <= d) /\
    (~ has_negative a -> exists s, 0 < s <= 1 /\ d = - 2 * s * K_BBQ * (dot3 (cross3 (e t) (seen B y t)) (cross3 (e t) (seen B y t)) / dot3 (seen B y t) (seen B y t))).
Proof.
  intros w f p q r ref hr m B qc wc F y t A1 A2 A3 HS HZ SP DJ U NB HR PR EA ER FO WD e a.
  assert (DH := on_reference w f m B qc wc F y t hr HS HZ SP DJ FO U EA ER PR). assert (DE : deriv3 e t (sub3 (cross3 (m t) (seen B y t)) (cross3 wc (e t)))).
  { eapply d3_eq; [exact (d3_sub _ _ t _ _ DH (d3_const hr t))|]. fold (e t). generalize (sub3 (cross3 (m t) (seen B y t)) (cross3 wc (e t))). clear. vring. }
  destruct (wired_moment (wc_sat w) p q r ref hr B m y t A1 A2 A3 NB HR WD) as [P N]. fold (e t) in P, N. fold a in P, N. exists (2 * dot3 (e t) (cross3 (m t) (seen B y t))). split.
  - eapply d_eq; [exact (d_dot3 _ _ t _ _ DE DE)|]. generalize (e t) (m t) (seen B y t). clear. intros e m b. destruct e as [e1 e2 e3], m as [m1 m2 m3], b as [b1 b2 b3], wc as [w1 w2 w3]. vunfoldg. cbn [x3 y3 z3]. rnumg. ring.
  - split; [intros H; destruct (P H); lra|]. intros H. destruct (N H) as (s & Hs & E). exists s. split; [exact Hs|]. rewrite E. ring.
Qed.
Print Assumptions C122_power.
(** over a stretch of time: the squared excess never falls, and gains at least the torque the smallest torquer gives *)
Theorem C122_stretch : forall w f p q r ref hr m B qc wc F y t1 t2 g, 0 < p -> 0 < q -> 0 < r -> wc_sun w = Some f -> zone_free w -> spanning (s_rw (wc_sat w)) -> det3 (s_total_moment (wc_sat w)) <> 0 ->
  rw_momentum_r (s_rw (wc_sat w)) ref = Ok hr -> cross3 wc (add3 (mv (s_total_moment (wc_sat w)) wc) hr) = zero3 -> t1 <= t2 -> 0 <= g ->
  (forall t, t1 <= t <= t2 -> unitq (qc t) /\ seen B y t <> zero3 /\ v_att (y t) = qc t /\ v_rate (y t) = wc /\ follows w m B qc wc F y t /\ wired_dump (wc_sat w) p q r ref B m y t /\
    has_negative (wanted (wc_sat w) hr B y t) /\ g <= norm3 (cross3 (excess (wc_sat w) hr y t) (seen B y t))) ->
  let e := excess (wc_sat w) hr y in dot3 (e t1) (e t1) + 3.72 * Rmin p (Rmin q r) * g * (t2 - t1) <= dot3 (e t2) (e t2).
Proof.
  intros w f p q r ref hr m B qc wc F y t1 t2 g A1 A2 A3 HS HZ SP DJ HR PR L G0 HY e. set (mu := Rmin p (Rmin q r)). assert (Mu0 : 0 < mu) by (unfold mu; repeat apply Rmin_pos; assumption).
  assert (DV : forall t, t1 <= t <= t2 -> exists d, derivable_pt_lim (fun u => dot3 (e u) (e u)) t d /\ 3.72 * mu * g <= d).
  { intros t Ht. destruct (HY t Ht) as (U & NB & EA & ER & FO & WD & NG & GG). destruct (C122_power w f p q r ref hr m B qc wc F y t A1 A2 A3 HS HZ SP DJ U NB HR PR EA ER FO WD) as (d & D & P & _). exists d. split; [exact D|]. destruct (P NG) as [_ P2]. fold mu in P2. eapply Rle_trans; [|exact P2]. apply Rmult_le_compat_l; [lra|exact GG]. }
  set (k := 3.72 * mu * g) in *. set (h := fun u => dot3 (e u) (e u)) in *.
  assert (DF : forall t, t1 <= t <= t2 -> derivable_pt_lim h t (Derive h t) /\ k <= Derive h t).
  { intros t Ht. destruct (DV t Ht) as (d & D & P). assert (E : Derive h t = d) by (apply is_derive_unique, is_derive_Reals, D). rewrite E. split; assumption. }
  assert (X := le_of_deriv (fun u => k * u - h u) (fun u => k * 1 - Derive h u) t1 t2 L (fun u Hu => d_minus _ _ u _ _ (d_lin _ _ _ k (d_id u)) (proj1 (DF u Hu))) ltac:(intros u Hu; destruct (DF u Hu); cbv beta; lra)). cbv beta in X. unfold h in X. lra.
Qed.
Print Assumptions C122_stretch.

(** ** the standby roll with one wheel spinning about the roll axis, in a field the satellite sees along -x *)
Definition back (b0 : R) : v3 := mk3 (- b0) 0 0.
Definition full_y (q : R) : R := gain_lin * (187 / 100 * q).
Lemma spun_follows2 b sg (m : R -> v3) r t : derivable_pt_lim sg t r -> cross3 (m t) b = scale3 r ez -> follows axis_ctl m (bfield b) rolled BBQ (fun _ => zero3) (spun sg) t.
Proof.
  intros D X. assert (X' : cross3 b (m t) = mk3 0 0 (- r)) by (transitivity (scale3 (-1) (cross3 (m t) b)); [generalize (m t) b; clear; vring|rewrite X; unfold ez; vunfoldg; cbn [x3 y3 z3]; rnumg; apply mk3_c; ring]).
  assert (AC : whl_actuator_commands axis_ctl (add3 zero3 (mk3 0 0 (- r))) = Ok [0; 0; r]).
  { unfold whl_actuator_commands, rw_accelerations. cbn [axis_ctl wc_sat free_ball s_rw rw_limited rbind]. f_equal. unfold rw_distribute, rw_gram.
    cbn [rw_wheels map summ fold_right w_axis zip_with]. unfold w_acceleration. cbn [w_par]. vunfoldg; cbn [x3 y3 z3 row1 row2 row3]; rnumg. apply (f_equal2 (@cons R)); [|apply (f_equal2 (@cons R)); [|apply (f_equal2 (@cons R)); [|reflexivity]]]; field. }
  exists axis_ctl, zero3, [0; 0; r]. split; [apply spun_tracking|]. split; [left; reflexivity|]. split.
  { unfold track_and_desaturate. cbn [cs_v cs_mag]. rewrite spun_tracking. cbn [rbind]. rewrite spun_seen, X', AC. reflexivity. }
  rewrite spun_seen, X. change (rw_momentum (s_rw (wc_sat axis_ctl)) (v_whl (spun sg t))) with (held free_ball (spun sg t)). rewrite spun_held. unfold derivative. cbn [axis_ctl wc_sat].
  split; [|split; [|split; [|split]]]; cbn [spun v_pos v_vel v_att v_rate v_whl].
  - exact (d3_const zero3 t).
  - eapply d3_eq; [exact (d3_const zero3 t)|]. vunfoldg; cbn [x3 y3 z3]; rnumg. apply mk3_c; unfold Rdiv; ring.
  - exact (proj2 (rolled_steady t)).
  - eapply d3_eq; [exact (d3_const BBQ t)|]. change (s_inv_tot free_ball) with (inv3 (s_total_moment free_ball)). rewrite free_ball_total, BBQ_eq. unfold rw_torque, w_torque, ez. cbn [free_ball s_rw rw_wheels zip_with sum3 fold_right w_par w_axis]. generalize (4 * 0.00733). intros k. vunfoldg; cbn [x3 y3 z3 row1 row2 row3]; rnumg. apply mk3_c; field.
  - intros i. destruct i as [|[|[|i]]]; cbn [nth]; [apply d_const|apply d_const|exact D|destruct i; apply d_const].
Qed.
Lemma one_y a b c z : 0 < a -> 0 < b -> 0 < c -> z < 0 -> exists cur, distribute (lin3 a b c) [0; z; 0] = Ok cur /\ sys_actuate (lin3 a b c) cur = Ok (mk3 0 (full_y b) 0).
Proof.
  intros A B C Z. set (s := 187 / 100 * b / z). assert (S0 : s < 0). { unfold s, Rdiv at 1. assert (V := Rinv_lt_0_compat z Z). assert (0 < 187 / 100 * b * - / z) by (apply Rmult_lt_0_compat; lra). lra. }
  assert (E : distribute (lin3 a b c) [0; z; 0] = currents (lin3 a b c) (scaled s [0; z; 0])).
  { assert (E0 : Reqb 0 0 = true) by (apply Reqb_true; reflexivity). assert (E1 : Reqb z 0 = false) by (apply Reqb_false; lra). assert (E2 : Rltb s 1 = true) by (apply Rltb_true; lra).
    assert (ER : ratios ext_ratio (lin3 a b c) [0; z; 0] = Ok [None; Some s; None]). { unfold lin3. cbn [ratios rbind]. rewrite (lin_max _ b u_y B). unfold ext_ratio. rewrite E0, E1. reflexivity. }
    unfold distribute. rewrite ER. cbn [rbind ext_min fold_left ext_ltb scaled_command]. rnumg. rewrite E2. reflexivity. }
  rewrite currents_ok in E by reflexivity. eexists. split; [exact E|]. assert (X := lin_actuate a b c s (mk3 0 z 0)). cbn [x3 y3 z3] in X. rewrite X. f_equal. vunfoldg. cbn [x3 y3 z3]. rnumg. unfold full_y, s. apply mk3_c; field; lra.
Qed.
Lemma back_asked b0 sg t : b0 <> 0 -> asked (back b0) sg t = mk3 0 (- (K_BBQ * sg t / b0)) 0.
Proof. intros N. unfold asked, mag_moment_cmd, back, ez. generalize K_BBQ (sg t). intros k s. vunfoldg. cbn [x3 y3 z3]. rnumg. apply mk3_c; field; exact N. Qed.
Lemma no_speed : rw_momentum_r (s_rw free_ball) [0; 0; 0; 0] = Ok zero3.
Proof. unfold rw_momentum_r. cbn [free_ball s_rw rw_wheels length Nat.ltb Nat.leb]. f_equal. unfold rw_momentum, w_momentum. cbn [rw_wheels zip_with sum3 fold_right w_par w_axis]. vunfoldg. cbn [x3 y3 z3]. rnumg. apply mk3_c; ring. Qed.
Lemma spun_excess sg t : excess free_ball zero3 (spun sg) t = scale3 (sg t) ez.
Proof. unfold excess. rewrite spun_held. unfold ez. vunfoldg. cbn [x3 y3 z3]. rnumg. apply mk3_c; ring. Qed.
Lemma spun_wanted b sg t : wanted free_ball zero3 (bfield b) (spun sg) t = asked b sg t.
Proof. unfold wanted. rewrite spun_seen, spun_excess. reflexivity. Qed.
Lemma spun_wired p q r b0 sg t : 0 < p -> 0 < q -> 0 < r -> 0 < b0 -> 0 < sg t -> wired_dump free_ball p q r [0; 0; 0; 0] (bfield (back b0)) (fun _ => mk3 0 (full_y q) 0) (spun sg) t.
Proof.
  intros A1 A2 A3 P S. assert (K := K_pos). assert (Z : - (K_BBQ * sg t / b0) < 0). { assert (0 < K_BBQ * sg t / b0) by (apply Rdiv_lt_0_compat; [apply Rmult_lt_0_compat; assumption|exact P]). lra. }
  destruct (one_y p q r _ A1 A2 A3 Z) as (cur & E & EM). exists (mag_new free_ball (lin3 p q r) false), cur. split; [|exact EM].
  unfold desaturate, desaturate_torque. cbn [mag_new mc_sat cs_v]. unfold rw_momentum_r at 1. cbn [spun v_whl free_ball s_rw rw_wheels length Nat.ltb Nat.leb rbind]. change (mkRWS _ _ _) with (s_rw free_ball). rewrite no_speed. cbn [rbind].
  change (sub3 (rw_momentum (s_rw free_ball) [0; 0; sg t]) zero3) with (excess free_ball zero3 (spun sg) t). rewrite C53_commands by reflexivity. cbn [mc_torquers mag_new cs_mag]. rewrite spun_seen, spun_excess. change (mag_moment_cmd (back b0) (scale3 (- K_BBQ) (scale3 (sg t) ez))) with (asked (back b0) sg t). rewrite back_asked by lra. cbn [x3 y3 z3]. rewrite E. reflexivity.
Qed.
Lemma back_field b0 t : bfield (back b0) t = scale3 (- b0) (bfield ex t).
Proof. unfold bfield. destruct (sandwich_opp_rigid (rolled t) (rolled_unit t)) as (_ & _ & _ & R4). rewrite <- R4. f_equal. unfold back, ex. vunfoldg. cbn [x3 y3 z3]. rnumg. apply mk3_c; ring. Qed.
(** ** C122: the standby roll from the same start.  With the moment asked for, the wheel runs down exponentially, and in this field every
    standby motion empties its wheels; with the moment wired, the satellite rolls on exactly as it should and the wheel speeds up for ever *)
Theorem C122_spinup_refuted : forall p q r b0 s0, 0 < p -> 0 < q -> 0 < r -> 0 < b0 -> 0 < s0 -> exists B k y y' m', 0 < k /\ field B /\ (forall t, dot3 (B t) (B t) = b0 * b0) /\ y 0 = y' 0 /\ v_whl (y 0) = [0; 0; s0] /\
  standby axis_ctl (mag_new free_ball (lin3 p q r) false) (fun _ => ex) [0; 0; 0; 0] zero3 m' B rolled BBQ (fun _ => zero3) y' (-1) /\ (forall t, v_whl (y' t) = [0; 0; s0 * exp (- K_BBQ * t)]) /\
  (forall w c f m clock F z a j, (forall u, clk_absolute (clock u) = u) -> mv (s_total_moment (wc_sat w)) ez = scale3 j ez ->
    standby w c f [0; 0; 0; 0] zero3 m B (fun t => ecliptic_attitude (clock t) true) BBQ F z a -> is_lim (fun t => norm3 (held (wc_sat w) (z t))) p_infty 0) /\
  (forall t, 0 <= t -> exists m, wired_dump free_ball p q r [0; 0; 0; 0] B m y t /\ follows axis_ctl m B rolled BBQ (fun _ => zero3) y t /\ v_att (y t) = rolled t /\ v_rate (y t) = BBQ /\ v_whl (y t) = [0; 0; s0 + k * t]) /\
  is_lim (fun t => norm3 (held free_ball (y t))) p_infty p_infty.
Proof.
  intros p q r b0 s0 A1 A2 A3 P W. set (k := full_y q * b0). assert (K := K_pos). assert (Kp : 0 < k) by (unfold k, full_y, gain_lin; apply Rmult_lt_0_compat; [lra|exact P]).
  set (up := fun t => s0 + k * t). set (dn := fun t => s0 * exp (- K_BBQ * t)). set (B := bfield (back b0)).
  assert (NB : back b0 <> zero3) by (unfold back; intros E; injection E as E; rnumg; lra). assert (FB : field B) by (apply bfield_field, NB).
  exists B, k, (spun up), (spun dn), (asked (back b0) dn). split; [exact Kp|]. split; [exact FB|].
  split. { intros t. unfold B, bfield. destruct (sandwich_opp_rigid (rolled t) (rolled_unit t)) as (R1 & _). rewrite R1. unfold back. vunfoldg. cbn [x3 y3 z3]. rnumg. ring. }
  split. { unfold spun, up, dn. rewrite !Rmult_0_r, exp_0, Rmult_1_r, Rplus_0_r. reflexivity. }
  split. { cbn [spun v_whl]. unfold up. rewrite Rmult_0_r, Rplus_0_r. reflexivity. }
  split.
  { assert (DE : forall t, derivable_pt_lim dn t (- K_BBQ * dn t)). { intros t. unfold dn. eapply d_eq; [apply d_lin; apply (derivable_pt_lim_comp (fun t => - K_BBQ * t) exp); [apply d_lin, d_id|apply derivable_pt_lim_exp]|]. ring. }
    assert (ST := spun_standby (back b0) dn (fun t => - K_BBQ * dn t) DE). assert (CX : forall t, cross3 (asked (back b0) dn t) (back b0) = scale3 (- K_BBQ * dn t) ez).
    { intros t. rewrite back_asked by lra. unfold back, ez. vunfoldg. cbn [x3 y3 z3]. rnumg. apply mk3_c; field; lra. }
    specialize (ST CX). unfold standby in ST |- *. exact ST. }
  split; [reflexivity|]. split.
  { intros w c f m clock F z a j CK PR ST. destruct C110_ex as (_ & _ & _ & (Pd & t1 & t2 & Pp & PB & CX) & _). apply (C110_bbq w c f m B clock F z a Pd t1 t2 j FB Pp); [|unfold B; rewrite !back_field|exact CK|exact PR|exact ST].
    - intros t. unfold B. rewrite !back_field, PB. reflexivity.
    - intros E. apply CX. assert (E2 : cross3 (scale3 (- b0) (bfield ex t1)) (scale3 (- b0) (bfield ex t2)) = scale3 (b0 * b0) (cross3 (bfield ex t1) (bfield ex t2))) by (generalize (bfield ex t1) (bfield ex t2); clear; vring).
      rewrite E2 in E. assert (BB : 0 < b0 * b0) by (apply Rmult_lt_0_compat; exact P). revert E. generalize (cross3 (bfield ex t1) (bfield ex t2)). intros [c1 c2 c3]. vunfoldg. cbn [x3 y3 z3]. rnumg. intros E. injection E as E1 E3 E4. apply mk3_c; [apply Rmult_integral in E1|apply Rmult_integral in E3|apply Rmult_integral in E4]; lra. }
  assert (UP : forall t, 0 <= t -> s0 <= up t) by (intros t Ht; unfold up; assert (0 <= k * t) by (apply Rmult_le_pos; lra); lra).
  split.
  { intros t Ht. exists (fun _ => mk3 0 (full_y q) 0). assert (U := UP t Ht). split; [apply spun_wired; try assumption; lra|]. split; [|split; [reflexivity|split; reflexivity]].
    apply (spun_follows2 _ _ _ k); [unfold up; eapply d_eq; [exact (d_plus _ _ t _ _ (d_const s0 t) (d_lin _ t _ k (d_id t)))|cbv beta; ring]|]. unfold back, ez, k. vunfoldg. cbn [x3 y3 z3]. rnumg. apply mk3_c; ring. }
  apply is_lim_spec. intros M. exists (Rmax 0 (M / k)). intros t Ht. assert (T0 := Rmax_l 0 (M / k)). assert (T1 := Rmax_r 0 (M / k)). assert (U := UP t ltac:(lra)). rewrite spun_held.
  replace (norm3 (scale3 (up t) ez)) with (up t).
  - unfold up. assert (L : M / k < t) by lra. assert (L2 : k * (M / k) < k * t) by (apply Rmult_lt_compat_l; assumption). replace (k * (M / k)) with M in L2 by (field; lra). lra.
  - unfold norm3, ez. vunfoldg. cbn [x3 y3 z3]. rnumg. match goal with |- _ = sqrt ?e => replace e with (Rsqr (up t)) by (unfold Rsqr; ring) end. rewrite sqrt_Rsqr by lra. reflexivity.
Qed.
Print Assumptions C122_spinup_refuted.
(** the hypotheses are met: by the motion above on every stretch of time, asked for a negative component throughout; and by the wheel
    turning the other way, asked for none *)
Example C122_ex : let k := full_y 1 in let B := bfield (back 1) in let y := spun (fun t => 1 + k * t) in let m := fun _ : R => mk3 0 k 0 in
  wc_sun axis_ctl = Some (fun _ => ex) /\ zone_free axis_ctl /\ spanning (s_rw free_ball) /\ det3 (s_total_moment free_ball) <> 0 /\ rw_momentum_r (s_rw free_ball) [0; 0; 0; 0] = Ok zero3 /\ cross3 BBQ (add3 (mv (s_total_moment free_ball) BBQ) zero3) = zero3 /\
  (forall t, 0 <= t -> unitq (rolled t) /\ seen B y t <> zero3 /\ v_att (y t) = rolled t /\ v_rate (y t) = BBQ /\ follows axis_ctl m B rolled BBQ (fun _ => zero3) y t /\ wired_dump free_ball 1 1 1 [0; 0; 0; 0] B m y t /\
    has_negative (wanted free_ball zero3 B y t) /\ 1 <= norm3 (cross3 (excess free_ball zero3 y t) (seen B y t))) /\
  exists s' r', let y' := spun (fun t => -1 + r' * t) in let m' := fun _ : R => mk3 0 s' 0 in
    seen B y' 0 <> zero3 /\ follows axis_ctl m' B rolled BBQ (fun _ => zero3) y' 0 /\ wired_dump free_ball 1 1 1 [0; 0; 0; 0] B m' y' 0 /\ ~ has_negative (wanted free_ball zero3 B y' 0).
Proof.
  intros k B y m. assert (K := K_pos). assert (Kp : 0 < k) by (unfold k, full_y, gain_lin; lra). split; [reflexivity|]. split; [right; reflexivity|]. split; [exact free_ball_spanning|]. split; [exact ball_det|]. split; [apply no_speed|].
  split. { rewrite free_ball_total, BBQ_eq. vunfoldg. cbn [x3 y3 z3 row1 row2 row3]. rnumg. apply mk3_c; ring. }
  split.
  - intros t Ht. assert (UP : 1 <= 1 + k * t) by (assert (0 <= k * t) by (apply Rmult_le_pos; lra); lra). split; [apply rolled_unit|]. split; [unfold B, y; rewrite spun_seen; unfold back; intros E; injection E as E; rnumg; lra|]. split; [reflexivity|]. split; [reflexivity|]. split; [|split; [|split]].
    + apply (spun_follows2 _ _ _ k); [eapply d_eq; [exact (d_plus _ _ t _ _ (d_const 1 t) (d_lin _ t _ k (d_id t)))|cbv beta; ring]|]. unfold back, ez, m. vunfoldg. cbn [x3 y3 z3]. rnumg. apply mk3_c; ring.
    + apply spun_wired; lra.
    + unfold B, y. rewrite spun_wanted, back_asked by lra. unfold has_negative. cbn [x3 y3 z3]. right. left. assert (0 < K_BBQ * (1 + k * t)) by (apply Rmult_lt_0_compat; lra). unfold Rdiv. rewrite Rinv_1. lra.
    + unfold B, y. rewrite spun_excess, spun_seen. unfold back, ez, norm3. vunfoldg. cbn [x3 y3 z3]. rnumg. match goal with |- _ <= sqrt ?e => replace e with (Rsqr (1 + k * t)) by (unfold Rsqr; ring) end. rewrite sqrt_Rsqr by lra. exact UP.
  - set (a := mk3 0 (K_BBQ) 0 : v3). assert (NA : ~ has_negative a) by (unfold has_negative, a; cbn [x3 y3 z3]; lra). destruct (lin_positive 1 1 1 a ltac:(lra) ltac:(lra) ltac:(lra) NA) as (cur & s & E & _ & EM). exists (s * K_BBQ), (s * K_BBQ). intros y' m'.
    assert (WA : wanted free_ball zero3 B y' 0 = a). { unfold B, y'. rewrite spun_wanted, back_asked by lra. unfold a. apply mk3_c; field. }
    split; [unfold B, y'; rewrite spun_seen; unfold back; intros X; injection X as X; rnumg; lra|]. split; [|split; [|rewrite WA; exact NA]].
    + apply (spun_follows2 _ _ _ (s * K_BBQ)); [eapply d_eq; [exact (d_plus _ _ 0 _ _ (d_const (-1) 0) (d_lin _ 0 _ (s * K_BBQ) (d_id 0)))|cbv beta; ring]|]. unfold back, ez, m'. generalize K_BBQ. intros c. vunfoldg. cbn [x3 y3 z3]. rnumg. apply mk3_c; ring.
    + exists (mag_new free_ball (lin3 1 1 1) false), cur. split.
      * unfold desaturate, desaturate_torque. cbn [mag_new mc_sat cs_v]. unfold rw_momentum_r at 1. unfold y' at 1. cbn [spun v_whl free_ball s_rw rw_wheels length Nat.ltb Nat.leb rbind]. change (mkRWS _ _ _) with (s_rw free_ball). rewrite no_speed. cbn [rbind].
        change (sub3 (rw_momentum (s_rw free_ball) (v_whl (y' 0))) zero3) with (excess free_ball zero3 y' 0). rewrite C53_commands by reflexivity. cbn [mc_torquers mag_new cs_mag]. change (mag_moment_cmd (seen B y' 0) (scale3 (- K_BBQ) (excess free_ball zero3 y' 0))) with (wanted free_ball zero3 B y' 0). rewrite WA, E. reflexivity.
      * rewrite EM. f_equal. unfold a, m'. vunfoldg. cbn [x3 y3 z3]. rnumg. apply mk3_c; ring.
Qed.
