(** * C119: detumbling as it is wired up, through distribute and the torquers *)
From Coq Require Import Reals ZArith List Bool Arith Lra Psatz Lia.
From Coquelicot Require Import Coquelicot.
From Verif Require Import Num Vec M_vector M_quaternion M_struct M_env M_dyn M_ctrl S_rot S_dyn P_quat P_struct P_wheel P_dyn P_dyn2 P_ctrl2 Props_ctrl P_detum P_detum2 Props_detum.
Import ListNotations.
Local Open Scope R_scope.

(** wheels at rest, no torque but the magnetic one: at time t the body is under the moment that the torquers make of the currents detumble returns *)
Definition wired_at (sat : Satellite) (ts : list (Torquer R)) (B : R -> v3) (F : R -> v3) (accl : R -> list R) (y : R -> SVec) (t : R) : Prop :=
  exists c cur M, detumble (mag_new sat ts false) (mkCS (y t) (seen B y t)) = Ok (c, cur) /\ sys_actuate ts cur = Ok M /\
    deriv_sv y t (derivative sat (y t) (F t) (cross3 M (seen B y t)) zero3 zero3 (accl t)).
(** the moment asked for *)
Definition asked (sat : Satellite) (B : R -> v3) (y : R -> SVec) (t : R) : v3 := mag_moment_cmd (seen B y t) (detumble_torque sat (v_rate (y t))).
Definition has_negative (m : v3) : Prop := x3 m < 0 \/ y3 m < 0 \/ z3 m < 0.

Lemma lin_max (ax : v3) a : unit3 ax -> 0 < a -> max_m (mkT LinearRod ax a) = 187 / 100 * a.
Proof. intros U A. rewrite max_m_R by exact U. cbn [t_type t_maxA mt_moment]. rnumg. rewrite Rabs_pos_eq; lra. Qed.
Lemma u_x : unit3 (mk3 1 0 0 : v3). Proof. unfold unit3, dot3; cbn [x3 y3 z3]; rnumg; ring. Qed.
Lemma u_y : unit3 (mk3 0 1 0 : v3). Proof. unfold unit3, dot3; cbn [x3 y3 z3]; rnumg; ring. Qed.
Lemma u_z : unit3 (mk3 0 0 1 : v3). Proof. unfold unit3, dot3; cbn [x3 y3 z3]; rnumg; ring. Qed.
Definition gain_lin : R := 187 / 100 * (5347593 / 10000000).
Lemma lin_actuate a b c s (m : v3) : sys_actuate (lin3 a b c) (zip_with (fun (t : Torquer R) x => getCurrent (t_type t) x) (lin3 a b c) (scaled s [x3 m; y3 m; z3 m])) = Ok (scale3 (gain_lin * s) m).
Proof.
  unfold lin3, scaled. cbn [zip_with map t_type getCurrent sys_actuate rbind t_axis mt_actuate]. f_equal. destruct m as [x y z].
  vunfoldg; cbn [x3 y3 z3]; rnumg. unfold gain_lin. replace 1.87 with (187/100) by lra. replace 0.5347593 with (5347593 / 10000000) by lra. apply mk3_c; field.
Qed.
Lemma lin_negative a b c (m : v3) : 0 < a -> 0 < b -> 0 < c -> has_negative m ->
  exists cur s, distribute (lin3 a b c) [x3 m; y3 m; z3 m] = Ok cur /\ s < 0 /\ sys_actuate (lin3 a b c) cur = Ok (scale3 s m) /\
    (x3 m < 0 -> 1.86 * a <= x3 m * s) /\ (y3 m < 0 -> 1.86 * b <= y3 m * s) /\ (z3 m < 0 -> 1.86 * c <= z3 m * s).
Proof.
  intros A B C N.
  assert (EX : Exists (fun x => x < 0) [x3 m; y3 m; z3 m]).
  { destruct N as [N|[N|N]]; [constructor 1|constructor 2; constructor 1|constructor 2; constructor 2; constructor 1]; exact N. }
  destruct (distribute_negative (lin3 a b c) [x3 m; y3 m; z3 m] ltac:(discriminate) eq_refl (lin3_max a b c A B C) EX) as (s & Hs & E & G & _).
  rewrite currents_ok in E by reflexivity. eexists. exists (gain_lin * s). split; [exact E|]. split; [unfold gain_lin; lra|]. split; [apply lin_actuate|].
  assert (P : forall x k, k * (187 / 100) <= x * s -> 0 < k -> 1.86 * k <= x * (gain_lin * s)) by (intros x k H K; unfold gain_lin; lra).
  split; [|split]; intros L; (apply P; [|assumption]).
  - rewrite Rmult_comm, <- (lin_max _ _ u_x A). apply G; [left; reflexivity|exact L].
  - rewrite Rmult_comm, <- (lin_max _ _ u_y B). apply G; [right; left; reflexivity|exact L].
  - rewrite Rmult_comm, <- (lin_max _ _ u_z C). apply G; [right; right; left; reflexivity|exact L].
Qed.
Lemma lin_positive a b c (m : v3) : 0 < a -> 0 < b -> 0 < c -> ~ has_negative m ->
  exists cur s, distribute (lin3 a b c) [x3 m; y3 m; z3 m] = Ok cur /\ 0 < s <= 1 /\ sys_actuate (lin3 a b c) cur = Ok (scale3 s m).
Proof.
  intros A B C N. unfold has_negative in N.
  destruct (distribute_nonneg (lin3 a b c) [x3 m; y3 m; z3 m] ltac:(discriminate) eq_refl (lin3_max a b c A B C)) as (s & Hs & E & _). { apply Forall_cons; [lra|]. apply Forall_cons; [lra|]. apply Forall_cons; [lra|]. apply Forall_nil. }
  rewrite currents_ok in E by reflexivity. eexists. exists (gain_lin * s). split; [exact E|]. split; [unfold gain_lin; lra|]. apply lin_actuate.
Qed.
Lemma ask_size k (h B : v3) : B <> zero3 -> 0 < k -> dot3 (mag_moment_cmd B (scale3 (- k) h)) (mag_moment_cmd B (scale3 (- k) h)) = k * k * across h B / dot3 B B.
Proof.
  intros N K. assert (P : dot3 B B <> 0) by (intros E; apply N, dot3_zero, E). unfold across. destruct B as [a b c], h as [x y z]. revert P. unfold mag_moment_cmd. vunfoldg; cbn [x3 y3 z3]; rnumg. intros P. field; exact P.
Qed.
(** ** the momentum grows whenever a component asked for is negative, and falls otherwise *)
Theorem C119_power : forall sat a b c B F accl y t, 0 < a -> 0 < b -> 0 < c -> det3 (s_total_moment sat) <> 0 -> seen B y t <> zero3 -> wired_at sat (lin3 a b c) B F accl y t ->
  let h := spin_of sat y in let m := asked sat B y t in exists d, derivable_pt_lim (fun u => dot3 (h u) (h u)) t d /\
    (has_negative m -> 0 < d /\ 3.72 * Rmin a (Rmin b c) * norm3 (cross3 (h t) (seen B y t)) <= d) /\
    (~ has_negative m -> exists s, 0 < s <= 1 /\ d = - 2 * s * K_BBQ * (dot3 (cross3 (h t) (seen B y t)) (cross3 (h t) (seen B y t)) / dot3 (seen B y t) (seen B y t))).
Proof.
  intros sat a b c B F accl y t A1 A2 A3 DJ NB (ct & cur & M & ED & EM & D) h m. unfold detumble in ED. rewrite C53_commands in ED by reflexivity. cbn [mc_torquers mc_sat mag_new cs_mag cs_v] in ED. change (mag_moment_cmd (seen B y t) (detumble_torque sat (v_rate (y t)))) with m in ED.
  set (Bb := seen B y t) in *. destruct D as (_ & _ & _ & D & _). cbn [derivative v_rate] in D.
  assert (H := d3_mv (s_total_moment sat) _ t _ D). cbv beta in H. unfold s_inv_tot in H. rewrite mv_inv3 in H by exact DJ. assert (DD := d_dot3 h h t _ _ H H). cbv beta in DD. clear H D. assert (K := K_pos).
  assert (PW : dot3 (h t) (cross3 m Bb) = - K_BBQ * across (h t) Bb). { unfold m, asked, detumble_torque. fold Bb. change (mv (s_total_moment sat) (v_rate (y t))) with (h t). apply mag_power, NB. }
  assert (SP : forall s, M = scale3 s m -> derivable_pt_lim (fun u => dot3 (h u) (h u)) t (- 2 * s * K_BBQ * across (h t) Bb)).
  { intros s ES. eapply d_eq; [exact DD|]. rewrite ES. change (mv (s_total_moment sat) (v_rate (y t))) with (h t). transitivity (2 * s * dot3 (h t) (cross3 m Bb)); [|rewrite PW; ring]. generalize (h t) m Bb (v_rate (y t)). clear. vring. }
  assert (PB := dpos Bb NB). destruct (across_nonneg (h t) Bb NB) as [Q1 Q2].
  assert (MS : dot3 m m = K_BBQ * K_BBQ * across (h t) Bb / dot3 Bb Bb). { unfold m, asked, detumble_torque. fold Bb. change (mv (s_total_moment sat) (v_rate (y t))) with (h t). apply ask_size; [exact NB|exact K]. }
  assert (DECN : has_negative m \/ ~ has_negative m) by (unfold has_negative; destruct (Rlt_dec (x3 m) 0), (Rlt_dec (y3 m) 0), (Rlt_dec (z3 m) 0); tauto).
  destruct DECN as [N|N].
  - destruct (lin_negative a b c m A1 A2 A3 N) as (cur' & s & E & Hs & EM' & G1 & G2 & G3). rewrite E in ED. injection ED as _ <-. rewrite EM' in EM. injection EM as EM. specialize (SP s (eq_sym EM)). eexists. split; [exact SP|]. split; [|intros X; contradiction]. intros _.
    set (mu := Rmin a (Rmin b c)). assert (Mu0 : 0 < mu) by (unfold mu; repeat apply Rmin_pos; assumption). assert (U1 : mu <= a) by apply Rmin_l. assert (U2 : mu <= b) by (unfold mu; eapply Rle_trans; [apply Rmin_r|apply Rmin_l]). assert (U3 : mu <= c) by (unfold mu; eapply Rle_trans; [apply Rmin_r|apply Rmin_r]).
    set (n := norm3 m). assert (NN : n * n = dot3 m m) by (unfold n, norm3; rnumg; apply sqrt_sqrt, dot3_nonneg). assert (N0 : 0 <= n) by (unfold n, norm3; rnumg; apply sqrt_pos).
    assert (CX : forall p, p * p <= dot3 m m -> p < 0 -> 1.86 * mu <= p * s -> 1.86 * mu <= n * - s). { intros p H1 H2 H3. assert (- p <= n) by (apply Rsqr_incr_0; [unfold Rsqr; lra|lra|lra]). assert (- p * - s <= n * - s) by (apply Rmult_le_compat_r; lra). lra. }
    assert (SZ : x3 m * x3 m <= dot3 m m /\ y3 m * y3 m <= dot3 m m /\ z3 m * z3 m <= dot3 m m). { destruct m as [p q r]. vunfoldg. cbn [x3 y3 z3]. rnumg. assert (Z1 := Rle_0_sqr p). assert (Z2 := Rle_0_sqr q). assert (Z3 := Rle_0_sqr r). unfold Rsqr in *. lra. }
    assert (NS : 1.86 * mu <= n * - s). { destruct SZ as (S1 & S2 & S3). destruct N as [N|[N|N]]; [apply (CX (x3 m))|apply (CX (y3 m))|apply (CX (z3 m))]; try assumption; [specialize (G1 N)|specialize (G2 N)|specialize (G3 N)]; lra. }
    assert (NP : 0 < n). { destruct (Rle_lt_or_eq_dec 0 n N0) as [L|L]; [exact L|]. rewrite <- L in NS. lra. }
    assert (AC : 0 < across (h t) Bb). { assert (0 < n * n) by (apply Rmult_lt_0_compat; exact NP). rewrite NN, MS in H. destruct (Rle_lt_or_eq_dec _ _ Q1) as [L|L]; [exact L|]. rewrite <- L in H. unfold Rdiv in H. rewrite Rmult_0_r, Rmult_0_l in H. lra. }
    set (X := norm3 (cross3 (h t) Bb)). assert (XX : X * X = across (h t) Bb * dot3 Bb Bb). { unfold X, norm3. rnumg. rewrite sqrt_sqrt by apply dot3_nonneg. unfold across. field. lra. } assert (X0 : 0 <= X) by (unfold X, norm3; rnumg; apply sqrt_pos).
    assert (NX : n * dot3 Bb Bb = K_BBQ * X). { apply Rsqr_inj; [apply Rmult_le_pos; lra|apply Rmult_le_pos; lra|]. unfold Rsqr. transitivity ((n * n) * (dot3 Bb Bb * dot3 Bb Bb)); [ring|]. rewrite NN, MS. transitivity (K_BBQ * K_BBQ * (across (h t) Bb * dot3 Bb Bb)); [field; lra|]. rewrite <- XX. ring. }
    split; [assert (0 < - s * K_BBQ) by (apply Rmult_lt_0_compat; lra); assert (0 < - s * K_BBQ * across (h t) Bb) by (apply Rmult_lt_0_compat; assumption); lra|].
    assert (EQ : - 2 * s * K_BBQ * across (h t) Bb = 2 * (n * - s) * X). { apply Rmult_eq_reg_r with (dot3 Bb Bb); [|lra]. transitivity (- 2 * s * K_BBQ * (X * X)); [rewrite XX; ring|]. transitivity (2 * - s * X * (n * dot3 Bb Bb)); [rewrite NX; ring|ring]. }
    rewrite EQ. assert (1.86 * mu * X <= n * - s * X) by (apply Rmult_le_compat_r; assumption). lra.
  - destruct (lin_positive a b c m A1 A2 A3 N) as (cur' & s & E & Hs & EM'). rewrite E in ED. injection ED as _ <-. rewrite EM' in EM. injection EM as EM. specialize (SP s (eq_sym EM)). eexists. split; [exact SP|]. split; [intros Y; contradiction|]. intros _. exists s. split; [exact Hs|reflexivity].
Qed.
Print Assumptions C119_power.
(** over a stretch of time: the squared momentum never falls, and gains at least the torque the smallest torquer gives *)
Theorem C119_stretch : forall sat a b c B F accl y t1 t2 g, 0 < a -> 0 < b -> 0 < c -> det3 (s_total_moment sat) <> 0 -> t1 <= t2 -> 0 <= g ->
  (forall t, t1 <= t <= t2 -> seen B y t <> zero3 /\ wired_at sat (lin3 a b c) B F accl y t /\ has_negative (asked sat B y t) /\ g <= norm3 (cross3 (spin_of sat y t) (seen B y t))) ->
  dot3 (spin_of sat y t1) (spin_of sat y t1) + 3.72 * Rmin a (Rmin b c) * g * (t2 - t1) <= dot3 (spin_of sat y t2) (spin_of sat y t2).
Proof.
  intros sat a b c B F accl y t1 t2 g A1 A2 A3 DJ L G0 HY. set (mu := Rmin a (Rmin b c)). assert (Mu0 : 0 < mu) by (unfold mu; repeat apply Rmin_pos; assumption). set (h := spin_of sat y).
  assert (DV : forall t, t1 <= t <= t2 -> exists d, derivable_pt_lim (fun u => dot3 (h u) (h u)) t d /\ 3.72 * mu * g <= d).
  { intros t Ht. destruct (HY t Ht) as (N & W & NG & GG). destruct (C119_power sat a b c B F accl y t A1 A2 A3 DJ N W) as (d & D & P & _). exists d. split; [exact D|]. destruct (P NG) as [_ P2]. fold mu in P2. eapply Rle_trans; [|exact P2]. apply Rmult_le_compat_l; [lra|exact GG]. }
  set (k := 3.72 * mu * g) in *. set (f := fun u => dot3 (h u) (h u)) in *.
  assert (DF : forall t, t1 <= t <= t2 -> derivable_pt_lim f t (Derive f t) /\ k <= Derive f t).
  { intros t Ht. destruct (DV t Ht) as (d & D & P). assert (E : Derive f t = d) by (apply is_derive_unique, is_derive_Reals, D). rewrite E. split; assumption. }
  assert (X := le_of_deriv (fun u => k * u - f u) (fun u => k * 1 - Derive f u) t1 t2 L (fun u Hu => d_minus _ _ u _ _ (d_lin _ _ _ k (d_id u)) (proj1 (DF u Hu))) ltac:(intros u Hu; destruct (DF u Hu); cbv beta; lra)). cbv beta in X. unfold f in X. lra.
Qed.
Print Assumptions C119_stretch.

(** ** a ball spinning across a field, commanded and wired *)
(** the rate the torquer's full moment gives, and the motion: w0 + kap t about x *)
Definition full_z (c : R) : R := gain_lin * (187 / 100 * c).
Definition kap (c b0 : R) : R := full_z c * b0 / 4.
Definition rate_up (w0 k t : R) : R := w0 + k * t.
Definition angle_up (w0 k t : R) : R := w0 * t + k * (t * t) / 2.
(** the inertial field: of constant strength b0, turning about x *)
Definition swept (b0 w0 k t : R) : v3 := mk3 0 (- b0 * cos (angle_up w0 k t)) (- b0 * sin (angle_up w0 k t)).
Lemma d_angle w0 k t : derivable_pt_lim (angle_up w0 k) t (rate_up w0 k t).
Proof.
  unfold angle_up, rate_up. eapply d_eq; [exact (d_plus _ _ t _ _ (d_lin _ t 1 w0 (d_id t)) (d_mult _ _ t _ _ (d_lin _ t _ k (d_mult _ _ t _ _ (d_id t) (d_id t))) (d_const (/ 2) t)))|]. cbv beta. field.
Qed.
Lemma d_rate w0 k t : derivable_pt_lim (rate_up w0 k) t k.
Proof. unfold rate_up. eapply d_eq; [exact (d_plus _ _ t _ _ (d_const w0 t) (d_lin _ t 1 k (d_id t)))|]. cbv beta. ring. Qed.
Lemma swept_seen b0 w0 k w t : seen (swept b0 w0 k) (spinning (angle_up w0 k) w) t = mk3 0 (- b0) 0.
Proof.
  unfold seen, spinning, swept. cbn [v_att]. set (th := angle_up w0 k t). assert (X := sin2_cos2 (th / 2)). unfold Rsqr in X.
  replace (cos th) with (cos (2 * (th / 2))) by (f_equal; field). replace (sin th) with (sin (2 * (th / 2))) by (f_equal; field). rewrite cos_2a, sin_2a.
  generalize (cos (th / 2)) (sin (th / 2)) X. clear. intros p s X.
  transitivity (mk3 0 (- b0 * ((s * s + p * p) * (s * s + p * p))) 0 : v3); [|rewrite X; apply mk3_c; ring].
  unfold sandwich, product, conjugate. vunfoldg. cbn [qw qx qy qz x3 y3 z3]. rnumg. apply mk3_c; ring.
Qed.
Lemma swept_one a b c z : 0 < a -> 0 < b -> 0 < c -> z < 0 -> exists cur, distribute (lin3 a b c) [0; 0; z] = Ok cur /\ sys_actuate (lin3 a b c) cur = Ok (mk3 0 0 (full_z c)).
Proof.
  intros A B C Z. set (s := 187 / 100 * c / z). assert (S0 : s < 0). { unfold s, Rdiv at 1. assert (V := Rinv_lt_0_compat z Z). assert (0 < 187 / 100 * c * - / z) by (apply Rmult_lt_0_compat; lra). lra. }
  assert (E : distribute (lin3 a b c) [0; 0; z] = currents (lin3 a b c) (scaled s [0; 0; z])).
  { assert (E0 : Reqb 0 0 = true) by (apply Reqb_true; reflexivity). assert (E1 : Reqb z 0 = false) by (apply Reqb_false; lra). assert (E2 : Rltb s 1 = true) by (apply Rltb_true; lra).
    assert (ER : ratios ext_ratio (lin3 a b c) [0; 0; z] = Ok [None; None; Some s]). { unfold lin3. cbn [ratios rbind]. rewrite (lin_max _ c u_z C). unfold ext_ratio. rewrite E0, E1. reflexivity. }
    unfold distribute. rewrite ER. cbn [rbind ext_min fold_left ext_ltb scaled_command]. rnumg. rewrite E2. reflexivity. }
  rewrite currents_ok in E by reflexivity. eexists. split; [exact E|]. assert (X := lin_actuate a b c s (mk3 0 0 z)). cbn [x3 y3 z3] in X. rewrite X. f_equal. vunfoldg. cbn [x3 y3 z3]. rnumg. unfold full_z, s. apply mk3_c; field; lra.
Qed.
Lemma swept_ask b0 w0 k t : 0 < b0 -> asked ball (swept b0 w0 k) (spinning (angle_up w0 k) (rate_up w0 k)) t = mk3 0 0 (- (4 * K_BBQ * rate_up w0 k t) / b0).
Proof.
  intros P. unfold asked. rewrite swept_seen. unfold detumble_torque. rewrite ball_mv. unfold mag_moment_cmd, spinning. cbn [v_rate]. generalize K_BBQ (rate_up w0 k t). intros K w. vunfoldg. cbn [x3 y3 z3]. rnumg. apply mk3_c; field; lra.
Qed.
Lemma rate_pos w0 k t : 0 < w0 -> 0 < k -> 0 <= t -> 0 < rate_up w0 k t /\ w0 <= rate_up w0 k t.
Proof. intros A B C. unfold rate_up. assert (0 <= k * t) by (apply Rmult_le_pos; lra). lra. Qed.
Lemma kap_pos c b0 : 0 < c -> 0 < b0 -> 0 < kap c b0.
Proof. intros A B. unfold kap, full_z, gain_lin. assert (0 < c * b0) by (apply Rmult_lt_0_compat; assumption). lra. Qed.
Lemma swept_wired a b c b0 w0 t : 0 < a -> 0 < b -> 0 < c -> 0 < b0 -> 0 < w0 -> 0 <= t ->
  let k := kap c b0 in wired_at ball (lin3 a b c) (swept b0 w0 k) (fun _ => zero3) (fun _ => []) (spinning (angle_up w0 k) (rate_up w0 k)) t.
Proof.
  intros A B C P W T k. assert (Kp := kap_pos c b0 C P). fold k in Kp. destruct (rate_pos w0 k t W Kp T) as [RP _]. assert (KB := K_pos). set (y := spinning (angle_up w0 k) (rate_up w0 k)).
  assert (Z : - (4 * K_BBQ * rate_up w0 k t) / b0 < 0). { assert (0 < 4 * K_BBQ * rate_up w0 k t / b0) by (apply Rdiv_lt_0_compat; [apply Rmult_lt_0_compat; lra|exact P]). unfold Rdiv in *. lra. }
  destruct (swept_one a b c _ A B C Z) as (cur & E & EM). exists (mag_new ball (lin3 a b c) false), cur, (mk3 0 0 (full_z c)).
  split; [|split; [exact EM|]].
  - unfold detumble. rewrite C53_commands by reflexivity. cbn [mc_torquers mc_sat mag_new cs_mag cs_v]. change (mag_moment_cmd (seen (swept b0 w0 k) y t) (detumble_torque ball (v_rate (y t)))) with (asked ball (swept b0 w0 k) y t). unfold y. rewrite swept_ask by exact P. cbn [x3 y3 z3]. rewrite E. reflexivity.
  - assert (SD := spinning_deriv (angle_up w0 k) (rate_up w0 k) t k (d_angle w0 k t) (d_rate w0 k t)). fold y in SD.
    assert (Q : mv (s_inv_tot ball) (sub3 (sub3 (cross3 (mk3 0 0 (full_z c)) (seen (swept b0 w0 k) y t)) zero3) (cross3 (v_rate (y t)) (add3 zero3 (mv (s_total_moment ball) (v_rate (y t)))))) = mk3 k 0 0).
    { rewrite <- (ball_inv (mk3 k 0 0)). f_equal. unfold y. rewrite swept_seen, !ball_mv. unfold spinning. cbn [v_rate]. unfold k, kap. generalize (full_z c) (rate_up w0 (full_z c * b0 / 4) t). intros f w. vunfoldg. cbn [x3 y3 z3]. rnumg. apply mk3_c; field. }
    unfold derivative. rewrite Q. assert (DZ : div3 zero3 (s_mass ball) = zero3) by (unfold ball; cbn [s_mass]; vunfoldg; cbn [x3 y3 z3]; rnumg; apply mk3_c; unfold Rdiv; ring). rewrite DZ. exact SD.
Qed.
Lemma swept_size b0 w0 k t : dot3 (swept b0 w0 k t) (swept b0 w0 k t) = b0 * b0.
Proof. unfold swept. assert (X := sin2_cos2 (angle_up w0 k t)). unfold Rsqr in X. vunfoldg. cbn [x3 y3 z3]. rnumg. transitivity (b0 * b0 * (sin (angle_up w0 k t) * sin (angle_up w0 k t) + cos (angle_up w0 k t) * cos (angle_up w0 k t))); [ring|]. rewrite X. ring. Qed.
Lemma swept_field b0 w0 k : 0 < b0 -> field (swept b0 w0 k).
Proof.
  intros P. split.
  - intros t E. assert (X := swept_size b0 w0 k t). rewrite E in X. assert (0 < b0 * b0) by (apply Rmult_lt_0_compat; exact P). revert X. vunfoldg. cbn [x3 y3 z3]. rnumg. lra.
  - assert (CA : forall t, continuity_pt (angle_up w0 k) t) by (intros t; apply derivable_continuous_pt; exists (rate_up w0 k t); apply d_angle).
    intros t. unfold swept. cbn [x3 y3 z3]. split; [apply continuous_const|]. split; apply continuity_pt_filterlim.
    + apply continuity_pt_mult; [apply continuity_pt_const; intros ? ?; reflexivity|]. apply (continuity_pt_comp (angle_up w0 k) cos); [apply CA|apply continuity_cos].
    + apply continuity_pt_mult; [apply continuity_pt_const; intros ? ?; reflexivity|]. apply (continuity_pt_comp (angle_up w0 k) sin); [apply CA|apply continuity_sin].
Qed.
Lemma swept_across b0 w0 k (v : v3) s : 0 < b0 -> unit3 v -> let u := y3 v * cos (angle_up w0 k s) + z3 v * sin (angle_up w0 k s) in across v (swept b0 w0 k s) = 1 - u * u.
Proof.
  intros P U u. assert (Q : 0 < b0 * b0) by (apply Rmult_lt_0_compat; exact P). rewrite across_raw by (rewrite swept_size; lra). rewrite swept_size. unfold unit3 in U. rnumg. rewrite U.
  replace (dot3 v (swept b0 w0 k s)) with (- b0 * u). { field. lra. } unfold u, swept. destruct v as [a p q]. vunfoldg. cbn [x3 y3 z3]. rnumg. ring.
Qed.
Lemma swept_turns b0 w0 k : 0 < b0 -> 0 < w0 -> 0 < k -> forall t (v : v3), 0 <= t -> unit3 v ->
  / (2 * w0) <= RInt (fun s => dot3 (cross3 v (swept b0 w0 k s)) (cross3 v (swept b0 w0 k s)) / dot3 (swept b0 w0 k s) (swept b0 w0 k s)) t (t + 2 / w0).
Proof.
  intros P W K t v T U. destruct (swept_field b0 w0 k P) as (NB & CB). set (g := fun s => dot3 (cross3 v (swept b0 w0 k s)) (cross3 v (swept b0 w0 k s)) / dot3 (swept b0 w0 k s) (swept b0 w0 k s)). assert (CG : forall s, continuous g s) by exact (across_cont _ v CB NB).
  set (u := fun s => y3 v * cos (angle_up w0 k s) + z3 v * sin (angle_up w0 k s)). set (r := fun s => y3 v * sin (angle_up w0 k s) - z3 v * cos (angle_up w0 k s)).
  set (w := rate_up w0 k). set (rho := y3 v * y3 v + z3 v * z3 v).
  assert (EG : forall s, g s = 1 - u s * u s) by (intros s; exact (swept_across b0 w0 k v s P U)).
  assert (DC : forall s, derivable_pt_lim (fun s => cos (angle_up w0 k s)) s (- sin (angle_up w0 k s) * w s)) by (intros s; apply (derivable_pt_lim_comp (angle_up w0 k) cos); [apply d_angle|apply derivable_pt_lim_cos]).
  assert (DS : forall s, derivable_pt_lim (fun s => sin (angle_up w0 k s)) s (cos (angle_up w0 k s) * w s)) by (intros s; apply (derivable_pt_lim_comp (angle_up w0 k) sin); [apply d_angle|apply derivable_pt_lim_sin]).
  assert (DU : forall s, derivable_pt_lim u s (- w s * r s)) by (intros s; eapply d_eq; [exact (d_plus _ _ s _ _ (d_lin _ s _ (y3 v) (DC s)) (d_lin _ s _ (z3 v) (DS s)))|unfold r; ring]).
  assert (DR : forall s, derivable_pt_lim r s (w s * u s)) by (intros s; eapply d_eq; [exact (d_minus _ _ s _ _ (d_lin _ s _ (y3 v) (DS s)) (d_lin _ s _ (z3 v) (DC s)))|unfold u; ring]).
  assert (UR : forall s, u s * u s + r s * r s = rho). { intros s. unfold u, r, rho. assert (X := sin2_cos2 (angle_up w0 k s)). unfold Rsqr in X. transitivity ((y3 v * y3 v + z3 v * z3 v) * (sin (angle_up w0 k s) * sin (angle_up w0 k s) + cos (angle_up w0 k s) * cos (angle_up w0 k s))); [ring|rewrite X; ring]. }
  assert (R1 : 0 <= rho <= 1). { unfold rho. revert U. destruct v as [a p q]. unfold unit3, dot3. cbn [x3 y3 z3]. rnumg. intros U. assert (Z1 := Rle_0_sqr a). assert (Z2 := Rle_0_sqr p). assert (Z3 := Rle_0_sqr q). unfold Rsqr in *. lra. }
  assert (WP : forall s, t <= s -> 0 < w s /\ w0 <= w s) by (intros s Hs; apply (rate_pos w0 k s); lra).
  set (phi := fun s => (1 - rho / 2) * s + (u s - r s) * (u s - r s) * / (4 * w s)).
  assert (DP : forall s, t <= s -> derivable_pt_lim phi s (1 - u s * u s - k * ((u s - r s) * (u s - r s)) / (4 * (w s * w s)))).
  { intros s Hs. destruct (WP s Hs) as [w1 _]. assert (DI : derivable_pt_lim (fun s => / (4 * w s)) s (- (4 * k) / ((4 * w s) * (4 * w s)))).
    { apply is_derive_Reals. assert (ID := is_derive_inv (fun s => 4 * w s) s (4 * k) (proj2 (is_derive_Reals _ _ _) (d_lin _ s _ 4 (d_rate w0 k s))) ltac:(lra)). cbv beta in ID. replace ((4 * w s) ^ 2) with (4 * w s * (4 * w s)) in ID by ring. exact ID. }
    eapply d_eq; [exact (d_plus _ _ s _ _ (d_lin _ s _ (1 - rho / 2) (d_id s)) (d_mult _ _ s _ _ (d_mult _ _ s _ _ (d_minus _ _ s _ _ (DU s) (DR s)) (d_minus _ _ s _ _ (DU s) (DR s))) DI))|]. cbv beta. rewrite <- (UR s). field. lra. }
  set (b := t + 2 / w0). assert (T2 : 0 < 2 / w0) by (apply Rdiv_lt_0_compat; lra).
  assert (X := le_of_deriv (fun s => phi s - RInt g t s) (fun s => (1 - u s * u s - k * ((u s - r s) * (u s - r s)) / (4 * (w s * w s))) - g s) t b ltac:(unfold b; lra) (fun s Hs => d_minus _ _ s _ _ (DP s ltac:(lra)) (d_prim g t s CG))).
  cbv beta in X. assert (Y : phi b - RInt g t b <= phi t - RInt g t t).
  { apply X. intros s Hs. rewrite EG. destruct (WP s ltac:(lra)) as [w1 _]. assert (0 <= k * ((u s - r s) * (u s - r s)) / (4 * (w s * w s))); [|lra]. apply Rmult_le_pos; [apply Rmult_le_pos; [lra|apply Rle_0_sqr]|]. left. apply Rinv_0_lt_compat. assert (0 < w s * w s) by (apply Rmult_lt_0_compat; assumption). lra. }
  assert (Z : RInt g t t = 0) by exact (RInt_point t g). rewrite Z in Y. clear X Z. destruct (WP t ltac:(lra)) as [w1 w2]. destruct (WP b ltac:(unfold b; lra)) as [w3 _].
  assert (A1 : 0 <= (u b - r b) * (u b - r b) * / (4 * w b)) by (apply Rmult_le_pos; [apply Rle_0_sqr|left; apply Rinv_0_lt_compat; lra]).
  assert (A2 : (u t - r t) * (u t - r t) * / (4 * w t) <= 2 * / (4 * w0)).
  { apply Rmult_le_compat; [apply Rle_0_sqr|left; apply Rinv_0_lt_compat; lra| |apply Rinv_le_contravar; lra]. assert (Q := UR t). assert (V := Rle_0_sqr (u t + r t)). unfold Rsqr in V. lra. }
  unfold phi in Y. replace ((1 - rho / 2) * b) with ((1 - rho / 2) * t + (1 - rho / 2) * (2 / w0)) in Y by (unfold b; ring).
  assert (A3 : 1 / 2 * (2 / w0) <= (1 - rho / 2) * (2 / w0)) by (apply Rmult_le_compat_r; lra).
  replace (1 / 2 * (2 / w0)) with (2 * / (2 * w0)) in A3 by (field; lra). replace (2 * / (4 * w0)) with (/ (2 * w0)) in A2 by (field; lra). lra.
Qed.
(** ** C119: the same ball, in the same field, from the same attitude and rate.  Under the moment detumble asks for its spin dies
    exponentially, and every motion under the moments asked for in that field comes to rest; under the moments that distribute and the
    torquers give, its spin grows for ever *)
Theorem C119_spinup_refuted : forall a b c b0 w0, 0 < a -> 0 < b -> 0 < c -> 0 < b0 -> 0 < w0 -> exists B k y y', 0 < k /\ field B /\ (forall t, dot3 (B t) (B t) = b0 * b0) /\
  v_att (y 0) = v_att (y' 0) /\ v_rate (y 0) = mk3 w0 0 0 /\ v_rate (y' 0) = mk3 w0 0 0 /\
  detumbled ball B (fun _ => zero3) (fun _ => []) y' /\ (forall t, v_rate (y' t) = mk3 (w0 * exp (- K_BBQ * t)) 0 0) /\
  (forall sat F accl z, det3 (s_total_moment sat) <> 0 -> detumbled sat B F accl z -> is_lim (fun t => norm3 (v_rate (z t))) p_infty 0) /\
  (forall t, 0 <= t -> wired_at ball (lin3 a b c) B (fun _ => zero3) (fun _ => []) y t /\ v_rate (y t) = mk3 (w0 + k * t) 0 0) /\
  is_lim (fun t => norm3 (v_rate (y t))) p_infty p_infty.
Proof.
  intros a b c b0 w0 A B C P W. set (k := kap c b0). assert (Kp : 0 < k) by (apply kap_pos; assumption). assert (KB := K_pos). assert (FB := swept_field b0 w0 k P).
  exists (swept b0 w0 k), k, (spinning (angle_up w0 k) (rate_up w0 k)), (spinning (fun t => w0 * (1 - exp (- K_BBQ * t)) / K_BBQ) (fun t => w0 * exp (- K_BBQ * t))).
  assert (DE : forall t, derivable_pt_lim (fun t => exp (- K_BBQ * t)) t (- K_BBQ * exp (- K_BBQ * t))).
  { intros t. eapply d_eq; [apply (derivable_pt_lim_comp (fun t => - K_BBQ * t) exp); [apply d_lin, d_id|apply derivable_pt_lim_exp]|ring]. }
  split; [exact Kp|]. split; [exact FB|]. split; [intros t; apply swept_size|].
  assert (E0 : - K_BBQ * 0 = 0) by ring.
  split. { unfold spinning. cbn [v_att]. rewrite E0, exp_0. unfold angle_up. replace (w0 * 0 + k * (0 * 0) / 2) with 0 by field. replace (w0 * (1 - 1) / K_BBQ) with 0 by (field; lra). reflexivity. }
  split. { unfold spinning, rate_up. cbn [v_rate]. apply mk3_c; ring. }
  split. { unfold spinning. cbn [v_rate]. rewrite E0, exp_0. apply mk3_c; ring. }
  split. { apply spinning_detumbled; [|apply (proj1 FB)| |].
    - intros t. eapply d_eq; [exact (d_mult _ _ t _ _ (d_lin _ t _ w0 (d_minus _ _ t _ _ (d_const 1 t) (DE t))) (d_const (/ K_BBQ) t))|]. cbv beta. field. lra.
    - intros t. eapply d_eq; [exact (d_lin _ t _ w0 (DE t))|]. unfold swept at 1 2. cbn [x3]. unfold Rdiv. ring.
    - intros t. right. reflexivity. }
  split; [reflexivity|]. split.
  { intros sat F accl z DJ D. destruct (C105_turning sat _ F accl z (2 / w0) (/ (2 * w0)) DJ FB ltac:(apply Rdiv_lt_0_compat; lra) ltac:(apply Rinv_0_lt_compat; lra) (swept_turns b0 w0 k P W Kp) D) as (_ & _ & _ & L). exact L. }
  split. { intros t T. split; [apply swept_wired; assumption|reflexivity]. }
  apply is_lim_spec. intros M. exists (Rmax 0 (M / k)). intros t Ht. assert (T0 := Rmax_l 0 (M / k)). assert (T1 := Rmax_r 0 (M / k)). destruct (rate_pos w0 k t W Kp ltac:(lra)) as [RP _].
  unfold spinning. cbn [v_rate]. replace (norm3 (mk3 (rate_up w0 k t) 0 0)) with (rate_up w0 k t).
  - unfold rate_up. assert (M / k < t) by lra. assert (k * (M / k) < k * t) by (apply Rmult_lt_compat_l; assumption). replace (k * (M / k)) with M in H0 by (field; lra). lra.
  - unfold norm3, dot3. cbn [x3 y3 z3]. rnumg. replace (rate_up w0 k t * rate_up w0 k t + 0 * 0 + 0 * 0) with (Rsqr (rate_up w0 k t)) by (unfold Rsqr; ring). rewrite sqrt_Rsqr by lra. reflexivity.
Qed.
Print Assumptions C119_spinup_refuted.
(** the hypotheses are met: by the ball above on every stretch of time, asked for a negative component throughout; and, with the field
    the other way round, by a ball asked for none *)
Example C119_ex : let k := kap 1 1 in let B := swept 1 1 k in let y := spinning (angle_up 1 k) (rate_up 1 k) in det3 (s_total_moment ball) <> 0 /\
  (forall t, 0 <= t <= 1 -> seen B y t <> zero3 /\ wired_at ball (lin3 1 1 1) B (fun _ => zero3) (fun _ => []) y t /\ has_negative (asked ball B y t) /\ 4 <= norm3 (cross3 (spin_of ball y t) (seen B y t))) /\
  exists y', let C := fun _ : R => mk3 0 1 0 in seen C y' 0 <> zero3 /\ wired_at ball (lin3 1 1 1) C (fun _ => zero3) (fun _ => []) y' 0 /\ ~ has_negative (asked ball C y' 0) /\ v_rate (y' 0) = mk3 1 0 0.
Proof.
  assert (KB := K_pos). intros k B y. assert (Kp : 0 < k) by (apply kap_pos; lra). split; [apply ball_det|]. split.
  - intros t Ht. destruct (rate_pos 1 k t ltac:(lra) Kp ltac:(lra)) as [RP R1]. unfold B, y. rewrite swept_seen. split; [intros E; injection E as E; rnumg; lra|]. split; [apply (swept_wired 1 1 1 1 1 t); lra|]. split.
    + rewrite swept_ask by lra. unfold has_negative. cbn [x3 y3 z3]. right. right. assert (0 < 4 * K_BBQ * rate_up 1 k t) by (apply Rmult_lt_0_compat; lra). unfold Rdiv. rewrite Rinv_1. lra.
    + unfold spin_of. rewrite ball_mv. unfold spinning. cbn [v_rate]. unfold norm3. vunfoldg. cbn [x3 y3 z3]. rnumg. match goal with |- _ <= sqrt ?e => replace e with (Rsqr (4 * rate_up 1 k t)) by (unfold Rsqr; ring) end. rewrite sqrt_Rsqr by lra. lra.
  - set (m := mk3 0 0 (4 * K_BBQ) : v3). assert (NM : ~ has_negative m) by (unfold has_negative, m; cbn [x3 y3 z3]; lra).
    destruct (lin_positive 1 1 1 m ltac:(lra) ltac:(lra) ltac:(lra) NM) as (cur & s & E & _ & EM). exists (spinning (fun t => t) (fun t => 1 + - (s * K_BBQ) * t)). intros C.
    assert (SE : seen C (spinning (fun t => t) (fun t => 1 + - (s * K_BBQ) * t)) 0 = mk3 0 1 0).
    { unfold seen, spinning, C. cbn [v_att]. replace (0 / 2) with 0 by field. rewrite cos_0, sin_0. unfold sandwich, product, conjugate. vunfoldg. cbn [qw qx qy qz x3 y3 z3]. rnumg. apply mk3_c; ring. }
    assert (RA : v_rate (spinning (fun t => t) (fun t => 1 + - (s * K_BBQ) * t) 0) = mk3 1 0 0) by (unfold spinning; cbn [v_rate]; apply mk3_c; ring).
    assert (MC : mag_moment_cmd (mk3 0 1 0) (detumble_torque ball (mk3 1 0 0)) = m). { unfold detumble_torque. rewrite ball_mv. unfold mag_moment_cmd, m. generalize K_BBQ. intros K. vunfoldg. cbn [x3 y3 z3]. rnumg. apply mk3_c; field. }
    split; [rewrite SE; intros X; injection X as X; rnumg; lra|]. split; [|split; [unfold asked; rewrite SE, RA, MC; exact NM|exact RA]].
    exists (mag_new ball (lin3 1 1 1) false), cur, (scale3 s m). split; [|split; [exact EM|]].
    + unfold detumble. rewrite C53_commands by reflexivity. cbn [mc_torquers mc_sat mag_new cs_mag cs_v]. rewrite SE, RA, MC, E. reflexivity.
    + assert (D1 : derivable_pt_lim (fun t : R => t) 0 (1 + - (s * K_BBQ) * 0)) by (eapply d_eq; [apply d_id|ring]).
      assert (SD := spinning_deriv (fun t => t) (fun t => 1 + - (s * K_BBQ) * t) 0 (- (s * K_BBQ)) D1 ltac:(eapply d_eq; [exact (d_plus _ _ 0 _ _ (d_const 1 0) (d_lin _ 0 _ (- (s * K_BBQ)) (d_id 0)))|cbv beta; ring])).
      assert (Q : mv (s_inv_tot ball) (sub3 (sub3 (cross3 (scale3 s m) (mk3 0 1 0)) zero3) (cross3 (mk3 1 0 0) (add3 zero3 (mv (s_total_moment ball) (mk3 1 0 0))))) = mk3 (- (s * K_BBQ)) 0 0).
      { rewrite <- (ball_inv (mk3 (- (s * K_BBQ)) 0 0)). f_equal. rewrite !ball_mv. unfold m. generalize K_BBQ. intros K. vunfoldg. cbn [x3 y3 z3]. rnumg. apply mk3_c; ring. }
      assert (DZ : div3 zero3 (s_mass ball) = zero3) by (unfold ball; cbn [s_mass]; vunfoldg; cbn [x3 y3 z3]; rnumg; apply mk3_c; unfold Rdiv; ring).
      unfold derivative. rewrite SE, RA, Q, DZ. cbv beta in SD. rewrite Rmult_0_r, Rplus_0_r in SD. exact SD.
Qed.
