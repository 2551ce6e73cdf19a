(** * Lemmas: one simulated step near the true orbit succeeds, and what it does to the rotational energy *)
From Coq Require Import Reals ZArith List Bool Arith Lra Psatz Lia.
From Flocq Require Import Core.
From Verif Require Import Num Vec M_vector M_quaternion M_jday M_frame M_struct M_env M_dyn M_sensor M_integ.
From Verif Require Import S_rot S_integ S_dyn S_frame S_orb P_quat P_wheel P_integ2 P_dyn P_frame P_struct P_rk P_rk2 P_rk3 P_rk4 P_lla6 P_tot1 P_tot2 P_tot3 P_orb3 P_orb5.
Import ListNotations.
Local Open Scope R_scope.

(** ** a positive definite inertia is invertible *)
Lemma definite_det (J : m3) j : 0 < j -> (forall w : v3, j * dot3 w w <= dot3 w (mv J w)) -> tr3 J = J -> det3 J <> 0.
Proof.
  intros Hj H SY. destruct J as [[a b c] [b' d e] [c' e' f]]. unfold tr3 in SY. cbn [row1 row2 row3 x3 y3 z3] in SY. assert (Eb : b' = b) by congruence. assert (Ec : c' = c) by congruence. assert (Ee : e' = e) by congruence. clear SY. subst b' c' e'. intros DZ.
  assert (A := H (mk3 1 0 0)). assert (B := H (mk3 (- b) a 0)). assert (C := H (mk3 (b * e - c * d) (b * c - a * e) (a * d - b * b))).
  assert (NN : dot3 (mk3 (b * e - c * d) (b * c - a * e) (a * d - b * b)) (mv (mkm (mk3 a b c) (mk3 b d e) (mk3 c e f)) (mk3 (b * e - c * d) (b * c - a * e) (a * d - b * b))) = (a * d - b * b) * det3 (mkm (mk3 a b c) (mk3 b d e) (mk3 c e f))) by (unfold det3, mv, cross3; unfold dot3; cbn [row1 row2 row3 x3 y3 z3]; rnumg; ring).
  rewrite NN, DZ, Rmult_0_r in C. clear NN DZ H. unfold mv in A, B, C. unfold dot3 in A, B, C. cbn [row1 row2 row3 x3 y3 z3] in A, B, C. revert A B C. rnumg. intros A B C.
  assert (A' : j <= a) by lra. clear A. assert (B' : j * (b * b + a * a) <= a * (a * d - b * b)) by lra. clear B.
  assert (BB := Rle_0_sqr b). unfold Rsqr in BB. assert (AA : 0 < a * a) by (apply Rmult_lt_0_compat; lra). assert (JB : 0 < j * (b * b + a * a)) by (apply Rmult_lt_0_compat; lra).
  assert (M2 : 0 < a * d - b * b). { apply Rmult_lt_reg_l with a; [lra|]. lra. }
  assert (MM : 0 < (a * d - b * b) * (a * d - b * b)) by (apply Rmult_lt_0_compat; exact M2). assert (X := Rle_0_sqr (b * e - c * d)). assert (Y := Rle_0_sqr (b * c - a * e)). unfold Rsqr in X, Y.
  assert (0 < j * ((b * e - c * d) * (b * e - c * d) + (b * c - a * e) * (b * c - a * e) + (a * d - b * b) * (a * d - b * b))) by (apply Rmult_lt_0_compat; lra). lra.
Qed.

(** ** the box in which the forces are assumed, and the field confined to it *)
Definition near_box (sat : Satellite) (V W H : R) (v : SVec) : Prop :=
  6628138 <= norm3 (v_pos v) <= 6856752 /\ norm3 (v_vel v) <= V + 2 /\ 1 / 2 <= normq (v_att v) <= 3 / 2 /\ norm3 (v_rate v) <= W + 1 /\ n1 (rw_momentum (s_rw sat) (v_whl v)) <= H.
Definition near_boxb (sat : Satellite) (V W H : R) (v : SVec) : bool :=
  Rleb 6628138 (norm3 (v_pos v)) && Rleb (norm3 (v_pos v)) 6856752 && Rleb (norm3 (v_vel v)) (V + 2) && Rleb (1 / 2) (normq (v_att v)) && Rleb (normq (v_att v)) (3 / 2) && Rleb (norm3 (v_rate v)) (W + 1) && Rleb (n1 (rw_momentum (s_rw sat) (v_whl v))) H.
Lemma near_boxb_spec sat V W H v : near_boxb sat V W H v = true <-> near_box sat V W H v.
Proof.
  assert (S : forall a b, Rleb a b = true <-> a <= b). { intros a b. destruct (Rleb_spec a b); split; intros; try lra; try reflexivity; discriminate. }
  unfold near_boxb, near_box. rewrite !andb_true_iff, !S. tauto.
Qed.
Definition confined (sat : Satellite) (V W H : R) (f : store -> SatState -> res SVec) (h : store) (s : SatState) : res SVec :=
  if near_boxb sat V W H (sv s) then f h s else Raise IndexError.
Lemma confined_ok sat V W H f h s d : confined sat V W H f h s = Ok d -> near_box sat V W H (sv s) /\ f h s = Ok d.
Proof. unfold confined. destruct (near_boxb sat V W H (sv s)) eqn:E; [|discriminate]. intros X. split; [apply near_boxb_spec, E|exact X]. Qed.
Lemma confined_in sat V W H f h s : near_box sat V W H (sv s) -> confined sat V W H f h s = f h s.
Proof. intros N. apply near_boxb_spec in N. unfold confined. rewrite N. reflexivity. Qed.
(** a run of the confined field is a run of the field *)
Lemma rk4_mono h (f g : SatState -> res SVec) dt s s' : (forall s d, f s = Ok d -> g s = Ok d) -> RK4_sat h f dt s = Ok s' -> RK4_sat h g dt s = Ok s'.
Proof.
  intros M E. unfold RK4_sat, RK4_step in *. apply rbind_ok in E. destruct E as (k1 & E1 & E). rewrite (M _ _ E1). cbn [rbind].
  apply rbind_ok in E. destruct E as (k2 & E2 & E). apply rbind_ok in E2. destruct E2 as (s2 & -> & E2). cbn [rbind]. rewrite (M _ _ E2). cbn [rbind].
  apply rbind_ok in E. destruct E as (k3 & E3 & E). apply rbind_ok in E3. destruct E3 as (s3 & -> & E3). cbn [rbind]. rewrite (M _ _ E3). cbn [rbind].
  apply rbind_ok in E. destruct E as (k4 & E4 & E). apply rbind_ok in E4. destruct E4 as (s4 & -> & E4). cbn [rbind]. rewrite (M _ _ E4). cbn [rbind]. exact E.
Qed.
Lemma updates_mono f g stream sim dt n : (forall h s d, f h s = Ok d -> g h s = Ok d) -> forall w w', updates f stream sim dt n w = Ok w' -> updates g stream sim dt n w = Ok w'.
Proof.
  intros M. induction n as [|n IH]; intros w w' E; [exact E|]. cbn [updates] in *. apply rbind_ok in E. destruct E as (w1 & E1 & E).
  assert (E2 : update g stream sim dt w = Ok w1). { unfold update in *. apply rbind_ok in E1. destruct E1 as (x & EX & E1). rewrite (rk4_mono _ _ (g (w_store w)) _ _ _ (M (w_store w)) EX). exact E1. }
  rewrite E2. cbn [rbind]. exact (IH _ _ E).
Qed.
Lemma updates_snoc f stream sim dt n : forall w, updates f stream sim dt (S n) w = rbind (updates f stream sim dt n w) (update f stream sim dt).
Proof. induction n as [|n IH]; intros w; [cbn; destruct (update f stream sim dt w); reflexivity|]. cbn [updates] in *. destruct (update f stream sim dt w) as [w1|e]; [apply IH|reflexivity]. Qed.

(** ** a step *)
Lemma normq_move (q d : quat) : normq q - nq d <= normq (addq q d) <= normq q + nq d.
Proof.
  assert (X := normq_triangle q d). assert (Y := normq_nq d).
  assert (Z := normq_triangle (addq q d) (scaleq (-1) d)). replace (addq (addq q d) (scaleq (-1) d)) with q in Z by (destruct q as [q1 q2 q3 q4], d as [p1 p2 p3 p4]; vunfoldg; rnumg; apply mkq_c; ring).
  rewrite normq_scale in Z. replace (Rabs (-1)) with 1 in Z by (unfold Rabs; destruct (Rcase_abs (-1)); lra). lra.
Qed.
Lemma unit_normq (q : quat) : unitq q -> normq q = 1.
Proof. unfold unitq, normq. intros E. rewrite E. rnumg. apply sqrt_1. Qed.

Section Step.
Context (hi_fi : bool) (sat : Satellite) (mt : list (Torquer R)) (cur accl : list R) (m : v3) (lo hi V W Hc H mar D : R).
Context (EM : sys_actuate mt cur = Ok m) (LA : (length (rw_wheels (s_rw sat)) <= length accl)%nat) (HH : Hc + n1 (rw_torque (s_rw sat) accl) <= H).
Context (M0 : 0 < mar <= 1 / 2) (LO : 6628138 <= lo - mar) (HI : hi + mar <= 6856752) (D1 : 1 <= D).
Context (DB : forall h s d, cached h s -> near_box sat V W H (sv s) -> vector_field hi_fi sat mt h s cur accl = Ok d -> small accl 1 D d).
Local Notation field := (confined sat V W H (fun h s => vector_field hi_fi sat mt h s cur accl)).
Definition within (v : SVec) : Prop :=
  lo <= norm3 (v_pos v) <= hi /\ norm3 (v_vel v) <= V + 1 /\ unitq (v_att v) /\ norm3 (v_rate v) <= W /\ n1 (rw_momentum (s_rw sat) (v_whl v)) <= Hc /\ length (v_whl v) = length accl.
Definition shifted (v : SVec) (c e : R) (v' : SVec) : Prop :=
  norm3 (v_pos v) - e <= norm3 (v_pos v') <= norm3 (v_pos v) + e /\ norm3 (v_vel v') <= norm3 (v_vel v) + e /\ normq (v_att v) - e <= normq (v_att v') <= normq (v_att v) + e /\
  norm3 (v_rate v') <= norm3 (v_rate v) + e /\ n1 (rw_momentum (s_rw sat) (v_whl v')) <= n1 (rw_momentum (s_rw sat) (v_whl v)) + Rabs c * n1 (rw_torque (s_rw sat) accl) /\ length (v_whl v') = length accl.
Lemma add_small1 v c e d : length (v_whl v) = length accl -> small accl c e d -> exists v', sv_add v d = Ok v' /\ shifted v c e v'.
Proof.
  intros LV (A & B & C & E & G). unfold sv_add. rewrite A, np_add_eq by (rewrite map_length; exact LV). cbn [rbind]. eexists. split; [reflexivity|]. unfold shifted. cbn [v_pos v_vel v_att v_rate v_whl].
  split; [assert (X := norm3_move (v_pos v) (v_pos d)); lra|]. split; [assert (X := norm3_move (v_vel v) (v_vel d)); lra|]. split; [assert (X := normq_move (v_att v) (v_att d)); lra|].
  split; [assert (X := norm3_move (v_rate v) (v_rate d)); lra|]. split; [|apply eq_trans with (length (v_whl v)); [apply zip_len; rewrite map_length; exact LV|exact LV]].
  rewrite zip_map_r. unfold rw_momentum at 1. rewrite momentum_lin by exact LV. fold (rw_momentum (s_rw sat) (v_whl v)). fold (rw_torque (s_rw sat) accl). assert (X := n1_add (rw_momentum (s_rw sat) (v_whl v)) (scale3 c (rw_torque (s_rw sat) accl))). rewrite n1_scale in X. exact X.
Qed.
Lemma stage1 h a cc v v' c e : h a = CJ cc -> within v -> shifted v c e v' -> e <= mar -> Rabs c <= 1 ->
  exists s', make_state h a v' = Ok s' /\ sv s' = v' /\ clk s' = a /\ cached h s' /\ exists k, field h s' = Ok k /\ small accl 1 D k.
Proof.
  intros HC (IP & IV & IQ & IW & IH & IL) (MP & MV & MQ & MW & MH & ML) HE HCC.
  destruct (state_made h a v') as (s' & E & CA & SV & CL & HT); [lra|]. exists s'. split; [exact E|]. split; [exact SV|]. split; [exact CL|]. split; [exact CA|].
  assert (Q1 := unit_normq _ IQ). assert (PT := n1_pos (rw_torque (s_rw sat) accl)).
  assert (HB : norm3 (v_pos v') <= 6856752) by lra. assert (LB : 6628138 <= norm3 (v_pos v')) by lra.
  destruct (proj2 (field_ok hi_fi sat mt h s' cur accl)) as (k & EK).
  { split; [apply actuate_ok; eexists; exact EM|]. split; [exact LA|]. rewrite SV, CL, ML. split; [exact LA|]. split; [eexists; exact HC|]. lra. }
  assert (NB : near_box sat V W H (sv s')). { unfold near_box. rewrite SV. split; [lra|]. split; [lra|]. split; [lra|]. split; [lra|].
    assert (Rabs c * n1 (rw_torque (s_rw sat) accl) <= 1 * n1 (rw_torque (s_rw sat) accl)) by (apply Rmult_le_compat_r; assumption). lra. }
  exists k. rewrite confined_in by exact NB. split; [exact EK|]. exact (DB h s' k CA NB EK).
Qed.
Lemma stage_add1 h s cc d c e : h (clk s) = CJ cc -> within (sv s) -> small accl c e d -> e <= mar -> Rabs c <= 1 ->
  exists s', state_add h s d = Ok s' /\ shifted (sv s) c e (sv s') /\ clk s' = clk s /\ cached h s' /\ exists k, field h s' = Ok k /\ small accl 1 D k.
Proof.
  intros HC IN SM HE HCC. destruct (add_small1 (sv s) c e d) as (v' & EA & MO); [apply IN|exact SM|]. destruct (stage1 h (clk s) cc (sv s) v' c e HC IN MO HE HCC) as (s' & E & SV & CL & CA & K).
  exists s'. unfold state_add. rewrite EA. cbn [rbind]. split; [exact E|]. rewrite SV. split; [exact MO|]. split; [exact CL|]. split; [exact CA|exact K].
Qed.
Lemma shifted_refl v : length (v_whl v) = length accl -> shifted v 0 0 v.
Proof. intros L. unfold shifted. rewrite Rabs_R0, !Rplus_0_r, !Rminus_0_r, Rmult_0_l, Rplus_0_r. repeat split; try apply Rle_refl. exact L. Qed.
Lemma rk4_ok1 h s cc dt : h (clk s) = CJ cc -> cached h s -> within (sv s) -> 0 < dt <= 1 -> dt * D <= mar ->
  exists s', RK4_sat h (field h) dt s = Ok s' /\ shifted (sv s) dt (dt * D) (sv s') /\ clk s' = clk s /\ cached h s'.
Proof.
  intros HC CA IN DT DM. assert (AD : Rabs dt = dt) by (apply Rabs_pos_eq; lra). assert (DD : 0 <= dt * D) by (apply Rmult_le_pos; lra).
  destruct (stage1 h (clk s) cc (sv s) (sv s) 0 0 HC IN) as (s0 & E0 & SV0 & CL0 & _ & k1 & F1 & S1); [apply shifted_refl, IN|lra|rewrite Rabs_R0; lra|]. rewrite CA in E0. injection E0 as <-.
  unfold RK4_sat, RK4_step. rewrite F1. cbn [rbind].
  assert (HALF : forall k, small accl 1 D k -> small accl (1 * dt / 2) (dt * D / 2) (sv_div (sv_mul k dt) 2)). { intros k SK. apply small_div; [lra|]. rewrite <- AD at 2. apply small_mul, SK. }
  assert (AH : Rabs (1 * dt / 2) <= 1) by (rewrite Rabs_pos_eq; lra).
  destruct (stage_add1 h s cc _ _ _ HC IN (HALF k1 S1)) as (s1 & E1 & _ & _ & _ & k2 & F2 & S2); [lra|exact AH|]. rewrite E1. cbn [rbind]. rewrite F2. cbn [rbind].
  destruct (stage_add1 h s cc _ _ _ HC IN (HALF k2 S2)) as (s2 & E2 & _ & _ & _ & k3 & F3 & S3); [lra|exact AH|]. rewrite E2. cbn [rbind]. rewrite F3. cbn [rbind].
  assert (T3 := small_mul _ _ _ _ dt S3). rewrite AD in T3. destruct (stage_add1 h s cc _ _ _ HC IN T3) as (s3 & E3 & _ & _ & _ & k4 & F4 & S4); [lra|rewrite Rmult_1_l, AD; lra|]. rewrite E3. cbn [rbind]. rewrite F4. cbn [rbind].
  assert (A2 : Rabs 2 = 2) by (apply Rabs_pos_eq; lra).
  assert (U2 := small_mul _ _ _ _ 2 S2). assert (U3 := small_mul _ _ _ _ 2 S3). rewrite A2 in U2, U3.
  destruct (small_add _ _ _ _ _ _ _ S1 U2) as (g1 & G1 & B1). rewrite G1. cbn [rbind]. destruct (small_add _ _ _ _ _ _ _ B1 U3) as (g2 & G2 & B2). rewrite G2. cbn [rbind]. destruct (small_add _ _ _ _ _ _ _ B2 S4) as (g3 & G3 & B3). rewrite G3. cbn [rbind].
  assert (B4 := small_mul _ _ _ _ dt (small_div _ _ _ _ 6 ltac:(lra) B3)). replace ((1 + 1 * 2 + 1 * 2 + 1) / 6 * dt) with dt in B4 by field. replace (Rabs dt * ((D + 2 * D + 2 * D + D) / 6)) with (dt * D) in B4 by (rewrite AD; field).
  cbv zeta. destruct (stage_add1 h s cc _ _ _ HC IN B4) as (s' & E' & MO & CL & CA' & _); [exact DM|rewrite AD; lra|]. exists s'. split; [exact E'|]. split; [exact MO|]. split; [exact CL|exact CA'].
Qed.
Lemma update_ok1 stream dt w cc : w_store w (clk (w_state w)) = CJ cc -> cached (w_store w) (w_state w) -> within (sv (w_state w)) -> 0 < dt <= 1 -> dt * D <= mar ->
  datetime_ok (j_us cc + ZnearestE (dt * 1000000)) = true ->
  exists w', update field stream true dt w = Ok w' /\ clk (w_state w') = clk (w_state w) /\ w_store w' (clk (w_state w')) = CJ (mkJ (j_us cc + ZnearestE (dt * 1000000)) (j_absolute cc)) /\ cached (w_store w') (w_state w') /\
    unitq (v_att (sv (w_state w'))) /\
    n1 (rw_momentum (s_rw sat) (v_whl (sv (w_state w')))) <= n1 (rw_momentum (s_rw sat) (v_whl (sv (w_state w)))) + dt * n1 (rw_torque (s_rw sat) accl) /\ length (v_whl (sv (w_state w'))) = length accl.
Proof.
  intros HC CA IN DT DM TK. destruct (rk4_ok1 (w_store w) (w_state w) cc dt HC CA IN DT DM) as (s' & E & MO & CL & CA'). destruct MO as (MP & MV & MN & MW & MH & ML).
  unfold update. rewrite E. cbn [rbind]. rewrite CL, HC. cbn [clk_tick]. unfold jtick. rewrite TK. cbn [rbind]. set (c' := mkJ (j_us cc + ZnearestE (dt * 1000000)) (j_absolute cc)).
  destruct (state_made (set_clk (w_store w) (clk (w_state w)) (CJ c')) (clk (w_state w)) (set_att (sv s') (normalizeq (v_att (sv s'))))) as (st & ES & CS & SV & CLS & _).
  { cbn [set_att v_pos]. destruct IN as (IP & _). lra. }
  rewrite ES. cbn [rbind]. eexists. split; [reflexivity|]. cbn [w_state w_store]. rewrite SV, CLS. unfold set_att. cbn [v_pos v_vel v_att v_rate v_whl]. split; [reflexivity|].
  split; [unfold set_clk; rewrite Nat.eqb_refl; reflexivity|]. split; [exact CS|].
  split. { apply normalizeq_unit. intros Z. rewrite Z in MN. assert (NZ : normq (T:=R) zeroq = 0) by (apply normq_zero; reflexivity). rewrite NZ in MN. destruct IN as (_ & _ & IQ & _). rewrite (unit_normq _ IQ) in MN. lra. }
  split; [|exact ML]. rewrite Rabs_pos_eq in MH by lra. exact MH.
Qed.
End Step.
