(** * Lemmas: small steps inside the density table's band succeed *)
From Coq Require Import Reals ZArith List Bool Arith Lra Psatz Lia.
From Flocq Require Import Core.
From Verif Require Import Num Vec M_vector M_quaternion M_jday M_frame M_struct M_env M_dyn M_sensor M_integ.
From Verif Require Import S_rot S_integ S_dyn S_frame P_quat P_wheel P_integ2 P_dyn P_frame P_rk P_rk2 P_rk3 P_rk4 P_lla6 P_tot1 P_tot2.
Import ListNotations.
Local Open Scope R_scope.

Lemma cauchy3 (a b : v3) : dot3 a b <= norm3 a * norm3 b.
Proof.
  destruct (norm3_sq a) as [A0 AA], (norm3_sq b) as [B0 BB]. assert (P : 0 <= norm3 a * norm3 b) by (apply Rmult_le_pos; assumption).
  assert (L : dot3 a b * dot3 a b <= (norm3 a * norm3 b) * (norm3 a * norm3 b)).
  { replace (norm3 a * norm3 b * (norm3 a * norm3 b)) with (norm3 a * norm3 a * (norm3 b * norm3 b)) by ring. rewrite AA, BB. clear. destruct a as [x y z], b as [u v w]. unfold dot3. cbn [x3 y3 z3]. rnumg.
    assert (A := Rle_0_sqr (x * v - y * u)). assert (B := Rle_0_sqr (x * w - z * u)). assert (C := Rle_0_sqr (y * w - z * v)). unfold Rsqr in A, B, C. lra. }
  destruct (Rle_or_lt (dot3 a b) (norm3 a * norm3 b)) as [G|G]; [exact G|]. exfalso. assert ((norm3 a * norm3 b) * (norm3 a * norm3 b) < dot3 a b * dot3 a b) by nra. lra.
Qed.
Lemma norm3_triangle (a b : v3) : norm3 (add3 a b) <= norm3 a + norm3 b.
Proof.
  destruct (norm3_sq a) as [A0 AA], (norm3_sq b) as [B0 BB], (norm3_sq (add3 a b)) as [C0 CC]. assert (L := cauchy3 a b).
  assert (E : dot3 (add3 a b) (add3 a b) = dot3 a a + 2 * dot3 a b + dot3 b b) by (destruct a as [x y z], b as [u v w]; vunfoldg; rnumg; ring).
  destruct (Rle_or_lt (norm3 (add3 a b)) (norm3 a + norm3 b)) as [G|G]; [exact G|]. exfalso. assert ((norm3 a + norm3 b) * (norm3 a + norm3 b) < norm3 (add3 a b) * norm3 (add3 a b)) by nra. nra.
Qed.
Lemma norm3_move (p d : v3) : norm3 p - n1 d <= norm3 (add3 p d) <= norm3 p + n1 d.
Proof.
  assert (A := norm3_triangle p d). assert (B := norm3_triangle (add3 p d) (opp3 d)). assert (N := norm3_n1 d). assert (M := norm3_n1 (opp3 d)). rewrite n1_opp in M.
  replace (add3 (add3 p d) (opp3 d)) with p in B by (destruct p as [x y z], d as [u v w]; vunfoldg; rnumg; apply mk3_c; ring). lra.
Qed.

(** an increment: wheel speeds along the commanded acceleration, everything else at most e *)
Definition small (accl : list R) (c e : R) (d : SVec) : Prop :=
  v_whl d = map (fun x => c * x) accl /\ n1 (v_pos d) <= e /\ n1 (v_vel d) <= e /\ nq (v_att d) <= e /\ n1 (v_rate d) <= e.
Lemma small_mul accl c e d k : small accl c e d -> small accl (c * k) (Rabs k * e) (sv_mul d k).
Proof.
  intros (A & B & C & D & E). assert (K := Rabs_pos k). unfold small, sv_mul. cbn [v_pos v_vel v_att v_rate v_whl]. rewrite !n1_scale, nq_scale. split; [rewrite A, map_map; apply map_ext; intros; ring|].
  split; [|split; [|split]]; apply Rmult_le_compat_l; assumption.
Qed.
Lemma divq_scale q k : k <> 0 -> divq q k = scaleq (/ k) q.
Proof. intros K. destruct q as [a b c d]. vunfoldg; rnumg; apply mkq_c; field; exact K. Qed.
Lemma small_div accl c e d k : 0 < k -> small accl c e d -> small accl (c / k) (e / k) (sv_div d k).
Proof.
  intros K (A & B & C & D & E). unfold small, sv_div. cbn [v_pos v_vel v_att v_rate v_whl]. rewrite !n1_div_abs, divq_scale, nq_scale by lra. assert (I : 0 < / k) by (apply Rinv_0_lt_compat; exact K). rewrite (Rabs_pos_eq (/ k)) by lra.
  split; [rewrite A, map_map; apply map_ext; intros; field; lra|]. unfold Rdiv. rewrite (Rmult_comm e (/ k)). split; [|split; [|split]]; apply Rmult_le_compat_l; lra.
Qed.
Lemma small_add accl c e d c' e' d' : small accl c e d -> small accl c' e' d' -> exists g, sv_add d d' = Ok g /\ small accl (c + c') (e + e') g.
Proof.
  intros (A & B & C & D & E) (A' & B' & C' & D' & E'). unfold sv_add. rewrite A, A', np_add_eq by (rewrite !map_length; reflexivity). cbn [rbind]. eexists. split; [reflexivity|]. unfold small. cbn [v_pos v_vel v_att v_rate v_whl].
  split; [rewrite zip_map_r; clear; induction accl as [|x l IH]; [reflexivity|cbn; f_equal; [ring|exact IH]]|].
  assert (H1 := n1_add (v_pos d) (v_pos d')). assert (H2 := n1_add (v_vel d) (v_vel d')). assert (H3 := nq_add (v_att d) (v_att d')). assert (H4 := n1_add (v_rate d) (v_rate d')). lra.
Qed.
Lemma small_le accl c e e' d : small accl c e d -> e <= e' -> small accl c e' d.
Proof. intros (A & B & C & D & E) L. unfold small. split; [exact A|lra]. Qed.

(** the derivative on a box *)
Lemma nq_pure (w : v3) : nq (mkq 0 (x3 w) (y3 w) (z3 w)) = n1 w.
Proof. unfold nq, n1. cbn [qw qx qy qz]. rewrite Rabs_R0. ring. Qed.
Lemma field_bound hi_fi sat mt cur accl m V Q W H : 0 <= V -> 0 <= Q -> 0 <= W -> 0 <= H -> sys_actuate mt cur = Ok m -> exists D, 1 <= D /\ forall h s d, cached h s -> box sat V Q W H (sv s) ->
  vector_field hi_fi sat mt h s cur accl = Ok d -> small accl 1 D d.
Proof.
  intros V0 Q0 W0 H0 EM. destruct (env_bound hi_fi sat m V Q V0 Q0) as (K & K0 & HK).
  set (Tw := rw_torque (s_rw sat) accl). set (J := s_total_moment sat). set (Ji := s_inv_tot sat).
  assert (PT := n1_pos Tw). assert (PJ := nm_pos J). assert (PI := nm_pos Ji). assert (PM := Rabs_pos (/ s_mass sat)).
  set (D1 := Rabs (/ s_mass sat) * K). set (D2 := Q * W). set (D3 := nm Ji * (K + n1 Tw + W * (H + nm J * W))).
  assert (P1 : 0 <= D1) by (apply Rmult_le_pos; assumption). assert (P2 : 0 <= D2) by (apply Rmult_le_pos; assumption). assert (PJW : 0 <= nm J * W) by (apply Rmult_le_pos; assumption).
  assert (PX : 0 <= W * (H + nm J * W)) by (apply Rmult_le_pos; lra). assert (P3 : 0 <= D3) by (apply Rmult_le_pos; lra).
  exists (1 + V + D1 + D2 + D3). split; [lra|]. intros h s d CA BX VF. apply vf_inv in VF. destruct VF as (m' & F & T & EM' & EE & ->). rewrite EM in EM'. injection EM' as <-. destruct (HK W H h s F T CA BX EE) as [BF BT].
  destruct BX as (_ & BV & BQ & BW & BH). unfold small, derivative. cbn [v_pos v_vel v_att v_rate v_whl].
  split; [symmetry; rewrite <- (map_id accl) at 2; apply map_ext; intros; ring|]. split; [lra|]. split; [rewrite n1_div_abs; assert (Rabs (/ s_mass sat) * n1 F <= D1) by (apply Rmult_le_compat_l; assumption); lra|]. split.
  - rewrite nq_scale. replace (Rabs 0.5) with 0.5 by (rewrite Rabs_pos_eq; lra). assert (A := nq_product (v_att (sv s)) (mkq 0 (x3 (v_rate (sv s))) (y3 (v_rate (sv s))) (z3 (v_rate (sv s))))). rewrite nq_pure in A.
    assert (B : nq (v_att (sv s)) * n1 (v_rate (sv s)) <= D2) by (apply mul_le; (split; [first [apply nq_pos|apply n1_pos]|assumption])). lra.
  - fold Tw J Ji. set (Hw := rw_momentum (s_rw sat) (v_whl (sv s))) in *. set (w := v_rate (sv s)) in *. assert (A := n1_mv Ji (sub3 (sub3 T Tw) (cross3 w (add3 Hw (mv J w))))).
    assert (B1 := n1_sub (sub3 T Tw) (cross3 w (add3 Hw (mv J w)))). assert (B2 := n1_sub T Tw). assert (B3 := n1_cross w (add3 Hw (mv J w))). assert (B4 := n1_add Hw (mv J w)). assert (B5 := n1_mv J w).
    assert (B6 : nm J * n1 w <= nm J * W) by (apply Rmult_le_compat_l; assumption). assert (B7 : n1 w * n1 (add3 Hw (mv J w)) <= W * (H + nm J * W)) by (apply mul_le; (split; [apply n1_pos|lra])).
    assert (B8 : nm Ji * n1 (sub3 (sub3 T Tw) (cross3 w (add3 Hw (mv J w)))) <= D3) by (apply Rmult_le_compat_l; lra). lra.
Qed.

(** ** one step *)
(** a state in the safe set *)
Definition inside (sat : Satellite) (accl : list R) (lo hi V W H : R) (v : SVec) : Prop :=
  lo <= norm3 (v_pos v) <= hi /\ n1 (v_vel v) <= V /\ unitq (v_att v) /\ n1 (v_rate v) <= W /\ n1 (rw_momentum (s_rw sat) (v_whl v)) <= H /\ length (v_whl v) = length accl.
Lemma inside_eq sat accl lo hi V W H lo' hi' V' W' H' v : inside sat accl lo hi V W H v -> lo = lo' -> hi = hi' -> V = V' -> W = W' -> H = H' -> inside sat accl lo' hi' V' W' H' v.
Proof. intros I -> -> -> -> ->. exact I. Qed.
Section Step.
Context (hi_fi : bool) (sat : Satellite) (mt : list (Torquer R)) (cur accl : list R) (m : v3) (lo hi V W H mar D : R).
Context (V0 : 0 <= V) (W0 : 0 <= W) (H0 : 0 <= H) (EM : sys_actuate mt cur = Ok m) (LA : (length (rw_wheels (s_rw sat)) <= length accl)%nat).
Context (M0 : 0 < mar <= 1 / 2) (LO : 6628138 <= lo - mar) (HI : hi + mar <= 6856752) (D1 : 1 <= D).
Context (DB : forall h s d, cached h s -> box sat (V + 1) 5 (W + 1) (H + n1 (rw_torque (s_rw sat) accl)) (sv s) -> vector_field hi_fi sat mt h s cur accl = Ok d -> small accl 1 D d).
Local Notation field := (fun h s => vector_field hi_fi sat mt h s cur accl).
(** where a small increment leads *)
Definition moved (v : SVec) (c e : R) (v' : SVec) : Prop :=
  norm3 (v_pos v) - e <= norm3 (v_pos v') <= norm3 (v_pos v) + e /\ n1 (v_vel v') <= n1 (v_vel v) + e /\ nq (v_att v') <= nq (v_att v) + e /\ normq (v_att v) - e <= normq (v_att v') /\
  n1 (v_rate v') <= n1 (v_rate v) + e /\ n1 (rw_momentum (s_rw sat) (v_whl v')) <= n1 (rw_momentum (s_rw sat) (v_whl v)) + Rabs c * n1 (rw_torque (s_rw sat) accl) /\ length (v_whl v') = length accl.
Lemma add_small v c e d : length (v_whl v) = length accl -> small accl c e d -> exists v', sv_add v d = Ok v' /\ moved v c e v'.
Proof.
  intros LV (A & B & C & E & G). unfold sv_add. rewrite A, np_add_eq by (rewrite map_length; exact LV). cbn [rbind]. eexists. split; [reflexivity|]. unfold moved. cbn [v_pos v_vel v_att v_rate v_whl].
  split; [assert (X := norm3_move (v_pos v) (v_pos d)); lra|]. split; [assert (X := n1_add (v_vel v) (v_vel d)); lra|]. split; [assert (X := nq_add (v_att v) (v_att d)); lra|].
  split. { assert (X := normq_triangle (addq (v_att v) (v_att d)) (scaleq (-1) (v_att d))). replace (addq (addq (v_att v) (v_att d)) (scaleq (-1) (v_att d))) with (v_att v) in X by (destruct (v_att v) as [q1 q2 q3 q4], (v_att d) as [p1 p2 p3 p4]; vunfoldg; rnumg; apply mkq_c; ring).
    rewrite normq_scale in X. replace (Rabs (-1)) with 1 in X by (unfold Rabs; destruct (Rcase_abs (-1)); lra). assert (Y := normq_nq (v_att d)). lra. }
  split; [assert (X := n1_add (v_rate v) (v_rate d)); lra|]. split; [|apply eq_trans with (length (v_whl v)); [apply zip_len; rewrite map_length; exact LV|exact LV]].
  rewrite zip_map_r. unfold rw_momentum at 1. rewrite momentum_lin by exact LV. fold (rw_momentum (s_rw sat) (v_whl v)). fold (rw_torque (s_rw sat) accl). assert (X := n1_add (rw_momentum (s_rw sat) (v_whl v)) (scale3 c (rw_torque (s_rw sat) accl))). rewrite n1_scale in X. exact X.
Qed.
(** a state near one of the safe set is above the ground and inside the density table, so the field is there *)
Lemma stage h a cc v v' c e : h a = CJ cc -> inside sat accl lo hi V W H v -> moved v c e v' -> e <= mar -> Rabs c <= 1 ->
  exists s', make_state h a v' = Ok s' /\ sv s' = v' /\ clk s' = a /\ cached h s' /\ exists k, field h s' = Ok k /\ small accl 1 D k.
Proof.
  intros HC (IP & IV & IQ & IW & IH & IL) (MP & MV & MQ & _ & MW & MH & ML) HE HCC.
  destruct (state_made h a v') as (s' & E & CA & SV & CL & HT); [lra|]. exists s'. split; [exact E|]. split; [exact SV|]. split; [exact CL|]. split; [exact CA|].
  assert (Q4' := unit_nq _ IQ). assert (PT := n1_pos (rw_torque (s_rw sat) accl)).
  assert (HB : norm3 (v_pos v') <= 6856752) by lra. assert (LB : 6628138 <= norm3 (v_pos v')) by lra.
  destruct (proj2 (field_ok hi_fi sat mt h s' cur accl)) as (k & EK).
  { split; [apply actuate_ok; eexists; exact EM|]. split; [exact LA|]. rewrite SV, CL, ML. split; [exact LA|]. split; [eexists; exact HC|]. lra. }
  exists k. split; [exact EK|]. apply (DB h s' k CA); [|exact EK]. unfold box. rewrite SV. split; [lra|]. split; [lra|]. split; [lra|]. split; [lra|].
  assert (Rabs c * n1 (rw_torque (s_rw sat) accl) <= 1 * n1 (rw_torque (s_rw sat) accl)) by (apply Rmult_le_compat_r; assumption). lra.
Qed.
Lemma stage_add h s cc d c e : h (clk s) = CJ cc -> inside sat accl lo hi V W H (sv s) -> small accl c e d -> e <= mar -> Rabs c <= 1 ->
  exists s', state_add h s d = Ok s' /\ moved (sv s) c e (sv s') /\ clk s' = clk s /\ cached h s' /\ exists k, field h s' = Ok k /\ small accl 1 D k.
Proof.
  intros HC IN SM HE HCC. destruct (add_small (sv s) c e d) as (v' & EA & MO); [apply IN|exact SM|]. destruct (stage h (clk s) cc (sv s) v' c e HC IN MO HE HCC) as (s' & E & SV & CL & CA & K).
  exists s'. unfold state_add. rewrite EA. cbn [rbind]. split; [exact E|]. rewrite SV. split; [exact MO|]. split; [exact CL|]. split; [exact CA|exact K].
Qed.
Lemma moved_refl v : length (v_whl v) = length accl -> moved v 0 0 v.
Proof. intros L. unfold moved. rewrite Rabs_R0, !Rplus_0_r, !Rminus_0_r, Rmult_0_l, Rplus_0_r. repeat split; try apply Rle_refl. exact L. Qed.
Lemma rk4_ok h s cc dt : h (clk s) = CJ cc -> cached h s -> inside sat accl lo hi V W H (sv s) -> 0 < dt <= 1 -> dt * D <= mar ->
  exists s', RK4_sat h (field h) dt s = Ok s' /\ moved (sv s) dt (dt * D) (sv s') /\ clk s' = clk s /\ cached h s'.
Proof.
  intros HC CA IN DT DM. assert (AD : Rabs dt = dt) by (apply Rabs_pos_eq; lra). assert (DD : 0 <= dt * D) by (apply Rmult_le_pos; lra).
  destruct (stage h (clk s) cc (sv s) (sv s) 0 0 HC IN) as (s0 & E0 & SV0 & CL0 & _ & k1 & F1 & S1); [apply moved_refl, IN|lra|rewrite Rabs_R0; lra|]. rewrite CA in E0. injection E0 as <-.
  unfold RK4_sat, RK4_step. rewrite F1. cbn [rbind].
  assert (HALF : forall k, small accl 1 D k -> small accl (1 * dt / 2) (dt * D / 2) (sv_div (sv_mul k dt) 2)). { intros k SK. apply small_div; [lra|]. rewrite <- AD at 2. apply small_mul, SK. }
  assert (AH : Rabs (1 * dt / 2) <= 1) by (rewrite Rabs_pos_eq; lra).
  destruct (stage_add h s cc _ _ _ HC IN (HALF k1 S1)) as (s1 & E1 & _ & _ & _ & k2 & F2 & S2); [lra|exact AH|]. rewrite E1. cbn [rbind]. rewrite F2. cbn [rbind].
  destruct (stage_add h s cc _ _ _ HC IN (HALF k2 S2)) as (s2 & E2 & _ & _ & _ & k3 & F3 & S3); [lra|exact AH|]. rewrite E2. cbn [rbind]. rewrite F3. cbn [rbind].
  assert (T3 := small_mul _ _ _ _ dt S3). rewrite AD in T3. destruct (stage_add h s cc _ _ _ HC IN T3) as (s3 & E3 & _ & _ & _ & k4 & F4 & S4); [lra|rewrite Rmult_1_l, AD; lra|]. rewrite E3. cbn [rbind]. rewrite F4. cbn [rbind].
  assert (A2 : Rabs 2 = 2) by (apply Rabs_pos_eq; lra).
  assert (U2 := small_mul _ _ _ _ 2 S2). assert (U3 := small_mul _ _ _ _ 2 S3). rewrite A2 in U2, U3.
  destruct (small_add _ _ _ _ _ _ _ S1 U2) as (g1 & G1 & B1). rewrite G1. cbn [rbind]. destruct (small_add _ _ _ _ _ _ _ B1 U3) as (g2 & G2 & B2). rewrite G2. cbn [rbind]. destruct (small_add _ _ _ _ _ _ _ B2 S4) as (g3 & G3 & B3). rewrite G3. cbn [rbind].
  assert (B4 := small_mul _ _ _ _ dt (small_div _ _ _ _ 6 ltac:(lra) B3)). replace ((1 + 1 * 2 + 1 * 2 + 1) / 6 * dt) with dt in B4 by field. replace (Rabs dt * ((D + 2 * D + 2 * D + D) / 6)) with (dt * D) in B4 by (rewrite AD; field).
  cbv zeta. destruct (stage_add h s cc _ _ _ HC IN B4) as (s' & E' & MO & CL & CA' & _); [exact DM|rewrite AD; lra|]. exists s'. split; [exact E'|]. split; [exact MO|]. split; [exact CL|exact CA'].
Qed.
(** one update of the simulation *)
Lemma update_ok stream dt w cc : w_store w (clk (w_state w)) = CJ cc -> cached (w_store w) (w_state w) -> inside sat accl lo hi V W H (sv (w_state w)) -> 0 < dt <= 1 -> dt * D <= mar ->
  datetime_ok (j_us cc + ZnearestE (dt * 1000000)) = true ->
  exists w', update field stream true dt w = Ok w' /\ clk (w_state w') = clk (w_state w) /\ w_store w' (clk (w_state w')) = CJ (mkJ (j_us cc + ZnearestE (dt * 1000000)) (j_absolute cc)) /\ cached (w_store w') (w_state w') /\
    unitq (v_att (sv (w_state w'))) /\ norm3 (v_pos (sv (w_state w))) - dt * D <= norm3 (v_pos (sv (w_state w'))) <= norm3 (v_pos (sv (w_state w))) + dt * D /\
    n1 (v_vel (sv (w_state w'))) <= n1 (v_vel (sv (w_state w))) + dt * D /\ n1 (v_rate (sv (w_state w'))) <= n1 (v_rate (sv (w_state w))) + dt * D /\
    n1 (rw_momentum (s_rw sat) (v_whl (sv (w_state w')))) <= n1 (rw_momentum (s_rw sat) (v_whl (sv (w_state w)))) + dt * n1 (rw_torque (s_rw sat) accl) /\ length (v_whl (sv (w_state w'))) = length accl.
Proof.
  intros HC CA IN DT DM TK. destruct (rk4_ok (w_store w) (w_state w) cc dt HC CA IN DT DM) as (s' & E & MO & CL & CA'). destruct MO as (MP & MV & _ & MN & MW & MH & ML).
  unfold update. rewrite E. cbn [rbind]. rewrite CL, HC. cbn [clk_tick]. unfold jtick. rewrite TK. cbn [rbind]. set (c' := mkJ (j_us cc + ZnearestE (dt * 1000000)) (j_absolute cc)).
  destruct (state_made (set_clk (w_store w) (clk (w_state w)) (CJ c')) (clk (w_state w)) (set_att (sv s') (normalizeq (v_att (sv s'))))) as (st & ES & CS & SV & CLS & _).
  { cbn [set_att v_pos]. destruct IN as (IP & _). lra. }
  rewrite ES. cbn [rbind]. eexists. split; [reflexivity|]. cbn [w_state w_store]. rewrite SV, CLS. unfold set_att. cbn [v_pos v_vel v_att v_rate v_whl]. split; [reflexivity|].
  split; [unfold set_clk; rewrite Nat.eqb_refl; reflexivity|]. split; [exact CS|].
  split. { apply normalizeq_unit. intros Z. rewrite Z in MN. assert (NZ : normq (T:=R) zeroq = 0) by (apply normq_zero; reflexivity). rewrite NZ in MN. destruct IN as (_ & _ & IQ & _). unfold unitq in IQ. unfold normq in MN at 1. rewrite IQ in MN. revert MN. rnumg. rewrite sqrt_1. lra. }
  split; [exact MP|]. split; [exact MV|]. split; [exact MW|]. split; [|exact ML]. rewrite Rabs_pos_eq in MH by lra. exact MH.
Qed.
End Step.
