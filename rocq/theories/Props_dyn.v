(** * Properties of classes/dynamics.py and system/simulator.py: C36-C41 *)
From Coq Require Import Reals ZArith List Bool Arith Lra Psatz Lia.
From Verif Require Import Num Flt Vec M_vector M_quaternion M_jday M_frame M_struct M_env M_dyn M_sensor M_integ.
From Verif Require Import S_rot S_integ S_dyn P_vec2 P_quat P_wheel P_env Props_env P_frame P_flae P_sat P_struct P_integ P_integ2 P_dyn P_dyn2.
From Flocq Require Import Core.
Import ListNotations.
Local Open Scope R_scope.

(** ** C36: every simulated step leaves a unit attitude *)
Theorem C36_unit_attitude : forall f stream dt w w', update f stream true dt w = Ok w' ->
  exists next, RK4_sat (w_store w) (f (w_store w)) dt (w_state w) = Ok next /\
  let a := sv next in let b := sv (w_state w') in
  v_pos b = v_pos a /\ v_vel b = v_vel a /\ v_rate b = v_rate a /\ v_whl b = v_whl a /\
  (v_att a <> zeroq -> dotq (v_att b) (v_att b) = 1 /\ exists k, 0 < k /\ v_att b = scaleq k (v_att a)) /\
  (v_att a = zeroq -> v_att b = zeroq).
Proof.
  intros f stream dt w w' H. destruct (update_inv _ _ _ _ _ _ H) as (next & c & H1 & _ & _ & _ & _ & _ & H2 & _).
  exists next. split; [exact H1|]. cbv zeta. rewrite H2. unfold set_att. cbn [v_pos v_vel v_rate v_whl v_att].
  repeat (split; [reflexivity|]). split.
  - intros N. split; [apply normalizeq_unit, N|]. exists (/ normq (v_att (sv next))). rewrite (normalizeq_nz _ N).
    assert (NP := normq_gt0 _ N).
    split; [apply Rinv_0_lt_compat, NP|reflexivity].
  - intros E. rewrite E. apply normalizeq_zero.
Qed.
Print Assumptions C36_unit_attitude.
(** any number of steps *)
Theorem C36_unit_always : forall f stream dt n w w', updates f stream true dt (S n) w = Ok w' ->
  dotq (v_att (sv (w_state w'))) (v_att (sv (w_state w'))) = 1 \/ v_att (sv (w_state w')) = zeroq.
Proof.
  intros f stream dt n w w' H. rewrite updates_riter, riter_last in H. destruct (rbind_ok _ _ _ H) as (u & _ & Hu).
  destruct (C36_unit_attitude _ _ _ _ _ Hu) as (next & _ & _ & _ & _ & _ & A & B).
  destruct (zeroq_dec (v_att (sv next))) as [E|E]; [right; exact (B E)|left; exact (proj1 (A E))].
Qed.
Print Assumptions C36_unit_always.
(** the code's own vector field cannot send the attitude to zero while the body turns at most one radian per step *)
Theorem C36_never_zero : forall hi_fi sat mt cur accl stream dt w w', let f := fun h s => vector_field hi_fi sat mt h s cur accl in
  0 < dt -> v_att (sv (w_state w)) <> zeroq -> update f stream true dt w = Ok w' ->
  (forall s2 s3 s4 k1 k2 k3 k4, rk4_stages (w_store w) (f (w_store w)) dt (w_state w) s2 s3 s4 k1 k2 k3 k4 ->
     forall x, In x [w_state w; s2; s3; s4] -> norm3 (v_rate (sv x)) * dt <= 1) ->
  dotq (v_att (sv (w_state w'))) (v_att (sv (w_state w'))) = 1.
Proof.
  intros hi_fi sat mt cur accl stream dt w w' f Hd Hq H Hs. destruct (C36_unit_attitude _ _ _ _ _ H) as (next & Hn & _ & _ & _ & _ & A & _).
  apply A. apply zeroq_norm. exact (rk4_nonzero _ _ _ _ _ (vf_kinematic hi_fi sat mt (w_store w) cur accl) Hd Hq Hn Hs).
Qed.
Print Assumptions C36_never_zero.
(** at constant body rate it never happens, and before normalisation one step changes |q|^2 by this exact factor *)
Theorem C36_constant_rate : forall f stream dt w w',
  (forall h, kinematic (f h)) -> (forall h s d, f h s = Ok d -> v_rate d = zero3) ->
  dotq (v_att (sv (w_state w))) (v_att (sv (w_state w))) = 1 -> update f stream true dt w = Ok w' ->
  dotq (v_att (sv (w_state w'))) (v_att (sv (w_state w'))) = 1 /\
  exists next, RK4_sat (w_store w) (f (w_store w)) dt (w_state w) = Ok next /\
  let y2 := (norm3 (v_rate (sv (w_state w))) * dt / 2) ^ 2 in
  dotq (v_att (sv next)) (v_att (sv next)) = 1 - y2 ^ 3 / 72 + y2 ^ 4 / 576.
Proof.
  intros f stream dt w w' K Z U H. destruct (C36_unit_attitude _ _ _ _ _ H) as (next & Hn & _ & _ & _ & _ & A & _).
  assert (E := rk4_const_rate _ _ _ _ _ (K _) (Z _) Hn). cbv zeta in E.
  assert (N2 : (norm3 (v_rate (sv (w_state w))) * dt / 2) ^ 2 = dot3 (v_rate (sv (w_state w))) (v_rate (sv (w_state w))) * dt ^ 2 / 4).
  { unfold norm3. rnumg. assert (S := sqrt_sqrt (dot3 (v_rate (sv (w_state w))) (v_rate (sv (w_state w)))) ltac:(apply dot3_nonneg)).
    transitivity (sqrt (dot3 (v_rate (sv (w_state w))) (v_rate (sv (w_state w)))) * sqrt (dot3 (v_rate (sv (w_state w))) (v_rate (sv (w_state w)))) * dt ^ 2 / 4); [field|].
    rewrite S. reflexivity. }
  rewrite U, Rmult_1_l in E. split.
  - apply A. intros Z0. rewrite Z0 in E.
    assert (P := stab_pos (dot3 (v_rate (sv (w_state w))) (v_rate (sv (w_state w))) * dt ^ 2 / 4)). rewrite <- N2 in P, E.
    assert (P' := P (pow2_ge_0 _)). rewrite <- E in P'. revert P'. unfold zeroq. vunfoldg. rnumg. lra.
  - exists next. split; [exact Hn|]. cbv zeta. rewrite N2. exact E.
Qed.
Print Assumptions C36_constant_rate.
Example C36_ex : exists s0, make_state store0 0 spin_start = Ok s0 /\ dotq (v_att (sv s0)) (v_att (sv s0)) = 1 /\ norm3 (v_rate (sv s0)) * 0.05 <= 1 /\
  (forall h, kinematic (spin_field h)) /\ (forall h s d, spin_field h s = Ok d -> v_rate d = zero3) /\
  forall stream g n, exists w', updates spin_field stream true 0.05 (S n) (mkWorld s0 store0 g 0) = Ok w'.
Proof.
  destruct (held_state store0 0 spin_start) as (s0 & E & S & C); [split; reflexivity|]. exists s0. split; [exact E|]. rewrite S.
  split; [unfold spin_start; vunfoldg; rnumg; cbn [v_att]; lra|]. split.
  { unfold spin_start, norm3. cbn [v_rate]. rnumg. replace (dot3 _ _) with 1 by (vunfoldg; rnumg; ring). rewrite sqrt_1. lra. }
  split; [intros h s d H; injection H as <-; reflexivity|]. split; [intros h s d H; injection H as <-; reflexivity|].
  intros stream g n. rewrite updates_riter.
  destruct (spin_updates stream (Datatypes.S n) (mkWorld s0 store0 g 0)) as (w' & H & _); [cbn [w_state]; rewrite S; split; reflexivity|intros a; eexists; reflexivity|].
  exists w'. exact H.
Qed.

(** ** C37: integrate takes exactly the steps that fit the duration *)
Theorem C37_count : forall {W} (step : W -> res W) (dt dur : R), 0 < dt -> exists N : nat,
  (forall k, (1 <= k)%nat -> ((k <= N)%nat <-> INR k * dt < dur \/ Rabs (INR k * dt - dur) < 0.001)) /\
  (forall fuel w, (N < fuel)%nat -> integrate fuel step dt dur w = Some (riter N step w)) /\
  dur - dt < INR N * dt /\ (N = 0%nat \/ INR N * dt < dur + 0.001) /\
  (dur <= dt - 0.001 -> N = 0%nat) /\ (dt <= 0.001 -> dur <= INR N * dt) /\ (dt < 0.001 -> dur < INR N * dt).
Proof.
  intros W step dt dur Hd. destruct (count_exists dt (dur + 0.001) Hd) as [N HN]. exists N.
  assert (HF : forall k, (1 <= k)%nat -> ((k <= N)%nat <-> fits dt dur k)) by (intros k Hk; rewrite fits_iff; apply HN; exact Hk).
  assert (LAST : dur + 0.001 <= INR (S N) * dt).
  { apply Rnot_lt_le. intros H. apply (HN (S N)) in H; lia. }
  rewrite (S_INR N) in LAST.
  split; [exact HF|]. split; [|split; [lra|split; [|split; [|split; intros; lra]]]].
  - intros fuel w Hf. apply loop_runs; [| |exact Hf].
    + intros i Hi. apply cond_R. rewrite acc_R. assert (HI := proj1 (HN (S i) ltac:(lia)) ltac:(lia)). rewrite (S_INR i) in HI. lra.
    + destruct (loop_cond dur (acc dt N dt)) eqn:E; [|reflexivity]. apply cond_R in E. rewrite acc_R in E. lra.
  - destruct N as [|N]; [left; reflexivity|right]. apply (HN (S N)); lia.
  - intros HD. destruct N as [|N]; [reflexivity|exfalso]. assert (H := proj1 (HN 1%nat ltac:(lia)) ltac:(lia)). simpl INR in H. lra.
Qed.
Print Assumptions C37_count.
(** with a step of zero or less the loop never ends *)
Theorem C37_forever : forall {W} (step : W -> res W) (dt dur : R), dt <= 0 -> dt < dur + 0.001 -> (forall w, exists w', step w = Ok w') ->
  forall fuel w, integrate fuel step dt dur w = None.
Proof.
  intros W step dt dur H0 H1 HS fuel w. apply loop_forever; [exact HS|]. intros i. apply cond_R. rewrite acc_R. assert (P := pos_INR i). nra.
Qed.
Print Assumptions C37_forever.
(** binary64: the accumulated sum of steps gives the same count *)
Theorem C37_count_b64 : forall {W} (step : W -> res W) (dt dur : b64) (n : nat), fin dt = true -> fin dur = true -> 1 / 128 <= fR dt -> (1 <= n)%nat ->
  INR (S n) * fR dt <= 8000 -> Rabs (fR dur - INR n * fR dt) <= 0.0001 ->
  forall fuel w, (n < fuel)%nat -> integrate fuel step dt dur w = Some (riter n step w).
Proof. intros W. exact count_b64. Qed.
Print Assumptions C37_count_b64.
(** the simulator's step, the double nearest 0.05: any duration within 0.00005 of n steps makes n steps, for n up to 100000 *)
Theorem C37_simulator_b64 : forall {W} (step : W -> res W) (dur : b64) (n : nat), fin dur = true -> (1 <= n)%nat -> INR n <= 100000 ->
  Rabs (fR dur - INR n / 20) <= 0.00005 ->
  forall fuel w, (n < fuel)%nat -> integrate fuel step (fdec 1 20) dur w = Some (riter n step w).
Proof.
  intros W step dur n Fd Hn HN HD.
  destruct (fofZ_R 1 ltac:(lia)) as [A1 A2]. destruct (fofZ_R 20 ltac:(lia)) as [B1 B2].
  assert (U : Rabs (rnd (1 / 20)) <= bpow radix2 (-4)) by (apply rnd_le_bpow; [lia|]; rewrite Rabs_pos_eq by lra; simpl; lra).
  assert (ER := rnd_err13 (1 / 20) ltac:(rewrite Rabs_pos_eq; lra)).
  assert (B40 : bpow radix2 (-40) <= / 1000000000000) by (simpl; lra).
  destruct (fdiv_ok (fofZ 1) (fofZ 20) A2) as [D1 D2]; [rewrite B1; lra|rewrite A1, B1; apply (Rle_lt_trans _ _ _ U), bpow_lt; lia|].
  rewrite A1, B1 in D1. change (fdiv (fofZ 1) (fofZ 20)) with (fdec 1 20) in D1, D2.
  assert (EE := Rle_trans _ _ _ ER B40). apply Rabs_le_inv in EE. rewrite <- D1 in EE. assert (P := pos_INR n).
  apply Rabs_le_inv in HD. assert (S1 := S_INR n).
  assert (X : Rabs (INR n * (fR (fdec 1 20) - 1 / 20)) <= 0.0000001).
  { rewrite Rabs_mult, (Rabs_pos_eq (INR n)) by exact P. rewrite <- D1 in ER. assert (0 <= Rabs (fR (fdec 1 20) - 1 / 20)) by apply Rabs_pos. nra. }
  apply Rabs_le_inv in X.
  apply count_b64; [exact D2|exact Fd|lra|exact Hn| |].
  - rewrite S1. nra.
  - apply Rabs_le. lra.
Qed.
Print Assumptions C37_simulator_b64.
Example C37_ex : 0 < 0.05 /\ (-0.05 <= 0 /\ -0.05 < 1 + 0.001) /\ fin (fofZ 1) = true /\ INR 20 <= 100000 /\ Rabs (fR (fofZ 1) - INR 20 / 20) <= 0.00005 /\
  integrate 21 (fun k : nat => Ok (S k)) 0.05 1 0%nat = Some (Ok 20%nat).
Proof.
  destruct (fofZ_R 1 ltac:(lia)) as [A1 A2]. split; [lra|]. split; [lra|]. split; [exact A2|]. split; [simpl; lra|]. split.
  - rewrite A1. replace (1 - INR 20 / 20) with 0 by (simpl; lra). rewrite Rabs_R0. lra.
  - destruct (C37_count (fun k : nat => Ok (S k)) 0.05 1 ltac:(lra)) as (N & H1 & H2 & _).
    assert (E : N = 20%nat).
    { assert (L := proj2 (H1 20%nat ltac:(lia)) ltac:(right; replace (INR 20 * 0.05 - 1) with 0 by (simpl; lra); rewrite Rabs_R0; lra)).
      destruct (Nat.le_gt_cases N 20) as [G|G]; [lia|exfalso]. assert (F := proj1 (H1 21%nat ltac:(lia)) ltac:(lia)).
      destruct F as [F|F]; [simpl in F; lra|]. replace (INR 21 * 0.05 - 1) with 0.05 in F by (simpl; lra). rewrite Rabs_pos_eq in F; lra. }
    rewrite H2 by lia. rewrite E. reflexivity.
Qed.

(** ** C38: the RK4 step is exact where it must be *)
(** linear systems of any dimension: the degree-4 Taylor polynomial of the flow *)
Theorem C38_linear : forall L h s, linear L ->
  RK4_step okadd okadd vmul vdiv (fun x => Ok (L x)) h s =
  Ok (fun i => s i + h * L s i + h ^ 2 / 2 * L (L s) i + h ^ 3 / 6 * L (L (L s)) i + h ^ 4 / 24 * L (L (L (L s))) i).
Proof. exact rk4_linear. Qed.
Print Assumptions C38_linear.
(** constant jerk: position, velocity, acceleration and jerk are exact after one step of any length *)
Definition chain (x : vecn) : vecn := fun i => match i with O => x 1%nat | 1%nat => x 2%nat | 2%nat => x 3%nat | _ => 0 end.
Theorem C38_constant_jerk : forall h s, exists s', RK4_step okadd okadd vmul vdiv (fun x => Ok (chain x)) h s = Ok s' /\
  s' 0%nat = s 0%nat + h * s 1%nat + h ^ 2 / 2 * s 2%nat + h ^ 3 / 6 * s 3%nat /\
  s' 1%nat = s 1%nat + h * s 2%nat + h ^ 2 / 2 * s 3%nat /\ s' 2%nat = s 2%nat + h * s 3%nat /\ s' 3%nat = s 3%nat.
Proof.
  intros h s. eexists. split.
  - apply rk4_linear. split; intros; apply FunctionalExtensionality.functional_extensionality; intros [|[|[|i]]]; unfold chain, vadd, vscale; ring.
  - cbn [chain]. repeat split; field.
Qed.
Print Assumptions C38_constant_jerk.
(** a derivative that is a cubic in time is integrated exactly *)
Theorem C38_cubic : forall c0 c1 c2 c3 h t x,
  RK4_step okadd2 okadd2 mul2 div2 (fun y => Ok (1, c0 + c1 * fst y + c2 * fst y ^ 2 + c3 * fst y ^ 3)) h (t, x) =
  Ok (t + h, x + ((c0 * (t + h) + c1 / 2 * (t + h) ^ 2 + c2 / 3 * (t + h) ^ 3 + c3 / 4 * (t + h) ^ 4)
                  - (c0 * t + c1 / 2 * t ^ 2 + c2 / 3 * t ^ 3 + c3 / 4 * t ^ 4))).
Proof. exact rk4_cubic. Qed.
Print Assumptions C38_cubic.
(** x' = l x: the amplification factor and its error *)
Theorem C38_mode : forall l h x, exists x', RK4_step (fun a b => Ok (a + b)) (fun a b => Ok (a + b)) Rmult Rdiv (fun x => Ok (l * x)) h x = Ok x' /\
  (let z := l * h in x' = (1 + z + z ^ 2 / 2 + z ^ 3 / 6 + z ^ 4 / 24) * x) /\
  Rabs (exp (l * h) * x - x') <= Rabs (l * h) ^ 5 * exp (Rabs (l * h)) / 120 * Rabs x.
Proof.
  intros l h x. eexists. split; [apply rk4_mode|]. cbv zeta. split; [reflexivity|].
  rewrite <- Rmult_minus_distr_r, Rabs_mult. apply Rmult_le_compat_r; [apply Rabs_pos|apply exp_taylor4].
Qed.
Print Assumptions C38_mode.
(** the satellite's wheels: exact after any number of steps, with or without the simulator flag *)
Theorem C38_wheels : forall hi_fi sat mt cur accl stream sim dt n w w', length (v_whl (sv (w_state w))) = length accl ->
  updates (fun h s => vector_field hi_fi sat mt h s cur accl) stream sim dt n w = Ok w' ->
  length (v_whl (sv (w_state w'))) = length accl /\
  forall i, (i < length accl)%nat -> nth i (v_whl (sv (w_state w'))) 0 = nth i (v_whl (sv (w_state w))) 0 + INR n * dt * nth i accl 0.
Proof.
  intros hi_fi sat mt cur accl stream sim dt n w w' HL H. rewrite updates_riter in H.
  rewrite (updates_wheels _ _ _ _ accl _ (fun h s d E => vf_wheels _ _ _ _ _ _ _ _ E) _ _ HL H). unfold wheels_after. split; [rewrite zip_len by exact HL; exact HL|].
  clear H. intros i Hi. revert i Hi. generalize dependent (v_whl (sv (w_state w))). clear. induction accl as [|a accl IH]; intros l HL i Hi; [simpl in Hi; lia|].
  destruct l as [|x l]; [discriminate|]. destruct i as [|i]; [reflexivity|]. cbn [zip_with nth]. apply IH; [simpl in HL; lia|simpl in Hi; lia].
Qed.
Print Assumptions C38_wheels.
Example C38_ex : (exists x, RK4_step (fun a b => Ok (a + b)) (fun a b => Ok (a + b)) Rmult Rdiv (fun x => Ok (-1 * x)) 1 2 = Ok x /\ x = 0.75) /\
  linear chain /\ length [1; 2; 3] = length [4; 5; 6].
Proof.
  split; [|split; [|reflexivity]].
  - destruct (C38_mode (-1) 1 2) as (x & E & X & _). exists x. split; [exact E|]. rewrite X. cbv zeta. lra.
  - split; intros; apply FunctionalExtensionality.functional_extensionality; intros [|[|[|i]]]; unfold chain, vadd, vscale; ring.
Qed.

(** ** C39: simulated time and the shared clock *)
Theorem C39_clock : forall f stream sim dt n w w', updates f stream sim dt n w = Ok w' -> let a := clk (w_state w) in
  clk (w_state w') = a /\
  (forall c, w_store w a = CJ c -> w_store w' a = CJ (mkJ (j_us c + Z.of_nat n * Flocq.Core.Round_NE.ZnearestE (dt * 1000000)) (j_absolute c))) /\
  (forall c, w_store w a = CClock c -> exists c', w_store w' a = CClock c' /\ c' = ticks (repeat dt n) c /\ absolute c' = absolute c + INR n * dt) /\
  (forall b, b <> a -> w_store w' b = w_store w b) /\
  ((0 < n)%nat -> fresh (w_store w') (w_state w')).
Proof.
  intros f stream sim dt n w w' H a. rewrite updates_riter in H. destruct (updates_clock _ _ _ _ _ _ _ H) as (A & B & C & _ & D). fold a in A, B, C.
  split; [exact A|]. split; [|split; [|split; [exact C|exact D]]].
  - intros c E. rewrite E in B. apply jticks_n in B. exact B.
  - intros c E. rewrite E in B. apply cticks_n in B. eexists. split; [exact B|]. split; [reflexivity|].
    rewrite P_jday.ticks_absolute. f_equal. clear. induction n as [|n IH]; [simpl; ring|]. cbn [repeat]. rewrite (S_INR n). transitivity (dt + INR n * dt); [rewrite <- IH; reflexivity|ring].
Qed.
Print Assumptions C39_clock.
(** the caller's initial state keeps its address, so it reads the advanced clock; its cached frame is right only while the rotation matrix is the same *)
Theorem C39_stale : forall h h' s, fresh h s -> (fresh h' s <-> ecef_matrix (clk_theta (h' (clk s))) = ecef_matrix (clk_theta (h (clk s)))).
Proof.
  intros h h' s H. unfold fresh, make_state in *. destruct (rbind_ok _ _ _ H) as ([[lat lon] alt] & E1 & E2). injection E2 as E2.
  split.
  - intros H'. destruct (rbind_ok _ _ _ H') as ([[lat' lon'] alt'] & E1' & E2'). injection E2' as E2'.
    transitivity (c_ecef s); [rewrite <- E2'; reflexivity|rewrite <- E2; reflexivity].
  - intros ->. exact H.
Qed.
Print Assumptions C39_stale.
(** the simulator ignores the step it is given *)
Theorem C39_simulator : forall hi_fi sat mt stream dt duration cur accl, exists N,
  (forall k, (1 <= k)%nat -> ((k <= N)%nat <-> INR k * 0.05 < duration \/ Rabs (INR k * 0.05 - duration) < 0.001)) /\
  forall w fuel, (N < fuel)%nat ->
  sim_input hi_fi sat mt stream dt fuel duration cur accl w = Some (updates (fun h s => vector_field hi_fi sat mt h s cur accl) stream true 0.05 N w) /\
  forall w' c, updates (fun h s => vector_field hi_fi sat mt h s cur accl) stream true 0.05 N w = Ok w' -> w_store w (clk (w_state w)) = CJ c ->
    exists c', w_store w' (clk (w_state w)) = CJ c' /\ j_us c' = (j_us c + Z.of_nat N * 50000)%Z.
Proof.
  intros hi_fi sat mt stream dt duration cur accl.
  destruct (C37_count (update (fun h s => vector_field hi_fi sat mt h s cur accl) stream true 0.05) 0.05 duration ltac:(lra)) as (N & H1 & H2 & _).
  exists N. split; [exact H1|]. intros w fuel Hf. split.
  - unfold sim_input, simulator_dt. cbv zeta. rewrite (H2 fuel w Hf), updates_riter. reflexivity.
  - intros w' c HU HC. destruct (C39_clock _ _ _ _ _ _ _ HU) as (_ & A & _). eexists. split; [apply A, HC|]. cbn [j_us].
    replace (0.05 * 1000000) with (IZR 50000) by lra. rewrite Zrnd_IZR; [reflexivity|auto with typeclass_instances].
Qed.
Print Assumptions C39_simulator.
Example C39_ex : exists s0, make_state store0 0 spin_start = Ok s0 /\ fresh store0 s0 /\
  forall stream g, exists w', updates spin_field stream true 0.05 3 (mkWorld s0 store0 g 0) = Ok w' /\ exists c, w_store w' 0%nat = CClock c /\ absolute c = 0.15.
Proof.
  destruct (held_state store0 0 spin_start) as (s0 & E & S & C); [split; reflexivity|]. exists s0. split; [exact E|].
  destruct (make_state_inv _ _ _ _ E) as (_ & _ & F). split; [exact F|]. intros stream g.
  destruct (spin_updates stream 3 (mkWorld s0 store0 g 0)) as (w' & H & _); [cbn [w_state]; rewrite S; split; reflexivity|intros a; eexists; reflexivity|].
  rewrite <- updates_riter in H. exists w'. split; [exact H|]. destruct (C39_clock _ _ _ _ _ _ _ H) as (_ & _ & A & _). cbn [w_state w_store] in A. rewrite C in A.
  destruct (A clock0 eq_refl) as (c' & E1 & _ & E3). exists c'. split; [exact E1|]. rewrite E3. unfold clock0. cbn [absolute]. simpl INR. lra.
Qed.

(** ** C40: motion conserves what it should *)
Theorem C40_attitude_norm : forall hi_fi sat mt a b clock cur accl y, det3 (s_total_moment sat) <> 0 -> solution hi_fi sat mt a b clock cur accl y ->
  forall t1 t2, a < t1 < b -> a < t2 < b -> dotq (v_att (y t1)) (v_att (y t1)) = dotq (v_att (y t2)) (v_att (y t2)).
Proof.
  intros hi_fi sat mt a b clock cur accl y D S. apply (const_of_deriv (fun u => dotq (v_att (y u)) (v_att (y u)))).
  intros t Ht. destruct (solution_rot _ _ _ _ _ _ _ _ _ t D S Ht) as (T & _ & H & _). exact H.
Qed.
Print Assumptions C40_attitude_norm.
(** the total momentum of body and wheels, in inertial axes, changes at the rate of the external torque alone *)
Theorem C40_momentum_rate : forall hi_fi sat mt a b clock cur accl y t, det3 (s_total_moment sat) <> 0 -> solution hi_fi sat mt a b clock cur accl y -> a < t < b ->
  exists T, external_torque hi_fi sat mt clock cur y t T /\ deriv3 (fun u => inertial_momentum sat (y u)) t (sandwich_opp (v_att (y t)) T).
Proof.
  intros hi_fi sat mt a b clock cur accl y t D S Ht. destruct (solution_rot _ _ _ _ _ _ _ _ _ t D S Ht) as (T & E & _ & H & _). exists T. split; [exact E|exact H].
Qed.
Print Assumptions C40_momentum_rate.
Lemma torque_unique hi_fi sat mt clock cur y t T T' : external_torque hi_fi sat mt clock cur y t T -> external_torque hi_fi sat mt clock cur y t T' -> T = T'.
Proof. intros (st & m & F & A & B & C) (st' & m' & F' & A' & B' & C'). congruence. Qed.
Theorem C40_momentum_constant : forall hi_fi sat mt a b clock cur accl y, det3 (s_total_moment sat) <> 0 -> solution hi_fi sat mt a b clock cur accl y ->
  (forall t, a < t < b -> external_torque hi_fi sat mt clock cur y t zero3) ->
  forall t1 t2, a < t1 < b -> a < t2 < b -> inertial_momentum sat (y t1) = inertial_momentum sat (y t2).
Proof.
  intros hi_fi sat mt a b clock cur accl y D S Z t1 t2 H1 H2.
  assert (K : forall t, a < t < b -> deriv3 (fun u => inertial_momentum sat (y u)) t zero3).
  { intros t Ht. destruct (C40_momentum_rate _ _ _ _ _ _ _ _ _ t D S Ht) as (T & E & H). rewrite (torque_unique _ _ _ _ _ _ _ _ _ E (Z t Ht)), opp_zero in H. exact H. }
  apply V3_eq.
  - apply (const_of_deriv (fun u => x3 (inertial_momentum sat (y u))) a b); [intros t Ht; exact (proj1 (K t Ht))|exact H1|exact H2].
  - apply (const_of_deriv (fun u => y3 (inertial_momentum sat (y u))) a b); [intros t Ht; exact (proj1 (proj2 (K t Ht)))|exact H1|exact H2].
  - apply (const_of_deriv (fun u => z3 (inertial_momentum sat (y u))) a b); [intros t Ht; exact (proj2 (proj2 (K t Ht)))|exact H1|exact H2].
Qed.
Print Assumptions C40_momentum_constant.
(** the spin energy of the body changes only through external and wheel torques *)
Theorem C40_energy : forall hi_fi sat mt a b clock cur accl y, det3 (s_total_moment sat) <> 0 -> solution hi_fi sat mt a b clock cur accl y ->
  (forall t, a < t < b -> exists T, external_torque hi_fi sat mt clock cur y t T /\
     derivable_pt_lim (fun u => rotational_energy sat (y u)) t (dot3 (v_rate (y t)) (sub3 T (rw_torque (s_rw sat) (accl t))))) /\
  ((forall t, a < t < b -> external_torque hi_fi sat mt clock cur y t zero3) -> (forall t, Forall (fun x => x = 0) (accl t)) ->
   forall t1 t2, a < t1 < b -> a < t2 < b -> rotational_energy sat (y t1) = rotational_energy sat (y t2)).
Proof.
  intros hi_fi sat mt a b clock cur accl y D S. split.
  - intros t Ht. destruct (solution_rot _ _ _ _ _ _ _ _ _ t D S Ht) as (T & E & _ & _ & H). exists T. split; [exact E|exact H].
  - intros Z ZA. apply (const_of_deriv (fun u => rotational_energy sat (y u))). intros t Ht.
    destruct (solution_rot _ _ _ _ _ _ _ _ _ t D S Ht) as (T & E & _ & _ & H). rewrite (torque_unique _ _ _ _ _ _ _ _ _ E (Z t Ht)) in H.
    assert (RW : rw_torque (s_rw sat) (accl t) = zero3).
    { unfold rw_torque. assert (F := ZA t). clear - F. revert F. generalize (rw_wheels (s_rw sat)) as ws, (accl t) as l.
      induction ws as [|w ws IH]; intros l F; [destruct l; reflexivity|]. destruct l as [|x l]; [reflexivity|]. inversion F; subst. cbn [zip_with sum3 fold_right].
      change (fold_right add3 zero3 (zip_with w_momentum ws l)) with (sum3 (zip_with w_momentum ws l)). rewrite IH by assumption. rewrite w_momentum_0. vring. }
    rewrite RW in H. eapply d_eq; [exact H|]. generalize (v_rate (y t)). vring.
Qed.
Print Assumptions C40_energy.
(** a motion that meets all the hypotheses: circular equatorial orbit at 400 km, spinning, one wheel turning *)
Example C40_ex : forall c, det3 (s_total_moment ball) <> 0 /\ solution false ball [] (-100) 100 (fun _ => CJ c) (fun _ => []) (fun _ => [0; 0; 0]) circle /\
  (forall t, -100 < t < 100 -> external_torque false ball [] (fun _ => CJ c) (fun _ => []) circle t zero3) /\
  rotational_energy ball (circle 0) = 18 /\ circle 0 <> circle 1.
Proof.
  intros c. destruct (circle_solution c (-100) 100) as [A B]. split; [apply ball_det|]. split; [exact A|]. split; [|split].
  - intros t _. destruct (B t) as (st & m & H1 & H2 & F & H3). exists st, m, F. auto.
  - unfold rotational_energy. rewrite ball_total. unfold circle. cbn [v_rate]. unfold spin. vunfoldg. rnumg. field.
  - intros E. assert (E2 : qw (v_att (circle 0)) = qw (v_att (circle 1))) by (rewrite E; reflexivity). unfold circle in E2. cbn [v_att qw] in E2.
    rewrite Rmult_0_r, cos_0, Rmult_1_r in E2. assert (P := PI_4). assert (P3 := PI2_3_2). unfold spin in E2.
    assert (cos (3 / 2) < cos 0) by (apply cos_decreasing_1; lra). rewrite cos_0 in *. lra.
Qed.

(** ** C41: environment forces and torques *)
(** force and torque are the sums of the four parts *)
Theorem C41_sum : forall hi_fi sat h s m F T, env_F_and_T hi_fi sat h s m = Ok (F, T) ->
  exists Fs Ts Fd Td, solar_F_and_T sat h s = Ok (Fs, Ts) /\ drag_F_and_T sat s = Ok (Fd, Td) /\
  let '(Fg, Tg) := gravity_F_and_T hi_fi sat s in let '(Fm, Tm) := magnetic_F_and_T s m in
  F = add3 (add3 (add3 Fd Fg) Fm) Fs /\ T = add3 (add3 (add3 Td Tg) Tm) Ts.
Proof.
  intros hi_fi sat h s m F T H. unfold env_F_and_T in H. destruct (rbind_ok _ _ _ H) as ([Fs Ts] & H1 & H2). destruct (rbind_ok _ _ _ H2) as ([Fd Td] & H3 & H4).
  exists Fs, Ts, Fd, Td. split; [exact H1|]. split; [exact H3|]. destruct (gravity_F_and_T hi_fi sat s) as [Fg Tg]. destruct (magnetic_F_and_T s m) as [Fm Tm].
  injection H4 as <- <-. split; reflexivity.
Qed.
Print Assumptions C41_sum.
Theorem C41_magnetic : forall s m, let '(F, T) := magnetic_F_and_T s m in
  let B := sandwich (v_att (sv s)) (magnetic_field (c_r_ecef s) (c_length s) (c_ecef s)) in
  F = zero3 /\ T = cross3 m B /\ dot3 T m = 0 /\ dot3 T B = 0.
Proof. intros s m. unfold magnetic_F_and_T. cbv zeta. split; [reflexivity|]. split; [reflexivity|]. split; [apply dot_cross_l|apply dot_cross_r]. Qed.
Print Assumptions C41_magnetic.
(** gravity gradient: nothing along the local vertical, seen from the body, whichever way it points; zero for an isotropic body *)
Theorem C41_gravity_gradient : forall hi_fi sat h s, fresh h s -> c_length s <> 0 -> let '(F, T) := gravity_F_and_T hi_fi sat s in
  let r := norm3 (v_pos (sv s)) in let n := scale3 (/ r) (sandwich (v_att (sv s)) (v_pos (sv s))) in
  F = scale3 (s_mass sat) (gravity_accel hi_fi (v_pos (sv s)) r) /\
  T = scale3 (3 * MU / r ^ 3) (cross3 n (mv (s_total_moment sat) n)) /\
  dot3 T (sandwich (v_att (sv s)) (v_pos (sv s))) = 0 /\
  (forall k, s_total_moment sat = scalem k id3 -> T = zero3).
Proof.
  intros hi_fi sat h s HF HL. unfold gravity_F_and_T. cbv zeta.
  assert (EL : c_length s = norm3 (v_pos (sv s))). { unfold fresh, make_state in HF. destruct (rbind_ok _ _ _ HF) as ([[lat lon] alt] & _ & E). injection E as E. rewrite <- E at 1. reflexivity. }
  rewrite EL in *. unfold state_att. set (q := v_att (sv s)). set (p := v_pos (sv s)) in *. set (r := norm3 p) in *.
  assert (N : sandwich q (div3 (opp3 p) r) = opp3 (scale3 (/ r) (sandwich q p))).
  { clearbody r. clearbody p. clearbody q. clear - HL. destruct q as [q0 q1 q2 q3], p as [p1 p2 p3]. qunfoldg. vunfoldg. rnumg. vsplit; field; exact HL. }
  rewrite N. set (w := scale3 (/ r) (sandwich q p)).
  assert (C : cross3 (opp3 w) (mv (s_total_moment sat) (opp3 w)) = cross3 w (mv (s_total_moment sat) w)) by (generalize (s_total_moment sat) w; clear; vring).
  rewrite C. split; [reflexivity|]. split; [reflexivity|]. split.
  - replace (sandwich q p) with (scale3 r w). 2:{ unfold w. generalize (sandwich q p). intros x. clearbody r. clear - HL. destruct x as [x1 x2 x3]. vunfoldg. rnumg. vsplit; field; exact HL. }
    generalize (3 * MU / r ^ 3) as k, (mv (s_total_moment sat) w) as x. clearbody w r. clear. vring.
  - intros k E. rewrite E. generalize (3 * MU / r ^ 3) as k2. clearbody w. clear. vring.
Qed.
Print Assumptions C41_gravity_gradient.
(** drag: opposite to the relative velocity for a unit attitude; never does positive work on the satellite relative to the air *)
Theorem C41_drag : forall sat s F T rho, let v := relative_vel (v_pos (sv s)) (v_vel (sv s)) in
  0 <= s_drag sat -> 0 <= s_length sat -> 0 <= s_width sat -> 0 <= s_height sat -> v <> zero3 ->
  atmo_density (c_h s) = Ok rho -> drag_F_and_T sat s = Ok (F, T) ->
  let A := total_area sat (sandwich (v_att (sv s)) (scale3 (/ norm3 v) v)) in
  0 <= A /\ F = scale3 (- (1 / 2) * rho * s_drag sat * A * norm3 v * dotq (v_att (sv s)) (v_att (sv s)) ^ 2) v /\ dot3 F v <= 0.
Proof.
  intros sat s F T rho v HD HL HW HH NZ HR H A.
  assert (A0 : 0 <= A).
  { unfold A. rewrite box_area. set (u := sandwich _ _). assert (0 <= Rabs (x3 u)) by apply Rabs_pos. assert (0 <= Rabs (y3 u)) by apply Rabs_pos. assert (0 <= Rabs (z3 u)) by apply Rabs_pos.
    repeat apply Rplus_le_le_0_compat; (apply Rmult_le_pos; [assumption|apply Rmult_le_pos; assumption]). }
  assert (R0 : 0 <= rho).
  { revert HR. unfold atmo_density. repeat match goal with |- context [if ?b then _ else _] => destruct b end; try discriminate;
      (intros E; injection E as <-; apply Rmult_le_pos; [lra|apply Rlt_le, exp_pos]). }
  assert (NV := norm3_gt0 v NZ).
  assert (FE : F = scale3 (- (1 / 2) * rho * s_drag sat * A * norm3 v * dotq (v_att (sv s)) (v_att (sv s)) ^ 2) v).
  { unfold drag_F_and_T in H. fold v in H. cbv zeta in H. rewrite HR in H. cbn [rbind] in H. unfold state_att in H.
    replace (div3 v (norm3 v)) with (scale3 (/ norm3 v) v) in H by (generalize (norm3 v) NV; clear; intros n Hn; destruct v as [a b c]; vunfoldg; rnumg; vsplit; field; lra).
    set (q := v_att (sv s)) in *. set (u := scale3 (/ norm3 v) v) in *.
    assert (BD := box_drag_force sat (-0.5 * rho * s_drag sat * norm3 v ^ 2) (sandwich q u)). destruct (total_drag sat _ _) as [F0 T0]. cbn [fst] in BD.
    injection H as <- <-. rewrite BD. fold A. rewrite sandwich_opp_scale, opp_sandwich. unfold u. clearbody A. generalize (norm3 v) NV. clear. intros n Hn.
    generalize (dotq q q) as d. intros d. replace (-0.5) with (- (1 / 2)) by lra. destruct v as [a b c]. vunfoldg. rnumg. vsplit; field; lra. }
  split; [exact A0|]. split; [exact FE|]. rewrite FE.
  set (k := _ * _ ^ 2). assert (K : k <= 0).
  { unfold k. assert (0 <= dotq (v_att (sv s)) (v_att (sv s)) ^ 2) by apply pow2_ge_0. assert (0 <= rho * s_drag sat) by (apply Rmult_le_pos; assumption).
    assert (0 <= rho * s_drag sat * A) by (apply Rmult_le_pos; assumption). assert (0 <= rho * s_drag sat * A * norm3 v) by (apply Rmult_le_pos; [assumption|lra]).
    assert (0 <= rho * s_drag sat * A * norm3 v * dotq (v_att (sv s)) (v_att (sv s)) ^ 2) by (apply Rmult_le_pos; assumption). lra. }
  replace (dot3 (scale3 k v) v) with (k * dot3 v v) by (clearbody k; destruct v as [a b c]; vunfoldg; rnumg; ring). assert (0 <= dot3 v v) by apply dot3_nonneg. nra.
Qed.
Print Assumptions C41_drag.
(** in the shadow there is neither solar force nor torque; outside it they are those of the walls, the torque the same for every attitude *)
Theorem C41_solar : forall sat h s c, h (clk s) = CJ c ->
  let '(p, shadow, sun) := SRP_info (j_julian_date c) (v_pos (sv s)) in
  (shadow = true -> solar_F_and_T sat h s = Ok (zero3, zero3)) /\
  (shadow = false -> solar_F_and_T sat h s = Ok (sandwich_opp (v_att (sv s)) (fst (total_srp sat p sun)), snd (total_srp sat p sun))) /\
  (forall s' F T, clk s' = clk s -> v_pos (sv s') = v_pos (sv s) -> solar_F_and_T sat h s = Ok (F, T) -> exists F', solar_F_and_T sat h s' = Ok (F', T)).
Proof.
  intros sat h s c HC. unfold solar_F_and_T. rewrite HC. cbn [clk_julian rbind]. destruct (SRP_info (j_julian_date c) (v_pos (sv s))) as [[p sh] S] eqn:E.
  split; [intros ->; reflexivity|]. split; [intros ->; destruct (total_srp sat p S); reflexivity|].
  intros s' F T K1 K2 H. rewrite K1, HC, K2. cbn [clk_julian rbind]. rewrite E. destruct sh; [exists F; exact H|].
  destruct (total_srp sat p S) as [F0 T0]. injection H as <- <-. eexists. reflexivity.
Qed.
Print Assumptions C41_solar.
(** the sun direction is not rotated into the body: there is always an attitude for which sunlight pulls a black satellite towards the sun *)
Theorem C41_solar_backwards_refuted : forall sat h s c p S, h (clk s) = CJ c -> s_absorption sat = 1 ->
  0 < s_length sat -> 0 < s_width sat -> 0 < s_height sat -> dot3 (v_pos (sv s)) (v_pos (sv s)) < AU ^ 2 ->
  SRP_info (j_julian_date c) (v_pos (sv s)) = (p, false, S) ->
  exists q, dotq q q = 1 /\ forall s', clk s' = clk s -> sv s' = set_att (sv s) q ->
  exists F T, solar_F_and_T sat h s' = Ok (F, T) /\ 0 < dot3 F S.
Proof.
  intros sat h s c p S HC HA HL HW HH HX HS. assert (CS := C35_to_sun (j_julian_date c) (v_pos (sv s)) HX). rewrite HS in CS. destruct CS as (US & _ & PP & _).
  destruct (perp_exists S) as (u & UU & US2). exists (mkq 0 (x3 u) (y3 u) (z3 u)). split.
  { unfold unit3 in UU. rewrite <- UU. destruct u as [a b d]. vunfoldg. rnumg. ring. }
  intros s' K1 K2. assert (C := C41_solar sat h s' c). rewrite K1, K2 in C. cbn [v_pos v_att set_att] in C. rewrite HS in C. destruct (C HC) as (_ & C2 & _).
  eexists _, _. split; [apply C2; reflexivity|]. rewrite (black_srp sat p S HA), sandwich_opp_scale, (half_turn u S UU US2).
  assert (AP : 0 < total_area sat S).
  { rewrite box_area. destruct S as [a b d]. unfold unit3, dot3 in US. cbn [x3 y3 z3] in *. revert US. rnumg. intros US.
    assert (0 < s_width sat * s_height sat) by (apply Rmult_lt_0_compat; assumption). assert (0 < s_length sat * s_height sat) by (apply Rmult_lt_0_compat; assumption).
    assert (0 < s_width sat * s_length sat) by (apply Rmult_lt_0_compat; assumption).
    assert (A1 := Rabs_pos a). assert (A2 := Rabs_pos b). assert (A3 := Rabs_pos d).
    assert (E : 0 < Rabs a \/ 0 < Rabs b \/ 0 < Rabs d).
    { destruct (Req_dec a 0) as [->|N]; [|left; apply Rabs_pos_lt, N]. destruct (Req_dec b 0) as [->|N]; [|right; left; apply Rabs_pos_lt, N].
      right; right. apply Rabs_pos_lt. intros ->. lra. }
    assert (M1 := Rmult_le_pos _ _ A1 (Rlt_le _ _ H)). assert (M2 := Rmult_le_pos _ _ A2 (Rlt_le _ _ H0)). assert (M3 := Rmult_le_pos _ _ A3 (Rlt_le _ _ H1)).
    destruct E as [E|[E|E]]; [assert (X := Rmult_lt_0_compat _ _ E H)|assert (X := Rmult_lt_0_compat _ _ E H0)|assert (X := Rmult_lt_0_compat _ _ E H1)]; lra. }
  unfold unit3 in US. set (A := total_area sat S) in *. clearbody A.
  replace (dot3 (scale3 (- p * A) (opp3 S)) S) with (p * A * dot3 S S) by (destruct S as [a b d]; vunfoldg; rnumg; ring).
  rewrite US, Rmult_1_r. apply Rmult_lt_0_compat; assumption.
Qed.
Print Assumptions C41_solar_backwards_refuted.
(** an orbiting state meets the hypotheses: sunlit, moving through the air, with a frame that is up to date *)
Definition box : Satellite := mkSat 0.1 0.1 0.2 1 2 5 (mkRWS [mkW (mk3 1 0 0) 1 1; mkW (mk3 0 1 0) 1 1; mkW (mk3 0 0 1) 1 1] 1 true) (mk3 1 2 3) zero3 false.
Example C41_ex : forall c, exists s p sun, make_state (fun _ => CJ c) 0 (circle 0) = Ok s /\ fresh (fun _ => CJ c) s /\ c_length s <> 0 /\
  relative_vel (v_pos (sv s)) (v_vel (sv s)) <> zero3 /\ (exists rho F T, atmo_density (c_h s) = Ok rho /\ drag_F_and_T box s = Ok (F, T)) /\
  s_absorption box = 1 /\ dot3 (v_pos (sv s)) (v_pos (sv s)) < AU ^ 2 /\
  (forall jd, SRP_info jd (scale3 7000000 (earth_to_sun jd)) = (p jd, false, sun jd)) /\
  (forall jd, exists p' sun', SRP_info jd (scale3 (-7000000) (earth_to_sun jd)) = (p', true, sun')).
Proof.
  intros c. destruct (equator_state (fun _ => CJ c) 0 (circle 0) orbit_r) as (m & re & lat & lon & E).
  { reflexivity. } { unfold orbit_r; lra. }
  { unfold circle. cbn [v_pos]. rewrite Rmult_0_r, cos_0, sin_0. vunfoldg. rnumg. ring. }
  eexists _, (fun jd => fst (fst (SRP_info jd (scale3 7000000 (earth_to_sun jd))))), (fun jd => snd (SRP_info jd (scale3 7000000 (earth_to_sun jd)))).
  split; [exact E|]. destruct (make_state_inv _ _ _ _ E) as (_ & _ & F). split; [exact F|]. cbn [c_length sv c_h].
  assert (NV : relative_vel (v_pos (circle 0)) (v_vel (circle 0)) <> zero3).
  { unfold circle, relative_vel. cbn [v_pos v_vel x3 y3 z3]. rewrite Rmult_0_r, cos_0, sin_0. unfold zero3. rnumg. intros H. apply mk3_inj in H. destruct H as (_ & H & _).
    assert (P : 0 <= orbit_n) by apply sqrt_pos. unfold EARTH_ROTATION, orbit_r in H. lra. }
  assert (AT : exists rho, atmo_density (orbit_r - EARTH_RAD) = Ok rho).
  { unfold atmo_density, orbit_r, EARTH_RAD. destruct (Rleb_spec 400000 (6778137 - 6378137)); [|lra].
    destruct (Rltb_spec (6778137 - 6378137) 300000); [lra|]. destruct (Rltb_spec (6778137 - 6378137) 350000); [lra|].
    destruct (Rltb_spec (6778137 - 6378137) 400000); [lra|]. destruct (Rltb_spec (6778137 - 6378137) 450000); [|lra].
    rewrite !andb_false_r. cbn [andb]. eexists; reflexivity. }
  split; [unfold orbit_r; lra|]. split; [exact NV|]. split; [|split; [reflexivity|split; [|split]]].
  - destruct AT as [rho AT]. unfold drag_F_and_T. cbn [c_h]. rewrite AT. cbn [rbind]. destruct (total_drag _ _ _) as [F0 T0]. do 3 eexists. split; [reflexivity|reflexivity].
  - unfold circle. cbn [v_pos]. rewrite Rmult_0_r, cos_0, sin_0. vunfoldg. rnumg. unfold orbit_r, AU. lra.
  - intros jd. assert (U := C35_sun_direction jd). unfold unit3 in U. unfold SRP_info. cbv zeta. set (e := earth_to_sun jd) in *. clearbody e. cbn [fst snd].
    replace (shadow_test _ _ _) with false; [reflexivity|]. symmetry. unfold shadow_test. rnumg. apply Rltb_false.
    replace (dot3 (scale3 7000000 e) e) with (7000000 * dot3 e e) by (destruct e as [a b d]; vunfoldg; rnumg; ring). rewrite U.
    assert (P := sqrt_pos (dot3 (scale3 7000000 e) (scale3 7000000 e) - EARTH_RAD ^ 2)). lra.
  - intros jd. assert (U := C35_sun_direction jd). unfold unit3 in U. unfold SRP_info. cbv zeta. set (e := earth_to_sun jd) in *. clearbody e.
    replace (shadow_test _ _ _) with true; [eexists _, _; reflexivity|]. symmetry. unfold shadow_test. rnumg. apply Rltb_true.
    replace (dot3 (scale3 (-7000000) e) e) with (-7000000 * dot3 e e) by (destruct e as [a b d]; vunfoldg; rnumg; ring).
    replace (dot3 (scale3 (-7000000) e) (scale3 (-7000000) e)) with (7000000 * 7000000 * dot3 e e) by (destruct e as [a b d]; vunfoldg; rnumg; ring). rewrite U.
    assert (SQ : sqrt (7000000 * 7000000 * 1 - EARTH_RAD ^ 2) < 7000000).
    { rewrite <- (sqrt_square 7000000) at 3 by lra. apply sqrt_lt_1; unfold EARTH_RAD; lra. }
    lra.
Qed.
