(** * Properties of classes/sensor.py: C42-C44 *)
From Coq Require Import Reals ZArith List Bool Arith Lra Psatz Lia.
From Verif Require Import Num Vec M_vector M_quaternion M_jday M_frame M_struct M_env M_dyn M_sensor M_integ.
From Verif Require Import S_rot S_env S_integ P_quat P_wheel P_vec2 P_integ P_integ2 P_dyn2 Props_env.
Import ListNotations.
Local Open Scope R_scope.

(** ** C42: noise-free measurement *)
(** what each sensor stands for; [B] and [S] are the field and the sun direction in the body frame *)
Definition reads (k : SensorKind) (size : nat) (h : store) (s : SatState) (t : list R) : Prop :=
  let v := sv s in
  match k with
  | Base => t = repeat 0 size
  | GPS_pos => t = [x3 (v_pos v); y3 (v_pos v); z3 (v_pos v)]
  | GPS_vel => t = [x3 (v_vel v); y3 (v_vel v); z3 (v_vel v)]
  | StarTracker => t = [qw (v_att v); qx (v_att v); qy (v_att v); qz (v_att v)]
  | GyroS => t = [x3 (v_rate v); y3 (v_rate v); z3 (v_rate v)]
  | Wheel_vel => t = v_whl v
  | Magnetometer => exists B, t = [x3 B; y3 B; z3 B] /\
      (dotq (v_att v) (v_att v) = 1 -> sandwich_opp (v_att v) B = magnetic_field (c_r_ecef s) (c_length s) (c_ecef s))
  | SunSensor => exists c S, h (clk s) = CJ c /\ t = [x3 S; y3 S; z3 S] /\
      (dotq (v_att v) (v_att v) = 1 -> dot3 (v_pos v) (v_pos v) < AU ^ 2 -> dot3 S S = 1 /\
         exists d, 0 < d /\ add3 (v_pos v) (scale3 d (sandwich_opp (v_att v) S)) = scale3 AU (earth_to_sun (j_julian_date c)))
  end.
Lemma scale_one (v : v3) : scale3 (1 ^ 2) v = v. Proof. vring. Qed.
Lemma true_reads k size h s t : true_value k size h s = Ok t -> reads k size h s t.
Proof.
  destruct k; cbn [true_value reads]; try (intros H; injection H as <-; reflexivity).
  - intros H; injection H as <-. eexists. split; [reflexivity|]. intros U. rewrite opp_sandwich, U. apply scale_one.
  - intros H. destruct (h (clk s)) as [c|c]; cbn [clk_julian rbind] in H; [discriminate|]. injection H as <-.
    intros; exists c, (sandwich (v_att (sv s)) (snd (SRP_info (j_julian_date c) (v_pos (sv s))))). split; [reflexivity|]. split; [reflexivity|]. intros U A. assert (C := C35_to_sun (j_julian_date c) (v_pos (sv s)) A).
    destruct (SRP_info _ _) as [[p sh] S]. destruct C as (C1 & (d & D1 & D2 & _) & _). cbn [snd].
    unfold unit3 in C1. split.
    + rewrite sandwich_dot, U, C1. ring.
    + exists d. split; [exact D1|]. rewrite opp_sandwich, U, scale_one. exact D2.
Qed.
(** only the sun sensor can fail to have a true value: when the clock is of the class whose julian_date needs arguments *)
Theorem C42_true_value : forall k size h s,
  (exists t, true_value k size h s = Ok t /\ reads k size h s t) \/
  (k = SunSensor /\ true_value k size h s = Raise TypeError /\ exists c, h (clk s) = CClock c).
Proof.
  intros k size h s. destruct (true_value k size h s) as [t|e] eqn:E; [left; exists t; split; [reflexivity|apply true_reads, E]|right].
  destruct k; cbn [true_value] in E; try discriminate. split; [reflexivity|]. destruct (h (clk s)) as [c|c]; cbn [clk_julian rbind] in E; [|discriminate].
  injection E as <-. split; [reflexivity|]. exists c. reflexivity.
Qed.
Print Assumptions C42_true_value.
Lemma zip_zero t : zip_with Rplus t (repeat 0 (length t)) = t.
Proof. induction t as [|x t IH]; [reflexivity|]. cbn [length repeat zip_with]. rewrite IH, Rplus_0_r. reflexivity. Qed.
Lemma add_zeros t size : np_add t (repeat 0 size) =
  (if (Nat.eqb (length t) size || Nat.eqb size 1)%bool then Ok t
   else match t with [x] => Ok (repeat x size) | _ => Raise ValueError end).
Proof.
  unfold np_add. rewrite repeat_length. destruct (Nat.eqb_spec (length t) size) as [E|N]; cbn [orb].
  { subst size. replace (zip_with _ _ _) with t; [reflexivity|]. clear. symmetry. destruct t; [reflexivity|]. apply zip_zero. }
  destruct (Nat.eqb_spec size 1) as [->|N1]; cbn [orb].
  - cbn [repeat]. destruct t as [|x [|y t]]; [reflexivity|exfalso; apply N; reflexivity|]. f_equal. rewrite (map_ext _ (fun z => z)) by (intros; ring). apply map_id.
  - destruct t as [|x [|y t]].
    + destruct size as [|[|k]]; [exfalso; apply N; reflexivity|exfalso; apply N1; reflexivity|reflexivity].
    + f_equal. clear. induction size as [|k IH]; [reflexivity|]. cbn [repeat map]. rewrite IH, Rplus_0_r. reflexivity.
    + destruct size as [|[|k]]; [reflexivity|exfalso; apply N1; reflexivity|reflexivity].
Qed.
(** the noise-free reading is the true value when the configured size fits (or is 1, which numpy stretches); a single wheel is
    stretched to the configured size; otherwise the call raises.  The gyro has its size fixed to 3. *)
Theorem C42_noiseless : forall sn g h s d t, true_value (sn_kind sn) (sn_size sn) h s = Ok t ->
  let size := match sn_kind sn with GyroS => 3%nat | _ => sn_size sn end in
  (length t = size \/ size = 1%nat -> measurement sn g h s false d = Ok t) /\
  (length t <> size -> size <> 1%nat -> length t <> 1%nat -> measurement sn g h s false d = Raise ValueError) /\
  (forall x, t = [x] -> size <> 1%nat -> measurement sn g h s false d = Ok (repeat x size)).
Proof.
  intros sn g h s d t H size. assert (E : measurement sn g h s false d = (if (Nat.eqb (length t) size || Nat.eqb size 1)%bool then Ok t
     else match t with [x] => Ok (repeat x size) | _ => Raise ValueError end)).
  { unfold measurement. rewrite H. cbn [rbind]. unfold generate_noise, size. destruct (sn_kind sn) eqn:K; cbn [rbind noise_base noise_gyro]; try apply add_zeros.
    destruct (sn_size sn) as [|k]; cbn [noise_star rbind]; [|apply (add_zeros t (S k))]. cbn [true_value] in H. injection H as <-. reflexivity. }
  rewrite E. split; [|split].
  - intros [L|L]; rewrite L; [rewrite Nat.eqb_refl; reflexivity|rewrite orb_true_r; reflexivity].
  - intros L1 L2 L3. apply Nat.eqb_neq in L1, L2. rewrite L1, L2. cbn [orb]. destruct t as [|x [|y t]]; [reflexivity|exfalso; apply L3; reflexivity|reflexivity].
  - intros x -> L2. cbn [length]. destruct (Nat.eqb_spec 1 size) as [<-|N]; cbn [orb]; [exfalso; apply L2; reflexivity|]. apply Nat.eqb_neq in L2. rewrite L2. reflexivity.
Qed.
Print Assumptions C42_noiseless.
(** with the default size 3: three-component sensors work, the star tracker and a four-wheel speed sensor raise *)
Theorem C42_default_size : forall g h s d,
  (forall k, In k [GPS_pos; GPS_vel; GyroS; Magnetometer] -> exists t, true_value k 3 h s = Ok t /\ measurement (mkSensor k 3) g h s false d = Ok t) /\
  measurement (mkSensor StarTracker 3) g h s false d = Raise ValueError /\
  (length (v_whl (sv s)) = 4%nat -> measurement (mkSensor Wheel_vel 3) g h s false d = Raise ValueError /\ measurement (mkSensor Wheel_vel 4) g h s false d = Ok (v_whl (sv s))).
Proof.
  intros g h s d. split; [|split].
  - intros k Hk. cbn in Hk. repeat destruct Hk as [<-|Hk]; try contradiction;
      (eexists; split; [reflexivity|]; match goal with |- measurement (mkSensor ?k 3) _ _ _ _ _ = _ => apply (C42_noiseless (mkSensor k 3) g h s d _ eq_refl); left; reflexivity end).
  - apply (C42_noiseless (mkSensor StarTracker 3) g h s d _ eq_refl); discriminate.
  - intros L. split; [apply (C42_noiseless (mkSensor Wheel_vel 3) g h s d _ eq_refl)|apply (C42_noiseless (mkSensor Wheel_vel 4) g h s d _ eq_refl)]; cbn [sn_kind sn_size]; rewrite ?L; try lia.
Qed.
Print Assumptions C42_default_size.
(** all sensors, in the order of the list *)
Theorem C42_order : forall sns g h s ds l, measure_all sns g h s false ds = Ok l <->
  Forall2 (fun sn m => forall d, measurement sn g h s false d = Ok m) sns l.
Proof.
  assert (ND : forall sn g h s d d', measurement sn g h s false d = measurement sn g h s false d').
  { intros [k n] g h s d d'. unfold measurement, generate_noise. destruct k; reflexivity. }
  induction sns as [|sn sns IH]; intros g h s ds l; cbn [measure_all].
  - split; [intros H; injection H as <-; constructor|intros H; inversion H; reflexivity].
  - cbv zeta. split.
    + intros H. destruct (rbind_ok _ _ _ H) as (m & H1 & H2). destruct (rbind_ok _ _ _ H2) as (l' & H3 & H4). injection H4 as <-.
      constructor; [intros d'; rewrite <- H1; apply ND|apply (IH g h s (tl ds)), H3].
    + intros H. inversion H as [|? m ? l' H1 H2]; subst. rewrite H1. cbn [rbind]. apply (IH g h s (tl ds)) in H2. rewrite H2. reflexivity.
Qed.
Print Assumptions C42_order.
Example C42_ex : exists s, make_state store0 0 spin_start = Ok s /\
  measure_all [mkSensor GPS_pos 3; mkSensor StarTracker 4; mkSensor Wheel_vel 3; mkSensor GyroS 7] (gyro_init 1 1 zero3) store0 s false [] =
  Ok [[orbit_r; 0; 0]; [0.6; 0; 0.8; 0]; [1; 2; 3]; [0; 0; 1]].
Proof.
  destruct (held_state store0 0 spin_start) as (s0 & E & S & C); [split; reflexivity|]. exists s0. split; [exact E|].
  apply C42_order. repeat constructor; intros d.
  - apply (C42_noiseless (mkSensor GPS_pos 3)); [cbn [true_value sn_kind]; rewrite S; reflexivity|left; reflexivity].
  - apply (C42_noiseless (mkSensor StarTracker 4)); [cbn [true_value sn_kind]; rewrite S; reflexivity|left; reflexivity].
  - apply (C42_noiseless (mkSensor Wheel_vel 3)); [cbn [true_value sn_kind]; rewrite S; reflexivity|left; reflexivity].
  - apply (C42_noiseless (mkSensor GyroS 7)); [cbn [true_value sn_kind]; rewrite S; reflexivity|left; reflexivity].
Qed.

(** ** C43: the gyro bias *)
Definition walk (steps : list (R * v3)) : v3 := fold_right (fun p acc => add3 (scale3 (sqrt (fst p)) (snd p)) acc) zero3 steps.
Definition gyro_run (steps : list (R * v3)) (g : Gyro) : Gyro := fold_left (fun g p => gyro_propagate (fst p) (snd p) g) steps g.
Lemma add3_comm' (a b : v3) : add3 a b = add3 b a. Proof. vring. Qed.
Lemma add3_assoc' (a b c : v3) : add3 (add3 a b) c = add3 a (add3 b c). Proof. vring. Qed.
Theorem C43_bias : forall steps dt n g, let g' := gyro_run (steps ++ [(dt, n)]) g in
  g_bias g' = add3 (g_bias g) (walk (steps ++ [(dt, n)])) /\ g_last g' = add3 (g_bias g) (walk steps) /\
  g_arw_var g' = g_arw_var g /\ g_rrw_var g' = g_rrw_var g /\ g_coef g' = sqrt (g_arw_var g / dt + g_rrw_var g * dt).
Proof.
  assert (B : forall steps g, g_bias (gyro_run steps g) = add3 (g_bias g) (walk steps) /\ g_arw_var (gyro_run steps g) = g_arw_var g /\ g_rrw_var (gyro_run steps g) = g_rrw_var g).
  { induction steps as [|[dt n] steps IH]; intros g; [split; [cbn; generalize (g_bias g); vring|split; reflexivity]|].
    unfold gyro_run in *. cbn [fold_left]. destruct (IH (gyro_propagate (fst (dt, n)) (snd (dt, n)) g)) as (H1 & H2 & H3). rewrite H1, H2, H3.
    split; [|split; reflexivity]. cbn [walk fold_right gyro_propagate g_bias fst snd]. apply add3_assoc'. }
  intros steps dt n g. cbv zeta. destruct (B steps g) as (B1 & B2 & B3). destruct (B (steps ++ [(dt, n)]) g) as (C1 & C2 & C3).
  split; [exact C1|]. assert (E : gyro_run (steps ++ [(dt, n)]) g = gyro_propagate dt n (gyro_run steps g)) by (unfold gyro_run; rewrite fold_left_app; reflexivity).
  split; [rewrite E; exact B1|]. split; [exact C2|]. split; [exact C3|]. rewrite E. cbn [gyro_propagate g_coef]. rewrite B2, B3. reflexivity.
Qed.
Print Assumptions C43_bias.
(** without noise the bias stays; a reading carries the mean of the last two biases *)
Theorem C43_quiet : forall steps g, Forall (fun p => snd p = zero3) steps -> g_bias (gyro_run steps g) = g_bias g.
Proof.
  induction steps as [|[dt n] steps IH]; intros g H; [reflexivity|]. inversion H as [|? ? H1 H2]; subst. cbn [snd] in H1. subst n.
  unfold gyro_run. cbn [fold_left]. change (g_bias (gyro_run steps (gyro_propagate dt zero3 g)) = g_bias g). rewrite (IH _ H2). cbn [gyro_propagate g_bias].
  rewrite scale_zero. generalize (g_bias g). vring.
Qed.
Print Assumptions C43_quiet.
Theorem C43_reading : forall size g h s d,
  measurement (mkSensor GyroS size) g h s true d = Ok (l3 (add3 (v_rate (sv s)) (add3 (scale3 (1 / 2) (add3 (g_bias g) (g_last g))) (scale3 (g_coef g) (dr_gyro d))))).
Proof.
  intros size g h s d. unfold measurement, generate_noise, noise_gyro. cbn [sn_kind true_value rbind]. replace 0.5 with (1 / 2) by lra.
  generalize (add3 (scale3 (1 / 2) (add3 (g_bias g) (g_last g))) (scale3 (g_coef g) (dr_gyro d))) as n, (v_rate (sv s)) as r. intros n r. reflexivity.
Qed.
Print Assumptions C43_reading.
(** inside the simulator: n steps of dt consume n draws; without the flag the gyro is untouched *)
Theorem C43_integrated : forall f stream dt n w w',
  (updates f stream true dt n w = Ok w' -> w_draws w' = (w_draws w + n)%nat /\ w_gyro w' = gyro_run (map (fun i => (dt, stream i)) (seq (w_draws w) n)) (w_gyro w)) /\
  (updates f stream false dt n w = Ok w' -> w_draws w' = w_draws w /\ w_gyro w' = w_gyro w).
Proof.
  intros f stream dt n. induction n as [|n IH]; intros w w'.
  - cbn [updates]. split; intros H; injection H as <-; (split; [lia|reflexivity]).
  - cbn [updates]. split; intros H; destruct (rbind_ok _ _ _ H) as (u & H1 & H2); destruct (update_inv _ _ _ _ _ _ H1) as (_ & _ & _ & _ & _ & _ & _ & _ & _ & G & D).
    + destruct (proj1 (IH u w') H2) as [A B]. rewrite A, D. split; [lia|]. rewrite B, D, G. reflexivity.
    + destruct (proj2 (IH u w') H2) as [A B]. rewrite A, B, D, G. split; reflexivity.
Qed.
Print Assumptions C43_integrated.
Example C43_ex : g_bias (gyro_run [(4, mk3 1 0 0); (9, mk3 0 1 0)] (gyro_init 1 1 (mk3 0 0 5))) = mk3 2 3 5 /\
  g_last (gyro_run ([(4, mk3 1 0 0)] ++ [(9, mk3 0 1 0)]) (gyro_init 1 1 (mk3 0 0 5))) = mk3 2 0 5.
Proof.
  assert (S4 : sqrt 4 = 2) by (replace 4 with (2 * 2) by ring; apply sqrt_square; lra). assert (S9 : sqrt 9 = 3) by (replace 9 with (3 * 3) by ring; apply sqrt_square; lra).
  destruct (C43_bias [(4, mk3 1 0 0)] 9 (mk3 0 1 0) (gyro_init 1 1 (mk3 0 0 5))) as (A & B & _). cbn [app] in A. rewrite A, B.
  cbn [walk fold_right app fst snd gyro_init g_bias]. rewrite S4, S9. split; vunfoldg; rnumg; vsplit; ring.
Qed.

(** ** C44: a noisy star tracker *)
Theorem C44_star : forall g h s n, let q := v_att (sv s) in let d := mkDraw (l3 n) zero3 in
  measurement (mkSensor StarTracker 4) g h s true d = Ok [qw q; qx q + x3 n; qy q + y3 n; qz q + z3 n] /\
  (dotq q q = 1 -> let r := mkq (qw q) (qx q + x3 n) (qy q + y3 n) (qz q + z3 n) in
     dotq r r = 1 <-> 2 * (qx q * x3 n + qy q * y3 n + qz q * z3 n) + dot3 n n = 0).
Proof.
  intros g h s n q d. split.
  - unfold measurement, generate_noise, d. cbn [sn_kind sn_size true_value rbind noise_star dr_arr]. fold q. unfold np_add, lq, l3. cbn [length Nat.eqb zip_with]. rewrite Rplus_0_r. reflexivity.
  - intros U. cbv zeta. assert (E : dotq (mkq (qw q) (qx q + x3 n) (qy q + y3 n) (qz q + z3 n)) (mkq (qw q) (qx q + x3 n) (qy q + y3 n) (qz q + z3 n)) =
      dotq q q + (2 * (qx q * x3 n + qy q * y3 n + qz q * z3 n) + dot3 n n)) by (generalize q n; clear; intros [a b c d] [x y z]; vunfoldg; rnumg; ring).
    rewrite E, U. split; intros; lra.
Qed.
Print Assumptions C44_star.
(** so a noise vector orthogonal to the vector part, or pointing along it, always spoils the norm *)
Theorem C44_not_unit_refuted : forall g h s n, let q := v_att (sv s) in dotq q q = 1 -> n <> zero3 -> 0 <= qx q * x3 n + qy q * y3 n + qz q * z3 n ->
  exists a b c e, measurement (mkSensor StarTracker 4) g h s true (mkDraw (l3 n) zero3) = Ok [a; b; c; e] /\ dotq (mkq a b c e) (mkq a b c e) > 1.
Proof.
  intros g h s n q U N P. destruct (C44_star g h s n) as [A _]. fold q in A. do 4 eexists. split; [exact A|].
  replace (dotq _ _) with (dotq q q + (2 * (qx q * x3 n + qy q * y3 n + qz q * z3 n) + dot3 n n)) by (generalize q n; clear; intros [a b c d] [x y z]; vunfoldg; rnumg; ring).
  assert (0 < dot3 n n). { rewrite <- norm3_sq. assert (X := norm3_gt0 n N). nra. }
  rewrite U. lra.
Qed.
Print Assumptions C44_not_unit_refuted.
Example C44_ex : dotq (v_att spin_start) (v_att spin_start) = 1 /\ mk3 0.1 0 0 <> zero3 (T:=R) /\
  0 <= qx (v_att spin_start) * 0.1 + qy (v_att spin_start) * 0 + qz (v_att spin_start) * 0.
Proof.
  unfold spin_start. cbn [v_att qx qy qz]. split; [vunfoldg; rnumg; lra|]. split; [|lra].
  unfold zero3. rnumg. intros H. apply mk3_inj in H. lra.
Qed.
