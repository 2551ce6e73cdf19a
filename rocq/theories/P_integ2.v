(** * The integrator on satellite states *)
From Coq Require Import Reals ZArith List Bool Arith Lra Psatz Lia.
From Flocq Require Import Core.
From Verif Require Import Num Vec M_vector M_quaternion M_jday M_frame M_struct M_env M_dyn M_sensor M_integ S_integ S_rot P_quat.
Import ListNotations.
Local Open Scope R_scope.

Lemma rbind_ok {A B} (r : res A) (f : A -> res B) b : rbind r f = Ok b -> exists a, r = Ok a /\ f a = Ok b.
Proof. destruct r as [a|e]; cbn [rbind]; [eauto|discriminate]. Qed.
Lemma make_state_inv h a v s : make_state h a v = Ok s -> sv s = v /\ clk s = a /\ fresh h s.
Proof.
  intros H. assert (H0 := H). unfold make_state in H. apply rbind_ok in H. destruct H as ([[lat long] alt] & _ & E). injection E. intros <-. cbn [sv clk]. split; [reflexivity|]. split; [reflexivity|].
  unfold fresh. cbn [sv clk]. exact H0.
Qed.
Lemma state_add_inv h s d s' : state_add h s d = Ok s' -> sv_add (sv s) d = Ok (sv s') /\ clk s' = clk s /\ fresh h s'.
Proof. unfold state_add. intros H. apply rbind_ok in H. destruct H as (v & E & H). apply make_state_inv in H. destruct H as (-> & H). split; [exact E|exact H]. Qed.
Lemma sv_add_inv a b c : sv_add a b = Ok c -> np_add (v_whl a) (v_whl b) = Ok (v_whl c) /\ v_pos c = add3 (v_pos a) (v_pos b) /\ v_vel c = add3 (v_vel a) (v_vel b) /\
  v_att c = addq (v_att a) (v_att b) /\ v_rate c = add3 (v_rate a) (v_rate b).
Proof. unfold sv_add. intros H. apply rbind_ok in H. destruct H as (w & E & H). injection H. intros <-. cbn. auto. Qed.
Lemma rk4_inv h f dt s s' : RK4_sat h f dt s = Ok s' -> exists s2 s3 s4 k1 k2 k3 k4 a b c,
  rk4_stages h f dt s s2 s3 s4 k1 k2 k3 k4 /\
  sv_add k1 (sv_mul k2 2) = Ok a /\ sv_add a (sv_mul k3 2) = Ok b /\ sv_add b k4 = Ok c /\ state_add h s (sv_mul (sv_div c 6) dt) = Ok s'.
Proof.
  unfold RK4_sat, RK4_step. intros H.
  apply rbind_ok in H. destruct H as (k1 & H1 & H). apply rbind_ok in H. destruct H as (k2 & H2 & H). apply rbind_ok in H2. destruct H2 as (s2 & H2 & H2').
  apply rbind_ok in H. destruct H as (k3 & H3 & H). apply rbind_ok in H3. destruct H3 as (s3 & H3 & H3').
  apply rbind_ok in H. destruct H as (k4 & H4 & H). apply rbind_ok in H4. destruct H4 as (s4 & H4 & H4').
  apply rbind_ok in H. destruct H as (c & Hc & H). apply rbind_ok in Hc. destruct Hc as (b & Hb & Hc). apply rbind_ok in Hb. destruct Hb as (a & Ha & Hb).
  exists s2, s3, s4, k1, k2, k3, k4, a, b, c. unfold rk4_stages. auto 20.
Qed.
Lemma rk4_clk h f dt s s' : RK4_sat h f dt s = Ok s' -> clk s' = clk s /\ fresh h s'.
Proof. intros H. apply rk4_inv in H. destruct H as (? & ? & ? & ? & ? & ? & ? & ? & ? & ? & _ & _ & _ & _ & H). apply state_add_inv in H. apply H. Qed.

(** ** update *)
Lemma update_inv f stream sim dt w w' : update f stream sim dt w = Ok w' -> exists next c,
  RK4_sat (w_store w) (f (w_store w)) dt (w_state w) = Ok next /\ clk next = clk (w_state w) /\
  clk_tick dt (w_store w (clk (w_state w))) = Ok c /\ w_store w' = set_clk (w_store w) (clk (w_state w)) c /\
  clk (w_state w') = clk (w_state w) /\ fresh (w_store w') (w_state w') /\
  sv (w_state w') = (if sim then set_att (sv next) (normalizeq (v_att (sv next))) else sv next) /\
  w_gyro w' = (if sim then gyro_propagate dt (stream (w_draws w)) (w_gyro w) else w_gyro w) /\ w_draws w' = (if sim then S (w_draws w) else w_draws w).
Proof.
  unfold update. intros H. apply rbind_ok in H. destruct H as (next & E & H). destruct (rk4_clk _ _ _ _ _ E) as [C _].
  apply rbind_ok in H. destruct H as (c & T & H). apply rbind_ok in H. destruct H as (st & M & H). rewrite C in *.
  apply make_state_inv in M. destruct M as (M1 & M2 & M3).
  exists next, c. destruct sim; injection H; intros <-; cbn [w_state w_store w_gyro w_draws]; auto 20.
Qed.
Lemma riter_last {W} n (step : W -> res W) w : riter (S n) step w = rbind (riter n step w) step.
Proof.
  revert w; induction n as [|n IH]; intros w.
  - cbn. destruct (step w); reflexivity.
  - change (riter (S (S n)) step w) with (match step w with Ok w' => riter (S n) step w' | Raise e => Raise e end). cbn [riter rbind]. destruct (step w) as [w1|e]; [apply IH|reflexivity].
Qed.
Lemma updates_clock f stream sim dt n : forall w w', riter n (update f stream sim dt) w = Ok w' ->
  clk (w_state w') = clk (w_state w) /\
  riter n (clk_tick dt) (w_store w (clk (w_state w))) = Ok (w_store w' (clk (w_state w))) /\
  (forall b, b <> clk (w_state w) -> w_store w' b = w_store w b) /\
  w_draws w' = (if sim then w_draws w + n else w_draws w)%nat /\
  ((0 < n)%nat -> fresh (w_store w') (w_state w')).
Proof.
  induction n as [|n IH]; intros w w' H.
  - cbn [riter] in *. injection H. intros <-. repeat split; auto; [destruct sim; lia|lia].
  - cbn [riter] in H. destruct (update f stream sim dt w) as [w1|] eqn:E; [|discriminate]. apply update_inv in E. destruct E as (next & c & _ & _ & T & S1 & C1 & F1 & _ & _ & D1).
    destruct (IH w1 w' H) as (C2 & T2 & O2 & D2 & F2). rewrite C1 in *. split; [congruence|]. split; [|split; [|split]].
    + cbn [riter]. rewrite T. rewrite S1 in T2. unfold set_clk in T2. rewrite Nat.eqb_refl in T2. exact T2.
    + intros b Hb. rewrite (O2 b Hb), S1. unfold set_clk. destruct (Nat.eqb_spec b (clk (w_state w))); [contradiction|reflexivity].
    + rewrite D2, D1. destruct sim; lia.
    + intros _. destruct n as [|n]; [cbn [riter] in H; injection H; intros <-; exact F1|apply F2; lia].
Qed.
Lemma jticks_n dt n : forall c c', riter n (clk_tick dt) (CJ c) = Ok c' -> c' = CJ (mkJ (j_us c + Z.of_nat n * ZnearestE (dt * 1000000)) (j_absolute c)).
Proof.
  induction n as [|n IH]; intros c c' H.
  - cbn [riter] in H. injection H. intros <-. destruct c as [u a]. cbn [j_us j_absolute]. f_equal. f_equal. lia.
  - cbn [riter clk_tick] in H. unfold jtick in H. cbv zeta in H. destruct (datetime_ok _); cbn [rbind] in H; [|discriminate]. rewrite (IH _ _ H). cbn [j_us j_absolute]. f_equal. f_equal. lia.
Qed.
Lemma cticks_n dt n : forall c c', riter n (clk_tick dt) (CClock c) = Ok c' -> c' = CClock (ticks (repeat dt n) c).
Proof. induction n as [|n IH]; intros c c' H; cbn [riter clk_tick] in H; [injection H; intros <-; reflexivity|]. rewrite (IH _ _ H). reflexivity. Qed.

(** ** wheel speeds *)
Lemma np_add_eq a b : length a = length b -> np_add a b = Ok (zip_with Rplus a b).
Proof. intros H. unfold np_add. rewrite H, Nat.eqb_refl. reflexivity. Qed.
Lemma zip_map_r {A B C D} (f : A -> B -> C) (g : D -> B) l r : zip_with f l (map g r) = zip_with (fun x y => f x (g y)) l r.
Proof. revert r; induction l as [|a l IH]; intros [|b r]; cbn; f_equal; auto. Qed.
Lemma zip_self {A C} (f : A -> A -> C) l : zip_with f l l = map (fun x => f x x) l.
Proof. induction l as [|a l IH]; cbn; f_equal; auto. Qed.
Lemma zip_ext {A B C} (f g : A -> B -> C) l r : (forall a b, f a b = g a b) -> zip_with f l r = zip_with g l r.
Proof. intros H. revert r; induction l as [|a l IH]; intros [|b r]; cbn; f_equal; auto. Qed.
Lemma zip_len {A B C} (f : A -> B -> C) l r : length l = length r -> length (zip_with f l r) = length l.
Proof. revert r; induction l as [|a l IH]; intros [|b r] H; try discriminate; [reflexivity|]. cbn. rewrite IH; [reflexivity|]. injection H; auto. Qed.
Definition wheels_after (dt : R) (n : nat) (w0 acc : list R) : list R := zip_with (fun w a => w + INR n * dt * a) w0 acc.
Lemma rk4_wheels h f dt s s' acc : (forall s d, f s = Ok d -> v_whl d = acc) -> length (v_whl (sv s)) = length acc -> RK4_sat h f dt s = Ok s' ->
  v_whl (sv s') = wheels_after dt 1 (v_whl (sv s)) acc.
Proof.
  intros HF HL H. apply rk4_inv in H. destruct H as (s2 & s3 & s4 & k1 & k2 & k3 & k4 & a & b & c & (F1 & _ & F2 & _ & F3 & _ & F4) & A & B & C & E).
  apply HF in F1, F2, F3, F4. apply sv_add_inv in A, B, C. apply state_add_inv in E. destruct E as [E _]. apply sv_add_inv in E.
  destruct A as [A _]. destruct B as [B _]. destruct C as [C _]. destruct E as [E _]. cbn [sv_mul sv_div v_whl] in *.
  rewrite F1, F2 in A. rewrite np_add_eq in A by (rewrite map_length; reflexivity). injection A as A. rewrite <- A, F3, zip_map_r, zip_self in B.
  rewrite np_add_eq in B by (rewrite !map_length; reflexivity). injection B as B.
  rewrite zip_map_r in B. assert (ZM : forall (g : R -> R) (k : R -> R -> R) l, zip_with k (map g l) l = map (fun x => k (g x) x) l). { intros g k l. induction l as [|x l IH]; cbn; f_equal; auto. }
  rewrite ZM in B. rewrite <- B, F4 in C. rewrite np_add_eq in C by (rewrite map_length; reflexivity). injection C as C. rewrite ZM in C. rewrite <- C in E.
  rewrite !map_map in E. rewrite np_add_eq in E by (rewrite map_length; exact HL). injection E as E. rewrite <- E. unfold wheels_after. rewrite zip_map_r. apply zip_ext. intros x y. simpl (INR 1). field.
Qed.
Lemma zip_zip {A B} (f : A -> B -> A) (g : A -> B -> A) l r : zip_with f (zip_with g l r) r = zip_with (fun x y => f (g x y) y) l r.
Proof. revert r; induction l as [|a l IH]; intros [|b r]; cbn; f_equal; auto. Qed.
Lemma updates_wheels f stream sim dt acc n : (forall h s d, f h s = Ok d -> v_whl d = acc) -> forall w w', length (v_whl (sv (w_state w))) = length acc ->
  riter n (update f stream sim dt) w = Ok w' -> v_whl (sv (w_state w')) = wheels_after dt n (v_whl (sv (w_state w))) acc.
Proof.
  intros HF. induction n as [|n IH]; intros w w' HL H.
  - cbn [riter] in H. injection H. intros <-. unfold wheels_after. simpl (INR 0). revert HL. generalize (v_whl (sv (w_state w))). clear. induction acc as [|x acc IH]; intros [|y l] H; try discriminate; [reflexivity|]. cbn [zip_with]. f_equal; [ring|]. apply IH. injection H; auto.
  - cbn [riter] in H. destruct (update f stream sim dt w) as [w1|] eqn:E; [|discriminate]. apply update_inv in E. destruct E as (next & c & R & _ & _ & _ & _ & _ & V & _).
    apply (rk4_wheels _ _ _ _ _ acc) in R; [|intros ? ?; apply HF|exact HL].
    assert (V1 : v_whl (sv (w_state w1)) = wheels_after dt 1 (v_whl (sv (w_state w))) acc) by (rewrite V; destruct sim; exact R).
    rewrite (IH w1 w'); [|rewrite V1; unfold wheels_after; rewrite zip_len by exact HL; exact HL|exact H]. rewrite V1. unfold wheels_after. rewrite zip_zip. apply zip_ext. intros x y. rewrite (S_INR n). simpl (INR 1). ring.
Qed.
(** ** attitude norm *)
Lemma normq_product (a b : quat) : normq (product a b) = normq a * normq b.
Proof. unfold normq. rnumg. rewrite product_norm. apply sqrt_mult; apply dotq_nonneg. Qed.
Lemma normq_scale k (a : quat) : normq (scaleq k a) = Rabs k * normq a.
Proof.
  unfold normq. rnumg. replace (dotq (scaleq k a) (scaleq k a)) with (Rsqr k * dotq a a) by (unfold Rsqr; destruct a; vunfold; rnum; ring).
  rewrite sqrt_mult; [|apply Rle_0_sqr|apply dotq_nonneg]. rewrite sqrt_Rsqr_abs. reflexivity.
Qed.
Lemma normq_pos (a : quat) : 0 <= normq a. Proof. apply sqrt_pos. Qed.
Lemma cauchyq (a b : quat) : dotq a b ^ 2 <= dotq a a * dotq b b.
Proof.
  destruct a as [a b0 c d], b as [e f g h]. vunfold; rnum.
  assert (P := pow2_ge_0 (a*f - b0*e)). assert (P2 := pow2_ge_0 (a*g - c*e)). assert (P3 := pow2_ge_0 (a*h - d*e)). assert (P4 := pow2_ge_0 (b0*g - c*f)). assert (P5 := pow2_ge_0 (b0*h - d*f)). assert (P6 := pow2_ge_0 (c*h - d*g)). lra.
Qed.
Lemma normq_triangle (a b : quat) : normq (addq a b) <= normq a + normq b.
Proof.
  assert (A := normq_pos a). assert (B := normq_pos b). apply Rsqr_incr_0_var; [|lra]. unfold Rsqr. rewrite normq_sq.
  replace (dotq (addq a b) (addq a b)) with (dotq a a + 2 * dotq a b + dotq b b) by (destruct a, b; vunfold; rnum; ring).
  assert (SA := normq_sq a). assert (SB := normq_sq b). assert (C := cauchyq a b).
  assert (D : dotq a b <= normq a * normq b). { apply (Rle_trans _ _ _ (Rle_abs _)). apply Rsqr_incr_0_var; [|nra]. rewrite <- Rsqr_abs. unfold Rsqr. rewrite <- SA, <- SB in C. nra. }
  nra.
Qed.
Lemma divq_scale (a : quat) k : divq a k = scaleq (/ k) a.
Proof. destruct a. vunfold; rnum. apply mkq_c; unfold Rdiv; ring. Qed.
Lemma pure_norm (w : v3) : normq (mkq 0 (x3 w) (y3 w) (z3 w)) = norm3 w.
Proof. unfold normq, norm3. f_equal. destruct w; vunfold; rnum; ring. Qed.
(** the kinematic part of a vector field *)
Definition kinematic (f : SatState -> res SVec) : Prop := forall s d, f s = Ok d ->
  v_att d = scaleq 0.5 (product (v_att (sv s)) (mkq 0 (x3 (v_rate (sv s))) (y3 (v_rate (sv s))) (z3 (v_rate (sv s))))).
Lemma kin_norm f s d : kinematic f -> f s = Ok d -> normq (v_att d) = 0.5 * normq (v_att (sv s)) * norm3 (v_rate (sv s)).
Proof. intros K H. rewrite (K s d H), normq_scale, normq_product, pure_norm, Rabs_pos_eq by lra. ring. Qed.
Lemma rk4_att h f dt s s' : RK4_sat h f dt s = Ok s' -> exists s2 s3 s4 k1 k2 k3 k4, rk4_stages h f dt s s2 s3 s4 k1 k2 k3 k4 /\
  v_att (sv s') = addq (v_att (sv s)) (scaleq dt (divq (addq (addq (addq (v_att k1) (scaleq 2 (v_att k2))) (scaleq 2 (v_att k3))) (v_att k4)) 6)).
Proof.
  intros H. apply rk4_inv in H. destruct H as (s2 & s3 & s4 & k1 & k2 & k3 & k4 & a & b & c & G & A & B & C & E).
  exists s2, s3, s4, k1, k2, k3, k4. split; [exact G|]. apply sv_add_inv in A, B, C. apply state_add_inv in E. destruct E as [E _]. apply sv_add_inv in E.
  destruct A as (_ & _ & _ & A & _). destruct B as (_ & _ & _ & B & _). destruct C as (_ & _ & _ & C & _). destruct E as (_ & _ & _ & E & _). cbn [sv_mul sv_div v_att] in *. rewrite E, C, B, A. reflexivity.
Qed.
Lemma stage_att h s d s' : state_add h s d = Ok s' -> v_att (sv s') = addq (v_att (sv s)) (v_att d) /\ v_rate (sv s') = add3 (v_rate (sv s)) (v_rate d).
Proof. intros H. apply state_add_inv in H. destruct H as [H _]. apply sv_add_inv in H. tauto. Qed.
Lemma zeroq_norm (q : quat) : 0 < normq q -> q <> zeroq.
Proof. intros H E. subst. assert (normq zeroq = 0) by (apply normq_zero; reflexivity). lra. Qed.
Lemma rk4_nonzero h f dt s s' : kinematic f -> 0 < dt -> v_att (sv s) <> zeroq -> RK4_sat h f dt s = Ok s' ->
  (forall s2 s3 s4 k1 k2 k3 k4, rk4_stages h f dt s s2 s3 s4 k1 k2 k3 k4 -> forall x, In x [s; s2; s3; s4] -> norm3 (v_rate (sv x)) * dt <= 1) ->
  0 < normq (v_att (sv s')).
Proof.
  intros K Hd Hq H W. apply rk4_att in H. destruct H as (s2 & s3 & s4 & k1 & k2 & k3 & k4 & G & E). specialize (W _ _ _ _ _ _ _ G).
  assert (W1 := W s ltac:(cbn; auto)). assert (W2 := W s2 ltac:(cbn; auto)). assert (W3 := W s3 ltac:(cbn; auto)). assert (W4 := W s4 ltac:(cbn; auto)). clear W.
  destruct G as (F1 & S2 & F2 & S3 & F3 & S4 & F4). apply stage_att in S2, S3, S4. destruct S2 as [S2 _], S3 as [S3 _], S4 as [S4 _]. cbn [sv_mul sv_div v_att] in *.
  apply (kin_norm _ _ _ K) in F1, F2, F3, F4. assert (Q := normq_gt0 _ Hq). set (n := normq (v_att (sv s))) in *.
  assert (D2 : forall a : quat, divq (scaleq dt a) 2 = scaleq (dt / 2) a) by (intros [? ? ? ?]; vunfold; rnum; apply mkq_c; field).
  rewrite D2 in S2, S3.
  assert (R1 := norm3_pos (v_rate (sv s))). assert (R2 := norm3_pos (v_rate (sv s2))). assert (R3 := norm3_pos (v_rate (sv s3))). assert (R4 := norm3_pos (v_rate (sv s4))).
  assert (K1 : normq (v_att k1) * dt <= 1 / 2 * n) by (rewrite F1; nra). assert (P1 := normq_pos (v_att k1)).
  assert (N2 : normq (v_att (sv s2)) <= 5 / 4 * n). { rewrite S2. apply (Rle_trans _ _ _ (normq_triangle _ _)). rewrite normq_scale, Rabs_pos_eq by lra. fold n. lra. }
  assert (M2 := normq_pos (v_att (sv s2))).
  assert (K2 : normq (v_att k2) * dt <= 5 / 8 * n) by (rewrite F2; nra). assert (P2 := normq_pos (v_att k2)).
  assert (N3 : normq (v_att (sv s3)) <= 21 / 16 * n). { rewrite S3. apply (Rle_trans _ _ _ (normq_triangle _ _)). rewrite normq_scale, Rabs_pos_eq by lra. fold n. lra. }
  assert (M3 := normq_pos (v_att (sv s3))).
  assert (K3 : normq (v_att k3) * dt <= 21 / 32 * n) by (rewrite F3; nra). assert (P3 := normq_pos (v_att k3)).
  assert (N4 : normq (v_att (sv s4)) <= 53 / 32 * n). { rewrite S4. apply (Rle_trans _ _ _ (normq_triangle _ _)). rewrite normq_scale, Rabs_pos_eq by lra. fold n. lra. }
  assert (M4 := normq_pos (v_att (sv s4))).
  assert (K4 : normq (v_att k4) * dt <= 53 / 64 * n) by (rewrite F4; nra). assert (P4 := normq_pos (v_att k4)).
  set (X := scaleq dt (divq (addq (addq (addq (v_att k1) (scaleq 2 (v_att k2))) (scaleq 2 (v_att k3))) (v_att k4)) 6)) in *.
  assert (NX : normq X <= 0.65 * n).
  { unfold X. rewrite normq_scale, divq_scale, normq_scale, (Rabs_pos_eq dt), (Rabs_pos_eq (/ 6)) by lra.
    assert (T1 := normq_triangle (addq (addq (v_att k1) (scaleq 2 (v_att k2))) (scaleq 2 (v_att k3))) (v_att k4)).
    assert (T2 := normq_triangle (addq (v_att k1) (scaleq 2 (v_att k2))) (scaleq 2 (v_att k3))). assert (T3 := normq_triangle (v_att k1) (scaleq 2 (v_att k2))).
    rewrite !normq_scale, (Rabs_pos_eq 2) in * by lra.
    set (Y := normq (addq (addq (addq (v_att k1) (scaleq 2 (v_att k2))) (scaleq 2 (v_att k3))) (v_att k4))) in *.
    assert (Y <= normq (v_att k1) + 2 * normq (v_att k2) + 2 * normq (v_att k3) + normq (v_att k4)) by lra.
    assert (dt * Y <= dt * (normq (v_att k1) + 2 * normq (v_att k2) + 2 * normq (v_att k3) + normq (v_att k4))) by (apply Rmult_le_compat_l; lra). lra. }
  rewrite E. assert (T := normq_triangle (addq (v_att (sv s)) X) (scaleq (-1) X)). rewrite normq_scale in T. replace (Rabs (-1)) with 1 in T by (rewrite Rabs_left; lra).
  replace (addq (addq (v_att (sv s)) X) (scaleq (-1) X)) with (v_att (sv s)) in T by (destruct (v_att (sv s)), X; vunfold; rnum; apply mkq_c; ring). fold n in T. lra.
Qed.
(** constant rate over the step *)
Definition taylor_turn (w : v3) (dt : R) : quat :=
  let y2 := dot3 w w * dt ^ 2 / 4 in
  mkq (1 - y2 / 2 + y2 ^ 2 / 24) ((1 - y2 / 6) * (dt / 2) * x3 w) ((1 - y2 / 6) * (dt / 2) * y3 w) ((1 - y2 / 6) * (dt / 2) * z3 w).
Lemma rk4_const_att h f dt s s' : kinematic f -> (forall s d, f s = Ok d -> v_rate d = zero3) -> RK4_sat h f dt s = Ok s' ->
  v_att (sv s') = product (v_att (sv s)) (taylor_turn (v_rate (sv s)) dt).
Proof.
  intros K Z H. apply rk4_att in H. destruct H as (s2 & s3 & s4 & k1 & k2 & k3 & k4 & (F1 & S2 & F2 & S3 & F3 & S4 & F4) & E).
  assert (Z1 := Z _ _ F1). assert (Z2 := Z _ _ F2). assert (Z3 := Z _ _ F3). assert (Z4 := Z _ _ F4). apply K in F1, F2, F3, F4.
  apply stage_att in S2, S3, S4. destruct S2 as [S2 R2], S3 as [S3 R3], S4 as [S4 R4]. cbn [sv_mul sv_div v_att v_rate] in *.
  assert (ZZ : forall v : v3, add3 v (div3 (scale3 dt zero3) 2) = v) by (intros [? ? ?]; vunfold; rnum; apply mk3_c; field).
  assert (ZZ' : forall v : v3, add3 v (scale3 dt zero3) = v) by (intros [? ? ?]; vunfold; rnum; apply mk3_c; ring).
  rewrite Z1, ZZ in R2. rewrite Z2, ZZ in R3. rewrite Z3, ZZ' in R4. rewrite R2 in F2. rewrite R3 in F3. rewrite R4 in F4.
  set (q := v_att (sv s)) in *. set (w := v_rate (sv s)) in *. clearbody q w. set (O := mkq 0 (x3 w) (y3 w) (z3 w)) in *.
  unfold taylor_turn. cbv zeta. set (P := mkq _ _ _ _).
  assert (EP : v_att (sv s') = product q P).
  { assert (AO : forall a b : quat, product (addq a b) O = addq (product a O) (product b O)) by (intros [? ? ? ?] [? ? ? ?]; unfold product, O; vunfold; rnum; apply mkq_c; ring).
    assert (SO : forall k (a : quat), product (scaleq k a) O = scaleq k (product a O)) by (intros k [? ? ? ?]; unfold product, O; vunfold; rnum; apply mkq_c; ring).
    assert (D2 : forall a : quat, divq (scaleq dt a) 2 = scaleq (dt / 2) a) by (intros [? ? ? ?]; vunfold; rnum; apply mkq_c; field).
    assert (OO : product (product q O) O = scaleq (- dot3 w w) q) by (unfold O; clear; destruct q, w; unfold product; vunfold; rnum; apply mkq_c; ring).
    assert (QP : product q P = addq (scaleq (1 - dot3 w w * dt ^ 2 / 4 / 2 + (dot3 w w * dt ^ 2 / 4) ^ 2 / 24) q) (scaleq ((1 - dot3 w w * dt ^ 2 / 4 / 6) * (dt / 2)) (product q O))).
    { unfold P, O. generalize (dot3 w w). clear. intros m. destruct q, w. unfold product; vunfold; rnum. apply mkq_c; field. }
    rewrite QP, E, F4, S4, F3, S3, F2, S2, F1. rewrite !D2. repeat (rewrite ?AO, ?SO, ?OO). clear -dt. replace 0.5 with (1 / 2) by lra. generalize (dot3 w w) (product q O). intros m r. destruct q as [a b c d], r as [r0 r1 r2 r3]. vunfold; rnum. apply mkq_c; field. }
  exact EP.
Qed.
Lemma rk4_const_rate h f dt s s' : kinematic f -> (forall s d, f s = Ok d -> v_rate d = zero3) -> RK4_sat h f dt s = Ok s' ->
  let y2 := dot3 (v_rate (sv s)) (v_rate (sv s)) * dt ^ 2 / 4 in
  dotq (v_att (sv s')) (v_att (sv s')) = dotq (v_att (sv s)) (v_att (sv s)) * (1 - y2 ^ 3 / 72 + y2 ^ 4 / 576).
Proof.
  intros K Z H y2. rewrite (rk4_const_att h f dt s s' K Z H), product_norm. unfold y2. f_equal. generalize (v_rate (sv s)). clear. intros w. unfold taylor_turn. destruct w as [x y z]. vunfold; rnum. field.
Qed.
Lemma stab_pos s : 0 <= s -> 1 / 4 <= 1 - s ^ 3 / 72 + s ^ 4 / 576.
Proof.
  intros H. replace (1 - s ^ 3 / 72 + s ^ 4 / 576) with (1 / 4 + (s - 6) ^ 2 * (s ^ 2 + 4 * s + 12) / 576) by field.
  assert (0 <= (s - 6) ^ 2 * (s ^ 2 + 4 * s + 12)) by (apply Rmult_le_pos; [apply pow2_ge_0|nra]). lra.
Qed.
