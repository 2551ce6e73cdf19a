(** * Lemmas: Runge-Kutta steps of a constant spin *)
From Coq Require Import Reals List Lra Psatz Lia.
From Verif Require Import Num Vec M_vector M_quaternion M_jday M_struct M_env M_dyn M_sensor M_integ S_rot S_dyn P_quat P_dyn P_integ2.
Import ListNotations.
Local Open Scope R_scope.

(** ** the two remainders of the Taylor polynomials, turned back by the exact angle *)
Definition tay_s (x : R) : R := x - x ^ 3 / 6.
Definition tay_c (x : R) : R := 1 - x ^ 2 / 2 + x ^ 4 / 24.
Definition offs (x : R) : R := tay_s x * cos x - tay_c x * sin x.
Definition offc (x : R) : R := tay_c x * cos x + tay_s x * sin x.
Lemma d_pow n t : derivable_pt_lim (fun x => x ^ n) t (INR n * t ^ pred n).
Proof. apply derivable_pt_lim_pow. Qed.
Lemma grows (f f' : R -> R) a b : a <= b -> (forall c, a <= c <= b -> derivable_pt_lim f c (f' c)) -> (forall c, a <= c <= b -> 0 <= f' c) -> f a <= f b.
Proof.
  intros [H| ->] D P; [|lra]. destruct (MVT_cor2 f f' a b H D) as (c & E & Hc). assert (Q := P c ltac:(lra)).
  assert (0 <= f' c * (b - a)) by (apply Rmult_le_pos; lra). lra.
Qed.
Lemma d_poly t (a b : R) n m : derivable_pt_lim (fun x => a * x ^ n + b * x ^ m) t (a * (INR n * t ^ pred n) + b * (INR m * t ^ pred m)).
Proof. apply (derivable_pt_lim_plus (fun x => a * x ^ n) (fun x => b * x ^ m)); apply (derivable_pt_lim_scal (fun x => x ^ _)); apply derivable_pt_lim_pow. Qed.
Lemma d_ext f g t a : (forall x, f x = g x) -> derivable_pt_lim f t a -> derivable_pt_lim g t a.
Proof. intros E H eps He. destruct (H eps He) as (d & Hd). exists d. intros h H1 H2. rewrite <- !E. apply Hd; assumption. Qed.
Lemma tay_s_d t : derivable_pt_lim tay_s t (1 - t ^ 2 / 2).
Proof.
  apply (d_ext (fun x => 1 * x ^ 1 + (- / 6) * x ^ 3)); [intros x; unfold tay_s; field|].
  eapply d_eq; [apply d_poly|]. cbn [INR pred]. field.
Qed.
Lemma tay_c_d t : derivable_pt_lim tay_c t (- tay_s t).
Proof.
  apply (d_ext (fun x => 1 + ((- / 2) * x ^ 2 + / 24 * x ^ 4))); [intros x; unfold tay_c; field|].
  eapply d_eq; [apply (d_plus (fun _ => 1)); [exact (d_const 1 t)|apply d_poly]|]. cbn [INR pred]. unfold tay_s. field.
Qed.
Lemma offs_d t : derivable_pt_lim offs t (- (t ^ 4 / 24 * cos t)).
Proof.
  unfold offs. eapply d_eq; [apply (d_minus (fun x => tay_s x * cos x) (fun x => tay_c x * sin x)); [apply (d_mult tay_s cos); [apply tay_s_d|apply derivable_pt_lim_cos]|apply (d_mult tay_c sin); [apply tay_c_d|apply derivable_pt_lim_sin]]|].
  unfold tay_s, tay_c. field.
Qed.
Lemma offc_d t : derivable_pt_lim offc t (- (t ^ 4 / 24 * sin t)).
Proof.
  unfold offc. eapply d_eq; [apply (d_plus (fun x => tay_c x * cos x) (fun x => tay_s x * sin x)); [apply (d_mult tay_c cos); [apply tay_c_d|apply derivable_pt_lim_cos]|apply (d_mult tay_s sin); [apply tay_s_d|apply derivable_pt_lim_sin]]|].
  unfold tay_s, tay_c. field.
Qed.
Lemma off_0 : offs 0 = 0 /\ offc 0 = 1.
Proof. unfold offs, offc, tay_s, tay_c. rewrite sin_0, cos_0. split; field. Qed.
Lemma cos_low x : 0 <= x <= 1 -> / 2 <= cos x.
Proof. intros H. destruct (pre_cos_bound x 0 ltac:(lra) ltac:(lra)) as [L _]. cbn in L. unfold cos_approx, sum_f_R0, cos_term in L. cbn in L. nra. Qed.
Lemma offs_bounds x : 0 <= x <= 1 -> - (x ^ 5 / 120) <= offs x <= - (x ^ 5 / 240).
Proof.
  intros H. destruct off_0 as [Z _]. split.
  - assert (G := grows (fun x => offs x + x ^ 5 / 120) (fun x => - (x ^ 4 / 24 * cos x) + x ^ 4 / 24) 0 x (proj1 H)). cbv beta in G. rewrite Z in G. replace (0 ^ 5) with 0 in G by ring.
    assert (0 + 0 / 120 <= offs x + x ^ 5 / 120); [|lra]. apply G.
    + intros c _. apply (d_plus offs); [apply offs_d|]. apply (d_ext (fun x => / 120 * x ^ 5 + 0 * x ^ 1)); [intros y; field|]. eapply d_eq; [apply d_poly|]. cbn [INR pred]. field.
    + intros c Hc. assert (B := COS_bound c). assert (0 <= c ^ 4) by (apply pow_le; lra). nra.
  - assert (G := grows (fun x => - (x ^ 5 / 240) - offs x) (fun x => - (x ^ 4 / 48) - - (x ^ 4 / 24 * cos x)) 0 x (proj1 H)). cbv beta in G. rewrite Z in G. replace (0 ^ 5) with 0 in G by ring.
    assert (- (0 / 240) - 0 <= - (x ^ 5 / 240) - offs x); [|lra]. apply G.
    + intros c _. apply (d_minus (fun x => - (x ^ 5 / 240)) offs); [|apply offs_d]. apply (d_ext (fun x => - / 240 * x ^ 5 + 0 * x ^ 1)); [intros y; field|]. eapply d_eq; [apply d_poly|]. cbn [INR pred]. field.
    + intros c Hc. assert (B := cos_low c ltac:(lra)). assert (0 <= c ^ 4) by (apply pow_le; lra). nra.
Qed.
Lemma offc_low x : 0 <= x <= 1 -> 143 / 144 <= offc x.
Proof.
  intros H. destruct off_0 as [_ Z].
  assert (G := grows (fun x => offc x + x ^ 6 / 144) (fun x => - (x ^ 4 / 24 * sin x) + x ^ 5 / 24) 0 x (proj1 H)). cbv beta in G. rewrite Z in G. replace (0 ^ 6) with 0 in G by ring.
  assert (1 + 0 / 144 <= offc x + x ^ 6 / 144).
  { apply G.
    - intros c _. apply (d_plus offc); [apply offc_d|]. apply (d_ext (fun x => / 144 * x ^ 6 + 0 * x ^ 1)); [intros y; field|]. eapply d_eq; [apply d_poly|]. cbn [INR pred]. field.
    - intros c Hc. assert (S : sin c <= c). { destruct (Req_dec c 0) as [->|N]; [rewrite sin_0; lra|]. left. apply sin_lt_x. lra. }
      assert (0 <= c ^ 4) by (apply pow_le; lra). replace (c ^ 5) with (c ^ 4 * c) by ring. nra. }
  assert (x ^ 6 <= 1). { rewrite <- (pow1 6). apply pow_incr. exact H. } lra.
Qed.
(** ** the angle that one step turns: the exact one less a small lag *)
Definition lag (x : R) : R := atan (- offs x / offc x).
Lemma lag_bounds x : 0 <= x <= 1 -> 0 <= lag x <= x ^ 5 / 119 /\ (0 < x -> 0 < lag x).
Proof.
  intros H. destruct (offs_bounds x H) as [A B]. assert (C := offc_low x H). assert (P5 : 0 <= x ^ 5) by (apply pow_le; lra).
  assert (Q : 0 <= - offs x / offc x) by (unfold Rdiv; apply Rmult_le_pos; [lra|left; apply Rinv_0_lt_compat; lra]). unfold lag.
  assert (AX : forall y, 0 <= y -> 0 <= atan y <= y).
  { intros y [Hy|<-]; [|rewrite atan_0; lra]. split; [left; rewrite <- atan_0; apply atan_increasing, Hy|].
    assert (G := grows (fun z => z - atan z) (fun z => 1 - / (1 + z²)) 0 y ltac:(lra)). cbv beta in G. rewrite atan_0 in G.
    assert (0 - 0 <= y - atan y); [|lra]. apply G.
    - intros c _. apply (d_minus (fun z => z) atan); [apply derivable_pt_lim_id|]. eapply d_eq; [apply derivable_pt_lim_atan|]. unfold Rsqr. f_equal. ring.
    - intros c _. assert (0 <= c²) by apply Rle_0_sqr. assert (/ (1 + c²) <= / 1) by (apply Rinv_le_contravar; lra). lra. }
  split.
  - split; [apply AX, Q|]. eapply Rle_trans; [apply AX, Q|]. apply (Rmult_le_reg_r (offc x)); [lra|]. replace (- offs x / offc x * offc x) with (- offs x) by (field; lra). nra.
  - intros Hx. rewrite <- atan_0. apply atan_increasing. apply Rdiv_lt_0_compat; [|lra]. assert (0 < x ^ 5) by (apply pow_lt, Hx). lra.
Qed.
Lemma atan_cubic y : 0 <= y -> y - y ^ 3 <= atan y.
Proof.
  intros Hy. assert (G := grows (fun z => atan z - (z - z ^ 3)) (fun z => / (1 + z²) - (1 - 3 * z ^ 2)) 0 y Hy). cbv beta in G. rewrite atan_0 in G.
  assert (0 - (0 - 0 ^ 3) <= atan y - (y - y ^ 3)); [|replace (0 - (0 - 0 ^ 3)) with 0 in * by ring; lra]. apply G.
  - intros c _. apply (d_minus atan (fun z => z - z ^ 3)); [eapply d_eq; [apply derivable_pt_lim_atan|unfold Rsqr; f_equal; ring]|]. apply (d_ext (fun x => 1 * x ^ 1 + (-1) * x ^ 3)); [intros x; ring|]. eapply d_eq; [apply d_poly|]. cbn [INR pred]. ring.
  - intros c Hc. unfold Rsqr. assert (P : 0 < 1 + c * c) by nra. assert (/ (1 + c * c) = 1 - c * c + c * c * c * c / (1 + c * c)) as -> by (field; lra).
    assert (0 <= c * c * c * c / (1 + c * c)). { apply Rmult_le_pos; [nra|left; apply Rinv_0_lt_compat, P]. } nra.
Qed.
Lemma offc_high x : 0 <= x <= 1 -> offc x <= 1.
Proof.
  intros H. destruct off_0 as [_ Z]. assert (G := grows (fun x => - offc x) (fun x => - - (x ^ 4 / 24 * sin x)) 0 x (proj1 H)). cbv beta in G. rewrite Z in G.
  assert (- (1) <= - offc x); [|lra]. apply G.
  - intros c _. apply (d_opp offc). apply offc_d.
  - intros c Hc. assert (0 <= sin c). { apply sin_ge_0; [lra|]. assert (P := PI_RGT_0). assert (Q := PI2_1). lra. } assert (0 <= c ^ 4) by (apply pow_le; lra). nra.
Qed.
Lemma lag_low x : 0 <= x <= 1 -> x ^ 5 / 241 <= lag x.
Proof.
  intros H. destruct (offs_bounds x H) as [A B]. assert (C := offc_low x H). assert (D := offc_high x H). assert (P5 : 0 <= x ^ 5) by (apply pow_le; lra). assert (P5' : x ^ 5 <= 1). { assert (Q := pow_incr x 1 5 H). rewrite pow1 in Q. exact Q. }
  unfold lag. set (y := - offs x / offc x). assert (E : y * offc x = - offs x) by (unfold y; field; lra).
  assert (Y0 : 0 <= y) by (unfold y, Rdiv; apply Rmult_le_pos; [lra|left; apply Rinv_0_lt_compat; lra]).
  assert (Y1 : x ^ 5 / 240 <= y) by nra. assert (Y2 : y <= 1 / 119) by nra.
  assert (T := atan_cubic y Y0). assert (y ^ 3 <= y / (119 * 119)). { assert (y * y <= 1 / 119 * (1 / 119)) by nra. replace (y ^ 3) with (y * (y * y)) by ring. nra. } lra.
Qed.
Definition size (x : R) : R := sqrt (offs x ^ 2 + offc x ^ 2).
Lemma lag_polar x : 0 <= x <= 1 -> 0 < size x /\ tay_c x = size x * cos (x - lag x) /\ tay_s x = size x * sin (x - lag x).
Proof.
  intros H. assert (C := offc_low x H). assert (P : 0 < offs x ^ 2 + offc x ^ 2) by nra. assert (S0 : 0 < size x) by (apply sqrt_lt_R0, P).
  assert (S2 : size x * size x = offs x ^ 2 + offc x ^ 2) by (apply sqrt_def; lra).
  assert (CE : size x * cos (lag x) = offc x /\ size x * sin (lag x) = - offs x).
  { unfold lag. rewrite cos_atan, sin_atan. set (t := - offs x / offc x). assert (Q : sqrt (1 + t²) = size x / offc x).
    { replace (1 + t²) with (size x / offc x * (size x / offc x)); [apply sqrt_square; left; apply Rdiv_lt_0_compat; lra|]. unfold Rsqr, t. replace (size x / offc x * (size x / offc x)) with (size x * size x / (offc x * offc x)) by (field; lra). rewrite S2. field. lra. }
    rewrite Q. unfold t. split; field; lra. }
  destruct CE as [C1 C2]. split; [exact S0|]. rewrite cos_minus, sin_minus.
  replace (size x * (cos x * cos (lag x) + sin x * sin (lag x))) with (cos x * (size x * cos (lag x)) + sin x * (size x * sin (lag x))) by ring.
  replace (size x * (sin x * cos (lag x) - cos x * sin (lag x))) with (sin x * (size x * cos (lag x)) - cos x * (size x * sin (lag x))) by ring.
  rewrite C1, C2. unfold offs, offc. assert (T := sin2_cos2 x). unfold Rsqr in T.
  split; [transitivity (tay_c x * (sin x * sin x + cos x * cos x)); [rewrite T; ring|ring]|transitivity (tay_s x * (sin x * sin x + cos x * cos x)); [rewrite T; ring|ring]].
Qed.

(** ** one step at constant rate *)
Definition zeros (u : list R) : list R := map (fun _ => 0) u.
Definition spins (f : SatState -> res SVec) (w : v3) (u : list R) : Prop :=
  forall s d, v_rate (sv s) = w -> v_whl (sv s) = u -> f s = Ok d -> v_rate d = zero3 /\ v_whl d = zeros u.
Lemma np_add_zeros u k1 : np_add u (map (fun x => x * k1) (zeros u)) = Ok u.
Proof.
  rewrite np_add_eq by (unfold zeros; rewrite !map_length; reflexivity). f_equal. unfold zeros. rewrite map_map. induction u as [|x u IH]; [reflexivity|]. cbn [map zip_with]. rewrite IH. f_equal. ring.
Qed.
Lemma zeros_map u g : g 0 = 0 -> map g (zeros u) = zeros u.
Proof. intros E. unfold zeros. rewrite map_map. apply map_ext. intros _. exact E. Qed.
Lemma zeros_add u : np_add (zeros u) (zeros u) = Ok (zeros u).
Proof. rewrite np_add_eq by reflexivity. f_equal. unfold zeros. induction u as [|x u IH]; [reflexivity|]. cbn [map zip_with]. rewrite IH. f_equal. ring. Qed.
Lemma zeros_add_r u : np_add u (zeros u) = Ok u.
Proof. assert (H := np_add_zeros u 1). rewrite zeros_map in H by ring. exact H. Qed.
Lemma rk4_spin h f dt s s' w u : kinematic f -> spins f w u -> v_rate (sv s) = w -> v_whl (sv s) = u -> RK4_sat h f dt s = Ok s' ->
  v_rate (sv s') = w /\ v_whl (sv s') = u /\ v_att (sv s') = product (v_att (sv s)) (taylor_turn w dt).
Proof.
  intros K Z Hw Hu H. apply rk4_inv in H. destruct H as (s2 & s3 & s4 & k1 & k2 & k3 & k4 & a & b & c & (F1 & T2 & F2 & T3 & F3 & T4 & F4) & A & B & C & E).
  assert (Z3' : forall k, scale3 k (zero3 (T:=R)) = zero3) by (intros; vunfold; rnum; apply mk3_c; ring).
  assert (D3' : forall k, k <> 0 -> div3 (zero3 (T:=R)) k = zero3) by (intros; vunfold; rnum; apply mk3_c; field; assumption).
  assert (A3' : forall v : v3, add3 v zero3 = v) by (intros [? ? ?]; vunfold; rnum; apply mk3_c; ring).
  destruct (Z _ _ Hw Hu F1) as [R1 U1].
  apply state_add_inv in T2, T3, T4, E. destruct T2 as [T2 _]. destruct T3 as [T3 _]. destruct T4 as [T4 _]. destruct E as [E _]. apply sv_add_inv in A, B, C, T2, T3, T4, E.
  destruct A as (A1 & _ & _ & A2 & A3), B as (B1 & _ & _ & B2 & B3), C as (C1 & _ & _ & C2 & C3), E as (E1 & _ & _ & E2 & E3), T2 as (X1 & _ & _ & X2 & X3), T3 as (Y1 & _ & _ & Y2 & Y3), T4 as (W1 & _ & _ & W2 & W3).
  cbn [sv_mul sv_div v_att v_rate v_whl] in *.
  rewrite U1, Hu, !zeros_map, zeros_add_r in X1 by (try ring; field). injection X1 as X1. rewrite R1, Hw, Z3', D3', A3' in X3 by lra.
  destruct (Z _ _ X3 (eq_sym X1) F2) as [R2' U2].
  rewrite U2, Hu, !zeros_map, zeros_add_r in Y1 by (try ring; field). injection Y1 as Y1. rewrite R2', Hw, Z3', D3', A3' in Y3 by lra.
  destruct (Z _ _ Y3 (eq_sym Y1) F3) as [R3 U3].
  rewrite U3, Hu, !zeros_map, zeros_add_r in W1 by ring. injection W1 as W1. rewrite R3, Hw, Z3', A3' in W3.
  destruct (Z _ _ W3 (eq_sym W1) F4) as [R4 U4].
  rewrite U1, U2, zeros_map, zeros_add in A1 by ring. injection A1 as A1. rewrite <- A1, U3, zeros_map, zeros_add in B1 by ring. injection B1 as B1.
  rewrite <- B1, U4, zeros_add in C1. injection C1 as C1. rewrite <- C1, Hu, !zeros_map, zeros_add_r in E1 by (try ring; field). injection E1 as E1.
  rewrite R1, R2', Z3', A3' in A3. rewrite A3, R3, Z3', A3' in B3. rewrite B3, R4, A3' in C3. rewrite C3, Hw, D3', Z3', A3' in E3 by lra.
  split; [exact E3|]. split; [symmetry; exact E1|].
  apply K in F1, F2, F3, F4. rewrite X3 in F2. rewrite Y3 in F3. rewrite W3 in F4. rewrite Hw in F1. rewrite C2, B2, A2 in E2.
  clear - E2 F1 F2 F3 F4 X2 Y2 W2. set (q := v_att (sv s)) in *. clearbody q. set (O := mkq 0 (x3 w) (y3 w) (z3 w)) in *.
  unfold taylor_turn. cbv zeta. set (P := mkq _ _ _ _).
  assert (AO : forall a b : quat, product (addq a b) O = addq (product a O) (product b O)) by (intros [? ? ? ?] [? ? ? ?]; unfold product, O; vunfold; rnum; apply mkq_c; ring).
  assert (SO : forall k (a : quat), product (scaleq k a) O = scaleq k (product a O)) by (intros k [? ? ? ?]; unfold product, O; vunfold; rnum; apply mkq_c; ring).
  assert (D2 : forall a : quat, divq (scaleq dt a) 2 = scaleq (dt / 2) a) by (intros [? ? ? ?]; vunfold; rnum; apply mkq_c; field).
  assert (OO : product (product q O) O = scaleq (- dot3 w w) q) by (unfold O; clear; destruct q, w; unfold product; vunfold; rnum; apply mkq_c; ring).
  assert (QP : product q P = addq (scaleq (1 - dot3 w w * dt ^ 2 / 4 / 2 + (dot3 w w * dt ^ 2 / 4) ^ 2 / 24) q) (scaleq ((1 - dot3 w w * dt ^ 2 / 4 / 6) * (dt / 2)) (product q O))).
  { unfold P, O. generalize (dot3 w w). clear. intros m. destruct q, w. unfold product; vunfold; rnum. apply mkq_c; field. }
  rewrite QP, E2, F4, W2, F3, Y2, F2, X2, F1. rewrite !D2. repeat (rewrite ?AO, ?SO, ?OO). clear -dt. replace 0.5 with (1 / 2) by lra. generalize (dot3 w w) (product q O). intros m r. destruct q as [a b c d], r as [r0 r1 r2 r3]. vunfold; rnum. apply mkq_c; field.
Qed.
(** a turn by the angle 2 a about the axis n *)
Definition turn (n : v3) (a : R) : quat := mkq (cos a) (sin a * x3 n) (sin a * y3 n) (sin a * z3 n).
Lemma turn_unit n a : unit3 n -> dotq (turn n a) (turn n a) = 1.
Proof.
  unfold unit3. destruct n as [x y z]. unfold turn. vunfold; rnum. intros U. assert (T := sin2_cos2 a). unfold Rsqr in T.
  transitivity (sin a * sin a * (x * x + y * y + z * z) + cos a * cos a); [ring|]. rewrite U. lra.
Qed.
Lemma turn_add n a b : unit3 n -> product (turn n a) (turn n b) = turn n (a + b).
Proof.
  unfold unit3. destruct n as [x y z]. unfold turn, product. vunfold; rnum. intros U. rewrite cos_plus, sin_plus. apply mkq_c; [|ring..].
  transitivity (cos a * cos b - sin a * sin b * (x * x + y * y + z * z)); [ring|]. rewrite U. ring.
Qed.
Lemma taylor_polar n W dt : unit3 n -> 0 <= W * dt / 2 <= 1 -> taylor_turn (scale3 W n) dt = scaleq (size (W * dt / 2)) (turn n (W * dt / 2 - lag (W * dt / 2))).
Proof.
  intros U H. destruct (lag_polar _ H) as (_ & C & D). unfold taylor_turn, turn. cbv zeta. replace (dot3 (scale3 W n) (scale3 W n)) with (W * W).
  2: { revert U. unfold unit3. destruct n as [x y z]. vunfold; rnum. intros U. transitivity (W * W * (x * x + y * y + z * z)); [rewrite U; ring|ring]. }
  destruct n as [x y z]. vunfold; rnum. apply mkq_c.
  - rewrite <- C. unfold tay_c. field.
  - transitivity (tay_s (W * dt / 2) * x); [unfold tay_s; field|rewrite D; ring].
  - transitivity (tay_s (W * dt / 2) * y); [unfold tay_s; field|rewrite D; ring].
  - transitivity (tay_s (W * dt / 2) * z); [unfold tay_s; field|rewrite D; ring].
Qed.
Lemma normalize_scaled k (q : quat) : 0 < k -> dotq q q = 1 -> normalizeq (scaleq k q) = q.
Proof.
  intros Hk U. assert (N : normq (scaleq k q) = k). { rewrite normq_scale, Rabs_pos_eq by lra. unfold normq. rnumg. rewrite U, sqrt_1. ring. }
  unfold normalizeq. rewrite N. rnumg. destruct (Reqb_spec k 0); [lra|]. destruct q as [a b c d]. vunfold; rnum. apply mkq_c; field; lra.
Qed.
Lemma product_scaled k (p q : quat) : product p (scaleq k q) = scaleq k (product p q).
Proof. destruct p, q. unfold product. vunfold; rnum. apply mkq_c; ring. Qed.
