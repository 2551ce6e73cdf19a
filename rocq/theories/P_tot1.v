(** * Lemmas: the vector field is bounded on bounded sets of states above the Earth *)
From Coq Require Import Reals ZArith List Bool Arith Lra Psatz Lia.
From Verif Require Import Num Vec M_vector M_quaternion M_jday M_frame M_struct M_env M_dyn M_sensor M_integ.
From Verif Require Import S_rot S_integ S_dyn P_quat P_wheel P_integ2 P_dyn P_rk P_rk2 P_rk3 P_rk4.
Import ListNotations.
Local Open Scope R_scope.

Lemma mul_le a b x y : 0 <= a <= x -> 0 <= b <= y -> a * b <= x * y.
Proof. intros A B. apply Rmult_le_compat; lra. Qed.
Lemma n1_turn_gen a b v Q : nq a <= Q -> nq b <= Q -> nq (product a (product (pure v) b)) <= Q * (n1 v * Q).
Proof.
  intros A B. assert (P := n1_pos v). assert (PA := nq_pos a). assert (PB := nq_pos b). eapply Rle_trans; [apply nq_product|]. assert (K := nq_product (pure v) b). rewrite pure_nq in K.
  apply Rmult_le_compat; try assumption; [apply nq_pos|]. eapply Rle_trans; [exact K|]. apply Rmult_le_compat_l; assumption.
Qed.
Lemma n1_sand q v Q N : nq q <= Q -> n1 v <= N -> n1 (sandwich q v) <= Q * (N * Q) /\ n1 (sandwich_opp q v) <= Q * (N * Q).
Proof.
  intros HQ HN. assert (PQ := nq_pos q). assert (PV := n1_pos v).
  assert (M : Q * (n1 v * Q) <= Q * (N * Q)) by (apply Rmult_le_compat_l; [lra|apply Rmult_le_compat_r; lra]).
  split; (eapply Rle_trans; [apply vec_nq|]); (eapply Rle_trans; [apply (n1_turn_gen _ _ v Q); rewrite ?nq_conj; exact HQ|exact M]).
Qed.
Lemma wall_bound (l : list Wall) P N : 0 <= P -> 0 <= N -> exists K, 0 <= K /\ forall p v, Rabs p <= P -> n1 v <= N ->
  n1 (sum3 (map (fun w => fst (drag_force w p v)) l)) <= K /\ n1 (sum3 (map (fun w => snd (drag_force w p v)) l)) <= K /\
  n1 (sum3 (map (fun w => fst (srp_force w p v)) l)) <= K /\ n1 (sum3 (map (fun w => snd (srp_force w p v)) l)) <= K.
Proof.
  intros P0 N0. induction l as [|w l (K & K0 & IH)].
  - exists 0. split; [lra|]. intros p v _ _. cbn [map sum3 fold_right]. assert (Z : n1 zero3 = 0) by (unfold n1, zero3; cbn [x3 y3 z3]; rnumg; rewrite Rabs_R0; ring). unfold sum3. cbn [fold_right]. rewrite Z. lra.
  - assert (NW := n1_pos (wl_normal w)). assert (NC := n1_pos (wl_centroid w)). assert (AW := Rabs_pos (wl_area w)). assert (AA := Rabs_pos (wl_abs w)).
    set (A := n1 (wl_normal w) * N * Rabs (wl_area w)). assert (A0 : 0 <= A) by (unfold A; repeat apply Rmult_le_pos; lra).
    set (G := 2 * (1 + Rabs (wl_abs w)) * (n1 (wl_normal w) * N) * n1 (wl_normal w) + Rabs (wl_abs w) * N).
    assert (WN : 0 <= n1 (wl_normal w) * N) by (apply Rmult_le_pos; lra).
    assert (G0 : 0 <= G). { unfold G. assert (0 <= 2 * (1 + Rabs (wl_abs w)) * (n1 (wl_normal w) * N) * n1 (wl_normal w)) by (repeat apply Rmult_le_pos; lra). assert (0 <= Rabs (wl_abs w) * N) by (apply Rmult_le_pos; lra). lra. }
    assert (PA0 : 0 <= P * A) by (apply Rmult_le_pos; lra).
    set (F1 := P * A * N). set (F2 := P * A * G). assert (F10 : 0 <= F1) by (apply Rmult_le_pos; lra). assert (F20 : 0 <= F2) by (apply Rmult_le_pos; lra).
    set (T1 := A * (n1 (wl_centroid w) * F1)). set (T2 := A * (n1 (wl_centroid w) * F2)).
    assert (T10 : 0 <= T1) by (apply Rmult_le_pos; [lra|apply Rmult_le_pos; lra]). assert (T20 : 0 <= T2) by (apply Rmult_le_pos; [lra|apply Rmult_le_pos; lra]).
    exists (F1 + F2 + T1 + T2 + K). split; [lra|]. intros p v Hp Hv. destruct (IH p v Hp Hv) as (I1 & I2 & I3 & I4). assert (V0 := n1_pos v). assert (Pp := Rabs_pos p).
    assert (D : Rabs (dot3 (wl_normal w) v) <= n1 (wl_normal w) * N). { eapply Rle_trans; [apply dot_le|]. apply Rmult_le_compat_l; lra. }
    assert (PA : Rabs (projected_area w v) <= A).
    { unfold projected_area, pymax0, A. rewrite Rabs_mult. apply Rmult_le_compat_r; [exact AW|]. destruct (Rltb_spec 0 (dot3 (wl_normal w) v)); [exact D|rewrite Rabs_R0; exact WN]. }
    assert (PPA := Rabs_pos (projected_area w v)).
    assert (B1 : n1 (fst (drag_force w p v)) <= F1).
    { rewrite drag_eq. cbn [fst]. rewrite n1_scale, Rabs_mult. unfold F1. apply mul_le; [split; [apply Rmult_le_pos; assumption|apply mul_le; split; assumption]|split; assumption]. }
    assert (B2 : n1 (snd (drag_force w p v)) <= T1).
    { rewrite drag_eq in *. cbn [fst snd] in *. rewrite n1_scale. unfold T1. apply mul_le; [split; assumption|]. split; [apply n1_pos|]. eapply Rle_trans; [apply n1_cross|]. apply Rmult_le_compat_l; assumption. }
    assert (B3 : n1 (fst (srp_force w p v)) <= F2).
    { rewrite srp_eq. cbv zeta. cbn [fst]. rewrite n1_scale, Rabs_mult, Rabs_Ropp. unfold F2. apply mul_le; [split; [apply Rmult_le_pos; assumption|apply mul_le; split; assumption]|]. split; [apply n1_pos|].
      eapply Rle_trans; [apply n1_add|]. rewrite !n1_scale. unfold G. apply Rplus_le_compat.
      - apply Rmult_le_compat_r; [exact NW|]. rewrite !Rabs_mult, (Rabs_pos_eq 2) by lra. apply mul_le; [split; [apply Rmult_le_pos; [lra|apply Rabs_pos]|]|split; [apply Rabs_pos|exact D]].
        apply Rmult_le_compat_l; [lra|]. unfold Rminus. eapply Rle_trans; [apply Rabs_triang|]. rewrite Rabs_R1, Rabs_Ropp. lra.
      - apply Rmult_le_compat_l; assumption. }
    assert (B4 : n1 (snd (srp_force w p v)) <= T2).
    { rewrite srp_eq in *. cbv zeta in *. cbn [fst snd] in *. rewrite n1_scale. unfold T2. apply mul_le; [split; assumption|]. split; [apply n1_pos|]. eapply Rle_trans; [apply n1_cross|]. apply Rmult_le_compat_l; assumption. }
    unfold sum3 in *. cbn [map fold_right]. repeat split; (eapply Rle_trans; [apply n1_add|]); lra.
Qed.
Lemma density_small h rho : atmo_density h = Ok rho -> 0 <= rho <= 1.
Proof.
  assert (B : forall r0 h0 H, 0 <= r0 <= 1 -> 0 < H -> h0 <= h -> 0 <= r0 * exp ((h0 - h) / H) <= 1).
  { intros r0 h0 H R0 HP HH. assert (E := exp_pos ((h0 - h) / H)). assert (E1 : exp ((h0 - h) / H) <= 1).
    { rewrite <- exp_0. assert (L : (h0 - h) / H <= 0). { apply (Rmult_le_reg_r H); [exact HP|]. unfold Rdiv. rewrite Rmult_assoc, Rinv_l by lra. lra. } destruct L as [L| ->]; [left; apply exp_increasing, L|lra]. }
    split; [apply Rmult_le_pos; lra|]. replace 1 with (1 * 1) by ring. apply Rmult_le_compat; lra. }
  unfold atmo_density. destruct (Rleb_spec 250000 h), (Rltb_spec h 300000), (Rleb_spec 300000 h), (Rltb_spec h 350000), (Rleb_spec 350000 h), (Rltb_spec h 400000),
    (Rleb_spec 400000 h), (Rltb_spec h 450000), (Rleb_spec 450000 h), (Rltb_spec h 500000); cbn [andb]; try lra; try discriminate; intros E; apply (f_equal (fun r => match r with Ok v => v | _ => rho end)) in E; cbn in E; rewrite <- E; apply B; lra.
Qed.
Lemma n1_normalize v : n1 (normalize3 v) <= 3.
Proof.
  destruct (Req_dec (norm3 v) 0) as [Z|N].
  - unfold normalize3. cbv zeta. assert (L := norm3_n1 v). assert (U := n1_norm3 v). change (neqb (norm3 v) n0) with (Reqb (norm3 v) 0). destruct (Reqb_spec (norm3 v) 0); [|lra]. rewrite Z in U. lra.
  - assert (NZ : v <> zero3). { intros ->. apply N. unfold norm3, zero3, dot3. cbn [x3 y3 z3]. rnumg. replace (0 * 0 + 0 * 0 + 0 * 0) with 0 by ring. apply sqrt_0. }
    assert (U := normalize3_unit v NZ). assert (L := n1_norm3 (normalize3 v)). unfold unit3 in U. unfold norm3 in L. rewrite U in L. revert L. rnumg. rewrite sqrt_1. lra.
Qed.
Lemma n1_unit_quot v : n1 (div3 v (norm3 v)) <= 3.
Proof.
  destruct (Req_dec (norm3 v) 0) as [Z|N].
  - assert (U := n1_norm3 v). rewrite Z in U. assert (P := n1_pos v). assert (V0 : n1 v = 0) by lra. replace (div3 v (norm3 v)) with (scale3 (/ norm3 v) v) by (generalize (norm3 v); clear; intros k; destruct v as [x y z]; unfold div3, scale3; cbn [x3 y3 z3]; rnumg; apply mk3_c; unfold Rdiv; ring). rewrite n1_scale, V0. lra.
  - assert (K := n1_normalize v). unfold normalize3 in K. cbv zeta in K. change (neqb (norm3 v) n0) with (Reqb (norm3 v) 0) in K. destruct (Reqb_spec (norm3 v) 0); [lra|exact K].
Qed.
Lemma n1_comp a b c A B C : Rabs a <= A -> Rabs b <= B -> Rabs c <= C -> n1 (mk3 a b c) <= A + B + C.
Proof. unfold n1. cbn [x3 y3 z3]. lra. Qed.
Lemma abs_mul a b A B : Rabs a <= A -> Rabs b <= B -> Rabs (a * b) <= A * B.
Proof. intros. rewrite Rabs_mult. apply Rmult_le_compat; try apply Rabs_pos; assumption. Qed.
Lemma n1_scale_le k v A B : Rabs k <= A -> n1 v <= B -> n1 (scale3 k v) <= A * B.
Proof. intros. rewrite n1_scale. apply Rmult_le_compat; try apply Rabs_pos; try apply n1_pos; assumption. Qed.
Lemma abs_two lo hi x A : lo <= x <= hi -> - A <= lo -> hi <= A -> Rabs x <= A.
Proof. intros. apply Rabs_le. lra. Qed.
Lemma MU_nonneg : 0 <= MU.
Proof. unfold MU, G_NEWTON, EARTH_MASS. assert (0 <= 6.6743 / 10 ^ 11) by lra. assert (0 <= 5.9733328 * 10 ^ 24) by lra. apply Rmult_le_pos; assumption. Qed.
Lemma quot_le (p : v3) len : 6600000 <= len -> norm3 p <= len -> Rabs (x3 p / len) <= 1 /\ Rabs (y3 p / len) <= 1 /\ Rabs (z3 p / len) <= 1.
Proof.
  intros L N. assert (K : forall x, x * x <= dot3 p p -> Rabs (x / len) <= 1).
  { intros x H. assert (Rabs x <= len). { eapply Rle_trans; [|exact N]. unfold norm3. rnumg. rewrite <- sqrt_Rsqr_abs. apply sqrt_le_1_alt. exact H. }
    unfold Rdiv. rewrite Rabs_mult, (Rabs_pos_eq (/ len)) by (left; apply Rinv_0_lt_compat; lra). apply (Rmult_le_reg_r len); [lra|]. rewrite Rmult_assoc, Rinv_l by lra. lra. }
  destruct p as [x y z]. unfold dot3 in K. cbn [x3 y3 z3] in *. revert K. rnumg. intros K. repeat split; apply K; nra.
Qed.
Lemma gravity_bound hi_fi (p : v3) len : 6600000 <= len -> norm3 p <= len -> n1 (gravity_accel hi_fi p len) <= MU * 1000.
Proof.
  intros L N. destruct (quot_le p len L N) as (X & Y & Z). assert (M := MU_nonneg).
  assert (C : 0 <= MU / len ^ 2 <= MU). { assert (1 <= len ^ 2) by nra. split; [apply Rmult_le_pos; [exact M|left; apply Rinv_0_lt_compat; lra]|]. apply (Rmult_le_reg_r (len ^ 2)); [lra|]. unfold Rdiv. rewrite Rmult_assoc, Rinv_l by lra. nra. }
  assert (AC : Rabs (- (MU / len ^ 2)) <= MU) by (rewrite Rabs_Ropp, Rabs_pos_eq; lra).
  unfold gravity_accel. destruct hi_fi.
  - unfold hi_fi_gravity. cbv zeta. rnumg. apply n1_scale_le; [exact AC|]. set (x := x3 p / len) in *. set (y := y3 p / len) in *. set (z := z3 p / len) in *.
    assert (RR : 0 <= EARTH_RAD / len <= 1). { unfold EARTH_RAD. split; [apply Rmult_le_pos; [lra|left; apply Rinv_0_lt_compat; lra]|]. apply (Rmult_le_reg_r len); [lra|]. unfold Rdiv. rewrite Rmult_assoc, Rinv_l by lra. lra. }
    set (rr := EARTH_RAD / len) in *. assert (R2 : 0 <= rr ^ 2 <= 1) by nra. assert (R3 : 0 <= rr ^ 3 <= 1) by (replace (rr ^ 3) with (rr * rr ^ 2) by ring; nra). assert (R4 : 0 <= rr ^ 4 <= 1) by (replace (rr ^ 4) with (rr ^ 2 * rr ^ 2) by ring; nra).
    assert (A0 : n1 (div3 p len) <= 3). { apply Rle_trans with (1 + 1 + 1); [|lra]. unfold div3. rnumg. apply n1_comp; assumption. }
    assert (Z1 : -1 <= z <= 1). { split; [|]; revert Z; unfold Rabs; destruct (Rcase_abs z); lra. }
    assert (Z2 : 0 <= z ^ 2 <= 1) by nra. assert (Z3 : -1 <= z * z ^ 2 <= 1) by nra. assert (Z4 : 0 <= (z ^ 2) ^ 2 <= 1) by nra.
    clearbody x y z rr.
    assert (B2 : forall s v, Rabs s <= 8 -> Rabs v <= 1 -> Rabs (s * v) <= 8) by (intros s v Hs Hv; replace 8 with (8 * 1) by ring; apply abs_mul; assumption).
    assert (B50 : forall s v, Rabs s <= 50 -> Rabs v <= 1 -> Rabs (s * v) <= 50) by (intros s v Hs Hv; replace 50 with (50 * 1) by ring; apply abs_mul; assumption).
    assert (B150 : forall s v, Rabs s <= 150 -> Rabs v <= 1 -> Rabs (s * v) <= 150) by (intros s v Hs Hv; replace 150 with (150 * 1) by ring; apply abs_mul; assumption).
    assert (K2 : Rabs (3 / 2 * J2 * rr ^ 2) <= 1). { replace 1 with (1 * 1) by ring. apply abs_mul; [unfold J2; apply Rabs_le; lra|apply Rabs_le; lra]. }
    assert (K3 : Rabs (1 / 2 * J3 * rr ^ 3) <= 1). { replace 1 with (1 * 1) by ring. apply abs_mul; [unfold J3; apply Rabs_le; lra|apply Rabs_le; lra]. }
    assert (K4 : Rabs (5 / 8 * J4 * rr ^ 4) <= 1). { replace 1 with (1 * 1) by ring. apply abs_mul; [unfold J4; apply Rabs_le; lra|apply Rabs_le; lra]. }
    eapply Rle_trans; [apply n1_add|]. eapply Rle_trans; [apply Rplus_le_compat_r, n1_add|]. eapply Rle_trans; [apply Rplus_le_compat_r, Rplus_le_compat_r, n1_add|].
    assert (N2 : n1 (scale3 (3 / 2 * J2 * rr ^ 2) (mk3 ((1 - 5 * z ^ 2) * x) ((1 - 5 * z ^ 2) * y) ((3 - 5 * z ^ 2) * z))) <= 1 * (8 + 8 + 8)).
    { apply n1_scale_le; [exact K2|]. apply n1_comp; (apply B2; [apply Rabs_le; lra|assumption]). }
    assert (N3 : n1 (scale3 (1 / 2 * J3 * rr ^ 3) (mk3 (5 * (7 * (z * z ^ 2) - 3 * z) * x) (5 * (7 * (z * z ^ 2) - 3 * z) * y) (3 * (10 * z ^ 2 - 35 / 3 * (z ^ 2) ^ 2 - 1)))) <= 1 * (50 + 50 + 100)).
    { apply n1_scale_le; [exact K3|]. apply n1_comp; [apply B50; [apply Rabs_le; lra|assumption]|apply B50; [apply Rabs_le; lra|assumption]|apply Rabs_le; lra]. }
    assert (N4 : n1 (scale3 (5 / 8 * J4 * rr ^ 4) (mk3 ((3 - 42 * z ^ 2 + 63 * (z ^ 2) ^ 2) * x) ((3 - 42 * z ^ 2 + 63 * (z ^ 2) ^ 2) * y) (- (15 - 70 * z ^ 2 + 63 * (z ^ 2) ^ 2) * z))) <= 1 * (150 + 150 + 150)).
    { apply n1_scale_le; [exact K4|]. apply n1_comp; (apply B150; [apply Rabs_le; lra|assumption]). }
    lra.
  - replace (div3 (scale3 (- (MU / len ^ 2)) p) len) with (scale3 (- (MU / len ^ 2)) (mk3 (x3 p / len) (y3 p / len) (z3 p / len))) by (destruct p as [a b c]; unfold div3, scale3; cbn [x3 y3 z3]; rnumg; apply mk3_c; unfold Rdiv; ring).
    apply n1_scale_le; [exact AC|]. apply Rle_trans with (1 + 1 + 1); [|lra]. apply n1_comp; assumption.
Qed.
(** a state whose cached values belong to its position *)
Definition cached (h : store) (s : SatState) : Prop := make_state h (clk s) (sv s) = Ok s.
Lemma cached_facts h s : cached h s -> c_length s = norm3 (v_pos (sv s)) /\ c_ecef s = ecef_matrix (clk_theta (h (clk s))) /\ c_r_ecef s = mv (c_ecef s) (v_pos (sv s)).
Proof.
  unfold cached, make_state. cbv zeta. intros E. apply rbind_ok in E. destruct E as ([[lat lon] alt] & _ & E).
  assert (A := f_equal (fun r => match r with Ok s => c_length s | _ => 0 end) E). assert (B := f_equal (fun r => match r with Ok s => c_ecef s | _ => c_ecef s end) E). assert (C := f_equal (fun r => match r with Ok t => c_r_ecef t | _ => c_r_ecef s end) E).
  cbn [c_length c_ecef c_r_ecef] in A, B, C. rewrite <- A, <- C, <- B. repeat split; reflexivity.
Qed.
Lemma made_cached h a v s : make_state h a v = Ok s -> cached h s /\ sv s = v /\ clk s = a.
Proof.
  intros E. assert (F : sv s = v /\ clk s = a). { revert E. unfold make_state. cbv zeta. intros E. apply rbind_ok in E. destruct E as ([[lat lon] alt] & _ & E). injection E as <-. split; reflexivity. }
  destruct F as [<- <-]. split; [exact E|split; reflexivity].
Qed.
Lemma nm_ecef g : nm (ecef_matrix g) <= 9 /\ nm (tr3 (ecef_matrix g)) <= 9.
Proof.
  assert (S1 : Rabs (sin g) <= 1) by (apply Rabs_le, SIN_bound). assert (C1 : Rabs (cos g) <= 1) by (apply Rabs_le, COS_bound).
  unfold nm, n1, ecef_matrix, tr3. cbn [row1 row2 row3 x3 y3 z3]. rewrite Rabs_R0, Rabs_R1, !Rabs_Ropp. lra.
Qed.
Definition box (sat : Satellite) (V Q W H : R) (v : SVec) : Prop :=
  6600000 <= norm3 (v_pos v) <= 7000000 /\ n1 (v_vel v) <= V /\ nq (v_att v) <= Q /\ n1 (v_rate v) <= W /\ n1 (rw_momentum (s_rw sat) (v_whl v)) <= H.
Lemma n1_div v k : 1 <= k -> n1 (div3 v k) <= n1 v.
Proof.
  intros K. replace (div3 v k) with (scale3 (/ k) v) by (destruct v as [a b c]; unfold div3, scale3; cbn [x3 y3 z3]; rnumg; apply mk3_c; unfold Rdiv; ring).
  rewrite n1_scale, Rabs_pos_eq by (left; apply Rinv_0_lt_compat; lra). assert (P := n1_pos v). assert (/ k <= 1) by (rewrite <- Rinv_1; apply Rinv_le_contravar; lra). nra.
Qed.
Lemma n1_div_abs v k : n1 (div3 v k) = Rabs (/ k) * n1 v.
Proof. replace (div3 v k) with (scale3 (/ k) v) by (destruct v as [a b c]; unfold div3, scale3; cbn [x3 y3 z3]; rnumg; apply mk3_c; unfold Rdiv; ring). apply n1_scale. Qed.
Lemma n1_opp v : n1 (opp3 v) = n1 v.
Proof. destruct v as [a b c]. unfold n1, opp3. cbn [x3 y3 z3]. rnumg. rewrite !Rabs_Ropp. reflexivity. Qed.
Lemma sun_unit jd : dot3 (earth_to_sun jd) (earth_to_sun jd) = 1.
Proof.
  unfold earth_to_sun. cbv zeta. set (a := radians (23.439291 - _)). set (b := radians (_ + _ + _)). clearbody a b. unfold dot3. cbn [x3 y3 z3]. rnumg.
  assert (A := sc1 a). assert (B := sc1 b). transitivity (cos b ^ 2 + sin b ^ 2 * (sin a ^ 2 + cos a ^ 2)); [ring|]. rewrite A. lra.
Qed.
Lemma srp_small jd x : norm3 x <= 7000000 -> 0 <= fst (fst (SRP_info jd x)) <= SRP_coeff.
Proof.
  intros N. unfold SRP_info. cbv zeta. cbn [fst]. set (d := sub3 _ x).
  assert (D1 : 1 <= dot3 d d).
  { assert (U := sun_unit jd). set (e := earth_to_sun jd) in *. assert (CS : dot3 e x <= 7000000 * 3 * 3).
    { assert (K := dot_le e x). assert (E3 : n1 e <= 3 * norm3 e) by apply n1_norm3. assert (X3 := n1_norm3 x). assert (NE : norm3 e = 1) by (unfold norm3; rewrite U; rnumg; apply sqrt_1). rewrite NE in E3.
      assert (P1 := n1_pos e). assert (P2 := n1_pos x). assert (n1 e * n1 x <= 3 * (3 * 7000000)) by (apply Rmult_le_compat; lra). assert (L := Rle_abs (dot3 e x)). lra. }
    assert (X0 : 0 <= dot3 x x) by (destruct x as [a b c]; unfold dot3; cbn [x3 y3 z3]; rnumg; nra).
    replace (dot3 d d) with (AU * AU * dot3 e e - 2 * AU * dot3 e x + dot3 x x) by (unfold d; clear; destruct e as [a b c], x as [p q r]; unfold dot3, sub3, scale3; cbn [x3 y3 z3]; rnumg; ring).
    rewrite U. unfold AU. lra. }
  assert (SP : 0 <= SRP_coeff). { unfold SRP_coeff, AU. lra. }
  split; [apply Rmult_le_pos; [exact SP|left; apply Rinv_0_lt_compat; lra]|]. apply (Rmult_le_reg_r (dot3 d d)); [lra|]. unfold Rdiv. rewrite Rmult_assoc, Rinv_l by lra. nra.
Qed.
(** the forces and torques of the air and of the sunlight, in terms of the walls and the drag coefficient alone *)
Lemma surface_bound (walls : list Wall) (drag V Q : R) : 0 <= V -> 0 <= Q -> exists K, 0 <= K /\ forall sat h s, s_walls sat = walls -> s_drag sat = drag ->
  6600000 <= norm3 (v_pos (sv s)) <= 7000000 -> n1 (v_vel (sv s)) <= V -> nq (v_att (sv s)) <= Q ->
  (forall F T, solar_F_and_T sat h s = Ok (F, T) -> n1 F <= K /\ n1 T <= K) /\ (forall F T, drag_F_and_T sat s = Ok (F, T) -> n1 F <= K /\ n1 T <= K).
Proof.
  intros V0 Q0. assert (QQ0 : 0 <= Q * (3 * Q)) by (apply Rmult_le_pos; lra).
  set (U := V + 21000000). set (P := Rabs drag * (U * U) + SRP_coeff). set (N := Q * (3 * Q) + 3).
  assert (U0 : 0 <= U) by (unfold U; lra). assert (PD := Rabs_pos drag). assert (SP : 0 <= SRP_coeff) by (unfold SRP_coeff, AU; lra).
  assert (UU0 : 0 <= U * U) by (apply Rmult_le_pos; assumption). assert (DU0 : 0 <= Rabs drag * (U * U)) by (apply Rmult_le_pos; assumption).
  destruct (wall_bound walls P N ltac:(unfold P; lra) ltac:(unfold N; lra)) as (KW & KW0 & HW).
  set (KS := Q * (KW * Q)). assert (KS0 : 0 <= KS) by (unfold KS; repeat apply Rmult_le_pos; lra).
  exists (KS + KW). split; [lra|]. intros sat h s <- <- BX BV BQ. assert (NX := n1_norm3 (v_pos (sv s))).
  assert (RV : n1 (relative_vel (v_pos (sv s)) (v_vel (sv s))) <= U).
  { unfold relative_vel, n1. cbn [x3 y3 z3]. unfold n1 in BV, NX. assert (E1 : 0 <= EARTH_ROTATION <= 0.1) by (unfold EARTH_ROTATION; lra).
    assert (A := Rabs_triang (x3 (v_vel (sv s))) (EARTH_ROTATION * y3 (v_pos (sv s)))). assert (B := Rabs_triang (y3 (v_vel (sv s))) (EARTH_ROTATION * x3 (v_pos (sv s)))). rewrite Rabs_mult, (Rabs_pos_eq EARTH_ROTATION) in A, B by lra.
    assert (P1 := Rabs_pos (x3 (v_pos (sv s)))). assert (P2 := Rabs_pos (y3 (v_pos (sv s)))). assert (P3 := Rabs_pos (z3 (v_pos (sv s)))).
    assert (EARTH_ROTATION * Rabs (y3 (v_pos (sv s))) <= 1 * Rabs (y3 (v_pos (sv s)))) by (apply Rmult_le_compat_r; lra). assert (EARTH_ROTATION * Rabs (x3 (v_pos (sv s))) <= 1 * Rabs (x3 (v_pos (sv s)))) by (apply Rmult_le_compat_r; lra). unfold U. lra. }
  split.
  - intros FS TS ES. assert (SB : n1 FS <= KS + KW /\ n1 TS <= KW).
  { unfold solar_F_and_T in ES. apply rbind_ok in ES. destruct ES as (jd & _ & ES). assert (PS := srp_small jd (v_pos (sv s)) ltac:(lra)). assert (SS : snd (SRP_info jd (v_pos (sv s))) = normalize3 (sub3 (scale3 AU (earth_to_sun jd)) (v_pos (sv s)))) by reflexivity.
    destruct (SRP_info jd (v_pos (sv s))) as [[p sh] S]. cbn [fst snd] in PS, SS. destruct sh.
    - injection ES as <- <-. assert (Z : n1 zero3 = 0) by (unfold n1, zero3; cbn [x3 y3 z3]; rnumg; rewrite Rabs_R0; ring). rewrite Z. lra.
    - destruct (HW p S) as (_ & _ & W3 & W4). { rewrite Rabs_pos_eq by lra. unfold P. lra. } { rewrite SS. assert (NS := n1_normalize (sub3 (scale3 AU (earth_to_sun jd)) (v_pos (sv s)))). unfold N. lra. }
      unfold total_srp in ES. assert (E1 := f_equal (fun r => match r with Ok (a, _) => a | _ => FS end) ES). assert (E2 := f_equal (fun r => match r with Ok (_, a) => a | _ => TS end) ES). cbv beta iota in E1, E2. rewrite <- E1, <- E2.
      destruct (n1_sand (state_att s) _ Q KW BQ W3) as [_ B]. fold KS in B. split; [|exact W4]. eapply Rle_trans; [exact B|]. lra. }
    lra.
  - intros FD TD ED. assert (DB : n1 FD <= KS + KW /\ n1 TD <= KW).
  { unfold drag_F_and_T in ED. cbv zeta in ED. apply rbind_ok in ED. destruct ED as (rho & HR & ED). assert (R1' := density_small _ _ HR).
    set (vr := relative_vel (v_pos (sv s)) (v_vel (sv s))) in *. set (p := -0.5 * rho * s_drag sat * norm3 vr ^ 2) in *. set (v := sandwich (state_att s) (div3 vr (norm3 vr))) in *.
    destruct (HW p v) as (W1 & W2 & _).
    - assert (NV := norm3_n1 vr). assert (NV0 : 0 <= norm3 vr) by (unfold norm3; rnumg; apply sqrt_pos). unfold p. rewrite !Rabs_mult. assert (A1 : Rabs (-0.5) = 0.5) by (rewrite Rabs_left; lra). rewrite A1, (Rabs_pos_eq rho), (Rabs_pos_eq (norm3 vr ^ 2)) by (try apply pow2_ge_0; lra).
      assert (N2 : norm3 vr ^ 2 <= U * U) by (replace (norm3 vr ^ 2) with (norm3 vr * norm3 vr) by ring; apply Rmult_le_compat; lra).
      assert (A2 : 0.5 * rho * Rabs (s_drag sat) * norm3 vr ^ 2 <= 1 * Rabs (s_drag sat) * (U * U)). { apply Rmult_le_compat; try lra; try apply pow2_ge_0; [apply Rmult_le_pos; lra|]. apply Rmult_le_compat_r; lra. } unfold P. lra.
    - destruct (n1_sand (state_att s) (div3 vr (norm3 vr)) Q 3 BQ (n1_unit_quot vr)) as [B _]. unfold v, N. lra.
    - unfold total_drag in ED. assert (E1 := f_equal (fun r => match r with Ok (a, _) => a | _ => FD end) ED). assert (E2 := f_equal (fun r => match r with Ok (_, a) => a | _ => TD end) ED). cbv beta iota in E1, E2. rewrite <- E1, <- E2.
      destruct (n1_sand (state_att s) _ Q KW BQ W1) as [_ B]. fold KS in B. split; [|exact W2]. eapply Rle_trans; [exact B|]. lra. }
    lra.
Qed.
Lemma env_bound hi_fi sat (m : v3) V Q : 0 <= V -> 0 <= Q -> exists K, 0 <= K /\ forall W H h s F T, cached h s -> box sat V Q W H (sv s) ->
  env_F_and_T hi_fi sat h s m = Ok (F, T) -> n1 F <= K /\ n1 T <= K.
Proof.
  intros V0 Q0. assert (QQ0 : 0 <= Q * (3 * Q)) by (apply Rmult_le_pos; lra).
  destruct (surface_bound (s_walls sat) (s_drag sat) V Q V0 Q0) as (KW & KW0 & HW).
  assert (PM := n1_pos m). assert (PDI := n1_pos dipole). assert (PJ := nm_pos (s_total_moment sat)). assert (MU0 := MU_nonneg).
  set (KB := 9 * (3 * (n1 dipole * 189000000) * 189000000 + 49000000000000 * n1 dipole)). assert (KB0 : 0 <= KB). { unfold KB. assert (0 <= 3 * (n1 dipole * 189000000) * 189000000) by (repeat apply Rmult_le_pos; lra). lra. }
  set (KM := n1 m * (Q * (KB * Q))). assert (KM0 : 0 <= KM) by (unfold KM; repeat apply Rmult_le_pos; lra).
  set (NN := Q * (3 * Q)). set (KG := 3 * MU * (NN * (nm (s_total_moment sat) * NN))). assert (KG0 : 0 <= KG) by (unfold KG, NN; apply Rmult_le_pos; [lra|apply Rmult_le_pos; [exact QQ0|apply Rmult_le_pos; [exact PJ|exact QQ0]]]).
  set (KA := Rabs (s_mass sat) * (MU * 1000)). assert (KA0 : 0 <= KA) by (unfold KA; apply Rmult_le_pos; [apply Rabs_pos|lra]).
  exists (KW + KW + KM + KG + KA). split; [lra|]. intros W H h s F T HC (BX & BV & BQ & _) HE.
  destruct (cached_facts h s HC) as (EL & EM & ER). assert (NX := n1_norm3 (v_pos (sv s))). destruct (HW sat h s eq_refl eq_refl BX BV BQ) as [HS HD].
  unfold env_F_and_T in HE. apply rbind_ok in HE. destruct HE as ([FS TS] & ES & HE). apply rbind_ok in HE. destruct HE as ([FD TD] & ED & HE).
  assert (SB := HS FS TS ES). assert (DB := HD FD TD ED).
  assert (GB : n1 (fst (gravity_F_and_T hi_fi sat s)) <= KA /\ n1 (snd (gravity_F_and_T hi_fi sat s)) <= KG).
  { unfold gravity_F_and_T. cbv zeta. cbn [fst snd]. rewrite EL. split.
    - apply n1_scale_le; [lra|]. apply gravity_bound; lra.
    - assert (NB : n1 (sandwich (state_att s) (div3 (opp3 (v_pos (sv s))) (norm3 (v_pos (sv s))))) <= NN).
      { refine (proj1 (n1_sand (state_att s) _ Q 3 BQ _)). rewrite n1_div_abs, n1_opp, <- n1_div_abs. apply n1_unit_quot. }
      apply n1_scale_le.
      + assert (L3 : 1 <= norm3 (v_pos (sv s)) ^ 3). { assert (6600000 ^ 3 <= norm3 (v_pos (sv s)) ^ 3) by (apply pow_incr; lra). lra. }
        rewrite Rabs_pos_eq by (apply Rmult_le_pos; [lra|left; apply Rinv_0_lt_compat; lra]). apply (Rmult_le_reg_r (norm3 (v_pos (sv s)) ^ 3)); [lra|]. unfold Rdiv. rewrite Rmult_assoc, Rinv_l by lra. nra.
      + eapply Rle_trans; [apply n1_cross|]. apply Rmult_le_compat; try apply n1_pos; [exact NB|]. eapply Rle_trans; [apply n1_mv|]. apply Rmult_le_compat_l; assumption. }
  assert (MB : n1 (snd (magnetic_F_and_T s m)) <= KM).
  { unfold magnetic_F_and_T. cbv zeta. cbn [snd]. eapply Rle_trans; [apply n1_cross|]. unfold KM. apply Rmult_le_compat_l; [exact PM|]. refine (proj1 (n1_sand (state_att s) _ Q KB BQ _)).
    unfold magnetic_field. cbv zeta. rewrite EM. destruct (nm_ecef (clk_theta (h (clk s)))) as [N1 N2]. assert (P1 := nm_pos (tr3 (ecef_matrix (clk_theta (h (clk s)))))). eapply Rle_trans; [apply n1_mv|]. unfold KB. apply Rmult_le_compat; try apply n1_pos; try assumption.
    assert (L5 : 1 <= c_length s ^ 5). { rewrite EL. assert (6600000 ^ 5 <= norm3 (v_pos (sv s)) ^ 5) by (apply pow_incr; lra). lra. }
    eapply Rle_trans; [apply n1_div, L5|]. eapply Rle_trans; [apply n1_sub|]. rewrite !n1_scale.
    assert (RE : n1 (c_r_ecef s) <= 189000000). { rewrite ER, EM. assert (PE := nm_pos (ecef_matrix (clk_theta (h (clk s))))). assert (PX := n1_pos (v_pos (sv s))). eapply Rle_trans; [apply n1_mv|]. replace 189000000 with (9 * 21000000) by lra. apply Rmult_le_compat; lra. }
    assert (PR := n1_pos (c_r_ecef s)). apply Rplus_le_compat.
    - apply Rmult_le_compat; try apply Rabs_pos; try assumption. rewrite Rabs_mult, (Rabs_pos_eq 3) by lra. apply Rmult_le_compat_l; [lra|]. eapply Rle_trans; [apply dot_le|]. apply Rmult_le_compat_l; assumption.
    - apply Rmult_le_compat_r; [exact PDI|]. rewrite EL. rewrite Rabs_pos_eq by apply pow2_ge_0. nra. }
  set (G := gravity_F_and_T hi_fi sat s) in *. set (M := magnetic_F_and_T s m) in *.
  assert (MF : n1 (fst M) = 0) by (unfold M, magnetic_F_and_T, n1, zero3; cbv zeta; cbn [fst x3 y3 z3]; rnumg; rewrite Rabs_R0; ring).
  clearbody G M. unfold add_FT in HE. injection HE as <- <-. cbn [fst snd]. split.
  - eapply Rle_trans; [apply n1_add|]. eapply Rle_trans; [apply Rplus_le_compat_r, n1_add|]. eapply Rle_trans; [apply Rplus_le_compat_r, Rplus_le_compat_r, n1_add|]. lra.
  - eapply Rle_trans; [apply n1_add|]. eapply Rle_trans; [apply Rplus_le_compat_r, n1_add|]. eapply Rle_trans; [apply Rplus_le_compat_r, Rplus_le_compat_r, n1_add|]. lra.
Qed.
