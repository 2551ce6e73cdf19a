(** * ecef_to_lla is accurate everywhere above -10 km *)
From Coq Require Import Reals Bool Lra Lia Psatz.
From Verif Require Import Num Vec M_vector M_quaternion M_frame S_frame P_quat P_equat P_frame P_lla3 P_lla4.
Local Open Scope R_scope.

Lemma e2_tight : 0.0066943 < e2 < 0.0066944.
Proof.
  unfold e2, wf. assert (H : 0.0033528106 < 1 / 298.257223563 < 0.0033528107) by lra. set (f := 1 / 298.257223563) in *. clearbody f. nra.
Qed.
(** the correction step, in terms of hN and mN *)
Lemma lla_correct_newton w z x : Mrad x + hN w z x <> 0 ->
  lla_correct w z x (sin x) (cos x) (sin x * sin x) =
  Ok (x + mN w z x / (Mrad x + hN w z x), hN w z x + mN w z x * (mN w z x / (Mrad x + hN w z x)) / 2).
Proof.
  intros H. assert (G := g_pos x). assert (SG := sg_pos x). assert (SS := sg_sq x). assert (SC := sc1 x). unfold lla_correct.
  replace (sin x * sin x) with ((sin x) ^ 2) by ring. rewrite msqrt_ok by lra. cbn [rbind]. rewrite mdiv_ok by lra. cbn [rbind]. rewrite mdiv_ok by lra. cbn [rbind].
  unfold a6. set (q := sqrt (1 - e2 * sin x ^ 2)) in *.
  assert (F : cos x * (w - wa / q * cos x) + sin x * (z - (1 - e2) * (wa / q) * sin x) = hN w z x).
  { unfold hN. fold q. transitivity (w * cos x + z * sin x - wa / q * (cos x ^ 2 + (1 - e2) * sin x ^ 2)); [ring|].
    replace (cos x ^ 2 + (1 - e2) * sin x ^ 2) with (q * q) by lra. field. lra. }
  assert (M : cos x * (z - (1 - e2) * (wa / q) * sin x) - sin x * (w - wa / q * cos x) = mN w z x).
  { unfold mN. fold q. field. lra. }
  assert (RG : (1 - e2) * (wa / q) / (1 - e2 * sin x ^ 2) = Mrad x).
  { unfold Mrad. fold q. rewrite <- SS. field. lra. }
  rewrite F, M, RG. rewrite mdiv_ok by exact H. reflexivity.
Qed.

Section Quadrant.
  Variables phi h : R.
  Hypothesis Hphi : 0 <= phi <= PI / 2.
  Hypothesis Hh : - 10000 <= h.
  Let w := wgs_w phi h. Let z := wgs_z phi h. Let r := sqrt (z * z + w * w).
  Let q := sqrt (1 - e2 * (sin phi) ^ 2).
  Lemma quad_trig : 0 <= sin phi /\ 0 <= cos phi.
  Proof. assert (P := PI_RGT_0). split; [apply sin_ge_0|apply cos_ge_0]; lra. Qed.
  Lemma N_range : 99 / 100 <= q <= 1 /\ 0 < Nrad phi * (1 - e2) + h /\ 0 < Nrad phi + h.
  Proof.
    assert (E := e2_tight). destruct (sg_bounds phi) as [B1 B2]. fold q in B1, B2. split; [exact B1|].
    assert (N : wa <= Nrad phi). { unfold Nrad. fold q. apply (Rmult_le_reg_r q); [lra|]. replace (wa / q * q) with wa by (field; lra). unfold wa; nra. }
    unfold wa in N. split; nra.
  Qed.
  Lemma w_nonneg : 0 <= w. Proof. destruct quad_trig, N_range as (_ & _ & N). unfold w, wgs_w. apply Rmult_le_pos; lra. Qed.
  Lemma z_nonneg : 0 <= z. Proof. destruct quad_trig, N_range as (_ & N & _). unfold z, wgs_z. apply Rmult_le_pos; lra. Qed.
  Lemma h_true : hN w z phi = h /\ mN w z phi = 0.
  Proof.
    assert (SG := sg_pos phi). assert (SS := sg_sq phi). assert (SC := sc1 phi). unfold hN, mN, w, z, wgs_w, wgs_z, Nrad. fold q in SG, SS |- *.
    split.
    - transitivity (wa / q * (cos phi ^ 2 + (1 - e2) * sin phi ^ 2) + h * (sin phi ^ 2 + cos phi ^ 2) - wa * q); [ring|]. rewrite SC.
      replace (cos phi ^ 2 + (1 - e2) * sin phi ^ 2) with (q * q) by lra. field. lra.
    - field. lra.
  Qed.
  Lemma r_pos : 0 < r /\ r * r = z * z + w * w.
  Proof.
    assert (P : 0 < z * z + w * w).
    { destruct h_true as [T _]. destruct (Rle_lt_or_eq_dec 0 (z * z + w * w)) as [L|E]; [nra|exact L|]. exfalso.
      assert (w = 0) by nra. assert (z = 0) by nra. destruct N_range as (_ & N1 & N2). assert (SC := sc1 phi).
      unfold w, wgs_w, z, wgs_z in *. assert (cos phi = 0) by nra. assert (sin phi = 0) by nra. nra. }
    unfold r. split; [apply sqrt_lt_R0, P|apply sqrt_sqrt; lra].
  Qed.
  (** the distance from the centre: at most N + h, at least the projection on any direction *)
  Lemma proj_le x : w * cos x + z * sin x <= r.
  Proof.
    destruct r_pos as [R1 R2]. assert (SC := sc1 x). apply Rsqr_incr_0_var; [|lra]. unfold Rsqr. rewrite R2.
    assert (0 <= (w * sin x - z * cos x) ^ 2) by apply pow2_ge_0. nra.
  Qed.
  Lemma r_upper : r <= Nrad phi + h.
  Proof.
    destruct r_pos as [R1 R2]. destruct N_range as (_ & N1 & N2). assert (SC := sc1 phi). assert (E := e2_tight). destruct quad_trig as [S0 C0].
    assert (NP : 0 < Nrad phi) by (unfold Nrad; apply Rdiv_lt_0_compat; [unfold wa; lra|apply sg_pos]).
    apply Rsqr_incr_0_var; [|lra]. unfold Rsqr. rewrite R2. unfold w, z, wgs_w, wgs_z.
    set (N := Nrad phi) in *. set (A := N + h) in *. set (B := N * (1 - e2) + h) in *. assert (B <= A) by (unfold A, B; nra). clearbody A B.
    assert (B * B <= A * A) by nra. assert (0 <= sin phi ^ 2) by apply pow2_ge_0.
    replace (B * sin phi * (B * sin phi) + A * cos phi * (A * cos phi)) with (B * B * sin phi ^ 2 + A * A * cos phi ^ 2) by ring. nra.
  Qed.
  Lemma true_proj : w * cos phi + z * sin phi = wa * q + h.
  Proof. destruct h_true as [T _]. unfold hN in T. fold q in T. lra. Qed.
  Lemma true_near : 98 / 100 * r <= w * cos phi + z * sin phi.
  Proof.
    rewrite true_proj. assert (U := r_upper). destruct N_range as (Q & _ & N2). destruct (sg_bounds phi) as [_ G]. fold q in G. assert (E := e2_tight).
    apply Rle_trans with (98 / 100 * (Nrad phi + h)); [lra|]. unfold Nrad. fold q.
    assert (98 / 100 * (wa / q) <= wa * q - 130 / 10000 * wa); [|unfold wa in *; lra].
    apply (Rmult_le_reg_r q); [lra|]. replace (98 / 100 * (wa / q) * q) with (98 / 100 * wa) by (field; lra). unfold wa. nra.
  Qed.
  Lemma r_lower : wa <= 1006 / 1000 * r.
  Proof.
    assert (L := proj_le phi). rewrite true_proj in L. destruct N_range as (Q & _ & _). destruct (sg_bounds phi) as [_ G]. fold q in G. assert (E := e2_tight).
    assert (9966 / 10000 <= q) by nra. unfold wa in *. lra.
  Qed.
  (** every latitude between two near ones is near *)
  Lemma near_between x0 t : 0 <= x0 <= PI / 2 -> 98 / 100 * r <= w * cos x0 + z * sin x0 -> 0 <= t <= 1 ->
    98 / 100 * r <= w * cos (x0 + t * (phi - x0)) + z * sin (x0 + t * (phi - x0)).
  Proof.
    intros H0 N0 Ht. assert (PP := PI_RGT_0). destruct r_pos as [R1 R2]. assert (W := w_nonneg). assert (Z := z_nonneg). assert (NP := true_near).
    set (th := acos (w / r)).
    assert (C1 : -1 <= w / r <= 1).
    { assert (w <= r) by nra. split; [apply Rle_trans with 0; [lra|]; apply Rmult_le_pos; [lra|left; apply Rinv_0_lt_compat; lra]|]. apply (Rmult_le_reg_r r); [lra|]. replace (w / r * r) with w by (field; lra). lra. }
    assert (CT : r * cos th = w) by (unfold th; rewrite cos_acos by exact C1; field; lra).
    assert (ST : r * sin th = z).
    { unfold th. rewrite sin_acos by exact C1. replace (1 - (w / r)²) with ((z / r) * (z / r)).
      2:{ unfold Rsqr. apply (Rmult_eq_reg_r (r * r)); [|nra]. replace (z / r * (z / r) * (r * r)) with (z * z) by (field; lra). replace ((1 - w / r * (w / r)) * (r * r)) with (r * r - w * w) by (field; lra). lra. }
      rewrite sqrt_square by (apply Rmult_le_pos; [lra|left; apply Rinv_0_lt_compat; lra]). field. lra. }
    assert (TB : 0 <= th <= PI / 2).
    { assert (AB := acos_bound (w / r)). fold th in AB. split; [lra|]. apply cos_nonneg_quadrant; [lra|]. nra. }
    assert (U : forall x, w * cos x + z * sin x = r * cos (x - th)) by (intros x; rewrite cos_minus, <- CT, <- ST; ring).
    rewrite U in *. clear U. set (x := x0 + t * (phi - x0)).
    assert (M : (x0 <= x <= phi) \/ (phi <= x <= x0)) by (unfold x; destruct (Rle_dec x0 phi); [left|right]; nra).
    assert (KEY : forall a b, 0 <= a <= PI / 2 -> 0 <= b <= PI / 2 -> a <= x <= b -> 98 / 100 * r <= r * cos (a - th) -> 98 / 100 * r <= r * cos (b - th) -> 98 / 100 * r <= r * cos (x - th)).
    { intros a b Ha Hb Hx Na Nb. destruct (Rle_dec th x) as [L|L].
      - assert (cos (b - th) <= cos (x - th)) by (apply cos_decr_1; lra). nra.
      - assert (cos (th - a) <= cos (th - x)) by (apply cos_decr_1; lra).
        replace (th - a) with (- (a - th)) in * by ring. replace (th - x) with (- (x - th)) in * by ring. rewrite !cos_neg in *. nra. }
    destruct M as [M|M]; [apply (KEY x0 phi)|apply (KEY phi x0)]; assumption.
  Qed.
  Lemma lla_half_accurate : exists lat hh, lla_half w z = Ok (lat, hh) /\ Rabs (lat - phi) <= 3 / 10 ^ 16 /\ Rabs (hh - h) <= 3 / 10 ^ 23 * r.
  Proof.
    destruct r_pos as [R1 R2]. assert (RL := r_lower). assert (ET := e2_tight).
    destruct (guess_good w z r w_nonneg z_nonneg R1 R2 RL) as (x0 & G & X0 & N0 & M0). destruct h_true as [HT MT].
    assert (B : forall t, 0 <= t <= 1 -> 973 / 1000 * r <= Mrad (x0 + t * (phi - x0)) + hN w z (x0 + t * (phi - x0)) <= 1007 / 1000 * r).
    { intros t Ht. assert (NB := near_between x0 t X0 N0 Ht). set (x := x0 + t * (phi - x0)) in *. assert (PL := proj_le x). assert (MM := Mrad_minus x). unfold hN.
      assert (wa * e2 <= 67 / 10000 * wa) by (unfold wa; lra). lra. }
    assert (M1 : Rabs (mN w z x0) <= 226 / 10 ^ 9 * r).
    { eapply Rle_trans; [exact M0|]. apply Rmult_le_compat_r; [lra|]. assert (e2 * e2 <= 0.00004482) by nra. assert (0 <= e2 * e2) by nra. replace (e2 ^ 3) with (e2 * e2 * e2) by ring. nra. }
    destruct (newton_step w z r phi x0 R1 MT B RL M1) as [A1 A2].
    unfold lla_half. rewrite G. cbn [rbind]. assert (B0 := B 0 ltac:(lra)). replace (x0 + 0 * (phi - x0)) with x0 in B0 by ring.
    rewrite lla_correct_newton by lra. eexists; eexists. split; [reflexivity|]. split; [exact A1|]. rewrite HT in A2. exact A2.
  Qed.
End Quadrant.

(** the textbook Earth-fixed position of geodetic latitude phi, longitude lam and height h *)
Lemma wgs_even phi h : wgs_w (- phi) h = wgs_w phi h /\ wgs_z (- phi) h = - wgs_z phi h.
Proof.
  unfold wgs_w, wgs_z, Nrad. rewrite sin_neg, cos_neg. replace ((- sin phi) ^ 2) with (sin phi ^ 2) by ring. split; ring.
Qed.
Lemma lla_accurate phi lam h : - (PI / 2) <= phi <= PI / 2 -> - PI < lam <= PI -> - 10000 <= h ->
  let p := mk3 (wgs_w phi h * cos lam) (wgs_w phi h * sin lam) (wgs_z phi h) in
  exists lat lon hh, ecef_to_lla p = Ok (lat, lon, hh) /\ Rabs (lat - degrees phi) <= 2 / 10 ^ 14 /\ Rabs (hh - h) <= 3 / 10 ^ 23 * norm3 p /\
    (phi <> PI / 2 -> phi <> - (PI / 2) -> lon = degrees lam).
Proof.
  intros Hp Hl Hh p. assert (PP := PI_RGT_0). assert (P3 := PI2_3_2). unfold PI2 in P3.
  assert (HW : 0 <= wgs_w phi h /\ (phi <> PI / 2 -> phi <> - (PI / 2) -> 0 < wgs_w phi h)).
  { assert (N : 0 < Nrad phi + h). { destruct (N_range phi h Hh) as (_ & _ & N). exact N. }
    unfold wgs_w. split; [apply Rmult_le_pos; [lra|apply cos_ge_0; lra]|]. intros A B. apply Rmult_lt_0_compat; [exact N|apply cos_gt_0; lra]. }
  destruct HW as [W0 W1].
  assert (SW : sqrt (x3 p * x3 p + y3 p * y3 p) = wgs_w phi h).
  { cbn [p x3 y3]. replace (_ + _) with (wgs_w phi h * wgs_w phi h * (sin lam ^ 2 + cos lam ^ 2)) by ring. rewrite sc1, Rmult_1_r. apply sqrt_square, W0. }
  assert (NR : norm3 p = sqrt (wgs_z phi h * wgs_z phi h + wgs_w phi h * wgs_w phi h)).
  { unfold norm3, p, dot3. cbn [x3 y3 z3]. rnumg. f_equal. transitivity (wgs_z phi h * wgs_z phi h + wgs_w phi h * wgs_w phi h * (sin lam ^ 2 + cos lam ^ 2)); [ring|]. rewrite sc1. ring. }
  assert (DG : forall x, Rabs x <= 3 / 10 ^ 16 -> Rabs (degrees x) <= 2 / 10 ^ 14).
  { intros x Hx. unfold degrees. rewrite Rabs_mult. assert (0 < 180 / PI <= 60). { split; [apply degrees_pos|]. apply (Rmult_le_reg_r PI); [lra|]. replace (180 / PI * PI) with 180 by (field; lra). lra. }
    rewrite (Rabs_pos_eq (180 / PI)) by lra. assert (0 <= Rabs x) by apply Rabs_pos. apply Rle_trans with (3 / 10 ^ 16 * 60); [apply Rmult_le_compat; lra|lra]. }
  rewrite lla_decompose, SW.
  assert (LON : phi <> PI / 2 -> phi <> - (PI / 2) -> degrees (atan2 (y3 p) (x3 p)) = degrees lam).
  { intros A B. cbn [p x3 y3]. rewrite atan2_polar; auto. }
  destruct (Rle_dec 0 phi) as [L|L].
  - assert (Z0 := z_nonneg phi h ltac:(lra) Hh). cbn [p z3] in *. rewrite (Rabs_pos_eq _ Z0).
    destruct (lla_half_accurate phi h ltac:(lra) Hh) as (lat & hh & E & A & B). rewrite E. cbn [rbind].
    replace (Rltb (wgs_z phi h) 0) with false by (symmetry; apply Rltb_false; exact Z0).
    eexists; eexists; eexists. split; [reflexivity|]. split; [|split; [|exact LON]].
    + replace (degrees lat - degrees phi) with (degrees (lat - phi)) by (unfold degrees; ring). apply DG, A.
    + rewrite NR. exact B.
  - destruct (wgs_even phi h) as [EW EZ].
    assert (ZN : wgs_z phi h < 0).
    { unfold wgs_z. destruct (N_range phi h Hh) as (_ & N & _). assert (sin phi < 0) by (apply sin_lt_0_var; lra). nra. }
    cbn [p z3] in *. rewrite (Rabs_left _ ZN). rewrite <- EW, <- EZ.
    destruct (lla_half_accurate (- phi) h ltac:(lra) Hh) as (lat & hh & E & A & B). rewrite E. cbn [rbind].
    replace (Rltb (wgs_z phi h) 0) with true by (symmetry; apply Rltb_true; exact ZN).
    eexists; eexists; eexists. split; [reflexivity|]. split; [|split; [|exact LON]].
    + replace (degrees (- lat) - degrees phi) with (degrees (- (lat - - phi))) by (unfold degrees; ring). apply DG. rewrite Rabs_Ropp. exact A.
    + rewrite NR. rewrite EW, EZ in B. replace (- wgs_z phi h * - wgs_z phi h) with (wgs_z phi h * wgs_z phi h) in B by ring. exact B.
Qed.
