(** * C112: the clock's sidereal angle and Julian date as computed in binary64 *)
From Coq Require Import Reals ZArith List Bool Lra Psatz Lia.
From Flocq Require Import Core BinarySingleNaN.
From Verif Require Import Num Flt Vec S_cal M_vector M_quaternion M_jday M_jdayf M_frame P_quat P_sat P_integ P_struct P_normf P_qf P_jday P_jdayf P_jdayf2.
Local Open Scope R_scope.

(** Sidereal time in seconds from the calendar date: [D] whole days from 2000-01-01, [tod] seconds after midnight. *)
Definition sidereal (D : Z) (tod : R) : R :=
  let T := (IZR D - 1 / 2) / 36525 in
  24110.54841 + 8640184.812866 * T + 0.093104 * T ^ 2 - 0.0000062 * T ^ 3 + 1.002737909350795 * tod.

Lemma init_fields y mo d h mi s j : JClock_init y mo d h mi s = Ok j -> 
  valid_minute y mo d h mi /\ (0 <= s <= 59)%Z /\ (1 <= y)%Z /\ j_us j = ((minute_number y mo d h mi * 60 + s) * 1000000)%Z /\
  dt_hour (j_us j) = h /\ dt_minute (j_us j) = mi /\ dt_second (j_us j) = s.
Proof.
  unfold JClock_init, datetime_make. destruct (_ && _) eqn:E; [|discriminate]. rewrite !andb_true_iff, !Z.leb_le in E. cbn [rbind]. intros Q. injection Q as <-. cbn [j_us].
  split; [unfold valid_minute, valid_date; lia|]. split; [lia|]. split; [lia|]. split; [reflexivity|].
  unfold dt_hour, dt_minute, dt_second, minute_number. set (D := day_number y mo d).
  split; [|split].
  - replace (_ / 3600000000)%Z with (D * 24 + h)%Z. + rewrite Z.add_comm, Z.mod_add by lia. apply Z.mod_small. lia.
    + apply Z.div_unique with ((mi * 60 + s) * 1000000)%Z; lia.
  - replace (_ / 60000000)%Z with ((D * 24 + h) * 60 + mi)%Z. + rewrite Z.add_comm, Z.mod_add by lia. apply Z.mod_small. lia.
    + apply Z.div_unique with (s * 1000000)%Z; lia.
  - rewrite Z.div_mul by lia. rewrite Z.add_comm, Z.mod_add by lia. apply Z.mod_small. lia.
Qed.
Lemma init_century y mo d h mi s j : (1900 <= y <= 2099)%Z -> JClock_init y mo d h mi s = Ok j -> century (j_us j).
Proof.
  intros Y I. destruct (init_fields _ _ _ _ _ _ _ I) as ((VD & H1 & H2) & S1 & Y1 & E & _). unfold century. rewrite E.
  assert (L := month_len_bounds y mo).
  assert (A : (day_number 1900 1 1 <= day_number y mo d)%Z) by (apply day_number_le; [unfold valid_date; cbn; lia|exact VD| | |]; unfold valid_date in VD; lia).
  assert (B : (day_number y mo d <= day_number 2099 12 31)%Z) by (apply day_number_le; [exact VD|unfold valid_date; cbn; lia| | |]; unfold valid_date in VD; lia).
  change (day_number 1900 1 1) with 693595%Z in A. change (day_number 2099 12 31) with 766643%Z in B. unfold minute_number. change ref_us with 63082324800000000%Z. lia.
Qed.
Lemma exact_gmst y mo d h mi s j : JClock_init y mo d h mi s = Ok j ->
  j_gmst_seconds j = sidereal (day_number y mo d - day_number 2000 1 1) (3600 * IZR h + 60 * IZR mi + IZR s).
Proof.
  intros I. destruct (init_fields _ _ _ _ _ _ _ I) as (_ & _ & _ & E & E1 & E2 & E3). unfold j_gmst_seconds, j_centuries_elapsed, sidereal, gmst_poly. rewrite E1, E2, E3.
  assert (Q : IZR (j_us j - ref_us) / 1000000 - 3600 * IZR h - 60 * IZR mi - IZR s = 86400 * (IZR (day_number y mo d - day_number 2000 1 1) - 1 / 2)).
  { rewrite E. replace ((minute_number y mo d h mi * 60 + s) * 1000000 - ref_us)%Z with ((86400 * (day_number y mo d - day_number 2000 1 1) - 43200 + 3600 * h + 60 * mi + s) * 1000000)%Z.
    - rewrite mult_IZR, !plus_IZR, minus_IZR, !mult_IZR. field.
    - unfold minute_number. change ref_us with 63082324800000000%Z. change (day_number 2000 1 1) with 730119%Z. ring. }
  rewrite Q. set (D := IZR (day_number y mo d - day_number 2000 1 1)). replace (86400 * (D - 1 / 2) / (86400 * 36525)) with ((D - 1 / 2) / 36525) by field. set (T := (D - 1 / 2) / 36525).
  replace (6.2 / 10 ^ 6) with 0.0000062 by (simpl; lra). ring.
Qed.

Lemma turns_eq (x g p a b : R) : x - (g - 86400 * a) / 240 * (p / 180) - 2 * p * b = x - 2 * p * (g / 86400 - (a - b)). Proof. field. Qed.
(** Dates 1900-2099, whatever the C library's pow within 4 units 2^-53: the sidereal time is right to 1.07e-8 s and the angle
    to 8e-13 rad (modulo a turn), and the angle lies in [0, 2 pi). *)
Theorem C112_sidereal : forall pw y mo d h mi s j, accurate pw -> (1900 <= y <= 2099)%Z -> JClock_init y mo d h mi s = Ok j ->
  let g := sidereal (day_number y mo d - day_number 2000 1 1) (3600 * IZR h + 60 * IZR mi + IZR s) in
  fin (f_gmst pw (j_us j)) = true /\ fin (f_theta pw (j_us j)) = true /\
  Rabs (fR (f_gmst pw (j_us j)) - g) <= 1.07 / 100000000 /\
  0 <= fR (f_theta pw (j_us j)) < 2 * PI /\
  exists k : Z, Rabs (fR (f_theta pw (j_us j)) - 2 * PI * (g / 86400 - IZR k)) <= 8 / 10000000000000.
Proof.
  intros pw y mo d h mi s j A Y I. cbv zeta. assert (C := init_century _ _ _ _ _ _ _ Y I). rewrite <- (exact_gmst _ _ _ _ _ _ _ I).
  destruct j as [us ab]. cbn [j_us] in *. destruct (gmst_ok pw us ab A C) as [[G1 G2] _]. destruct (theta_ok pw us ab A C) as (T1 & T2 & k & T3).
  split; [exact G1|]. split; [exact T1|]. split; [exact G2|]. split; [exact T2|].
  exists (Zfloor (j_gmst_seconds (mkJ us ab) / 86400) - k)%Z. rewrite minus_IZR. unfold j_theta_gmst, Rmod, radians in T3.
  rewrite turns_eq in T3. exact T3.
Qed.
Print Assumptions C112_sidereal.

(** For every instant, microseconds included: within 8e-13 rad of what exact arithmetic would make of the same formulas. *)
Theorem C112_any_instant : forall pw us a, accurate pw -> century us ->
  Rabs (fR (f_gmst pw us) - j_gmst_seconds (mkJ us a)) <= 1.07 / 100000000 /\ 0 <= fR (f_theta pw us) < 2 * PI /\
  exists k : Z, Rabs (fR (f_theta pw us) - j_theta_gmst (mkJ us a) - 2 * PI * IZR k) <= 8 / 10000000000000.
Proof. intros pw us a A C. destruct (gmst_ok pw us a A C) as [[_ G] _]. destruct (theta_ok pw us a A C) as (_ & T2 & T3). auto. Qed.
Print Assumptions C112_any_instant.

(** Turning a position into the Earth's frame by the computed angle instead of the exact one moves it by at most 8e-13 of
    its length: 5.6 micrometres at 7000 km. *)
Lemma turn_gap a b v : norm3 (sub3 (mv (ecef_matrix a) v) (mv (ecef_matrix b) v)) <= Rabs (a - b) * norm3 v.
Proof.
  assert (S0 : forall x, Rabs (sin x) <= Rabs x).
  { assert (P : forall x, 0 <= x -> Rabs (sin x) <= x).
    { intros x H. destruct (Rle_lt_dec x 1) as [H1|H1].
      - destruct (Req_dec x 0) as [->|N]; [rewrite sin_0, Rabs_R0; lra|]. rewrite Rabs_pos_eq; [left; apply sin_lt_x; lra|]. apply sin_ge_0; [lra|]. assert (Q := pi_bounds). lra.
      - assert (B := SIN_bound x). apply Rabs_le. lra. }
    intros x. destruct (Rle_lt_dec 0 x) as [H|H]; [rewrite (Rabs_pos_eq x) by lra; apply P, H|].
    rewrite <- (Ropp_involutive x) at 1. rewrite sin_neg, Rabs_Ropp, (Rabs_left x) by lra. apply P. lra. }
  assert (K : dot3 (sub3 (mv (ecef_matrix a) v) (mv (ecef_matrix b) v)) (sub3 (mv (ecef_matrix a) v) (mv (ecef_matrix b) v)) <= (a - b) * (a - b) * dot3 v v).
  { destruct v as [p q r]. unfold ecef_matrix, dot3, sub3, mv, dot3. cbn [x3 y3 z3 row1 row2 row3]. rnumg.
    assert (E : (cos a - cos b) ^ 2 + (sin a - sin b) ^ 2 = 4 * (sin ((a - b) / 2)) ^ 2).
    { assert (C := cos_minus a b). assert (C2 := cos_2a_sin ((a - b) / 2)). replace (2 * ((a - b) / 2)) with (a - b) in C2 by field.
      assert (A1 := sin2_cos2 a). assert (A2 := sin2_cos2 b). unfold Rsqr in *. nra. }
    assert (B : 4 * (sin ((a - b) / 2)) ^ 2 <= (a - b) * (a - b)).
    { assert (Q := S0 ((a - b) / 2)). assert (P1 := Rabs_pos (sin ((a - b) / 2))).
      replace ((sin ((a - b) / 2)) ^ 2) with (Rabs (sin ((a - b) / 2)) * Rabs (sin ((a - b) / 2))).
      - replace ((a - b) * (a - b)) with (4 * (Rabs ((a - b) / 2) * Rabs ((a - b) / 2))). + nra. + rewrite <- Rabs_mult, Rabs_pos_eq; [field|]. apply Rle_0_sqr.
      - rewrite <- Rabs_mult, Rabs_pos_eq; [ring|apply Rle_0_sqr]. }
    set (ca := cos a) in *. set (sa := sin a) in *. set (cb := cos b) in *. set (sb := sin b) in *. set (m := (a - b) * (a - b)) in *. 
    replace (_ + _ + _) with (((ca - cb) ^ 2 + (sa - sb) ^ 2) * (p * p + q * q)) by ring. rewrite E.
    assert (M0 : 0 <= m) by (unfold m; apply Rle_0_sqr). assert (R1 : 0 <= p * p + q * q) by nra. assert (R2 : 0 <= r * r) by apply Rle_0_sqr. nra. }
  unfold norm3. rnumg. rewrite <- (sqrt_Rsqr (Rabs (a - b))) by apply Rabs_pos. rewrite <- sqrt_mult; [|apply Rle_0_sqr|apply dot3_nonneg].
  apply sqrt_le_1_alt. unfold Rsqr. rewrite <- Rabs_mult, Rabs_pos_eq by apply Rle_0_sqr. exact K.
Qed.
Lemma ecef_period t k : ecef_matrix (t + 2 * PI * IZR k) = ecef_matrix t.
Proof.
  assert (H : forall n : nat, forall u, ecef_matrix (u + 2 * PI * INR n) = ecef_matrix u).
  { intros n u. replace (u + 2 * PI * INR n) with (u + 2 * INR n * PI) by ring. unfold ecef_matrix. rewrite cos_period, sin_period. reflexivity. }
  destruct (Z_le_dec 0 k) as [P|P].
  - rewrite <- (Z2Nat.id k) by lia. rewrite <- INR_IZR_INZ. apply H.
  - rewrite <- (H (Z.to_nat (- k)) (t + 2 * PI * IZR k)). f_equal. rewrite INR_IZR_INZ, Z2Nat.id by lia. rewrite opp_IZR. ring.
Qed.
Lemma minus_sum (a b c : R) : a - (b + c) = a - b - c. Proof. ring. Qed.
Theorem C112_frame : forall pw us a v, accurate pw -> century us ->
  norm3 (sub3 (mv (ecef_matrix (fR (f_theta pw us))) v) (mv (inertial_to_ecef_j (mkJ us a)) v)) <= 8 / 10000000000000 * norm3 v.
Proof.
  intros pw us a v A C. destruct (theta_ok pw us a A C) as (_ & _ & k & T). unfold inertial_to_ecef_j. rewrite <- (ecef_period (j_theta_gmst (mkJ us a)) k).
  eapply Rle_trans; [apply turn_gap|]. apply Rmult_le_compat_r; [unfold norm3; rnumg; apply sqrt_pos|].
  rewrite minus_sum. exact T.
Qed.
Print Assumptions C112_frame.

(** The Julian date is right to 2.85e-10 day (25 microseconds), never runs backwards, and tells apart instants 50 microseconds apart. *)
Theorem C112_julian : forall us, century us ->
  fin (f_julian_date us) = true /\ Rabs (fR (f_julian_date us) - (2451545 + IZR (us - ref_us) / 86400000000)) <= 2.85 / 10000000000 /\
  (forall us', century us' -> (us <= us')%Z -> fR (f_julian_date us) <= fR (f_julian_date us')) /\
  (forall us', century us' -> (us + 50 <= us')%Z -> fR (f_julian_date us) < fR (f_julian_date us')).
Proof.
  intros us C. destruct (julian_ok us 0 C) as [F W]. unfold j_julian_date in W. cbn [j_us] in W.
  assert (E : forall u, IZR (u - ref_us) / 1000000 / 86400 + 2451545 = 2451545 + IZR (u - ref_us) / 86400000000) by (intros; field).
  split; [exact F|]. split; [rewrite <- E; exact W|]. split.
  - intros us' C' L.
    assert (V : forall u, century u -> fR (f_julian_date u) = rnd (rnd (rnd (IZR (u - ref_us) / 1000000) / 86400) + 2451545)).
    { intros u CU. destruct (total_ok u CU) as [[FT _] TB]. unfold f_julian_date.
      destruct (fofZ_R (u - ref_us)) as [A1 A2]; [unfold century in CU; lia|]. destruct (fofZ_R 1000000 ltac:(lia)) as [B1 B2]. destruct (fofZ_R 86400 ltac:(lia)) as [C1 C2]. destruct (fofZ_R 2451545 ltac:(lia)) as [D1 D2].
      assert (TE : fR (f_total_seconds u) = rnd (IZR (u - ref_us) / 1000000)).
      { unfold f_total_seconds. destruct (fdiv_ok (fofZ (u - ref_us)) (fofZ 1000000) A2) as [X _]; [rewrite B1; lra|rewrite A1, B1; apply small_fin with 3155760000; lra|]. rewrite X, A1, B1. reflexivity. }
      destruct (total_ok u CU) as [[_ TW] _]. apply abs_le in TW. apply abs_le in TB.
      assert (T2 : Rabs (fR (f_total_seconds u) / 86400) <= 40000) by (apply Rabs_le; lra).
      destruct (fdiv_ok (f_total_seconds u) (fofZ 86400) FT) as [X1 X2]; [rewrite C1; lra|rewrite C1; apply small_fin with 40000; lra|].
      rewrite C1 in X1. 
      assert (T3 : Rabs (rnd (fR (f_total_seconds u) / 86400)) <= 50000). { assert (RE := rnd_err (fR (f_total_seconds u) / 86400)). assert (ET := eta30). apply abs_le in RE. apply Rabs_le. apply abs_le in T2. assert (Rabs (fR (f_total_seconds u) / 86400) <= 40000) by (apply Rabs_le; lra). unfold ulp1 in RE. lra. }
      destruct (fadd_ok (fdiv (f_total_seconds u) (fofZ 86400)) (fofZ 2451545) X2 D2) as [Y1 Y2]. { rewrite X1, D1. apply small_fin with 3000000; [|lra]. apply abs_le in T3. apply Rabs_le. lra. }
      rewrite Y1, X1, D1, TE. reflexivity. }
    rewrite (V us C), (V us' C'). assert (LZ : IZR (us - ref_us) <= IZR (us' - ref_us)) by (apply IZR_le; lia).
    assert (L1 : rnd (IZR (us - ref_us) / 1000000) <= rnd (IZR (us' - ref_us) / 1000000)) by (apply rnd_mono; lra).
    apply rnd_mono. apply Rplus_le_compat_r. apply rnd_mono. lra.
  - intros us' C' L. destruct (julian_ok us' 0 C') as [F' W']. unfold j_julian_date in W'. cbn [j_us] in W'. apply abs_le in W. apply abs_le in W'.
    assert (LZ : IZR (us - ref_us) + 50 <= IZR (us' - ref_us)) by (rewrite <- plus_IZR; apply IZR_le; lia). lra.
Qed.
Print Assumptions C112_julian.
(** Not closer: two instants 40 microseconds apart have the same Julian date. *)
Theorem C112_microseconds_refuted : ~ (forall us us', century us -> century us' -> (us < us')%Z -> fR (f_julian_date us) < fR (f_julian_date us')).
Proof.
  intros G. assert (H := G (ref_us - 20)%Z (ref_us + 20)%Z). 
  assert (E : fleb (f_julian_date (ref_us + 20)) (f_julian_date (ref_us - 20)) = true) by (vm_compute; reflexivity).
  assert (C1 : century (ref_us - 20)) by (unfold century; lia). assert (C2 : century (ref_us + 20)) by (unfold century; lia).
  rewrite fleb_ok in E by (apply (julian_ok _ 0); assumption). specialize (H C1 C2 ltac:(lia)). revert E. case Rle_bool_spec; [|discriminate]. intros X _. exact (Rlt_irrefl _ (Rlt_le_trans _ _ _ H X)).
Qed.
Print Assumptions C112_microseconds_refuted.

(** A pow that multiplies and divides is accurate enough, and 2024-12-31 06:00 has an angle. *)
Definition plain_pow (c : b64) (k : Z) : b64 := if (k =? 2)%Z then fmul c c else if (k =? 3)%Z then fmul (fmul c c) c else fdec 1 1000000.
Lemma plain_pow_accurate : accurate plain_pow.
Proof.
  assert (E := eta30). assert (U := ulp1_rng).
  assert (SQ : forall c, fin c = true -> Rabs (fR c) <= 2 -> within (ulp1 * Rabs (fR c ^ 2) + eta) (fmul c c) (fR c ^ 2)).
  { intros c F C. assert (P := Rabs_pos (fR c)). destruct (fmul_ok c c F F) as [A B]. { apply small_fin with 4; [rewrite Rabs_mult; nra|lra]. }
    split; [exact B|]. rewrite A. replace (fR c ^ 2) with (fR c * fR c) by ring. apply rnd_err. }
  split; [|split].
  - intros c F C. eapply within_le; [apply SQ; assumption|]. assert (P := Rabs_pos (fR c ^ 2)). nra.
  - intros c F C. unfold plain_pow. cbn [Z.eqb Pos.eqb]. destruct (SQ c F C) as [F2 W2]. assert (P := Rabs_pos (fR c)).
    assert (S4 : Rabs (fR c ^ 2) <= 4) by (rewrite <- RPow_abs; nra).
    assert (M4 : Rabs (fR (fmul c c)) <= 5). { replace (fR (fmul c c)) with ((fR (fmul c c) - fR c ^ 2) + fR c ^ 2) by ring. eapply Rle_trans; [apply Rabs_triang|]. assert (P4 := Rabs_pos (fR c ^ 2)). nra. }
    destruct (fmul_ok (fmul c c) c F2 F) as [A B]. { apply small_fin with 10; [rewrite Rabs_mult; assert (Q := Rabs_pos (fR (fmul c c))); nra|lra]. }
    split; [exact B|]. rewrite A. assert (RE := rnd_err (fR (fmul c c) * fR c)).
    set (z := fR (fmul c c)) in *. set (x := fR c) in *.
    replace (x ^ 3) with (x ^ 2 * x) by ring. rewrite Rabs_mult. set (s := x ^ 2) in *.
    replace (rnd (z * x) - s * x) with ((rnd (z * x) - z * x) + (z - s) * x) by ring. eapply Rle_trans; [apply Rabs_triang|]. rewrite (Rabs_mult (z - s)).
    assert (ZX : Rabs (z * x) <= Rabs s * Rabs x + Rabs (z - s) * Rabs x). { rewrite <- !Rabs_mult. replace (z * x) with (s * x + (z - s) * x) by ring. apply Rabs_triang. }
    assert (Q1 : Rabs (z - s) * Rabs x <= (ulp1 * Rabs s + eta) * Rabs x) by (apply Rmult_le_compat_r; lra).
    assert (P5 := Rabs_pos s). set (as_ := Rabs s) in *. set (ax := Rabs x) in *. set (w := Rabs (z - s) * ax) in *.
    assert (RE2 : Rabs (rnd (z * x) - z * x) <= ulp1 * (as_ * ax + w) + eta) by (eapply Rle_trans; [exact RE|]; apply Rplus_le_compat_r, Rmult_le_compat_l; lra).
    assert (SX : 0 <= as_ * ax) by (apply Rmult_le_pos; lra). assert (EX : eta * ax <= 2 * eta) by nra.
    assert (UU : ulp1 * w <= 0.001 * w) by (apply Rmult_le_compat_r; [unfold w; apply Rmult_le_pos; [apply Rabs_pos|lra]|lra]).
    assert (Q2 : w <= ulp1 * (as_ * ax) + 2 * eta) by lra. 
    assert (UP : 0 <= ulp1 * (as_ * ax)) by (apply Rmult_le_pos; lra). lra.
  - unfold plain_pow. cbn [Z.eqb]. replace (/ 1000000) with (1 / 1000000) by lra. apply within_dec; [lia|lia|]. rewrite Rabs_pos_eq by lra. unfold ulp1. lra.
Qed.
Example C112_ex : exists j, JClock_init 2024 12 31 6 0 0 = Ok j /\ accurate plain_pow /\ century (j_us j).
Proof. eexists. split; [reflexivity|]. split; [exact plain_pow_accurate|]. cbn [j_us]. unfold century. vm_compute. discriminate. Qed.
