(** * Lemmas: sidereal time and Julian date of JClock in binary64 *)
From Coq Require Import Reals ZArith List Bool Lra Psatz Lia.
From Flocq Require Import Core BinarySingleNaN.
From Verif Require Import Num Flt Vec M_vector M_quaternion M_jday M_jdayf M_frame P_sat P_integ P_struct P_normf P_qf P_jday P_jdayf.
Local Open Scope R_scope.

(** within one Julian century of J2000 *)
Definition century (us : Z) : Prop := (Z.abs (us - ref_us) <= 3155760000000000)%Z.
(** pow, as called, is within 4 units 2^-53 of the power (an accurate C library is within 1) *)
Definition accurate (pw : b64 -> Z -> b64) : Prop :=
  (forall c, fin c = true -> Rabs (fR c) <= 2 -> within (4 * ulp1 * Rabs (fR c ^ 2) + 4 * eta) (pw c 2%Z) (fR c ^ 2)) /\
  (forall c, fin c = true -> Rabs (fR c) <= 2 -> within (4 * ulp1 * Rabs (fR c ^ 3) + 4 * eta) (pw c 3%Z) (fR c ^ 3)) /\
  within (4 * ulp1 / 1000000) (pw (fofZ 10) (-6)%Z) (/ 1000000).

Lemma fields us : (0 <= dt_hour us <= 23 /\ 0 <= dt_minute us <= 59 /\ 0 <= dt_second us <= 59)%Z.
Proof.
  unfold dt_hour, dt_minute, dt_second. assert (A := Z.mod_pos_bound (us / 3600000000) 24). assert (B := Z.mod_pos_bound (us / 60000000) 60). assert (C := Z.mod_pos_bound (us / 1000000) 60). lia.
Qed.
Lemma fields_R us : 0 <= IZR (dt_hour us) <= 23 /\ 0 <= IZR (dt_minute us) <= 59 /\ 0 <= IZR (dt_second us) <= 59.
Proof. destruct (fields us) as (A & B & C). repeat split; apply IZR_le; lia. Qed.

Lemma total_ok us : century us -> within 0.000000351 (f_total_seconds us) (IZR (us - ref_us) / 1000000) /\ Rabs (IZR (us - ref_us) / 1000000) <= 3155760000.
Proof.
  unfold century. intros H. assert (A : Rabs (IZR (us - ref_us)) <= 3155760000000000) by (rewrite <- abs_IZR; apply IZR_le; exact H). split.
  - apply (within_div 0 _ _ 1000000 3155760000000000); [apply within_ofZ; lia|lia|exact A|lra|unfold ulp1; lra].
  - unfold Rdiv. rewrite Rabs_mult, (Rabs_pos_eq (/ 1000000)) by lra. lra.
Qed.
Lemma julian_ok us a : century us -> within (2.85 / 10000000000) (f_julian_date us) (j_julian_date (mkJ us a)).
Proof.
  intros H. destruct (total_ok us H) as [W B]. unfold f_julian_date, j_julian_date. cbn [j_us].
  set (t := IZR (us - ref_us) / 1000000) in *.
  assert (W2 : within (8.13 / 1000000000000) (fdiv (f_total_seconds us) (fofZ 86400)) (t / 86400)).
  { apply (within_div _ _ _ 86400 3155760000 _ W); [lia|exact B|lra|unfold ulp1; lra]. }
  assert (B2 : Rabs (t / 86400) <= 36525). { unfold Rdiv. rewrite Rabs_mult, (Rabs_pos_eq (/ 86400)) by lra. lra. }
  apply (within_add _ _ _ 0 _ 2451545 2488070 _ W2); [apply (within_ofZ 2451545); lia| |lra|unfold ulp1; lra].
  eapply Rle_trans; [apply Rabs_triang|]. rewrite (Rabs_pos_eq 2451545) by lra. lra.
Qed.
Lemma abs_le a m : Rabs a <= m -> - m <= a <= m. Proof. apply Rabs_le_inv. Qed.
Lemma centuries_ok us a : century us -> within (5.57 / 10000000000000000) (f_centuries us) (j_centuries_elapsed (mkJ us a)) /\ Rabs (j_centuries_elapsed (mkJ us a)) <= 1.00003.
Proof.
  intros H. destruct (total_ok us H) as [W B]. unfold f_centuries, j_centuries_elapsed. cbn [j_us].
  set (t := IZR (us - ref_us) / 1000000) in *. destruct (fields us) as (F1 & F2 & F3). destruct (fields_R us) as (G1 & G2 & G3).
  apply abs_le in B.
  assert (W1 : within 0.0000007015 (fsub (f_total_seconds us) (fofZ (3600 * dt_hour us))) (t - 3600 * IZR (dt_hour us))).
  { rewrite <- mult_IZR. apply (within_sub _ _ _ 0 _ _ 3155850000 _ W); [apply within_ofZ; lia|rewrite mult_IZR; apply Rabs_le; lra|lra|unfold ulp1; lra]. }
  assert (W2 : within 0.0000010525 (fsub (fsub (f_total_seconds us) (fofZ (3600 * dt_hour us))) (fofZ (60 * dt_minute us))) (t - 3600 * IZR (dt_hour us) - 60 * IZR (dt_minute us))).
  { rewrite <- (mult_IZR 60). apply (within_sub _ _ _ 0 _ _ 3155850000 _ W1); [apply within_ofZ; lia|rewrite mult_IZR; apply Rabs_le; lra|lra|unfold ulp1; lra]. }
  assert (W3 : within 0.000001404 (fsub (fsub (fsub (f_total_seconds us) (fofZ (3600 * dt_hour us))) (fofZ (60 * dt_minute us))) (fofZ (dt_second us))) (t - 3600 * IZR (dt_hour us) - 60 * IZR (dt_minute us) - IZR (dt_second us))).
  { apply (within_sub _ _ _ 0 _ _ 3155850000 _ W2); [apply within_ofZ; lia|apply Rabs_le; lra|lra|unfold ulp1; lra]. }
  set (v := t - 3600 * IZR (dt_hour us) - 60 * IZR (dt_minute us) - IZR (dt_second us)) in *.
  assert (V : Rabs v <= 3155850000) by (apply Rabs_le; unfold v; lra).
  replace (86400 * 36525) with (IZR (86400 * 36525)) by (simpl; lra). split.
  - apply (within_div _ _ _ (86400 * 36525) 3155850000 _ W3); [lia|exact V|lra|]. change (86400 * 36525)%Z with 3155760000%Z. unfold ulp1. lra.
  - unfold Rdiv. rewrite Rabs_mult, (Rabs_pos_eq (/ IZR _)). 2:{ left. apply Rinv_0_lt_compat. apply IZR_lt. lia. } change (86400 * 36525)%Z with 3155760000%Z. lra.
Qed.
Lemma pow_near c r k e : Rabs r <= 1.00003 -> Rabs (c - r) <= e -> 0 <= e <= 0.00001 -> (k <= 3)%nat -> Rabs (c ^ k - r ^ k) <= 4 * e.
Proof.
  intros R C E K. assert (R1 := abs_le _ _ R). assert (C1 := abs_le _ _ C). assert (Q : exists d, c = r + d /\ - e <= d <= e) by (exists (c - r); split; [ring|lra]). destruct Q as (d & -> & D).
  destruct k as [|[|[|[|k]]]]; [| | | |lia]; cbn [pow].
  - apply Rabs_le. lra.
  - apply Rabs_le. lra.
  - replace ((r + d) * ((r + d) * 1) - r * (r * 1)) with (d * (2 * r + d)) by ring. rewrite Rabs_mult. 
    assert (Rabs d <= e) by (apply Rabs_le; lra). assert (Rabs (2 * r + d) <= 4) by (apply Rabs_le; lra). assert (P := Rabs_pos d). assert (P' := Rabs_pos (2 * r + d)). nra.
  - replace ((r + d) * ((r + d) * ((r + d) * 1)) - r * (r * (r * 1))) with (d * (3 * (r * r) + 3 * r * d + d * d)) by ring. rewrite Rabs_mult. 
    assert (Rabs d <= e) by (apply Rabs_le; lra). assert (Rabs (3 * (r * r) + 3 * r * d + d * d) <= 4) by (apply Rabs_le; nra). assert (P := Rabs_pos d). assert (P' := Rabs_pos (3 * (r * r) + 3 * r * d + d * d)). nra.
Qed.
Lemma cube_le c : Rabs c <= 1.00004 -> Rabs (c ^ 2) <= 1.0001 /\ Rabs (c ^ 3) <= 1.0002.
Proof. intros H. cbn [pow]. rewrite !Rabs_mult, Rabs_R1. assert (P := Rabs_pos c). split; nra. Qed.
Lemma within_shift e x r e' r' : within e x r -> Rabs (r - r') <= e' -> within (e + e') x r'.
Proof. intros [A B] C. split; [exact A|]. replace (fR x - r') with ((fR x - r) + (r - r')) by ring. eapply Rle_trans; [apply Rabs_triang|lra]. Qed.
Lemma powers_ok pw c r : accurate pw -> within (5.57 / 10000000000000000) c r -> Rabs r <= 1.00003 ->
  within (3 / 1000000000000000) (pw c 2%Z) (r ^ 2) /\ within (3 / 1000000000000000) (pw c 3%Z) (r ^ 3).
Proof.
  intros (A2 & A3 & _) [F W] R. assert (E := eta30).
  assert (C : Rabs (fR c) <= 1.00004). { replace (fR c) with (r + (fR c - r)) by ring. eapply Rle_trans; [apply Rabs_triang|lra]. }
  destruct (cube_le _ C) as [Q2 Q3]. split.
  - eapply within_le; [apply (within_shift _ _ _ (4 * (5.57 / 10000000000000000)) _ (A2 c F ltac:(lra))); apply pow_near; lra || lia|]. unfold ulp1. lra.
  - eapply within_le; [apply (within_shift _ _ _ (4 * (5.57 / 10000000000000000)) _ (A3 c F ltac:(lra))); apply pow_near; lra || lia|]. unfold ulp1. lra.
Qed.
Lemma gmst_ok pw us a : accurate pw -> century us -> within (1.07 / 100000000) (f_gmst pw us) (j_gmst_seconds (mkJ us a)) /\ Rabs (j_gmst_seconds (mkJ us a)) <= 10000000.
Proof.
  intros AC H. destruct (centuries_ok us a H) as [W B]. unfold f_gmst, j_gmst_seconds. cbn [j_us]. set (c := j_centuries_elapsed _) in *.
  destruct (powers_ok pw _ c AC W B) as [P2 P3]. destruct AC as (_ & _ & P6). destruct (fields us) as (F1 & F2 & F3). destruct (fields_R us) as (G1 & G2 & G3).
  assert (B1 := abs_le _ _ B). destruct (cube_le c ltac:(lra)) as [C2 C3]. assert (D2 := abs_le _ _ C2). assert (D3 := abs_le _ _ C3). clear H.
  set (fc := f_centuries us) in *. unfold gmst_poly.
  assert (L0 : within (2.7 / 1000000000000) (fdec 2411054841 100000) 24110.54841). { apply within_dec; [lia|lia|]. rewrite Rabs_pos_eq by lra. unfold ulp1. lra. }
  assert (L1 : within (9.6 / 10000000000) (fdec 8640184812866 1000000) 8640184.812866). { apply within_dec; [lia|lia|]. rewrite Rabs_pos_eq by lra. unfold ulp1. lra. }
  assert (L2 : within (1.04 / 100000000000000000) (fdec 93104 1000000) 0.093104). { apply within_dec; [lia|lia|]. rewrite Rabs_pos_eq by lra. unfold ulp1. lra. }
  assert (L3 : within (1 / 1000000000000000) (fdec 62 10) 6.2). { apply within_dec; [lia|lia|]. rewrite Rabs_pos_eq by lra. unfold ulp1. lra. }
  assert (L4 : within (1.2 / 10000000000000000) (fdec 1002737909350795 1000000000000000) 1.002737909350795). { apply within_dec; [lia|lia|]. rewrite Rabs_pos_eq by lra. unfold ulp1. lra. }
  assert (M1 : within (6.74 / 1000000000) (fmul (fdec 8640184812866 1000000) fc) (8640184.812866 * c)).
  { apply (within_mul _ _ _ _ _ _ 8640185 1.00003 _ L1 W); [rewrite Rabs_pos_eq; lra|exact B|lra|unfold ulp1; lra]. }
  assert (S1 : within (7.71 / 1000000000) (fadd (fdec 2411054841 100000) (fmul (fdec 8640184812866 1000000) fc)) (24110.54841 + 8640184.812866 * c)).
  { apply (within_add _ _ _ _ _ _ 8664600 _ L0 M1); [apply Rabs_le; lra|lra|unfold ulp1; lra]. }
  assert (M2 : within (1 / 1000000000000000) (fmul (fdec 93104 1000000) (pw fc 2%Z)) (0.093104 * c ^ 2)).
  { apply (within_mul _ _ _ _ _ _ 0.1 1.0001 _ L2 P2); [rewrite Rabs_pos_eq; lra|exact C2|lra|unfold ulp1; lra]. }
  assert (S2 : within (8.68 / 1000000000) (fadd (fadd (fdec 2411054841 100000) (fmul (fdec 8640184812866 1000000) fc)) (fmul (fdec 93104 1000000) (pw fc 2%Z))) (24110.54841 + 8640184.812866 * c + 0.093104 * c ^ 2)).
  { apply (within_add _ _ _ _ _ _ 8664601 _ S1 M2); [apply Rabs_le; lra|lra|unfold ulp1; lra]. }
  assert (M3 : within (1 / 1000000000000000) (fmul (fdec 62 10) (pw (fofZ 10) (-6)%Z)) (6.2 * / 1000000)).
  { apply (within_mul _ _ _ _ _ _ 6.2 (/ 1000000) _ L3 P6); [rewrite Rabs_pos_eq; lra|rewrite Rabs_pos_eq; lra|unfold ulp1; lra|unfold ulp1; lra]. }
  assert (M4 : within (2 / 1000000000000000) (fmul (fmul (fdec 62 10) (pw (fofZ 10) (-6)%Z)) (pw fc 3%Z)) (6.2 * / 1000000 * c ^ 3)).
  { apply (within_mul _ _ _ _ _ _ 0.00001 1.0002 _ M3 P3); [rewrite Rabs_pos_eq; lra|exact C3|lra|unfold ulp1; lra]. }
  assert (S3 := within_sub _ _ _ _ _ _ 8664602 (9.65 / 1000000000) S2 M4 ltac:(apply Rabs_le; lra) ltac:(lra) ltac:(unfold ulp1; lra)).
  assert (M5 : within (2.1 / 100000000000) (fmul (fdec 1002737909350795 1000000000000000) (fofZ (3600 * dt_hour us + 60 * dt_minute us + dt_second us))) (1.002737909350795 * (3600 * IZR (dt_hour us) + 60 * IZR (dt_minute us) + IZR (dt_second us)))).
  { replace (3600 * IZR (dt_hour us) + 60 * IZR (dt_minute us) + IZR (dt_second us)) with (IZR (3600 * dt_hour us + 60 * dt_minute us + dt_second us)) by (rewrite !plus_IZR, !mult_IZR; reflexivity).
    apply (within_mul _ _ _ 0 _ _ 1.0028 86400 _ L4); [apply within_ofZ; lia|rewrite Rabs_pos_eq; lra| |lra|unfold ulp1; lra].
    rewrite <- abs_IZR. apply IZR_le. lia. }
  assert (S4 := within_add _ _ _ _ _ _ 8751300 (1.07 / 100000000) S3 M5 ltac:(apply Rabs_le; lra) ltac:(lra) ltac:(unfold ulp1; lra)).
  assert (EQ : 24110.54841 + 8640184.812866 * c + 0.093104 * c ^ 2 - 6.2 * / 1000000 * c ^ 3 + 1.002737909350795 * (3600 * IZR (dt_hour us) + 60 * IZR (dt_minute us) + IZR (dt_second us))
     = 24110.54841 + (8640184.812866 * c + 0.093104 * c ^ 2 - 6.2 / 10 ^ 6 * c ^ 3) + 1.002737909350795 * (3600 * IZR (dt_hour us) + 60 * IZR (dt_minute us) + IZR (dt_second us))).
  { replace (6.2 / 10 ^ 6) with (6.2 * / 1000000) by (simpl; field). ring. }
  rewrite <- EQ. split; [exact S4|]. apply Rabs_le. lra.
Qed.
Lemma dyadic_R m e : (Z.abs m < 9007199254740992)%Z -> (-1074 <= e <= 0)%Z -> 
  let x : b64 := binary_normalize 53 1024 b64_prec b64_emax mode_NE m e false in fR x = IZR m * bpow radix2 e /\ fin x = true.
Proof.
  intros Hm He. cbv zeta. assert (C := binary_normalize_correct 53 1024 b64_prec b64_emax mode_NE m e false).
  change (F2R (Float radix2 m e)) with (IZR m * bpow radix2 e) in C. change (round_mode mode_NE) with ZnearestE in C.
  assert (G : fmt (IZR m * bpow radix2 e)). { rewrite fexp_FLT. apply generic_format_FLT. exists (Float radix2 m e); [reflexivity|exact Hm|cbn; lia]. }
  cbv zeta in C. rewrite (round_generic radix2 (SpecFloat.fexp 53 1024) ZnearestE _ G) in C. rewrite Rlt_bool_true in C.
  - destruct C as (C1 & C2 & _). split; [exact C1|exact C2].
  - rewrite Rabs_mult, (Rabs_pos_eq (bpow radix2 e)) by apply bpow_ge_0. rewrite <- abs_IZR.
    assert (B : bpow radix2 e <= 1) by (change 1 with (bpow radix2 0); apply bpow_le; lia). assert (P := bpow_gt_0 radix2 e).
    assert (M : IZR (Z.abs m) < 9007199254740992) by (apply IZR_lt; exact Hm). assert (M0 : 0 <= IZR (Z.abs m)) by (apply IZR_le; lia).
    apply Rle_lt_trans with (IZR 9007199254740992); [nra|].
    replace (IZR 9007199254740992) with (bpow radix2 53) by (cbn; lra). apply bpow_lt. lia.
Qed.
Lemma f_pi_R : fR f_pi = 7074237752028440 / 2251799813685248 /\ fin f_pi = true.
Proof. exact (dyadic_R 7074237752028440 (-51) ltac:(lia) ltac:(lia)). Qed.
Definition f_deg : b64 := fdiv f_pi (fofZ 180).
Lemma f_deg_ok : within (3 / 1000000000000000000) f_deg (PI / 180).
Proof.
  assert (P := pi_bounds). apply (within_div (1.4 / 10000000000000000) _ PI 180 3.15); [|lia|rewrite Rabs_pos_eq; lra|lra|unfold ulp1; lra].
  destruct f_pi_R as [A B]. split; [exact B|]. rewrite A. apply Rabs_le. lra.
Qed.
Lemma rnd_IZR z : (Z.abs z <= 9007199254740992)%Z -> rnd (IZR z) = IZR z.
Proof. intros H. destruct (fofZ_R z H) as [A B]. rewrite <- A. apply round_generic; [apply valid_rnd_N|apply fmt_R]. Qed.
Lemma rnd_mono x y : x <= y -> rnd x <= rnd y.
Proof. intros H. apply round_le; [apply fexp_correct, b64_prec|apply valid_rnd_N|exact H]. Qed.
Lemma rnd_rng x z : (0 <= z <= 9007199254740992)%Z -> 0 <= x <= IZR z -> 0 <= rnd x <= IZR z.
Proof.
  intros Z [A B]. split.
  - apply Rle_trans with (rnd (IZR 0)); [right; symmetry; apply rnd_IZR; lia|apply rnd_mono; exact A].
  - apply Rle_trans with (rnd (IZR z)); [apply rnd_mono; exact B|right; apply rnd_IZR; lia].
Qed.
(** the largest angle: 360 degrees in binary64 *)
Lemma deg360 : rnd (360 * fR f_deg) < 2 * PI.
Proof.
  destruct f_deg_ok as [F W]. assert (P := pi_bounds). destruct (fofZ_R 360 ltac:(lia)) as [A B].
  assert (DG : 0 <= fR f_deg <= 1) by (apply abs_le in W; lra).
  destruct (fmul_ok (fofZ 360) f_deg B F) as [E G]. { apply small_fin with 360; [rewrite A, Rabs_pos_eq; lra|lra]. }
  rewrite A in E. rewrite <- E.
  set (tp := binary_normalize 53 1024 b64_prec b64_emax mode_NE 7074237752028440 (-50) false : b64).
  destruct (dyadic_R 7074237752028440 (-50) ltac:(lia) ltac:(lia)) as [T1 T2]. cbv zeta in T1, T2. fold tp in T1, T2.
  assert (Q : fleb (fmul (fofZ 360) f_deg) tp = true) by (vm_compute; reflexivity).
  rewrite fleb_ok in Q by assumption. revert Q. unfold Rle_bool. case Rcompare_spec; intros Q1 Q; try discriminate Q;
    change (bpow radix2 (-50)) with (/ 1125899906842624) in T1; lra.
Qed.
Lemma theta_ok pw us a : accurate pw -> century us -> fin (f_theta pw us) = true /\ 0 <= fR (f_theta pw us) < 2 * PI /\
  exists k : Z, Rabs (fR (f_theta pw us) - j_theta_gmst (mkJ us a) - 2 * PI * IZR k) <= 8 / 10000000000000.
Proof.
  intros AC H. destruct (gmst_ok pw us a AC H) as [[F W] B]. unfold f_theta. set (g := f_gmst pw us) in *. set (gm := j_gmst_seconds (mkJ us a)) in *.
  destruct (f_mod_ok g 86400 F ltac:(lia)) as [E G]. assert (RG := Rmod_rng (fR g) 86400 ltac:(lra)).
  set (k1 := Zfloor (fR g / 86400)). set (k0 := Zfloor (gm / 86400)).
  (* remainder *)
  assert (U1 : 0 <= fR (f_mod g 86400) <= 86400).
  { rewrite E. apply (rnd_rng _ 86400); [lia|lra]. }
  assert (W1 : within (1.072 / 100000000) (f_mod g 86400) (gm - 86400 * IZR k1)).
  { split; [exact G|]. rewrite E. assert (RE := rnd_err (Rmod (fR g) 86400)). assert (ET := eta30). rewrite (Rabs_pos_eq (Rmod _ _)) in RE by lra.
    assert (RM : Rmod (fR g) 86400 = fR g - 86400 * IZR k1) by reflexivity.
    apply abs_le in RE. apply abs_le in W. assert (ulp1 * Rmod (fR g) 86400 <= ulp1 * 86400) by (apply Rmult_le_compat_l; [unfold ulp1|]; lra). unfold ulp1 in *. apply Rabs_le. lra. }
  assert (RM : 0 <= gm - 86400 * IZR k1 + 0.0001 /\ gm - 86400 * IZR k1 <= 86400.0001).
  { destruct W1 as [_ W1]. apply abs_le in W1. lra. }
  assert (W2 : within (4.471 / 100000000000) (fdiv (f_mod g 86400) (fofZ 240)) ((gm - 86400 * IZR k1) / 240)).
  { apply (within_div _ _ _ 240 86400.0001 _ W1); [lia|apply Rabs_le; lra|lra|unfold ulp1; lra]. }
  assert (U2 : 0 <= fR (fdiv (f_mod g 86400) (fofZ 240)) <= 360).
  { destruct (fofZ_R 240 ltac:(lia)) as [A D]. destruct (fdiv_ok (f_mod g 86400) (fofZ 240) G) as [E2 G2]; [rewrite A; lra|apply small_fin with 360; [rewrite A, Rabs_pos_eq; lra|lra]|].
    rewrite E2, A. apply (rnd_rng _ 360); [lia|lra]. }
  set (d := fdiv (f_mod g 86400) (fofZ 240)) in *. unfold f_radians. fold f_deg.
  assert (DG := f_deg_ok). assert (P := pi_bounds).
  assert (W3 : within (7.9 / 10000000000000) (fmul d f_deg) ((gm - 86400 * IZR k1) / 240 * (PI / 180))).
  { apply (within_mul _ _ _ _ _ _ 360.0001 0.0174533 _ W2 DG); [apply Rabs_le; lra|rewrite Rabs_pos_eq; lra|lra|unfold ulp1; lra]. }
  destruct W3 as [F3 W3]. split; [exact F3|]. split.
  - destruct W2 as [F2 _]. destruct DG as [FD WD]. assert (DR : 0 <= fR f_deg <= 1) by (apply abs_le in WD; lra).
    destruct (fmul_ok d f_deg F2 FD) as [E3 G3]. { apply small_fin with 360; [rewrite Rabs_pos_eq; nra|lra]. }
    rewrite E3. split; [apply (rnd_rng _ 360); [lia|nra]|]. apply Rle_lt_trans with (rnd (360 * fR f_deg)); [apply rnd_mono; nra|exact deg360].
  - exists (k0 - k1)%Z. unfold j_theta_gmst. fold gm. unfold Rmod. fold k0. unfold radians. rewrite minus_IZR.
    match goal with |- Rabs ?x <= _ => replace x with (fR (fmul d f_deg) - (gm - 86400 * IZR k1) / 240 * (PI / 180)) by field end. lra.
Qed.
