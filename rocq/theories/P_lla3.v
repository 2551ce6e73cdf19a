(** * ecef_to_lla: the initial guess is a latitude in the first quadrant, with a small residual *)
From Coq Require Import Reals Bool Lra Lia Psatz.
From Verif Require Import Num Vec M_vector M_frame P_quat P_frame P_poly P_lla1 P_lla2.
Local Open Scope R_scope.

(** the code's height and residual functions of a trial latitude x, for the meridian point (w, z) *)
Definition hN (w z x : R) : R := w * cos x + z * sin x - wa * sqrt (1 - e2 * (sin x) ^ 2).
Definition mN (w z x : R) : R := - w * sin x + z * cos x + e2 * wa * sin x * cos x / sqrt (1 - e2 * (sin x) ^ 2).

Lemma sin_nonneg_quadrant x : - (PI / 2) <= x <= PI / 2 -> 0 <= sin x -> 0 <= x.
Proof.
  intros H S. destruct (Rle_dec 0 x) as [L|L]; [exact L|]. exfalso. assert (P := PI_RGT_0).
  assert (0 < sin (- x)) by (apply sin_gt_0; lra). rewrite sin_neg in *. lra.
Qed.
Lemma cos_nonneg_quadrant x : 0 <= x <= PI -> 0 <= cos x -> x <= PI / 2.
Proof.
  intros H S. destruct (Rle_dec x (PI / 2)) as [L|L]; [exact L|]. exfalso. assert (P := PI_RGT_0).
  assert (cos x < 0) by (apply cos_lt_0; lra). lra.
Qed.

Lemma guess_good w z r : 0 <= w -> 0 <= z -> 0 < r -> r * r = z * z + w * w -> wa <= 1006 / 1000 * r ->
  exists lat, lla_initial w z = Ok (lat, sin lat, cos lat, sin lat * sin lat) /\ 0 <= lat <= PI / 2 /\
    98 / 100 * r <= w * cos lat + z * sin lat /\ Rabs (mN w z lat) <= 3 / 4 * e2 ^ 3 * r.
Proof.
  intros Hw Hz Hr RR Ha. assert (HE := e2_range). assert (HE' : 0 < e2 <= 67 / 10000) by lra. set (E := e2) in *.
  set (rho := wa / r). set (sg := z / r). set (ka := w / r). set (S2 := sg * sg).
  assert (Wr : w = ka * r) by (unfold ka; field; lra). assert (Zr : z = sg * r) by (unfold sg; field; lra).
  assert (Ar : wa = rho * r) by (unfold rho; field; lra).
  assert (Hrho : 0 <= rho <= 1006 / 1000).
  { unfold rho. split; [apply Rmult_le_pos; [unfold wa; lra|left; apply Rinv_0_lt_compat; lra]|]. apply (Rmult_le_reg_r r); [lra|]. fold rho. rewrite <- Ar. exact Ha. }
  assert (Hs : 0 <= sg) by (unfold sg; apply Rmult_le_pos; [lra|left; apply Rinv_0_lt_compat; lra]).
  assert (Hk : 0 <= ka) by (unfold ka; apply Rmult_le_pos; [lra|left; apply Rinv_0_lt_compat; lra]).
  assert (K : ka * ka = 1 - S2). { unfold S2, sg, ka. apply (Rmult_eq_reg_r (r * r)); [|nra]. replace (w / r * (w / r) * (r * r)) with (w * w) by (field; lra). replace ((1 - z / r * (z / r)) * (r * r)) with (r * r - z * z) by (field; lra). lra. }
  assert (SS : 0 <= S2 <= 1) by (unfold S2 in *; nra).
  assert (SK : 0 <= sg * ka <= 1 / 2). { split; [nra|]. assert (X := pow2_ge_0 (sg - ka)). unfold S2 in K. nra. }
  unfold lla_initial. rewrite (Rabs_pos_eq z) by exact Hz. rewrite <- RR. rewrite (sqrt_square r) by lra. rewrite !mdiv_ok by nra. cbn [rbind].
  replace (z * z / (r * r)) with S2 by (unfold S2, sg; field; lra).
  replace (w * w / (r * r)) with (1 - S2) by (rewrite <- K; unfold ka; field; lra). fold sg ka.
  destruct (Rltb_spec 0.3 (1 - S2)) as [B|B].
  - (* low latitudes *)
    destruct (residual1 E rho S2 HE' Hrho ltac:(lra)) as (RX & RA & RQ & RF). cbv zeta in *.
    set (T := gT E rho (b1 rho S2)) in *. set (A := 1 + (1 - S2) * T) in *. set (q := sqrt (1 - S2 * (2 * T + (1 - S2) * (T * T)))) in *.
    replace (sg * (1 + (1 - S2) * (a1 + a2 / r + S2 * (a3 - a4 / r)) / r)) with (sg * A).
    2:{ unfold A, T, gT, b1, a4, a3, a2, a1, rho. fold E. replace 2.5 with (5 / 2) by lra. field. lra. }
    assert (Q2 : q * q = 1 - S2 * (2 * T + (1 - S2) * (T * T))) by (unfold q; apply sqrt_sqrt; lra).
    assert (C2 : 1 - sg * A * (sg * A) = (ka * q) * (ka * q)).
    { replace (ka * q * (ka * q)) with ((ka * ka) * (q * q)) by ring. rewrite K, Q2. unfold A. replace (sg * (1 + (1 - S2) * T) * (sg * (1 + (1 - S2) * T))) with (S2 * (1 + (1 - S2) * T) * (1 + (1 - S2) * T)) by (unfold S2; ring). ring. }
    assert (CN : 0 <= ka * q) by (apply Rmult_le_pos; lra). assert (SN : 0 <= sg * A) by (apply Rmult_le_pos; lra).
    assert (S1 : -1 <= sg * A <= 1) by (split; nra).
    rewrite masin_ok by exact S1. cbn [rbind]. rewrite msqrt_ok by (rewrite C2; nra). cbn [rbind]. rewrite C2, sqrt_square by exact CN.
    assert (SI : sin (asin (sg * A)) = sg * A) by (apply sin_asin; exact S1).
    assert (CI : cos (asin (sg * A)) = ka * q). { rewrite cos_asin by exact S1. replace (1 - (sg * A)²) with (ka * q * (ka * q)) by (unfold Rsqr; lra). apply sqrt_square, CN. }
    exists (asin (sg * A)). rewrite SI, CI. split; [reflexivity|]. assert (AB := asin_bound (sg * A)).
    split; [split; [apply sin_nonneg_quadrant; [lra|rewrite SI; exact SN]|lra]|].
    split.
    { rewrite Wr, Zr. replace (ka * r * (ka * q) + sg * r * (sg * A)) with (r * ((ka * ka) * q + S2 * A)) by (unfold S2; ring). rewrite K.
      assert (98 / 100 <= (1 - S2) * q + S2 * A) by nra. set (k := (1 - S2) * q + S2 * A) in *. clearbody k. nra. }
    unfold mN. rewrite SI, CI. fold E.
    replace (- w * (sg * A) + z * (ka * q) + E * wa * (sg * A) * (ka * q) / sqrt (1 - E * (sg * A) ^ 2))
      with (r * (sg * ka) * (- A + q + E * rho * A * q * / sqrt (1 - E * (S2 * (A * A))))).
    2:{ replace (1 - E * (sg * A) ^ 2) with (1 - E * (S2 * (A * A))) by (unfold S2; ring). rewrite Wr, Zr, Ar. unfold Rdiv. ring. }
    rewrite Rabs_mult, (Rabs_pos_eq (r * (sg * ka))) by (apply Rmult_le_pos; lra).
    set (F := Rabs _) in *. assert (F0 : 0 <= F) by apply Rabs_pos. clearbody F. assert (0 <= E ^ 3) by (apply pow_le; lra).
    set (e3 := E ^ 3) in *. clearbody e3. assert (r * (sg * ka) * F <= r * (1 / 2) * (3 / 2 * e3)); [|lra].
    apply Rmult_le_compat; [apply Rmult_le_pos; lra|exact F0|apply Rmult_le_compat_l; lra|exact RF].
  - (* high latitudes *)
    destruct (residual2 E rho S2 HE' Hrho ltac:(lra)) as (RX & RA & RQ & RF). cbv zeta in *.
    set (T := gT E rho (b2 rho S2)) in *. set (x := (1 - S2) * (2 * T - S2 * (T * T))) in *. set (q := sqrt (1 + x)) in *.
    replace (ka * (1 - S2 * (a5 - a2 / r - (1 - S2) * (a3 - a4 / r)) / r)) with (ka * (1 - S2 * T)).
    2:{ unfold T, gT, b2, a5, a4, a3, a2, a1, rho. fold E. replace 2.5 with (5 / 2) by lra. field. lra. }
    assert (Q2 : q * q = 1 + x) by (unfold q; apply sqrt_sqrt; lra).
    assert (C2 : 1 - ka * (1 - S2 * T) * (ka * (1 - S2 * T)) = (sg * q) * (sg * q)).
    { replace (sg * q * (sg * q)) with (S2 * (q * q)) by (unfold S2; ring). rewrite Q2. replace (ka * (1 - S2 * T) * (ka * (1 - S2 * T))) with ((ka * ka) * (1 - S2 * T) * (1 - S2 * T)) by ring. rewrite K. unfold x. ring. }
    assert (ST : 0 <= S2 * T <= 1 / 100) by nra.
    assert (CN : 0 <= sg * q) by (apply Rmult_le_pos; lra). assert (SN : 0 <= ka * (1 - S2 * T)) by (apply Rmult_le_pos; lra).
    set (c := ka * (1 - S2 * T)) in *.
    assert (S1 : -1 <= c <= 1) by (split; nra).
    rewrite macos_ok by exact S1. cbn [rbind]. rewrite msqrt_ok by (rewrite C2; nra). cbn [rbind].
    assert (CI : cos (acos c) = c) by (apply cos_acos; exact S1).
    assert (SI : sin (acos c) = sg * q). { rewrite sin_acos by exact S1. replace (1 - c²) with (sg * q * (sg * q)) by (unfold Rsqr; lra). apply sqrt_square, CN. }
    exists (acos c). rewrite SI, CI, C2, sqrt_square by exact CN. split; [reflexivity|]. assert (AB := acos_bound c).
    split; [split; [lra|apply cos_nonneg_quadrant; [lra|rewrite CI; exact SN]]|].
    split.
    { rewrite Wr, Zr. replace (ka * r * c + sg * r * (sg * q)) with (r * ((ka * ka) * (1 - S2 * T) + S2 * q)) by (unfold c, S2; ring). rewrite K.
      assert (98 / 100 <= (1 - S2) * (1 - S2 * T) + S2 * q) by nra. set (k := (1 - S2) * (1 - S2 * T) + S2 * q) in *. clearbody k. nra. }
    unfold mN. rewrite SI, CI. fold E.
    replace (- w * (sg * q) + z * c + E * wa * (sg * q) * c / sqrt (1 - E * (sg * q) ^ 2))
      with (r * (sg * ka) * (- q + (1 - S2 * T) * (1 + E * rho * q * / sqrt (1 - E * (S2 * (1 + x)))))).
    2:{ replace (1 - E * (sg * q) ^ 2) with (1 - E * (S2 * (1 + x))) by (rewrite <- Q2; unfold S2; ring). rewrite Wr, Zr, Ar. unfold Rdiv, c. ring. }
    rewrite Rabs_mult, (Rabs_pos_eq (r * (sg * ka))) by (apply Rmult_le_pos; lra).
    set (F := Rabs _) in *. assert (F0 : 0 <= F) by apply Rabs_pos. clearbody F. assert (0 <= E ^ 3) by (apply pow_le; lra).
    set (e3 := E ^ 3) in *. clearbody e3. assert (r * (sg * ka) * F <= r * (1 / 2) * (3 / 2 * e3)); [|lra].
    apply Rmult_le_compat; [apply Rmult_le_pos; lra|exact F0|apply Rmult_le_compat_l; lra|exact RF].
Qed.
