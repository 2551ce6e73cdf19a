(** * Every point outside the ellipsoid has geodetic coordinates, and its height is bracketed by its distance from the centre *)
From Coq Require Import Reals Bool Lra Lia Psatz.
From Coquelicot Require Import Coquelicot.
From Verif Require Import Num Vec M_vector M_quaternion M_frame S_frame P_quat P_equat P_frame P_lla3 P_lla4 P_lla5.
Local Open Scope R_scope.

Lemma mN_continuous w z : continuity (mN w z).
Proof. intros x. apply continuity_pt_filterlim. apply (ex_derive_continuous (mN w z)). eexists. apply mN_deriv. Qed.
Lemma geodetic_exists w z : 0 <= w -> 0 <= z -> exists phi, 0 <= phi <= PI / 2 /\ w = wgs_w phi (hN w z phi) /\ z = wgs_z phi (hN w z phi).
Proof.
  intros W Z. assert (PP := PI_RGT_0).
  destruct (IVT_cor (mN w z) 0 (PI / 2) (mN_continuous w z)) as (phi & Hp & E); [lra| |].
  { unfold mN. rewrite sin_0, cos_0, sin_PI2, cos_PI2. nra. }
  exists phi. split; [exact Hp|]. assert (SG := sg_pos phi). assert (SS := sg_sq phi). assert (SC := sc1 phi).
  unfold wgs_w, wgs_z, Nrad, hN. unfold mN in E. set (q := sqrt (1 - e2 * sin phi ^ 2)) in *. set (s := sin phi) in *. set (c := cos phi) in *. clearbody q s c.
  assert (E' : (- w * s + z * c) * q + e2 * wa * s * c = 0). { replace ((- w * s + z * c) * q + e2 * wa * s * c) with ((- w * s + z * c + e2 * wa * s * c / q) * q) by (field; lra). rewrite E. ring. }
  split; apply (Rmult_eq_reg_r q); try lra.
  - transitivity ((wa + (w * c + z * s - wa * q) * q) * c); [|field; lra]. transitivity (w * q * (s ^ 2 + c ^ 2)); [rewrite SC; ring|].
    replace ((wa + (w * c + z * s - wa * q) * q) * c) with ((wa * (1 - q * q) + (w * c + z * s) * q) * c) by ring. rewrite SS. apply Rminus_diag_uniq. transitivity (- s * ((- w * s + z * c) * q + e2 * wa * s * c)); [ring|rewrite E'; ring].
  - transitivity ((wa * (1 - e2) + (w * c + z * s - wa * q) * q) * s); [|field; lra]. transitivity (z * q * (s ^ 2 + c ^ 2)); [rewrite SC; ring|].
    replace ((wa * (1 - e2) + (w * c + z * s - wa * q) * q) * s) with ((wa * (1 - e2 - q * q) + (w * c + z * s) * q) * s) by ring. rewrite SS.
    replace (1 - e2 - (1 - e2 * s ^ 2)) with (- (e2 * c ^ 2)) by (replace (c ^ 2) with (1 - s ^ 2) by lra; ring). apply Rminus_diag_uniq. transitivity (c * ((- w * s + z * c) * q + e2 * wa * s * c)); [ring|rewrite E'; ring].
Qed.
(** the height of a point that is not inside the ellipsoid *)
Lemma geodetic_outside w z phi : 0 <= w -> 0 <= z -> 0 <= phi <= PI / 2 -> w = wgs_w phi (hN w z phi) -> z = wgs_z phi (hN w z phi) ->
  wa * wa * (1 - e2) <= w * w * (1 - e2) + z * z -> 0 <= hN w z phi.
Proof.
  intros W Z Hp EW EZ OUT. destruct (Rle_dec 0 (hN w z phi)) as [L|L]; [exact L|]. exfalso. assert (PP := PI_RGT_0). assert (E2 := e2_range).
  assert (S0 : 0 <= sin phi) by (apply sin_ge_0; lra). assert (C0 : 0 <= cos phi) by (apply cos_ge_0; lra).
  assert (SG := sg_pos phi). assert (SS := sg_sq phi). assert (SC := sc1 phi).
  assert (HL : - (wa * sqrt (1 - e2 * sin phi ^ 2)) <= hN w z phi). { unfold hN. assert (0 <= w * cos phi) by (apply Rmult_le_pos; assumption). assert (0 <= z * sin phi) by (apply Rmult_le_pos; assumption). lra. }
  set (h := hN w z phi) in *. clearbody h. unfold wgs_w, wgs_z, Nrad in EW, EZ. set (q := sqrt (1 - e2 * sin phi ^ 2)) in *. set (s := sin phi) in *. set (c := cos phi) in *. clearbody q s c.
  set (N := wa / q) in *. assert (EN : N * q = wa) by (unfold N; field; lra). assert (NP : 0 < N) by (unfold N; apply Rdiv_lt_0_compat; [unfold wa|]; lra). clearbody N.
  assert (HL' : - (N * (1 - e2 * s ^ 2)) <= h). { rewrite <- SS. replace (N * (q * q)) with (N * q * q) by ring. rewrite EN. exact HL. }
  assert (S1 : 0 <= s ^ 2 <= 1). { assert (0 <= c ^ 2) by apply pow2_ge_0. assert (0 <= s ^ 2) by apply pow2_ge_0. lra. }
  assert (ES : 0 <= e2 * s ^ 2 <= e2). { split; [apply Rmult_le_pos; lra|]. rewrite <- (Rmult_1_r e2) at 2. apply Rmult_le_compat_l; lra. }
  assert (NES : 0 <= N * (e2 * s ^ 2) <= N * e2). { split; [apply Rmult_le_pos; lra|]. apply Rmult_le_compat_l; lra. }
  assert (NE : 0 <= N * e2 <= N * 0.0067). { split; [apply Rmult_le_pos; lra|]. apply Rmult_le_compat_l; lra. }
  assert (WW : w * w <= N * N * c ^ 2). { rewrite EW. assert (A0 : 0 <= N + h) by lra. assert (A1 : (N + h) * (N + h) <= N * N) by (apply Rmult_le_compat; lra). replace ((N + h) * c * ((N + h) * c)) with ((N + h) * (N + h) * c ^ 2) by ring. apply Rmult_le_compat_r; [apply pow2_ge_0|assumption]. }
  assert (K0 : (N * (1 - e2) + h) * (N * (1 - e2) + h) <= N * N * ((1 - e2) * (1 - e2))).
  { assert (A : N * (1 - e2) + h <= N * (1 - e2)) by lra. assert (B : - (N * (1 - e2)) <= N * (1 - e2) + h) by lra. assert (0 < N * (1 - e2)) by nra. nra. }
  assert (ZZ : z * z <= N * N * ((1 - e2) * (1 - e2)) * s ^ 2). { rewrite EZ. replace ((N * (1 - e2) + h) * s * ((N * (1 - e2) + h) * s)) with ((N * (1 - e2) + h) * (N * (1 - e2) + h) * s ^ 2) by ring. apply Rmult_le_compat_r; [lra|exact K0]. }
  assert (EQ : N * N * c ^ 2 * (1 - e2) + N * N * ((1 - e2) * (1 - e2)) * s ^ 2 = wa * wa * (1 - e2)).
  { rewrite <- EN. transitivity (N * N * (1 - e2) * (c ^ 2 + (1 - e2) * s ^ 2)); [ring|]. replace (c ^ 2 + (1 - e2) * s ^ 2) with (q * q) by (rewrite SS; lra). ring. }
  (* equality forces h = 0 on one of the two coordinates *)
  assert (W2 : w * w = N * N * c ^ 2) by nra. assert (Z2 : z * z = N * N * ((1 - e2) * (1 - e2)) * s ^ 2) by nra.
  destruct (Req_dec c 0) as [Ec|Nc].
  - assert (s ^ 2 = 1) by (rewrite Ec in SC; lra). assert (s = 1) by nra. subst s c. rewrite EZ in Z2.
    assert (h * (2 * (N * (1 - e2)) + h) = 0) by nra. nra.
  - rewrite EW in W2. assert (0 < c ^ 2) by nra. assert (h * (2 * N + h) * c ^ 2 = 0) by nra. nra.
Qed.
Lemma height_bracket w z phi r : 0 <= w -> 0 <= z -> 0 <= phi <= PI / 2 -> w = wgs_w phi (hN w z phi) -> z = wgs_z phi (hN w z phi) -> 0 <= r -> r * r = w * w + z * z ->
  0 <= hN w z phi -> r - wa <= hN w z phi <= r - wa * sqrt (1 - e2).
Proof.
  intros W Z Hp EW EZ R0 RR H0. assert (E2 := e2_range). assert (SG := sg_pos phi). assert (SS := sg_sq phi). assert (SC := sc1 phi). split.
  - set (h := hN w z phi) in *. clearbody h. unfold wgs_w, wgs_z, Nrad in EW, EZ. set (q := sqrt (1 - e2 * sin phi ^ 2)) in *. set (s := sin phi) in *. set (c := cos phi) in *. clearbody q s c.
    set (N := wa / q) in *. assert (EN : N * q = wa) by (unfold N; field; lra). assert (NP : 0 < N) by (unfold N; apply Rdiv_lt_0_compat; [unfold wa|]; lra). clearbody N.
    assert (WA : 0 < wa) by (unfold wa; lra). assert (S1 : 0 <= s ^ 2 <= 1) by nra. assert (Q1 : q <= 1) by nra.
    assert (KK : r * r <= (wa + h) * (wa + h)).
    { rewrite RR, EW, EZ. apply Rle_trans with (N * N * (c ^ 2 + (1 - e2) * (1 - e2) * s ^ 2) + 2 * (h * (N * (q * q))) + h * h).
      - right. replace (q * q) with (c ^ 2 + (1 - e2) * s ^ 2) by (rewrite SS; lra). transitivity (N * N * (c ^ 2 + (1 - e2) * (1 - e2) * s ^ 2) + 2 * (h * (N * (c ^ 2 + (1 - e2) * s ^ 2))) + h * h * (s ^ 2 + c ^ 2)); [ring|]. rewrite SC. ring.
      - assert (A : c ^ 2 + (1 - e2) * (1 - e2) * s ^ 2 <= q * q). { rewrite SS. nra. }
        assert (N * N * (c ^ 2 + (1 - e2) * (1 - e2) * s ^ 2) <= wa * wa). { rewrite <- EN. replace (N * q * (N * q)) with (N * N * (q * q)) by ring. apply Rmult_le_compat_l; [nra|exact A]. }
        assert (N * (q * q) <= wa). { rewrite <- EN. replace (N * (q * q)) with (N * q * q) by ring. rewrite <- (Rmult_1_r (N * q)) at 2. apply Rmult_le_compat_l; [nra|exact Q1]. }
        assert (h * (N * (q * q)) <= h * wa) by (apply Rmult_le_compat_l; assumption). lra. }
    assert (r <= wa + h) by nra. lra.
  - unfold hN. assert (A : w * cos phi + z * sin phi <= r). { assert ((w * cos phi + z * sin phi) ^ 2 <= r * r). { rewrite RR. assert (0 <= (w * sin phi - z * cos phi) ^ 2) by apply pow2_ge_0. nra. } nra. }
    assert (B : sqrt (1 - e2) <= sqrt (1 - e2 * sin phi ^ 2)). { apply sqrt_le_1_alt. assert (0 <= cos phi ^ 2) by apply pow2_ge_0. nra. }
    assert (wa * sqrt (1 - e2) <= wa * sqrt (1 - e2 * sin phi ^ 2)) by (apply Rmult_le_compat_l; [unfold wa; lra|exact B]). lra.
Qed.
Lemma polar x y : exists lam, - PI < lam <= PI /\ x = sqrt (x * x + y * y) * cos lam /\ y = sqrt (x * x + y * y) * sin lam.
Proof.
  assert (PP := PI_RGT_0). set (w := sqrt (x * x + y * y)). assert (S0 : 0 <= x * x + y * y) by nra. assert (WW : w * w = x * x + y * y) by (apply sqrt_sqrt, S0). assert (W0 : 0 <= w) by apply sqrt_pos. clearbody w.
  destruct (Req_dec w 0) as [->|N]. { exists 0. rewrite Rmult_0_l in WW. split; [lra|]. split; nra. }
  assert (P : 0 < w) by lra. assert (X : -1 <= x / w <= 1). { split; [apply (Rmult_le_reg_r w)|apply (Rmult_le_reg_r w)]; try exact P; unfold Rdiv; rewrite Rmult_assoc, Rinv_l by lra; nra. }
  assert (SA : sin (acos (x / w)) = Rabs y / w).
  { rewrite sin_acos by exact X. apply sqrt_lem_1; [unfold Rsqr; nra|apply Rmult_le_pos; [apply Rabs_pos|left; apply Rinv_0_lt_compat, P]|].
    assert (YY : Rabs y * Rabs y = y * y) by (rewrite <- Rabs_mult; apply Rabs_pos_eq; nra). unfold Rsqr. replace (Rabs y / w * (Rabs y / w)) with (Rabs y * Rabs y / (w * w)) by (field; lra). rewrite YY. replace (y * y) with (w * w - x * x) by lra. field. lra. }
  assert (B := acos_bound (x / w)).
  destruct (Rle_dec 0 y) as [Y|Y].
  - exists (acos (x / w)). rewrite cos_acos by exact X. rewrite SA, (Rabs_pos_eq y Y). split; [lra|]. split; field; lra.
  - assert (acos (x / w) <> PI). { intros E. rewrite E, sin_PI, Rabs_left in SA by lra. assert (- y = 0) by (replace (- y) with (- y / w * w) by (field; lra); rewrite <- SA; ring). lra. }
    exists (- acos (x / w)). rewrite cos_neg, sin_neg, cos_acos by exact X. rewrite SA, Rabs_left by lra. split; [lra|]. split; field; lra.
Qed.
Lemma lla_total (p : v3) : wa * wa * (1 - e2) <= (x3 p * x3 p + y3 p * y3 p) * (1 - e2) + z3 p * z3 p ->
  exists phi lam h lat lon hh, - (PI / 2) <= phi <= PI / 2 /\ - PI < lam <= PI /\ 0 <= h /\
  p = mk3 (wgs_w phi h * cos lam) (wgs_w phi h * sin lam) (wgs_z phi h) /\ norm3 p - wa <= h <= norm3 p - wa * sqrt (1 - e2) /\
  ecef_to_lla p = Ok (lat, lon, hh) /\ Rabs (lat - degrees phi) <= 2 / 10 ^ 14 /\ Rabs (hh - h) <= 3 / 10 ^ 23 * norm3 p /\
  (phi <> PI / 2 -> phi <> - (PI / 2) -> lon = degrees lam).
Proof.
  intros OUT. assert (PP := PI_RGT_0). destruct p as [x y z]. cbn [x3 y3 z3] in *. set (w := sqrt (x * x + y * y)). assert (S0 : 0 <= x * x + y * y) by nra.
  assert (WW : w * w = x * x + y * y) by (apply sqrt_sqrt, S0). assert (W0 : 0 <= w) by apply sqrt_pos. destruct (polar x y) as (lam & HL & EX & EY). fold w in EX, EY. clearbody w.
  assert (ZZ : Rabs z * Rabs z = z * z) by (rewrite <- Rabs_mult; apply Rabs_pos_eq; nra).
  destruct (geodetic_exists w (Rabs z) W0 (Rabs_pos z)) as (phi & Hp & EW & EZ).
  assert (H0 := geodetic_outside w (Rabs z) phi W0 (Rabs_pos z) Hp EW EZ ltac:(rewrite WW, ZZ; exact OUT)).
  set (r := norm3 (mk3 x y z)). assert (R0 : 0 <= r) by (unfold r, norm3; rnumg; apply sqrt_pos).
  assert (RR : r * r = w * w + Rabs z * Rabs z). { unfold r, norm3, dot3. cbn [x3 y3 z3]. rnumg. rewrite sqrt_sqrt by nra. rewrite WW, ZZ. ring. }
  assert (HB := height_bracket w (Rabs z) phi r W0 (Rabs_pos z) Hp EW EZ R0 RR H0). set (h := hN w (Rabs z) phi) in *. clearbody h.
  set (phi' := if Rle_dec 0 z then phi else - phi).
  assert (EP : mk3 x y z = mk3 (wgs_w phi' h * cos lam) (wgs_w phi' h * sin lam) (wgs_z phi' h)).
  { unfold phi'. destruct (Rle_dec 0 z) as [L|L].
    - rewrite Rabs_pos_eq in EZ by exact L. rewrite <- EW, <- EZ. apply mk3_c; assumption || reflexivity.
    - destruct (wgs_even phi h) as [A B]. rewrite A, B, <- EW, <- EZ, Rabs_left by lra. apply mk3_c; try assumption. ring. }
  assert (HP' : - (PI / 2) <= phi' <= PI / 2) by (unfold phi'; destruct (Rle_dec 0 z); lra).
  destruct (lla_accurate phi' lam h HP' HL ltac:(lra)) as (lat & lon & hh & E & A & B & C). rewrite <- EP in E, B.
  exists phi', lam, h, lat, lon, hh. repeat split; try assumption; try apply HP'; try apply HL; try apply HB.
Qed.
