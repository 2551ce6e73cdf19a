(** * The residual of ecef_to_lla's initial guess: third order in the squared eccentricity *)
From Coq Require Import Reals QArith Qreals List Bool Lra Lia Psatz.
From Verif Require Import P_poly.
Import ListNotations.
Local Open Scope R_scope.

Lemma sqrt_between u lo hi : 0 <= lo -> 0 <= hi -> lo * lo <= u -> u <= hi * hi -> lo <= sqrt u <= hi.
Proof.
  intros L H A B. split.
  - rewrite <- (sqrt_square lo L). apply sqrt_le_1_alt, A.
  - rewrite <- (sqrt_square hi H). apply sqrt_le_1_alt, B.
Qed.
Lemma sqrt_minus x : 0 <= x <= 0.1 -> 1 - x / 2 - x * x / 8 - x * x * x / 16 - 1 / 20 * (x * x * (x * x)) <= sqrt (1 - x) <= 1 - x / 2 - x * x / 8 - x * x * x / 16.
Proof.
  intros X. assert (0 <= x * x <= 0.01) by nra. assert (0 <= x * x * x <= 0.001) by nra. assert (F : 0 <= x * x * (x * x) <= 0.0001) by nra.
  apply sqrt_between; [lra|lra| |].
  - assert (E : (1 - x / 2 - x * x / 8 - x * x * x / 16 - 1 / 20 * (x * x * (x * x))) * (1 - x / 2 - x * x / 8 - x * x * x / 16 - 1 / 20 * (x * x * (x * x)))
      = 1 - x + (x * x * (x * x)) * (5 / 64 + x / 64 + x * x / 256 - 1 / 10 * (1 - x / 2 - x * x / 8 - x * x * x / 16) + 1 / 400 * (x * x * (x * x)))) by field.
    rewrite E. nra.
  - assert (E : (1 - x / 2 - x * x / 8 - x * x * x / 16) * (1 - x / 2 - x * x / 8 - x * x * x / 16)
      = 1 - x + (x * x * (x * x)) * (5 / 64 + x / 64 + x * x / 256)) by field.
    rewrite E. nra.
Qed.
Lemma sqrt_plus x : 0 <= x <= 0.1 -> 1 + x / 2 - x * x / 8 + x * x * x / 16 - 1 / 20 * (x * x * (x * x)) <= sqrt (1 + x) <= 1 + x / 2 - x * x / 8 + x * x * x / 16.
Proof.
  intros X. assert (0 <= x * x <= 0.01) by nra. assert (0 <= x * x * x <= 0.001) by nra. assert (F : 0 <= x * x * (x * x) <= 0.0001) by nra.
  apply sqrt_between; [lra|lra| |].
  - assert (E : (1 + x / 2 - x * x / 8 + x * x * x / 16 - 1 / 20 * (x * x * (x * x))) * (1 + x / 2 - x * x / 8 + x * x * x / 16 - 1 / 20 * (x * x * (x * x)))
      = 1 + x + (x * x * (x * x)) * (5 / 64 - x / 64 + x * x / 256 - 1 / 10 * (1 + x / 2 - x * x / 8 + x * x * x / 16) + 1 / 400 * (x * x * (x * x)))) by field.
    rewrite E. nra.
  - assert (E : (1 + x / 2 - x * x / 8 + x * x * x / 16) * (1 + x / 2 - x * x / 8 + x * x * x / 16)
      = 1 + x + (x * x * (x * x)) * (5 / 64 - x / 64 + x * x / 256)) by field.
    rewrite E. nra.
Qed.
Lemma isqrt_minus y : 0 <= y <= 0.1 -> 1 + y / 2 + 3 / 8 * (y * y) <= / sqrt (1 - y) <= 1 + y / 2 + 3 / 8 * (y * y) + 7 / 20 * (y * y * y).
Proof.
  intros Y. assert (A : 0 <= y * y <= 0.01) by nra. assert (B : 0 <= y * y * y <= 0.001) by nra.
  assert (G : 0 < 1 - y) by lra. rewrite <- sqrt_inv. apply sqrt_between; [lra|lra| |].
  - apply (Rmult_le_reg_r (1 - y)); [lra|]. rewrite Rinv_l by lra.
    assert (E : (1 + y / 2 + 3 / 8 * (y * y)) * (1 + y / 2 + 3 / 8 * (y * y)) * (1 - y) = 1 - (y * y * y) * (5 / 8 + 15 / 64 * y + 9 / 64 * (y * y))) by field.
    rewrite E. nra.
  - apply (Rmult_le_reg_r (1 - y)); [lra|]. rewrite Rinv_l by lra. set (c := y * y * y) in *.
    assert (E : (1 + y / 2 + 3 / 8 * (y * y) + 7 / 20 * c) * (1 + y / 2 + 3 / 8 * (y * y) + 7 / 20 * c) * (1 - y)
       = 1 + c * (7 / 10 * (1 + y / 2 + 3 / 8 * (y * y)) * (1 - y) - (5 / 8 + 15 / 64 * y + 9 / 64 * (y * y)) + 49 / 400 * c * (1 - y))) by (unfold c; field).
    rewrite E. clearbody c.
    assert (0 <= 7 / 10 * (1 + y / 2 + 3 / 8 * (y * y)) * (1 - y) - (5 / 8 + 15 / 64 * y + 9 / 64 * (y * y)) + 49 / 400 * c * (1 - y)); [|nra].
    assert (0 <= c * (1 - y)) by nra. assert (0 <= y * y * (1 - y)) by nra. nra.
Qed.

(** the same as an exact equation with a scaled remainder *)
Lemma scaled lo e q : 0 < e -> lo - 0.9 * e <= q <= lo -> exists n, q = lo - e * n /\ Rabs n <= 0.9.
Proof.
  intros E H. exists ((lo - q) / e). split; [field; lra|].
  rewrite Rabs_pos_eq; [apply (Rmult_le_reg_r e); [lra|]; replace ((lo - q) / e * e) with (lo - q) by (field; lra); lra|].
  apply Rmult_le_pos; [lra|left; apply Rinv_0_lt_compat; lra].
Qed.
Lemma scaled_up lo e q : 0 < e -> lo <= q <= lo + 0.4 * e -> exists n, q = lo + e * n /\ Rabs n <= 0.4.
Proof.
  intros E H. exists ((q - lo) / e). split; [field; lra|].
  rewrite Rabs_pos_eq; [apply (Rmult_le_reg_r e); [lra|]; replace ((q - lo) / e * e) with (q - lo) by (field; lra); lra|].
  apply Rmult_le_pos; [lra|left; apply Rinv_0_lt_compat; lra].
Qed.

(** variables: 0 = e^2, 1 = a/r, 2 = sin^2 of the geocentric latitude, 3 and 4 = remainders, 5 = second-order term of the guess *)
Definition vE := PV 0. Definition vr := PV 1. Definition vS := PV 2. Definition vn := PV 3. Definition vz := PV 4. Definition vb := PV 5.
Definition PS a b := PA a (PO b).
Definition one := PC 1%Q.
Definition pT := PM vE (PA vr (PM vE vb)).
Definition pk := PS one vS.
Definition pE3 := PM vE (PM vE vE).
Definition pisg (y : pe) := PA (PA (PA one (PM (PC (1 # 2)) y)) (PM (PC (3 # 8)) (PM y y))) (PM pE3 vz).
(** branch 1 *)
Definition p1x := PM vS (PA (PM (PC 2%Q) pT) (PM pk (PM pT pT))).
Definition p1q := PS (PS (PS (PS one (PM (PC (1 # 2)) p1x)) (PM (PC (1 # 8)) (PM p1x p1x))) (PM (PC (1 # 16)) (PM p1x (PM p1x p1x)))) (PM (PM vE pE3) vn).
Definition p1A := PA one (PM pk pT).
Definition p1y := PM vE (PM vS (PM p1A p1A)).
Definition p1F := PA (PA (PO p1A) p1q) (PM (PM vE (PM vr p1A)) (PM p1q (pisg p1y))).
(** branch 2 *)
Definition p2x := PM pk (PS (PM (PC 2%Q) pT) (PM vS (PM pT pT))).
Definition p2S := PS (PA (PS (PA one (PM (PC (1 # 2)) p2x)) (PM (PC (1 # 8)) (PM p2x p2x))) (PM (PC (1 # 16)) (PM p2x (PM p2x p2x)))) (PM (PM vE pE3) vn).
Definition p2y := PM vE (PM vS (PA one p2x)).
Definition p2F := PA (PO p2S) (PM (PS one (PM vS pT)) (PA one (PM (PM vE vr) (PM p2S (pisg p2y))))).

Definition box : list Q := [67 # 10000; 1006 # 1000; 1; 9 # 10; 4 # 10; 16 # 10]%Q.
Definition low1 : poly :=
  [([3%nat; 1%nat; 2%nat], 3 # 8); ([3%nat; 2%nat; 1%nat], 3 # 2); ([3%nat; 2%nat; 2%nat], (-2)%Q); ([2%nat; 1%nat; 1%nat], 1 # 2);
   ([2%nat; 2%nat; 1%nat], -5 # 2); ([3%nat; 1%nat; 1%nat; 0%nat; 0%nat; 1%nat], (-3)%Q); ([3%nat; 3%nat; 1%nat], -3 # 2);
   ([3%nat; 3%nat; 2%nat], 1 # 2); ([2%nat; 2%nat], 1%Q); ([3%nat; 1%nat; 0%nat; 0%nat; 0%nat; 1%nat], 1%Q);
   ([2%nat; 0%nat; 0%nat; 0%nat; 0%nat; 1%nat], (-1)%Q)].
Definition low2 : poly :=
  [([3%nat; 1%nat; 2%nat], 3 # 8); ([3%nat; 2%nat; 1%nat], 3 # 2); ([3%nat; 2%nat; 2%nat], (-2)%Q); ([2%nat; 1%nat; 1%nat], 1 # 2);
   ([2%nat; 2%nat; 1%nat], -5 # 2); ([3%nat; 1%nat; 1%nat; 0%nat; 0%nat; 1%nat], (-3)%Q); ([2%nat; 2%nat], 3 # 2);
   ([3%nat; 1%nat; 0%nat; 0%nat; 0%nat; 1%nat], 2%Q); ([3%nat; 3%nat], (-1)%Q); ([3%nat; 3%nat; 2%nat], 1 # 2); ([3%nat; 3%nat; 1%nat], 1 # 2);
   ([2%nat; 0%nat; 0%nat; 0%nat; 0%nat; 1%nat], (-1)%Q)].
Lemma norm1 : (let p := pnorm p1F in (plow 3 p, mlen 6 (phigh 3 p), Qle_bool (pbound box (phigh 3 p)) (45 # 100))) = (low1, true, true).
Proof. vm_compute. reflexivity. Qed.
Lemma norm2 : (let p := pnorm p2F in (plow 3 p, mlen 6 (phigh 3 p), Qle_bool (pbound box (phigh 3 p)) (45 # 100))) = (low2, true, true).
Proof. vm_compute. reflexivity. Qed.
