(** * FLAE *)
From Coq Require Import Reals ZArith List Bool Lra Psatz.
From Verif Require Import Num Vec M_vector M_quaternion M_att S_rot P_quat P_triad.
Import ListNotations.
Local Open Scope R_scope.
Notation m4 := (M4 R).

Definition mulW (W : m4) (x : quat) : quat := mkq (dotq (r0 W) x) (dotq (r1' W) x) (dotq (r2' W) x) (dotq (r3' W) x).
Ltac m4unfold := cbv [det4 minor3 shift flae_W tau1 tau2 tau3 quartic mulW r0 r1' r2' r3'].
Ltac mring := intros; repeat match goal with m : M4 _ |- _ => destruct m as [? ? ? ?] end; vdestruct; m4unfold; vunfoldg; rnumg; vsplit; ring.

(** the quartic is the characteristic polynomial *)
Lemma charpoly (Hx Hy Hz : v3) lam :
  det4 (shift (flae_W Hx Hy Hz) lam) = quartic (tau1 Hx Hy Hz) (tau2 Hx Hy Hz) (tau3 Hx Hy Hz) lam.
Proof. mring. Qed.

(** a non-zero kernel vector makes the determinant zero *)
Lemma det_kernel (N : m4) (x : quat) : mulW N x = zeroq -> x <> zeroq -> det4 N = 0.
Proof.
  intros H Hx.
  assert (E : forall c : R, det4 N * c = 0 -> c <> 0 -> det4 N = 0).
  { intros c Hc Hn. apply Rmult_integral in Hc. destruct Hc; [assumption|contradiction]. }
  assert (A : det4 N * qw x = 0 /\ det4 N * qx x = 0 /\ det4 N * qy x = 0 /\ det4 N * qz x = 0).
  { set (y := mulW N x) in *.
    assert (B : det4 N * qw x = det4 (mkm4 (mkq (qw y) (qx (r0 N)) (qy (r0 N)) (qz (r0 N))) (mkq (qx y) (qx (r1' N)) (qy (r1' N)) (qz (r1' N)))
        (mkq (qy y) (qx (r2' N)) (qy (r2' N)) (qz (r2' N))) (mkq (qz y) (qx (r3' N)) (qy (r3' N)) (qz (r3' N)))) /\
      det4 N * qx x = det4 (mkm4 (mkq (qw (r0 N)) (qw y) (qy (r0 N)) (qz (r0 N))) (mkq (qw (r1' N)) (qx y) (qy (r1' N)) (qz (r1' N)))
        (mkq (qw (r2' N)) (qy y) (qy (r2' N)) (qz (r2' N))) (mkq (qw (r3' N)) (qz y) (qy (r3' N)) (qz (r3' N)))) /\
      det4 N * qy x = det4 (mkm4 (mkq (qw (r0 N)) (qx (r0 N)) (qw y) (qz (r0 N))) (mkq (qw (r1' N)) (qx (r1' N)) (qx y) (qz (r1' N)))
        (mkq (qw (r2' N)) (qx (r2' N)) (qy y) (qz (r2' N))) (mkq (qw (r3' N)) (qx (r3' N)) (qz y) (qz (r3' N)))) /\
      det4 N * qz x = det4 (mkm4 (mkq (qw (r0 N)) (qx (r0 N)) (qy (r0 N)) (qw y)) (mkq (qw (r1' N)) (qx (r1' N)) (qy (r1' N)) (qx y))
        (mkq (qw (r2' N)) (qx (r2' N)) (qy (r2' N)) (qy y)) (mkq (qw (r3' N)) (qx (r3' N)) (qy (r3' N)) (qz y)))).
    { unfold y. clear. repeat split; mring. }
    rewrite H in B. destruct B as (B1 & B2 & B3 & B4). rewrite B1, B2, B3, B4. clear. unfold zeroq. repeat split; mring. }
  destruct A as (A1 & A2 & A3 & A4).
  destruct (Req_dec (qw x) 0) as [Z1|N1]; [|exact (E _ A1 N1)].
  destruct (Req_dec (qx x) 0) as [Z2|N2]; [|exact (E _ A2 N2)].
  destruct (Req_dec (qy x) 0) as [Z3|N3]; [|exact (E _ A3 N3)].
  destruct (Req_dec (qz x) 0) as [Z4|N4]; [|exact (E _ A4 N4)].
  exfalso; apply Hx. apply Q4_eq; assumption.
Qed.

(** ** elimination *)
Ltac eunfold := cbv [elim0 elim1 elim2 sub4 r0 r1' r2' r3'].
Lemma elim0_spec (N : m4) : qw (r0 N) <> 0 ->
  let E := elim0 N in
  r0 N = scaleq (qw (r0 N)) (r0 E) /\ r1' N = addq (r1' E) (scaleq (qw (r1' N)) (r0 E)) /\
  r2' N = addq (r2' E) (scaleq (qw (r2' N)) (r0 E)) /\ r3' N = addq (r3' E) (scaleq (qw (r3' N)) (r0 E)) /\
  qw (r0 E) = 1 /\ qw (r1' E) = 0 /\ qw (r2' E) = 0 /\ qw (r3' E) = 0.
Proof.
  destruct N as [[a b c d] [e f g h] [i j k l] [m n o p]]. cbn [r0 r1' r2' r3' qw]. intros H. eunfold. vunfoldg. rnumg.
  repeat split; vsplit; field; exact H.
Qed.
Lemma elim1_spec (N : m4) : qx (r1' N) <> 0 -> qw (r0 N) = 1 -> qw (r1' N) = 0 -> qw (r2' N) = 0 -> qw (r3' N) = 0 ->
  let E := elim1 N in
  r1' N = scaleq (qx (r1' N)) (r1' E) /\ r0 N = addq (r0 E) (scaleq (qx (r0 N)) (r1' E)) /\
  r2' N = addq (r2' E) (scaleq (qx (r2' N)) (r1' E)) /\ r3' N = addq (r3' E) (scaleq (qx (r3' N)) (r1' E)) /\
  qw (r0 E) = 1 /\ qw (r1' E) = 0 /\ qw (r2' E) = 0 /\ qw (r3' E) = 0 /\
  qx (r0 E) = 0 /\ qx (r1' E) = 1 /\ qx (r2' E) = 0 /\ qx (r3' E) = 0.
Proof.
  destruct N as [[a b c d] [e f g h] [i j k l] [m n o p]]. cbn [r0 r1' r2' r3' qw qx]. intros H -> -> -> ->. eunfold. vunfoldg. rnumg.
  repeat split; vsplit; field; exact H.
Qed.
Lemma elim2_spec (N : m4) : qy (r2' N) <> 0 -> qw (r0 N) = 1 -> qw (r1' N) = 0 -> qw (r2' N) = 0 -> qw (r3' N) = 0 ->
  qx (r0 N) = 0 -> qx (r1' N) = 1 -> qx (r2' N) = 0 -> qx (r3' N) = 0 ->
  let E := elim2 N in
  r2' N = scaleq (qy (r2' N)) (r2' E) /\ r0 N = addq (r0 E) (scaleq (qy (r0 N)) (r2' E)) /\
  r1' N = addq (r1' E) (scaleq (qy (r1' N)) (r2' E)) /\ r3' N = addq (r3' E) (scaleq (qy (r3' N)) (r2' E)) /\
  r0 E = mkq 1 0 0 (qz (r0 E)) /\ r1' E = mkq 0 1 0 (qz (r1' E)) /\ r2' E = mkq 0 0 1 (qz (r2' E)) /\ r3' E = mkq 0 0 0 (qz (r3' E)).
Proof.
  destruct N as [[a b c d] [e f g h] [i j k l] [m n o p]]. cbn [r0 r1' r2' r3' qw qx qy]. intros H -> -> -> -> -> -> -> ->. eunfold. vunfoldg. rnumg.
  repeat split; vsplit; field; exact H.
Qed.
Lemma dotq_scale (s : R) (a b : quat) : dotq (scaleq s a) b = s * dotq a b. Proof. mring. Qed.
Lemma dotq_add (a b c : quat) : dotq (addq a b) c = dotq a c + dotq b c. Proof. mring. Qed.

Definition pivots_ok (N : m4) : Prop := let '(p0, p1, p2) := pivots N in p0 <> 0 /\ p1 <> 0 /\ p2 <> 0.
Definition kvec (N : m4) : quat :=
  let E := elim2 (elim1 (elim0 N)) in mkq (qz (r0 E)) (qz (r1' E)) (qz (r2' E)) (-1).

(** the determinant is the product of the pivots and the last entry *)
Lemma elim_det (N : m4) : pivots_ok N ->
  det4 N = qw (r0 N) * qx (r1' (elim0 N)) * qy (r2' (elim1 (elim0 N))) * qz (r3' (elim2 (elim1 (elim0 N)))).
Proof.
  intros (P0 & P1 & P2).
  destruct (elim0_spec N P0) as (A0 & A1 & A2 & A3 & C0 & C1 & C2 & C3).
  set (E0 := elim0 N) in *.
  destruct (elim1_spec E0 P1 C0 C1 C2 C3) as (B1 & B0 & B2 & B3 & D0 & D1 & D2 & D3 & F0 & F1 & F2 & F3).
  set (E1 := elim1 E0) in *.
  destruct (elim2_spec E1 P2 D0 D1 D2 D3 F0 F1 F2 F3) as (G2 & G0 & G1 & G3 & K0 & K1 & K2 & K3).
  set (E2 := elim2 E1) in *.
  assert (DN : det4 N = qw (r0 N) * det4 E0).
  { transitivity (det4 (mkm4 (r0 N) (r1' N) (r2' N) (r3' N))); [destruct N; reflexivity|].
    generalize (qw (r0 N)) (qw (r1' N)) (qw (r2' N)) (qw (r3' N)) A0 A1 A2 A3. intros k0 k1 k2 k3 -> -> -> ->. generalize E0. clear. mring. }
  assert (DE0 : det4 E0 = qx (r1' E0) * det4 E1).
  { transitivity (det4 (mkm4 (r0 E0) (r1' E0) (r2' E0) (r3' E0))); [destruct E0; reflexivity|].
    revert B0 B1 B2 B3. generalize (qx (r0 E0)) (qx (r1' E0)) (qx (r2' E0)) (qx (r3' E0)). intros k0 k1 k2 k3 -> -> -> ->. generalize E1. clear. mring. }
  assert (DE1 : det4 E1 = qy (r2' E1) * det4 E2).
  { transitivity (det4 (mkm4 (r0 E1) (r1' E1) (r2' E1) (r3' E1))); [destruct E1; reflexivity|].
    revert G0 G1 G2 G3. generalize (qy (r0 E1)) (qy (r1' E1)) (qy (r2' E1)) (qy (r3' E1)). intros k0 k1 k2 k3 -> -> -> ->. generalize E2. clear. mring. }
  assert (DE2 : det4 E2 = qz (r3' E2)).
  { transitivity (det4 (mkm4 (r0 E2) (r1' E2) (r2' E2) (r3' E2))); [destruct E2; reflexivity|].
    rewrite K0, K1, K2, K3. generalize (qz (r0 E2)) (qz (r1' E2)) (qz (r2' E2)) (qz (r3' E2)). clear. mring. }
  rewrite DN, DE0, DE1, DE2. ring.
Qed.
Lemma kvec_kernel (N : m4) : pivots_ok N -> det4 N = 0 -> mulW N (kvec N) = zeroq.
Proof.
  intros HP HD. assert (Z := elim_det N HP). rewrite HD in Z. destruct HP as (P0 & P1 & P2).
  assert (Z4 : qz (r3' (elim2 (elim1 (elim0 N)))) = 0).
  { symmetry in Z. apply Rmult_integral in Z. destruct Z as [Z|Z]; [|exact Z]. exfalso.
    apply Rmult_integral in Z. destruct Z as [Z|Z]; [|exact (P2 Z)]. apply Rmult_integral in Z. destruct Z; contradiction. }
  destruct (elim0_spec N P0) as (A0 & A1 & A2 & A3 & C0 & C1 & C2 & C3).
  unfold kvec. set (E0 := elim0 N) in *.
  destruct (elim1_spec E0 P1 C0 C1 C2 C3) as (B1 & B0 & B2 & B3 & D0 & D1 & D2 & D3 & F0 & F1 & F2 & F3).
  set (E1 := elim1 E0) in *.
  destruct (elim2_spec E1 P2 D0 D1 D2 D3 F0 F1 F2 F3) as (G2 & G0 & G1 & G3 & K0 & K1 & K2 & K3).
  set (E2 := elim2 E1) in *.
  set (x := mkq (qz (r0 E2)) (qz (r1' E2)) (qz (r2' E2)) (-1)).
  assert (X0 : dotq (r0 E2) x = 0) by (rewrite K0; unfold x; generalize (qz (r0 E2)) (qz (r1' E2)) (qz (r2' E2)); clear; mring).
  assert (X1 : dotq (r1' E2) x = 0) by (rewrite K1; unfold x; generalize (qz (r0 E2)) (qz (r1' E2)) (qz (r2' E2)); clear; mring).
  assert (X2 : dotq (r2' E2) x = 0) by (rewrite K2; unfold x; generalize (qz (r0 E2)) (qz (r1' E2)) (qz (r2' E2)); clear; mring).
  assert (X3 : dotq (r3' E2) x = 0) by (rewrite K3, Z4; unfold x; generalize (qz (r0 E2)) (qz (r1' E2)) (qz (r2' E2)); clear; mring).
  assert (Y0 : dotq (r0 E1) x = 0) by (rewrite G0, dotq_add, dotq_scale, X0, X2; ring).
  assert (Y1 : dotq (r1' E1) x = 0) by (rewrite G1, dotq_add, dotq_scale, X1, X2; ring).
  assert (Y2 : dotq (r2' E1) x = 0) by (rewrite G2, dotq_scale, X2; ring).
  assert (Y3 : dotq (r3' E1) x = 0) by (rewrite G3, dotq_add, dotq_scale, X3, X2; ring).
  assert (W0 : dotq (r0 E0) x = 0) by (rewrite B0, dotq_add, dotq_scale, Y0, Y1; ring).
  assert (W1 : dotq (r1' E0) x = 0) by (rewrite B1, dotq_scale, Y1; ring).
  assert (W2 : dotq (r2' E0) x = 0) by (rewrite B2, dotq_add, dotq_scale, Y2, Y1; ring).
  assert (W3 : dotq (r3' E0) x = 0) by (rewrite B3, dotq_add, dotq_scale, Y3, Y1; ring).
  unfold mulW, zeroq. apply mkq_c.
  - rewrite A0, dotq_scale, W0; ring.
  - rewrite A1, dotq_add, dotq_scale, W1, W0; ring.
  - rewrite A2, dotq_add, dotq_scale, W2, W0; ring.
  - rewrite A3, dotq_add, dotq_scale, W3, W0; ring.
Qed.
Lemma mulW_shift (W : m4) lam x : mulW (shift W lam) x = subq (mulW W x) (scaleq lam x).
Proof. mring. Qed.
Lemma mulW_scale (W : m4) s x : mulW W (scaleq s x) = scaleq s (mulW W x).
Proof. mring. Qed.
Lemma kvec_nz (N : m4) : kvec N <> zeroq.
Proof. unfold kvec, zeroq. intros E. injection E. intros. lra. Qed.
Lemma kernel_quat_kvec (W : m4) lam : kernel_quat W lam = normalizeq (kvec (shift W lam)).
Proof. unfold kernel_quat, kvec. rnumg. replace (-1) with (Ropp 1) by lra. reflexivity. Qed.
Lemma subq_zero (a b : quat) : subq a b = zeroq -> a = b.
Proof. destruct a as [a b1 c d], b as [a' b' c' d']. unfold zeroq. vunfold; rnum. intros E. injection E; intros. f_equal; lra. Qed.
Lemma kernel_quat_eigen (W : m4) lam : pivots_ok (shift W lam) -> det4 (shift W lam) = 0 ->
  unitq (kernel_quat W lam) /\ mulW W (kernel_quat W lam) = scaleq lam (kernel_quat W lam).
Proof.
  intros HP HD. rewrite kernel_quat_kvec. split; [apply normalizeq_unit, kvec_nz|].
  assert (K := kvec_kernel _ HP HD). rewrite mulW_shift in K. apply subq_zero in K.
  rewrite (normalizeq_nz _ (kvec_nz _)), mulW_scale, K. clear. generalize (/ normq (kvec (shift W lam))). generalize (kvec (shift W lam)). mring.
Qed.

(** ** the sums *)
Definition rsumf {A} (f : A -> R) (l : list A) : R := fold_right (fun x s => f x + s) 0 l.
Lemma fold_left_rsumf {A} (f : A -> R) l : forall s, fold_left (fun s x => s + f x) l s = s + rsumf f l.
Proof. induction l as [|x l IH]; intros s; cbn [fold_left rsumf fold_right]; [ring|]. rewrite IH. unfold rsumf. ring. Qed.
Definition meas := (R * v3 * v3)%type.
Definition ma (k : meas) : R := fst (fst k).
Definition mr (k : meas) : v3 := snd (fst k).
Definition mb (k : meas) : v3 := snd k.
Lemma sum_across_eq (l : list meas) ci cj : sum_across l ci cj = rsumf (fun k => ma k * ci (mr k) * cj (mb k)) l.
Proof.
  unfold sum_across. rnumg.
  assert (E : forall s, fold_left (fun s '(a, r, b) => s + a * ci r * cj b) l s = s + rsumf (fun k => ma k * ci (mr k) * cj (mb k)) l).
  { induction l as [|[[a r] b] l IH]; intros s; cbn [fold_left rsumf fold_right]; [ring|]. rewrite IH. unfold rsumf, ma, mr, mb. cbn [fst snd]. ring. }
  rewrite E. ring.
Qed.
Definition Wof (l : list meas) : m4 := flae_W (Hrow l x3) (Hrow l y3) (Hrow l z3).
(** one measurement's matrix applied to a quaternion *)
Definition W1 (k : meas) (x : quat) : quat :=
  mulW (flae_W (scale3 (ma k * x3 (mr k)) (mb k)) (scale3 (ma k * y3 (mr k)) (mb k)) (scale3 (ma k * z3 (mr k)) (mb k))) x.
Definition qsum {A} (f : A -> quat) (l : list A) : quat := fold_right (fun x s => addq (f x) s) zeroq l.
Lemma mulW_sum (l : list meas) x : mulW (Wof l) x = qsum (fun k => W1 k x) l.
Proof.
  induction l as [|k l IH].
  - unfold Wof, Hrow, sum_across. cbn [fold_left qsum fold_right]. unfold zeroq. mring.
  - cbn [qsum fold_right]. fold (qsum (fun k => W1 k x) l). rewrite <- IH. clear IH.
    unfold Wof, Hrow, W1. rewrite !sum_across_eq. cbn [rsumf fold_right]. unfold rsumf.
    unfold ma, mr, mb. destruct k as [[wt rv] bv]. cbn [fst snd].
    repeat match goal with |- context [fold_right ?f 0 l] => generalize (fold_right f 0 l); intro end.
    mring.
Qed.
Lemma W1_form (k : meas) x : dotq x (W1 k x) = ma k * dot3 (mb k) (sandwich x (mr k)).
Proof. destruct k as [[a r] b]. unfold W1, ma, mr, mb, sandwich, product, conjugate. cbn [fst snd]. mring. Qed.
Lemma W1_eigen a r q : W1 (a, r, sandwich q r) q = scaleq (a * dot3 r r * dotq q q) q.
Proof. unfold W1, ma, mr, mb, sandwich, product, conjugate. cbn [fst snd]. mring. Qed.
Lemma dotq_qsum {A} x (f : A -> quat) l : dotq x (qsum f l) = rsumf (fun k => dotq x (f k)) l.
Proof.
  induction l as [|k l IH]; cbn [qsum rsumf fold_right]; [unfold zeroq; mring|]. fold (qsum f l). fold (rsumf (fun k => dotq x (f k)) l).
  rewrite <- IH. generalize (f k) (qsum f l). mring.
Qed.

(** ** error-free measurements *)
(** the measurements after normalisation: unit reference, its exact image, positive weights adding up to one *)
Definition exact_meas (q : quat) (l : list meas) : Prop :=
  Forall (fun k => 0 < ma k /\ dot3 (mr k) (mr k) = 1 /\ mb k = sandwich q (mr k)) l /\ rsumf ma l = 1.
Lemma exact_eigen q l : unitq q -> exact_meas q l -> mulW (Wof l) q = q.
Proof.
  intros Hq [F S]. rewrite mulW_sum.
  assert (E : forall l, Forall (fun k => 0 < ma k /\ dot3 (mr k) (mr k) = 1 /\ mb k = sandwich q (mr k)) l -> qsum (fun k => W1 k q) l = scaleq (rsumf ma l) q).
  { clear F S l. induction 1 as [|k l (H1 & H2 & H3) _ IH]; cbn [qsum rsumf fold_right].
    - unfold zeroq. clear. mring.
    - fold (qsum (fun k => W1 k q) l). fold (rsumf ma l). rewrite IH. destruct k as [[a r] b]. unfold ma, mr, mb in *. cbn [fst snd] in *. subst b.
      rewrite W1_eigen, H2, Hq. generalize (rsumf (fun k : meas => fst (fst k)) l). clear. mring. }
  rewrite (E l F), S. apply scaleq_1.
Qed.
Lemma exact_quartic q l : unitq q -> exact_meas q l ->
  quartic (tau1 (Hrow l x3) (Hrow l y3) (Hrow l z3)) (tau2 (Hrow l x3) (Hrow l y3) (Hrow l z3)) (tau3 (Hrow l x3) (Hrow l y3) (Hrow l z3)) 1 = 0.
Proof.
  intros Hq He. rewrite <- charpoly. apply (det_kernel _ q).
  - fold (Wof l). rewrite mulW_shift, (exact_eigen q l Hq He). unfold zeroq. clear. mring.
  - intros E. unfold unitq in Hq. rewrite E in Hq. unfold zeroq in Hq. vunfold. rnum. lra.
Qed.
(** the quadratic form of W - 1 *)
Definition form (N : m4) (x : quat) : R := dotq x (mulW N x).
Lemma norm_le (b s : v3) m : dot3 b b = 1 -> dot3 s s = m * m -> 0 <= m -> dot3 b s <= m /\ (dot3 b s = m -> s = scale3 m b).
Proof.
  intros Hb Hs Hm. assert (C := cauchy3 b s). rewrite Hb, Hs in C. assert (N := dot3_nonneg (cross3 b s)).
  assert (dot3 b s <= m) by nra. split; [assumption|]. intros E.
  assert (Z : dot3 (sub3 s (scale3 m b)) (sub3 s (scale3 m b)) = 0).
  { transitivity (dot3 s s - 2 * m * dot3 b s + m * m * dot3 b b); [clear; vring|]. rewrite Hs, E, Hb. ring. }
  apply dot3_zero in Z. clear - Z. destruct s as [a c d], b as [a' c' d']. vunfold. rnum. injection Z; intros. f_equal; lra.
Qed.
Lemma form_exact q l x : unitq q -> exact_meas q l ->
  form (shift (Wof l) 1) x = rsumf (fun k => ma k * (dot3 (mb k) (sandwich x (mr k)) - dotq x x)) l.
Proof.
  intros Hq [F S]. unfold form. rewrite mulW_shift, mulW_sum.
  transitivity (dotq x (qsum (fun k => W1 k x) l) - 1 * dotq x x); [generalize (qsum (fun k => W1 k x) l); clear; mring|].
  rewrite dotq_qsum, <- S. clear. induction l as [|k l IH]; cbn [rsumf fold_right]; [ring|].
  fold (rsumf (fun k => dotq x (W1 k x)) l). fold (rsumf ma l). fold (rsumf (fun k => ma k * (dot3 (mb k) (sandwich x (mr k)) - dotq x x)) l).
  rewrite <- IH, W1_form. ring.
Qed.
Lemma term_nonpos q (k : meas) x : unitq q -> 0 < ma k /\ dot3 (mr k) (mr k) = 1 /\ mb k = sandwich q (mr k) ->
  ma k * (dot3 (mb k) (sandwich x (mr k)) - dotq x x) <= 0 /\
  (ma k * (dot3 (mb k) (sandwich x (mr k)) - dotq x x) = 0 -> sandwich x (mr k) = scale3 (dotq x x) (sandwich q (mr k))).
Proof.
  intros Hq (H1 & H2 & H3).
  assert (Ub : dot3 (mb k) (mb k) = 1) by (rewrite H3; destruct (sandwich_rigid q Hq) as [D _]; rewrite D; exact H2).
  assert (Us : dot3 (sandwich x (mr k)) (sandwich x (mr k)) = dotq x x * dotq x x) by (rewrite sandwich_dot, H2; ring).
  destruct (norm_le _ _ _ Ub Us (dotq_nonneg x)) as [L E]. split; [nra|]. intros Z. rewrite H3 in E. apply E. rewrite <- H3.
  apply Rmult_integral in Z. destruct Z; lra.
Qed.
Lemma rsumf_nonpos {A} (f : A -> R) l : Forall (fun k => f k <= 0) l -> rsumf f l <= 0 /\ (rsumf f l = 0 -> Forall (fun k => f k = 0) l).
Proof.
  induction 1 as [|k l H _ [IH1 IH2]]; cbn [rsumf fold_right]; [split; [lra|constructor]|]. fold (rsumf f l). split; [lra|].
  intros E. constructor; [lra|]. apply IH2. lra.
Qed.
(** attitudes with the same action differ by a sign *)
Lemma sandwich_id_sign (s : quat) : unitq s -> (forall v, sandwich s v = v) -> s = q1 \/ s = oppq q1.
Proof.
  intros Hs H. assert (H1 := H ex). assert (H2 := H ey). destruct s as [w x y z]. unfold sandwich, product, conjugate, ex, ey, unitq in *.
  vunfold; rnum. injection H1; intros A1 A2 A3. injection H2; intros B1 B2 B3.
  assert (y*y + z*z = 0) by lra. assert (x*x+z*z = 0) by lra.
  assert (y = 0) by nra. assert (z = 0) by nra. assert (x = 0) by nra. subst.
  assert (E : (w - 1) * (w + 1) = 0) by lra. apply Rmult_integral in E. unfold q1. vunfold; rnum.
  destruct E; [left|right]; f_equal; lra.
Qed.
Lemma sandwich_sign (p q : quat) : unitq p -> unitq q -> (forall v, sandwich p v = sandwich q v) -> p = q \/ p = oppq q.
Proof.
  intros Hp Hq H.
  assert (Hc := unit_conj q Hq).
  assert (S : forall v, sandwich (product p (conjugate q)) v = v).
  { intros v. rewrite sandwich_product, H. exact (sandwich_opp_sandwich q v Hq). }
  assert (B : product (product p (conjugate q)) q = p).
  { rewrite product_assoc, product_conj_l, Hq, scaleq_1. apply product_1_r. }
  destruct (sandwich_id_sign _ (product_unit _ _ Hp Hc) S) as [E|E]; rewrite E in B; [left|right]; rewrite <- B; clear; unfold product, q1; mring.
Qed.
Definition non_parallel (l : list meas) : Prop := exists k k', In k l /\ In k' l /\ cross3 (mr k) (mr k') <> zero3.
Lemma form_zero q l x : unitq q -> exact_meas q l -> non_parallel l -> form (shift (Wof l) 1) x <= 0 /\
  (form (shift (Wof l) 1) x = 0 -> exists s, x = scaleq s q).
Proof.
  intros Hq He (k & k' & I1 & I2 & NP). assert (FE := form_exact q l x Hq He). destruct He as [F S].
  assert (G : Forall (fun k => ma k * (dot3 (mb k) (sandwich x (mr k)) - dotq x x) <= 0) l).
  { eapply Forall_impl; [|exact F]. intros a Ha. exact (proj1 (term_nonpos q a x Hq Ha)). }
  destruct (rsumf_nonpos _ _ G) as [L Z]. rewrite FE. split; [exact L|]. intros E.
  specialize (Z E). rewrite Forall_forall in Z, F.
  assert (T1 := proj2 (term_nonpos q k x Hq (F k I1)) (Z k I1)). assert (T2 := proj2 (term_nonpos q k' x Hq (F k' I2)) (Z k' I2)).
  destruct (Req_dec (dotq x x) 0) as [X0|X0].
  { exists 0. apply dotq_zero in X0. subst x. unfold zeroq. clear. mring. }
  assert (XN : x <> zeroq) by (intros ->; apply X0; unfold zeroq; clear; mring).
  assert (NP' := normq_gt0 _ XN). assert (NS := normq_sq x).
  assert (U := normalizeq_unit x XN). assert (NZ := normalizeq_nz x XN).
  assert (SN : forall v, sandwich (normalizeq x) v = scale3 (/ dotq x x) (sandwich x v)).
  { intros v. rewrite NZ, <- NS. rewrite Rinv_mult. generalize (/ normq x). clear. intros. unfold sandwich, product, conjugate. mring. }
  assert (A1 : sandwich (normalizeq x) (mr k) = sandwich q (mr k)).
  { rewrite SN, T1. transitivity (scale3 (/ dotq x x * dotq x x) (sandwich q (mr k))); [generalize (/ dotq x x) (dotq x x) (sandwich q (mr k)); clear; mring|]. rewrite Rinv_l by exact X0. apply scale3_1. }
  assert (A2 : sandwich (normalizeq x) (mr k') = sandwich q (mr k')).
  { rewrite SN, T2. transitivity (scale3 (/ dotq x x * dotq x x) (sandwich q (mr k'))); [generalize (/ dotq x x) (dotq x x) (sandwich q (mr k')); clear; mring|]. rewrite Rinv_l by exact X0. apply scale3_1. }
  assert (RX := sandwich_rigid _ U). assert (RQ := sandwich_rigid _ Hq).
  assert (AC : sandwich (normalizeq x) (cross3 (mr k) (mr k')) = sandwich q (cross3 (mr k) (mr k'))).
  { destruct RX as (_ & C1 & _). destruct RQ as (_ & C2 & _). rewrite <- C1, <- C2, A1, A2. reflexivity. }
  destruct (F k I1) as (_ & R1 & _).
  assert (ALL : forall v, sandwich (normalizeq x) v = sandwich q v).
  { apply (rigid_agree _ _ (mr k) (cross3 (mr k) (mr k')) RX RQ R1); [clear; generalize (mr k) (mr k'); vring| |exact A1|exact AC].
    intros D. apply NP. apply dot3_zero. exact D. }
  assert (XE : x = scaleq (normq x) (normalizeq x)).
  { rewrite NZ. transitivity (scaleq (normq x * / normq x) x); [rewrite Rinv_r by lra; symmetry; apply scaleq_1|]. generalize (normq x) (/ normq x). clear. mring. }
  destruct (sandwich_sign _ _ U Hq ALL) as [E'|E'].
  - exists (normq x). rewrite XE at 1. rewrite E'. reflexivity.
  - exists (- normq x). rewrite XE at 1. rewrite E'. generalize (normq x). clear. mring.
Qed.

(** ** pivots of the form *)
Definition sym (N : m4) : Prop := forall x y, dotq x (mulW N y) = dotq y (mulW N x).
Lemma pivot0 (N : m4) : form N (mkq 1 0 0 0) = qw (r0 N). Proof. unfold form. mring. Qed.
Lemma pivot1 (N : m4) : qw (r0 N) <> 0 -> 
  form N (mkq (- qx (r0 (elim0 N))) 1 0 0) = qx (r1' (elim0 N)).
Proof.
  intros P0. destruct (elim0_spec N P0) as (A0 & A1 & A2 & A3 & C0 & C1 & C2 & C3). set (E0 := elim0 N) in *.
  set (y := mkq (- qx (r0 E0)) 1 0 0).
  assert (Y0 : dotq (r0 E0) y = 0). { transitivity (qw (r0 E0) * (- qx (r0 E0)) + qx (r0 E0)); [unfold y; generalize (r0 E0); clear; mring|]. rewrite C0. ring. }
  assert (Y1 : dotq (r1' E0) y = qx (r1' E0)). { transitivity (qw (r1' E0) * (- qx (r0 E0)) + qx (r1' E0)); [unfold y; generalize (r1' E0) (qx (r0 E0)); clear; mring|]. rewrite C1. ring. }
  unfold form. transitivity (- qx (r0 E0) * dotq (r0 N) y + dotq (r1' N) y); [unfold y; clear; generalize (qx (r0 E0)); mring|].
  rewrite A0, A1, dotq_add, !dotq_scale, Y0, Y1. ring.
Qed.
Lemma pivot2 (N : m4) : qw (r0 N) <> 0 -> qx (r1' (elim0 N)) <> 0 ->
  form N (mkq (- qy (r0 (elim1 (elim0 N)))) (- qy (r1' (elim1 (elim0 N)))) 1 0) = qy (r2' (elim1 (elim0 N))).
Proof.
  intros P0 P1. destruct (elim0_spec N P0) as (A0 & A1 & A2 & A3 & C0 & C1 & C2 & C3). set (E0 := elim0 N) in *.
  destruct (elim1_spec E0 P1 C0 C1 C2 C3) as (B1 & B0 & B2 & B3 & D0 & D1 & D2 & D3 & F0 & F1 & F2 & F3). set (E1 := elim1 E0) in *.
  set (y := mkq (- qy (r0 E1)) (- qy (r1' E1)) 1 0).
  assert (G : forall r : quat, dotq r y = qw r * (- qy (r0 E1)) + qx r * (- qy (r1' E1)) + qy r) by (unfold y; generalize (qy (r0 E1)) (qy (r1' E1)); clear; mring).
  assert (Y0 : dotq (r0 E1) y = 0) by (rewrite G, D0, F0; ring).
  assert (Y1 : dotq (r1' E1) y = 0) by (rewrite G, D1, F1; ring).
  assert (Y2 : dotq (r2' E1) y = qy (r2' E1)) by (rewrite G, D2, F2; ring).
  assert (Z0 : dotq (r0 E0) y = 0) by (rewrite B0, dotq_add, dotq_scale, Y0, Y1; ring).
  assert (Z1 : dotq (r1' E0) y = 0) by (rewrite B1, dotq_scale, Y1; ring).
  assert (Z2 : dotq (r2' E0) y = qy (r2' E1)) by (rewrite B2, dotq_add, dotq_scale, Y2, Y1; ring).
  unfold form. transitivity (- qy (r0 E1) * dotq (r0 N) y + - qy (r1' E1) * dotq (r1' N) y + dotq (r2' N) y);
    [unfold y; clear; generalize (qy (r0 E1)) (qy (r1' E1)); mring|].
  rewrite A0, A1, A2, !dotq_add, !dotq_scale, Z0, Z1, Z2. ring.
Qed.
Lemma exact_pivots q l : unitq q -> exact_meas q l -> non_parallel l -> qz q <> 0 -> pivots_ok (shift (Wof l) 1).
Proof.
  intros Hq He Hn Hz. set (N := shift (Wof l) 1).
  assert (NEG : forall x, qz x = 0 -> x <> zeroq -> form N x < 0).
  { intros x X0 XN. destruct (form_zero q l x Hq He Hn) as [L Z]. fold N in L, Z. destruct (Rle_lt_or_eq_dec _ _ L) as [L'|E]; [exact L'|].
    exfalso. destruct (Z E) as [s Es]. apply XN. rewrite Es in X0 |- *. assert (s * qz q = 0) by exact X0.
    apply Rmult_integral in H. destruct H as [->|H]; [|contradiction]. unfold zeroq. clear. mring. }
  unfold pivots_ok, pivots.
  assert (P0 : qw (r0 N) <> 0). { rewrite <- pivot0. apply Rlt_not_eq. apply NEG; [reflexivity|unfold zeroq; intros E; injection E; intros; lra]. }
  assert (P1 : qx (r1' (elim0 N)) <> 0). { rewrite <- (pivot1 N P0). apply Rlt_not_eq. apply NEG; [reflexivity|unfold zeroq; intros E; injection E; intros; lra]. }
  assert (P2 : qy (r2' (elim1 (elim0 N))) <> 0). { rewrite <- (pivot2 N P0 P1). apply Rlt_not_eq. apply NEG; [reflexivity|unfold zeroq; intros E; injection E; intros; lra]. }
  auto.
Qed.
(** a kernel vector without last component forces a zero pivot *)
Lemma zero_pivot (N : m4) q : mulW N q = zeroq -> q <> zeroq -> qz q = 0 -> ~ pivots_ok N.
Proof.
  intros HK HN HZ (P0 & P1 & P2). apply HN.
  destruct (elim0_spec N P0) as (A0 & A1 & A2 & A3 & C0 & C1 & C2 & C3). set (E0 := elim0 N) in *.
  destruct (elim1_spec E0 P1 C0 C1 C2 C3) as (B1 & B0 & B2 & B3 & D0 & D1 & D2 & D3 & F0 & F1 & F2 & F3). set (E1 := elim1 E0) in *.
  assert (K := HK). unfold mulW, zeroq in K. injection K; intros K3 K2 K1 K0.
  assert (W0 : dotq (r0 E0) q = 0). { rewrite A0, dotq_scale in K0. apply Rmult_integral in K0. destruct K0; [contradiction|assumption]. }
  assert (W1' : dotq (r1' E0) q = 0) by (rewrite A1, dotq_add, dotq_scale, W0 in K1; lra).
  assert (W2 : dotq (r2' E0) q = 0) by (rewrite A2, dotq_add, dotq_scale, W0 in K2; lra).
  assert (Y1 : dotq (r1' E1) q = 0). { rewrite B1, dotq_scale in W1'. apply Rmult_integral in W1'. destruct W1'; [contradiction|assumption]. }
  assert (Y0 : dotq (r0 E1) q = 0) by (rewrite B0, dotq_add, dotq_scale, Y1 in W0; lra).
  assert (Y2 : dotq (r2' E1) q = 0) by (rewrite B2, dotq_add, dotq_scale, Y1 in W2; lra).
  assert (G : forall r : quat, dotq r q = qw r * qw q + qx r * qx q + qy r * qy q + qz r * qz q) by (clear; mring).
  rewrite G, HZ in Y0, Y1, Y2. rewrite D0, F0 in Y0. rewrite D1, F1 in Y1. rewrite D2, F2 in Y2.
  assert (Q2 : qy q = 0). { assert (E : qy (r2' E1) * qy q = 0) by lra. apply Rmult_integral in E. destruct E; [contradiction|assumption]. }
  rewrite Q2 in Y0, Y1. apply Q4_eq; cbn; lra.
Qed.

(** ** flae on error-free measurements *)
Lemma newton_root (f f' : R -> R) rt tl n p : f p = 0 -> newton f f' rt tl (S n) p = Ok p.
Proof. intros H. cbn [newton]. rnumg. replace (Reqb (f p) 0) with true; [reflexivity|]. symmetry; apply Reqb_true; exact H. Qed.
Definition normed (l : list meas) : list meas := map (fun '(a, r, b) => (a, normalize3 r, normalize3 b)) l.
Lemma flae_exact q l : unitq q -> exact_meas q (normed l) -> non_parallel (normed l) -> qz q <> 0 ->
  flae l = Ok q \/ flae l = Ok (oppq q).
Proof.
  intros Hq He Hn Hz. unfold flae. fold (normed l). change (nofZ 1) with 1.
  rewrite (newton_root _ _ _ _ 3 1 (exact_quartic q _ Hq He)). cbn [rbind]. fold (Wof (normed l)).
  assert (HP := exact_pivots q _ Hq He Hn Hz).
  assert (HD : det4 (shift (Wof (normed l)) 1) = 0).
  { apply (det_kernel _ q). - rewrite mulW_shift, (exact_eigen q _ Hq He). unfold zeroq. clear. mring.
    - intros E. rewrite E in Hz. apply Hz. reflexivity. }
  destruct (kernel_quat_eigen _ _ HP HD) as [U K].
  set (y := kernel_quat (Wof (normed l)) 1) in *.
  destruct (form_zero q _ y Hq He Hn) as [_ Z].
  destruct Z as [s Es].
  { unfold form. rewrite mulW_shift, K. generalize y. clear. mring. }
  assert (S2 : s * s = 1). { unfold unitq in *. rewrite Es in U. transitivity (s * s * dotq q q); [rewrite Hq; ring|]. rewrite <- U. clear. mring. }
  assert (E : (s - 1) * (s + 1) = 0) by lra. apply Rmult_integral in E. rewrite Es. destruct E as [E|E].
  - left. replace s with 1 by lra. rewrite scaleq_1. reflexivity.
  - right. replace s with (-1) by lra. f_equal. clear. mring.
Qed.
(** relating raw measurements to normalised ones *)
Lemma normalize3_scaled (v : v3) c : v <> zero3 -> 0 < c -> normalize3 (scale3 c v) = normalize3 v.
Proof.
  intros Hv Hc. assert (Hs : scale3 c v <> zero3).
  { intros E. apply Hv. destruct v as [a b d]. unfold scale3, zero3 in *. cbn [x3 y3 z3] in *. rnum. injection E; intros.
    f_equal; match goal with H : c * ?x = 0 |- ?x = 0 => apply Rmult_integral in H; destruct H; [lra|assumption] end. }
  rewrite !normalize3_nz by assumption.
  assert (N : norm3 (scale3 c v) = c * norm3 v).
  { unfold norm3. rnumg. replace (dot3 (scale3 c v) (scale3 c v)) with (c * c * dot3 v v) by (clear; vring).
    rewrite sqrt_mult by (try nra; apply dot3_nonneg). rewrite sqrt_square by lra. reflexivity. }
  rewrite N. assert (P := norm3_gt0 v Hv). rewrite Rinv_mult.
  transitivity (scale3 (/ norm3 v * (/ c * c)) v); [generalize (/ norm3 v) (/ c); clear; vring|]. rewrite Rinv_l by lra. rewrite Rmult_1_r. reflexivity.
Qed.
(** each measurement: weight a > 0, reference r <> 0, body vector any positive multiple of the rotated reference *)
Definition error_free (q : quat) (k : meas) : Prop := 0 < ma k /\ mr k <> zero3 /\ exists c, 0 < c /\ mb k = scale3 c (sandwich q (mr k)).
Lemma sandwich_nz q v : unitq q -> v <> zero3 -> sandwich q v <> zero3.
Proof.
  intros Hq Hv E. apply Hv. apply dot3_zero. destruct (sandwich_rigid q Hq) as [D _]. rewrite <- D, E. clear. vring.
Qed.
Lemma normalize3_sandwich q v : unitq q -> v <> zero3 -> normalize3 (sandwich q v) = sandwich q (normalize3 v).
Proof.
  intros Hq Hv. rewrite !normalize3_nz by (try apply sandwich_nz; assumption). rewrite sandwich_scale. f_equal. f_equal.
  unfold norm3. destruct (sandwich_rigid q Hq) as [D _]. rewrite D. reflexivity.
Qed.
Lemma normed_exact q l : unitq q -> Forall (error_free q) l -> rsumf ma l = 1 -> exact_meas q (normed l).
Proof.
  intros Hq F S. split.
  - unfold normed. rewrite Forall_map. eapply Forall_impl; [|exact F]. intros [[a r] b] (H1 & H2 & c & Hc & Hb). unfold ma, mr, mb in *. cbn [fst snd] in *.
    split; [exact H1|]. split; [apply (normalize3_unit r H2)|]. rewrite Hb, normalize3_scaled by (try assumption; apply sandwich_nz; assumption).
    apply normalize3_sandwich; assumption.
  - rewrite <- S. unfold normed. clear. induction l as [|[[a r] b] l IH]; [reflexivity|]. cbn [map rsumf fold_right]. fold (rsumf ma l).
    unfold ma at 1. cbn [fst snd]. rewrite <- IH. reflexivity.
Qed.
Lemma normed_np l : Forall (fun k => mr k <> zero3) l -> non_parallel l -> non_parallel (normed l).
Proof.
  intros F (k & k' & I1 & I2 & N). exists (ma k, normalize3 (mr k), normalize3 (mb k)), (ma k', normalize3 (mr k'), normalize3 (mb k')).
  rewrite Forall_forall in F.
  split; [|split].
  - unfold normed. apply in_map_iff. exists k. destruct k as [[a r] b]. split; [reflexivity|exact I1].
  - unfold normed. apply in_map_iff. exists k'. destruct k' as [[a r] b]. split; [reflexivity|exact I2].
  - change (cross3 (normalize3 (mr k)) (normalize3 (mr k')) <> zero3). rewrite !normalize3_nz by (apply F; assumption). intros E. apply N.
    assert (P := norm3_gt0 _ (F _ I1)). assert (P' := norm3_gt0 _ (F _ I2)).
    assert (Q : 0 < / norm3 (mr k) * / norm3 (mr k')) by (apply Rmult_lt_0_compat; apply Rinv_0_lt_compat; assumption).
    assert (E' : scale3 (/ norm3 (mr k) * / norm3 (mr k')) (cross3 (mr k) (mr k')) = zero3).
    { rewrite <- E. generalize (/ norm3 (mr k)) (/ norm3 (mr k')) (mr k) (mr k'). clear. vring. }
    revert E'. generalize (cross3 (mr k) (mr k')). intros [x y z] E'. unfold scale3, zero3 in *. cbn [x3 y3 z3] in E'. rnum. injection E'; intros Z1 Z2 Z3.
    apply Rmult_integral in Z1, Z2, Z3. f_equal; lra.
Qed.
