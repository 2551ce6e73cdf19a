(** * flae minimises Wahba's loss *)
From Coq Require Import Reals ZArith List Bool Lra Psatz.
From Verif Require Import Num Vec M_vector M_quaternion M_att S_rot S_wahba P_quat P_triad P_flae P_wahba.
Import ListNotations.
Local Open Scope R_scope.

Lemma direction_eq v : v <> zero3 -> normalize3 v = direction v.
Proof.
  intros H. rewrite normalize3_nz by exact H. unfold direction, norm3. destruct v as [a b c]. vunfoldg. rnumg. unfold Rdiv. apply mk3_c; ring.
Qed.
Lemma direction_unit v : v <> zero3 -> dot3 (direction v) (direction v) = 1.
Proof. intros H. rewrite <- direction_eq by exact H. apply (normalize3_unit v H). Qed.
Lemma distance2_unit a b : dot3 a a = 1 -> dot3 b b = 1 -> distance2 a b = 2 - 2 * dot3 a b.
Proof. intros A B. transitivity (dot3 a a + dot3 b b - 2 * dot3 a b); [|rewrite A, B; ring]. destruct a as [a1 a2 a3], b as [b1 b2 b3]. unfold distance2. vunfoldg. rnumg. ring. Qed.
Lemma wahba_gain l x : weighted l -> unitq x -> wahba l x = 1 - form (Wof (normed l)) x.
Proof.
  intros [F S] U. unfold form. rewrite mulW_sum, dotq_qsum. rewrite <- S. clear S. induction F as [|[[a r] b] l (A & Rn & Bn) F IH]; [unfold wahba; cbn; ring|].
  unfold wahba in *. cbn [fold_right normed map rsumf]. unfold normed in IH. rewrite IH. clear IH. unfold rsumf. rewrite W1_form. unfold ma, mr, mb. cbn [fst snd].
  rewrite !direction_eq by assumption. rewrite distance2_unit; [lra|apply direction_unit, Bn|]. destruct (sandwich_rigid x U) as [D _]. rewrite D. apply direction_unit, Rn.
Qed.
Lemma unit_split (x : quat) : x <> zeroq -> exists u s, unitq u /\ 0 < s /\ x = scaleq s u /\ dotq x x = s * s.
Proof.
  intros H. assert (P : 0 < dotq x x).
  { destruct (Rle_lt_dec (dotq x x) 0) as [L|L]; [|exact L]. exfalso. apply H. apply dotq_zero. assert (Q := dotq_nonneg x). lra. }
  assert (S := sqrt_lt_R0 _ P). assert (SS := sqrt_sqrt _ (Rlt_le _ _ P)). exists (scaleq (/ sqrt (dotq x x)) x), (sqrt (dotq x x)). repeat split.
  - unfold unitq. transitivity (/ sqrt (dotq x x) * / sqrt (dotq x x) * dotq x x); [generalize (/ sqrt (dotq x x)); mring|]. rewrite <- SS at 3. field. lra.
  - exact S.
  - assert (E : sqrt (dotq x x) * / sqrt (dotq x x) = 1) by (field; lra). revert E. generalize (/ sqrt (dotq x x)). generalize (sqrt (dotq x x)). intros m k E.
    transitivity (scaleq (m * k) x); [rewrite E|]; destruct x as [a b c d]; vunfoldg; rnumg; apply mkq_c; ring.
  - symmetry. exact SS.
Qed.
Lemma form_scale N s x : form N (scaleq s x) = s * s * form N x. Proof. unfold form. mring. Qed.
Lemma form_zeroq N : form N zeroq = 0. Proof. unfold form, zeroq. mring. Qed.
Lemma dotq_zeroq : dotq (zeroq : quat) zeroq = 0. Proof. unfold zeroq. mring. Qed.
Lemma shift_sym (Hx Hy Hz : v3) p x y : dotq x (mulW (shift (flae_W Hx Hy Hz) p) y) = dotq y (mulW (shift (flae_W Hx Hy Hz) p) x).
Proof. unfold flae_W. mring. Qed.
Lemma shift_form (M : m4) p x : form (shift M p) x = form M x - p * dotq x x. Proof. unfold form. rewrite mulW_shift. generalize (mulW M x). mring. Qed.
Lemma form_add (N : m4) v s y : form N (addq v (scaleq s y)) = form N v + s * (dotq v (mulW N y) + dotq y (mulW N v)) + s * s * form N y. Proof. unfold form. mring. Qed.
Lemma W_trace (Hx Hy Hz : v3) : form (flae_W Hx Hy Hz) (mkq 1 0 0 0) + form (flae_W Hx Hy Hz) (mkq 0 1 0 0) + form (flae_W Hx Hy Hz) (mkq 0 0 1 0) + form (flae_W Hx Hy Hz) (mkq 0 0 0 1) = 0.
Proof. unfold form, flae_W. mring. Qed.
Lemma dotq_basis : dotq (mkq 1 0 0 0) (mkq 1 0 0 0) = 1 /\ dotq (mkq 0 1 0 0) (mkq 0 1 0 0) = 1 /\ dotq (mkq 0 0 1 0) (mkq 0 0 1 0) = 1 /\ dotq (mkq 0 0 0 1) (mkq 0 0 0 1) = 1.
Proof. repeat split; mring. Qed.
Lemma dotq_minus (v x : quat) c : dotq v (subq x (scaleq c v)) = dotq v x - c * dotq v v. Proof. mring. Qed.
Lemma dotq_minus2 (v x : quat) c : dotq (subq x (scaleq c v)) (subq x (scaleq c v)) = dotq x x - 2 * c * dotq v x + c * c * dotq v v. Proof. mring. Qed.
Lemma minus_plus (v x : quat) c : addq (subq x (scaleq c v)) (scaleq c v) = x. Proof. mring. Qed.
Lemma dotq_zeror (x : quat) : dotq x zeroq = 0. Proof. unfold zeroq. mring. Qed.
Lemma dotq_scaler (v u : quat) s : dotq v (scaleq s u) = s * dotq v u. Proof. mring. Qed.
Lemma unitq_nz (v : quat) : unitq v -> v <> zeroq. Proof. unfold unitq. intros U E. rewrite E, dotq_zeroq in U. lra. Qed.
Lemma SM_kernel a b c d e f g h i j p x y z w : mulW (shift (SM a b c d e f g h i j) p) (mkq x y z w) = zeroq ->
  (p - a) * x + - b * y + - c * z + - d * w = 0 /\ - b * x + (p - e) * y + - f * z + - g * w = 0 /\ - c * x + - f * y + (p - h) * z + - i * w = 0 /\ - d * x + - g * y + - i * z + (p - j) * w = 0.
Proof. unfold zeroq, SM. m4unfold. vunfoldg. rnumg. intros E. injection E. intros. repeat split; lra. Qed.

Lemma kvec_residual (N : m4) : pivots_ok N -> exists c, mulW N (kvec N) = mkq 0 0 0 c.
Proof.
  intros (P0 & P1 & P2). destruct (elim0_spec N P0) as (A0 & A1 & A2 & A3 & C0 & C1 & C2 & C3).
  unfold kvec. set (E0 := elim0 N) in *.
  destruct (elim1_spec E0 P1 C0 C1 C2 C3) as (B1 & B0 & B2 & B3 & D0 & D1 & D2 & D3 & F0 & F1 & F2 & F3).
  set (E1 := elim1 E0) in *.
  destruct (elim2_spec E1 P2 D0 D1 D2 D3 F0 F1 F2 F3) as (G2 & G0 & G1 & G3 & K0 & K1 & K2 & K3).
  set (E2 := elim2 E1) in *. exists (dotq (r3' N) (mkq (qz (r0 E2)) (qz (r1' E2)) (qz (r2' E2)) (-1))).
  set (x := mkq (qz (r0 E2)) (qz (r1' E2)) (qz (r2' E2)) (-1)).
  assert (X0 : dotq (r0 E2) x = 0) by (rewrite K0; unfold x; generalize (qz (r0 E2)) (qz (r1' E2)) (qz (r2' E2)); clear; mring).
  assert (X1 : dotq (r1' E2) x = 0) by (rewrite K1; unfold x; generalize (qz (r0 E2)) (qz (r1' E2)) (qz (r2' E2)); clear; mring).
  assert (X2 : dotq (r2' E2) x = 0) by (rewrite K2; unfold x; generalize (qz (r0 E2)) (qz (r1' E2)) (qz (r2' E2)); clear; mring).
  assert (Y0 : dotq (r0 E1) x = 0) by (rewrite G0, dotq_add, dotq_scale, X0, X2; ring).
  assert (Y1 : dotq (r1' E1) x = 0) by (rewrite G1, dotq_add, dotq_scale, X1, X2; ring).
  assert (Y2 : dotq (r2' E1) x = 0) by (rewrite G2, dotq_scale, X2; ring).
  assert (V0 : dotq (r0 E0) x = 0) by (rewrite B0, dotq_add, dotq_scale, Y0, Y1; ring).
  assert (V1 : dotq (r1' E0) x = 0) by (rewrite B1, dotq_scale, Y1; ring).
  assert (V2 : dotq (r2' E0) x = 0) by (rewrite B2, dotq_add, dotq_scale, Y2, Y1; ring).
  unfold mulW. apply mkq_c; [| | |reflexivity].
  - rewrite A0, dotq_scale, V0; ring.
  - rewrite A1, dotq_add, dotq_scale, V1, V0; ring.
  - rewrite A2, dotq_add, dotq_scale, V2, V0; ring.
Qed.
Lemma negative_pivots (N : m4) : (forall x, qz x = 0 -> x <> zeroq -> form N x < 0) -> pivots_ok N.
Proof.
  intros NEG. unfold pivots_ok, pivots.
  assert (P0 : qw (r0 N) <> 0). { rewrite <- pivot0. apply Rlt_not_eq. apply NEG; [reflexivity|unfold zeroq; intros E; injection E; intros; lra]. }
  assert (P1 : qx (r1' (elim0 N)) <> 0). { rewrite <- (pivot1 N P0). apply Rlt_not_eq. apply NEG; [reflexivity|unfold zeroq; intros E; injection E; intros; lra]. }
  assert (P2 : qy (r2' (elim1 (elim0 N))) <> 0). { rewrite <- (pivot2 N P0 P1). apply Rlt_not_eq. apply NEG; [reflexivity|unfold zeroq; intros E; injection E; intros; lra]. }
  auto.
Qed.
Lemma dotq_scale2 (u : quat) s : dotq (scaleq s u) (scaleq s u) = s * s * dotq u u. Proof. mring. Qed.
Lemma scaleq_m1 (v : quat) : scaleq (-1) v = oppq v. Proof. mring. Qed.
Lemma turned (a b c d : R) : dotq (mkq (- b) a (- d) c) (mkq (- b) a (- d) c) = dotq (mkq a b c d) (mkq a b c d) /\ dotq (mkq a b c d) (mkq (- b) a (- d) c) = 0. Proof. split; mring. Qed.
Lemma dotq_last (x : quat) c : dotq x (mkq 0 0 0 c) = qz x * c. Proof. mring. Qed.
Lemma mulW_shift2 (M : m4) p t x : mulW (shift M (p + t)) x = subq (mulW (shift M p) x) (scaleq t x). Proof. mring. Qed.
Lemma dotq_zero_minus (y v : quat) t : dotq y (subq zeroq (scaleq t v)) = - t * dotq v y. Proof. unfold zeroq. mring. Qed.
Lemma cauchy_q (v y : quat) : dotq v v = 1 -> dotq v y ^ 2 <= dotq y y.
Proof. intros U. assert (Q := dotq_nonneg (subq y (scaleq (dotq v y) v))). rewrite dotq_minus2, U in Q. nra. Qed.
Lemma kvec_last N : qz (kvec N) = -1. Proof. reflexivity. Qed.
Lemma last_le (y : quat) : qz y * qz y <= dotq y y. Proof. destruct y as [a b c d]. vunfoldg. rnumg. cbn [qz]. nra. Qed.
Lemma normalizeq_split (y : quat) : y <> zeroq -> exists s, 0 < s /\ y = scaleq s (normalizeq y).
Proof.
  intros H. destruct (unit_split y H) as (u & s & U & S & E & D). exists (normq y). assert (NY : normq y = s) by (unfold normq; rnumg; rewrite D; apply sqrt_square; lra). split; [rewrite NY; exact S|].
  rewrite normalizeq_nz by exact H. rewrite NY. assert (K : s * / s = 1) by (field; lra). revert K. generalize (/ s). intros k K. transitivity (scaleq (s * k) y); [rewrite K; symmetry; apply scaleq_1|]. clear. destruct y as [a b c d]; vunfoldg; rnumg; apply mkq_c; ring.
Qed.

Section Opt.
Context (l : list (R * v3 * v3)) (v : quat) (HW : weighted l) (HO : optimum l v).
Let W := Wof (normed l).
Let lam := 1 - wahba l v.
Lemma lam_form : form W v = lam. Proof. unfold lam. rewrite (wahba_gain l v HW (proj1 HO)). unfold W. ring. Qed.
Lemma form_le x : form W x <= lam * dotq x x.
Proof.
  destruct (Req_dec (dotq x x) 0) as [Z|Z].
  - rewrite (dotq_zero x Z). rewrite form_zeroq, dotq_zeroq. lra.
  - destruct (unit_split x) as (u & s & U & S & E & D); [intros E; apply Z; rewrite E; apply dotq_zeroq|]. rewrite D, E, form_scale, Rmult_comm. apply Rmult_le_compat_r; [nra|].
    assert (O := proj2 HO u U). rewrite (wahba_gain l u HW U) in O. fold W in O. unfold lam. lra.
Qed.
Lemma wahba_loss u : unitq u -> wahba l u - wahba l v = lam - form W u.
Proof. intros U. rewrite (wahba_gain l u HW U). unfold lam, W. ring. Qed.
Lemma wahba_nonneg x : 0 <= wahba l x.
Proof.
  destruct HW as [F _]. unfold wahba. clear - F. induction F as [|[[a r] b] l (A & _) F IH]; cbn [fold_right]; [lra|]. assert (0 <= distance2 (direction b) (sandwich x (direction r))) by (unfold distance2; apply Rplus_le_le_0_compat; [apply Rplus_le_le_0_compat|]; apply pow2_ge_0). apply Rplus_le_le_0_compat; [apply Rmult_le_pos; [lra|assumption]|exact IH].
Qed.
Lemma wahba_le2 x : unitq x -> wahba l x <= 2.
Proof.
  intros U. destruct HW as [F S]. replace 2 with (2 * 1) by ring. rewrite <- S. clear - F U. unfold wahba. induction F as [|[[a r] b] l' (A & Rn & Bn) F IH]; cbn [fold_right]; [lra|].
  assert (D : distance2 (direction b) (sandwich x (direction r)) <= 4).
  { assert (UB := direction_unit b Bn). assert (UR : dot3 (sandwich x (direction r)) (sandwich x (direction r)) = 1) by (destruct (sandwich_rigid x U) as [D _]; rewrite D; apply direction_unit, Rn).
    rewrite distance2_unit by assumption. assert (0 <= dot3 (add3 (direction b) (sandwich x (direction r))) (add3 (direction b) (sandwich x (direction r)))) as Q by apply dot3_nonneg.
    replace (dot3 (add3 _ _) (add3 _ _)) with (dot3 (direction b) (direction b) + dot3 (sandwich x (direction r)) (sandwich x (direction r)) + 2 * dot3 (direction b) (sandwich x (direction r))) in Q by (clear; vring). lra. }
  rewrite Rmult_plus_distr_l. apply Rplus_le_compat; [|exact IH]. replace (2 * a) with (a / 2 * 4) by field. apply Rmult_le_compat_l; [lra|exact D].
Qed.
Lemma lam_le1 : lam <= 1. Proof. unfold lam. assert (Q := wahba_nonneg v). lra. Qed.
Lemma sym_W p x y : dotq x (mulW (shift W p) y) = dotq y (mulW (shift W p) x).
Proof. apply shift_sym. Qed.
Lemma form_shift p x : form (shift W p) x = form W x - p * dotq x x. Proof. apply shift_form. Qed.
Lemma lam_eigen : mulW (shift W lam) v = zeroq.
Proof.
  apply dotq_zero. set (y := mulW (shift W lam) v). set (k := dotq y y). assert (K0 : 0 <= k) by apply dotq_nonneg. destruct K0 as [K0|K0]; [exfalso|auto].
  assert (Q := form_le y). set (f := form (shift W lam) y). assert (F0 : f <= 0) by (unfold f; rewrite form_shift; lra).
  assert (E : forall s, form (shift W lam) (addq v (scaleq s y)) = 2 * s * k + s * s * f).
  { intros s. rewrite form_add, (sym_W lam v y). fold f. fold y. fold k. rewrite form_shift, lam_form, (proj1 HO). ring. }
  set (s := k / (1 - f)). assert (S : 0 < s) by (apply Rdiv_lt_0_compat; lra). assert (P := form_le (addq v (scaleq s y))). assert (Z := E s). rewrite form_shift in Z.
  assert (SF : s * f = s - k) by (unfold s; field; lra). assert (s * (k + s) <= 0); [|nra]. replace (s * (k + s)) with (2 * s * k + s * (s * f)) by (rewrite SF; ring). lra.
Qed.
Lemma lam_trace : 0 <= lam.
Proof.
  assert (A := form_le (mkq 1 0 0 0)). assert (B := form_le (mkq 0 1 0 0)). assert (C := form_le (mkq 0 0 1 0)). assert (D := form_le (mkq 0 0 0 1)).
  assert (T : form W (mkq 1 0 0 0) + form W (mkq 0 1 0 0) + form W (mkq 0 0 1 0) + form W (mkq 0 0 0 1) = 0).
  { apply W_trace. }
  destruct dotq_basis as (D1 & D2 & D3 & D4). rewrite D1 in A. rewrite D2 in B. rewrite D3 in C. rewrite D4 in D. lra.
Qed.
Lemma gap_form g : 0 < g -> gap l v g -> forall x, g * (dotq x x - dotq v x ^ 2) <= - form (shift W lam) x.
Proof.
  intros G0 GG x. assert (EV := lam_eigen). set (c := dotq v x). set (y := subq x (scaleq c v)). assert (VY : dotq v y = 0). { unfold y. rewrite dotq_minus, (proj1 HO). unfold c. ring. }
  assert (FY : form (shift W lam) x = form (shift W lam) y).
  { rewrite <- (minus_plus v x c) at 1. fold y. rewrite form_add, (sym_W lam v y). assert (FV : form (shift W lam) v = 0) by (unfold form; rewrite EV; apply dotq_zeror). rewrite FV, EV, dotq_zeror. ring. }
  assert (DY : dotq x x - c ^ 2 = dotq y y). { unfold y. rewrite dotq_minus2, (proj1 HO). unfold c. ring. }
  rewrite DY, FY. destruct (Req_dec (dotq y y) 0) as [Z|Z].
  - rewrite Z, (dotq_zero y Z). rewrite form_zeroq. lra.
  - destruct (unit_split y) as (u & s & U & S & E & D); [intros E; apply Z; rewrite E; apply dotq_zeroq|]. assert (VU : dotq v u = 0).
    { rewrite E in VY. apply (Rmult_eq_reg_l s); [|lra]. rewrite Rmult_0_r, <- VY. symmetry. apply dotq_scaler. }
    rewrite D, E, form_scale. assert (Q := GG u U VU). assert (WL := wahba_loss u U). rewrite form_shift. rewrite U. nra.
Qed.
(** the quartic seen from its largest root *)
Definition e2_ := 6 * lam ^ 2 + tau1 (Hrow (normed l) x3) (Hrow (normed l) y3) (Hrow (normed l) z3).
Definition e3_ := quartic' (tau1 (Hrow (normed l) x3) (Hrow (normed l) y3) (Hrow (normed l) z3)) (tau2 (Hrow (normed l) x3) (Hrow (normed l) y3) (Hrow (normed l) z3)) lam.
Lemma lam_coeffs : 0 <= e2_ <= 6 /\ 0 <= e3_ /\
  (forall t, quartic (tau1 (Hrow (normed l) x3) (Hrow (normed l) y3) (Hrow (normed l) z3)) (tau2 (Hrow (normed l) x3) (Hrow (normed l) y3) (Hrow (normed l) z3)) (tau3 (Hrow (normed l) x3) (Hrow (normed l) y3) (Hrow (normed l) z3)) (lam + t) = t * (t ^ 3 + 4 * lam * t ^ 2 + e2_ * t + e3_)) /\
  (forall t, quartic' (tau1 (Hrow (normed l) x3) (Hrow (normed l) y3) (Hrow (normed l) z3)) (tau2 (Hrow (normed l) x3) (Hrow (normed l) y3) (Hrow (normed l) z3)) (lam + t) = 4 * t ^ 3 + 3 * (4 * lam) * t ^ 2 + 2 * e2_ * t + e3_) /\
  forall g, 0 < g -> qz v <> 0 -> gap l v g -> g ^ 3 <= e3_.
Proof.
  assert (FL := form_le). assert (EV := lam_eigen). assert (TR := lam_trace). assert (L1 := lam_le1). assert (GP := gap_form).
  destruct (W_entries (Hrow (normed l) x3) (Hrow (normed l) y3) (Hrow (normed l) z3)) as (a & b & c & d & e & f & g & h & i & j & EW & EL).
  assert (T1 : tau1 (Hrow (normed l) x3) (Hrow (normed l) y3) (Hrow (normed l) z3) <= 0).
  { unfold tau1. rnumg. assert (A := dot3_nonneg (Hrow (normed l) x3)). assert (B := dot3_nonneg (Hrow (normed l) y3)). assert (C := dot3_nonneg (Hrow (normed l) z3)). lra. }
  unfold e2_, e3_. set (t1 := tau1 _ _ _) in *. set (t2 := tau2 _ _ _) in *. set (t3 := tau3 _ _ _) in *. fold W in FL. change (W = SM a b c d e f g h i j) in EW. rewrite EW in *.
  destruct (EL lam) as (S1 & S2 & S3 & S4).
  assert (PS : forall x y z w, 0 <= form4 (lam - a) (- b) (- c) (- d) (lam - e) (- f) (- g) (lam - h) (- i) (lam - j) x y z w).
  { intros x y z w. assert (Q := form_SM a b c d e f g h i j lam (mkq x y z w)). cbn [qw qx qy qz] in Q. rewrite <- EW, form_shift in Q. assert (P := form_le (mkq x y z w)). lra. }
  destruct (psd4 _ _ _ _ _ _ _ _ _ _ PS) as (P1 & P2 & P3 & P4). rewrite S2 in P2. rewrite S3 in P3.
  assert (Z4 : quartic t1 t2 t3 lam = 0).
  { unfold t1, t2, t3. rewrite <- charpoly. apply (det_kernel _ v); [|apply unitq_nz, (proj1 HO)]. change (flae_W _ _ _) with W. rewrite EW. exact EV. }
  split; [split; [exact P2|nra]|]. split; [exact P3|]. split; [|split].
  - intros t. assert (M := min4_shift (lam - a) (- b) (- c) (- d) (lam - e) (- f) (- g) (lam - h) (- i) (lam - j) t). rewrite S1, S2, S3, S4, Z4 in M.
    destruct (EL (lam + t)) as (_ & _ & _ & Q). rewrite <- Q. replace (lam + t - a) with (lam - a + t) by ring. replace (lam + t - e) with (lam - e + t) by ring. replace (lam + t - h) with (lam - h + t) by ring. replace (lam + t - j) with (lam - j + t) by ring. rewrite M. ring.
  - intros t. unfold quartic'. rnumg. ring.
  - intros m M0 VZ GG. rewrite <- S3. assert (U := proj1 HO). unfold unitq in U. assert (GG' := GP m M0 GG). clear - EV U VZ GG' M0. destruct v as [x y z w]. destruct (SM_kernel _ _ _ _ _ _ _ _ _ _ _ _ _ _ _ EV) as (E1 & E2 & E3 & E4). cbn [qz] in VZ.
    unfold dotq in U. cbn [qw qx qy qz] in U. rnumg. apply (gap_sum3 _ _ _ _ _ _ _ _ _ _ x y z w); try assumption; try lra.
    intros p q r s. assert (Q := GG' (mkq p q r s)). rewrite form_SM in Q. cbn [qw qx qy qz] in Q. unfold dotq in Q. cbn [qw qx qy qz] in Q. rnum. replace (p * p + q * q + r * r + s * s - (x * p + y * q + z * r + w * s) ^ 2) with (p * p + q * q + r * r + s * s - (x * p + y * q + z * r + w * s) * (x * p + y * q + z * r + w * s)) by ring. cbn [pow] in Q. rewrite ?Rmult_1_r in Q. lra.
Qed.
Lemma quality t : 0 <= t -> qz v <> 0 -> pivots_ok (shift W (lam + t)) ->
  unitq (kernel_quat W (lam + t)) /\ lam - form W (kernel_quat W (lam + t)) <= t * (1 / qz v ^ 2 - 1).
Proof.
  intros T VZ HP. rewrite kernel_quat_kvec. set (N := shift W (lam + t)) in *. split; [apply normalizeq_unit, kvec_nz|].
  destruct (kvec_residual N HP) as [c EC]. set (y := kvec N) in *. assert (YZ : qz y = -1) by reflexivity.
  assert (Y1 : 1 <= dotq y y). { assert (Q := last_le y). rewrite YZ in Q. lra. }
  assert (FN : form N y = - c) by (unfold form; rewrite EC, dotq_last, YZ; ring).
  assert (FW : form W y = (lam + t) * dotq y y - c). { unfold N in FN. rewrite form_shift in FN. lra. }
  assert (FL := form_le y). assert (VE : qz v * c = - t * dotq v y).
  { rewrite <- dotq_last, <- EC. unfold N. rewrite sym_W, mulW_shift2, lam_eigen. apply dotq_zero_minus. }
  assert (CY := cauchy_q v y (proj1 HO)). assert (C0 : t * dotq y y <= c) by lra. assert (C1 : 0 <= c) by nra.
  assert (Z2 : 0 < qz v ^ 2) by (assert (Q := Rsqr_pos_lt _ VZ); unfold Rsqr in Q; lra).
  assert (CC : qz v ^ 2 * (c * c) <= t * c). { replace (qz v ^ 2 * (c * c)) with ((qz v * c) ^ 2) by ring. rewrite VE. replace ((- t * dotq v y) ^ 2) with (t * (t * dotq v y ^ 2)) by ring. apply Rmult_le_compat_l; [exact T|]. nra. }
  assert (CB : qz v ^ 2 * c <= t). { destruct C1 as [C1| <-]; [|lra]. apply (Rmult_le_reg_r c); [exact C1|lra]. }
  destruct (normalizeq_split y (kvec_nz N)) as (s & S & E). set (u := normalizeq y) in *. assert (UU : dotq u u = 1) by (apply normalizeq_unit, kvec_nz).
  assert (DY : dotq y y = s * s). { rewrite E, dotq_scale2, UU. ring. }
  assert (FY : form W y = s * s * form W u) by (rewrite E at 1; apply form_scale). rewrite FY, DY in FW. rewrite DY in Y1.
  assert (D : s * s * (lam - form W u) = c - t * (s * s)) by lra.
  assert (CT : c <= t * (1 / qz v ^ 2)). { apply (Rmult_le_reg_l (qz v ^ 2)); [exact Z2|]. replace (qz v ^ 2 * (t * (1 / qz v ^ 2))) with t by (field; exact VZ). exact CB. }
  apply (Rmult_le_reg_l (s * s)); [lra|]. rewrite D. nra.
Qed.
Lemma sole_pivots t : 0 <= t -> qz v <> 0 -> sole l v -> pivots_ok (shift W (lam + t)).
Proof.
  intros T VZ SO. apply negative_pivots. intros x XZ XN. destruct (unit_split x XN) as (u & s & U & S & E & D). rewrite E, form_scale, form_shift, U. assert (UZ : qz u = 0).
  { rewrite E in XZ. change (s * qz u = 0) in XZ. apply Rmult_integral in XZ. destruct XZ; lra. }
  assert (FU := form_le u). rewrite U in FU. assert (NG : form W u - (lam + t) * 1 < 0); [|assert (SS : 0 < s * s) by (apply Rmult_lt_0_compat; exact S); assert (G := Rmult_lt_compat_l _ _ _ SS NG); rewrite Rmult_0_r in G; exact G]. destruct (Rle_lt_or_eq_dec _ _ FU) as [L|L]; [lra|]. exfalso.
  assert (WL := wahba_loss u U). destruct (SO u U ltac:(lra)) as [Q|Q]; rewrite Q in UZ; [exact (VZ UZ)|]. change (- qz v = 0) in UZ. lra.
Qed.
Lemma gap_sole g : 0 < g -> gap l v g -> sole l v.
Proof.
  intros G0 GG x U Q. assert (P := gap_form g G0 GG x). assert (WL := wahba_loss x U). rewrite form_shift, U in P. set (c := dotq v x) in *. assert (C2 : 1 <= c ^ 2) by nra. assert (CC := cauchy_q v x (proj1 HO)). fold c in CC. rewrite U in CC.
  assert (Z : subq x (scaleq c v) = zeroq). { apply dotq_zero. rewrite dotq_minus2, (proj1 HO), U. fold c. lra. }
  apply subq_zero in Z. assert (C : (c - 1) * (c + 1) = 0) by lra. apply Rmult_integral in C. destruct C as [C|C].
  - left. rewrite Z. replace c with 1 by lra. apply scaleq_1.
  - right. rewrite Z. replace c with (-1) by lra. apply scaleq_m1.
Qed.
Lemma gap_le2 g : gap l v g -> g <= 2.
Proof.
  intros GG. assert (U := proj1 HO). destruct v as [a b c d] eqn:EV. assert (Q := GG (mkq (- b) a (- d) c)). assert (U' : unitq (mkq (- b) a (- d) c)). { unfold unitq in *. rewrite <- U. apply turned. }
  assert (P := Q U' (proj2 (turned a b c d))). assert (X := wahba_le2 _ U'). assert (Y := wahba_nonneg (mkq a b c d)). lra.
Qed.
Lemma flae_newton : flae l = rbind (newton (quartic (tau1 (Hrow (normed l) x3) (Hrow (normed l) y3) (Hrow (normed l) z3)) (tau2 (Hrow (normed l) x3) (Hrow (normed l) y3) (Hrow (normed l) z3)) (tau3 (Hrow (normed l) x3) (Hrow (normed l) y3) (Hrow (normed l) z3)))
  (quartic' (tau1 (Hrow (normed l) x3) (Hrow (normed l) y3) (Hrow (normed l) z3)) (tau2 (Hrow (normed l) x3) (Hrow (normed l) y3) (Hrow (normed l) z3))) (1 / 100000) (148 / 10000000000) 4 (lam + wahba l v)) (fun p => Ok (kernel_quat W p)).
Proof. unfold lam. replace (1 - wahba l v + wahba l v) with 1 by ring. reflexivity. Qed.
Lemma flae_result q : flae l = Ok q -> exists t, q = kernel_quat W (lam + t) /\ 0 <= t <= wahba l v /\ accepted lam (4 * lam) e2_ e3_ (1 / 100000) (148 / 10000000000) t.
Proof.
  rewrite flae_newton. destruct lam_coeffs as ([A1 A2] & A3 & A4 & A5 & _). assert (LT := lam_trace). assert (LL := lam_le1). assert (WN := wahba_nonneg v).
  destruct (newton _ _ _ _ _ _) as [p|x] eqn:EN; cbn [rbind]; [|discriminate]. intros E. injection E as <-.
  destruct (newton_result lam (4 * lam) e2_ e3_ _ _ ltac:(lra) A1 A3 A4 A5 (1 / 100000) (148 / 10000000000) ltac:(lra) LT 4 (wahba l v) p WN ltac:(unfold lam; lra) EN) as (t & -> & B & C).
  exists t. auto.
Qed.
Lemma flae_returns g : 0 < g -> qz v <> 0 -> gap l v g -> 40 * wahba l v <= g ^ 3 -> exists q, flae l = Ok q.
Proof.
  intros G0 VZ GG GW. rewrite flae_newton. destruct lam_coeffs as ([A1 A2] & A3 & A4 & A5 & A6). assert (LT := lam_trace). assert (LL := lam_le1). assert (WN := wahba_nonneg v).
  destruct (newton_four lam (4 * lam) e2_ e3_ _ _ g (wahba l v) ltac:(lra) (conj A1 A2) (conj G0 (gap_le2 g GG)) (A6 g G0 VZ GG) LT WN ltac:(unfold lam; lra) GW A4 A5) as [p E]. rewrite E. eexists. reflexivity.
Qed.
End Opt.
