(** * Lemmas: how well the linear-quadratic gain damps a principal axis *)
From Coq Require Import Reals Machin Lra Psatz Lia.
From Verif Require Import Num Vec Mat6 M_struct M_sim M_lqr S_rot S_sim S_obs S_lqr P_quat P_wheel P_obs P_lqr P_lqr2 P_dare P_axis Props_lqr Props_dare P_tdelay.
Local Open Scope R_scope.

Lemma mv6_add' (m : M6) x y : mv6 m (add6 x y) = add6 (mv6 m x) (mv6 m y).
Proof. destruct m as [p q r s], x as [x1 x2], y as [y1 y2]. unf6. rewrite !mv_add3. f_equal; apply add3_4. Qed.
Lemma pair_split (n : v3) (s t : R) : mk6 (scale3 s n) (scale3 t n) = add6 (scale6 s (mk6 n zero3)) (scale6 t (mk6 zero3 n)).
Proof. destruct n as [n1 n2 n3]. unf6. f_equal; vring. Qed.
Lemma dot6_pair (y : V6) (P : M6) (n : v3) s t : dot6 y (mv6 P (mk6 (scale3 s n) (scale3 t n))) = s * dot6 y (mv6 P (mk6 n zero3)) + t * dot6 y (mv6 P (mk6 zero3 n)).
Proof. rewrite pair_split, mv6_add', !mv6_scale, dot6_add_r, !dot6_scale_r. reflexivity. Qed.
Lemma no_mode_neg A B K l x : dies_out (looped A B K) -> l <= - 1 -> x <> zero6 -> one_step A B K x = scale6 l x -> False.
Proof.
  intros D L N H. assert (P := dot6_pos x N). destruct (D x (dot6 x x) P) as (n & Hn). specialize (Hn n (Nat.le_refl n)).
  rewrite (mode_run A B K l x H), scale6_dot in Hn. unfold R_dist in Hn. rewrite Rminus_0_r in Hn.
  assert (Q : 1 <= (l ^ n) ^ 2). { replace ((l ^ n) ^ 2) with ((l * l) ^ n) by (rewrite Rpow_mult_distr; ring). apply pow_R1_Rle. nra. } assert (Q2 := Rmult_le_compat_r (dot6 x x) 1 _ ltac:(lra) Q). rewrite Rabs_right in Hn by lra. lra.
Qed.
Lemma sc1 (n : v3) : scale3 1 n = n. Proof. vring. Qed.
Lemma sc_sc (p q : R) (n : v3) : scale3 p (scale3 q n) = scale3 (p * q) n. Proof. vring. Qed.
Lemma sc_add (p q : R) (n : v3) : add3 (scale3 p n) (scale3 q n) = scale3 (p + q) n. Proof. vring. Qed.
Lemma dot_sc (p : R) (a c : v3) : dot3 a (scale3 p c) = p * dot3 a c. Proof. vring. Qed.
Lemma dot_sc2 (p q : R) (a c : v3) : dot3 (scale3 p a) (scale3 q c) = p * q * dot3 a c. Proof. vring. Qed.
Lemma zero_unit (n : v3) : unit3 n -> n <> zero3. Proof. intros U ->. revert U. unfold unit3. vunfoldg; rnumg. lra. Qed.
Lemma six_eq (n : v3) p q p' q' : p = p' -> q = q' -> mk6 (scale3 p n) (scale3 q n) = mk6 (scale3 p' n) (scale3 q' n). Proof. intros -> ->. reflexivity. Qed.
Lemma sc0 (n : v3) : scale3 0 n = zero3. Proof. vring. Qed.
Section Axis.
Variables (J : m3) (Ts e w : R) (P : M6) (Kq Kw : m3) (n : v3) (j kq kw : R).
Hypotheses (DJ : det3 J <> 0) (HT : 0 < Ts) (NE : e <> 0) (NW : w <> 0) (Hj : 0 < j) (HN : principal J n j).
Hypotheses (EQ : mv Kq n = scale3 kq n) (EW : mv Kw n = scale3 kw n).
Hypotheses (HR : riccati (design_A Ts) (design_B Ts J) (weight_x e w) lqr_R P) (HK : lqr_K (design_A Ts) (design_B Ts J) lqr_R P = Ok (mkK Kq Kw)).
Let S := lqr_S (design_B Ts J) lqr_R P.
Let s := dot3 n (mv S n).
Lemma inv_axis : mv (inv3 J) n = scale3 (/ j) n.
Proof. destruct HN as (U & EJ & _). replace n with (mv J (scale3 (/ j) n)) at 1; [apply inv3_mv, DJ|]. rewrite mv_scale3, EJ, sc_sc, Rinv_l by lra. apply sc1. Qed.
Lemma B_axis k : mv63 (design_B Ts J) (scale3 k n) = mk6 (scale3 (Ts ^ 2 / (4 * j) * k) n) (scale3 (Ts / j * k) n).
Proof. unfold design_B. unf63. rewrite !mv_scalem, !mv_scale3, inv_axis, !sc_sc. apply six_eq; field; lra. Qed.
Lemma A_axis p q : mv6 (design_A Ts) (mk6 (scale3 p n) (scale3 q n)) = mk6 (scale3 (p + Ts / 2 * q) n) (scale3 q n).
Proof. unfold design_A. unf6. rewrite !mv_scalem, !mv_id3, mv_zerom, add3_0_l, sc_sc, sc_add. reflexivity. Qed.
Lemma s_pos : 0 < s.
Proof. unfold s, S. destruct HR as (_ & HP & _). destruct HN as (U & _ & _). apply lqr_S_pos; [exact HP|apply zero_unit, U]. Qed.
(** the determinant of the loop about the axis *)
Lemma loop_det : s * (1 - Ts * kw / j + Ts ^ 2 * kq / (4 * j)) = 625.
Proof.
  destruct HR as (_ & HP & _). destruct HN as (U & _ & _). unfold unit3 in U. set (Bn := mv63 (design_B Ts J) n).
  assert (EB : Bn = mk6 (scale3 (Ts ^ 2 / (4 * j)) n) (scale3 (Ts / j) n)). { unfold Bn. assert (X := B_axis 1). rewrite !Rmult_1_r in X. rewrite sc1 in X. exact X. }
  assert (G1 := lqr_gain _ _ P (mk6 (scale3 1 n) (scale3 0 n)) _ HK HP). assert (G2 := lqr_gain _ _ P (mk6 (scale3 0 n) (scale3 1 n)) _ HK HP). rewrite A_axis in G1, G2.
  assert (K1 : mv36 (mkK Kq Kw) (mk6 (scale3 1 n) (scale3 0 n)) = scale3 kq n) by (unfold mv36; cbn [k1 k2 u1 u2]; rewrite !mv_scale3, EQ, EW, !sc_sc, sc_add; f_equal; ring).
  assert (K2 : mv36 (mkK Kq Kw) (mk6 (scale3 0 n) (scale3 1 n)) = scale3 kw n) by (unfold mv36; cbn [k1 k2 u1 u2]; rewrite !mv_scale3, EQ, EW, !sc_sc, sc_add; f_equal; ring).
  rewrite K1, mv_scale3 in G1. rewrite K2, mv_scale3 in G2. fold S in G1, G2.
  assert (F1 := f_equal (dot3 n) G1). assert (F2 := f_equal (dot3 n) G2). rewrite dot_sc, <- dot63 in F1, F2. fold Bn s in F1, F2. rewrite dot6_pair in F1, F2.
  assert (F3 : s = 625 + dot6 Bn (mv6 P Bn)). { unfold s, S. rewrite lqr_S_mv, dot3_add_r, (proj2 (R_pos n)), U, <- dot63. fold Bn. ring. }
  rewrite EB in F3 at 2. rewrite dot6_pair in F3. set (X1 := dot6 Bn (mv6 P (mk6 n zero3))) in *. set (X2 := dot6 Bn (mv6 P (mk6 zero3 n))) in *. clearbody X1 X2 s.
  assert (E1 : X1 = kq * s) by lra. assert (E2 : X2 = kw * s - Ts / 2 * X1) by lra. rewrite E2, E1 in F3.
  replace (s * (1 - Ts * kw / j + Ts ^ 2 * kq / (4 * j))) with (s - (Ts ^ 2 / (4 * j) * (kq * s) + Ts / j * (kw * s - Ts / 2 * (kq * s)))) by (field; lra). lra.
Qed.
(** the alternating motion: a quadratic lower bound *)
Lemma alternating : 625 * (2 * j / Ts) ^ 2 < s * (kw - 2 * j / Ts) ^ 2.
Proof.
  destruct HN as (U & _ & _). unfold unit3 in U. set (u := scale3 (- (2 * j / Ts)) n). set (x := mk6 (scale3 0 n) (scale3 1 n)). assert (C := complete_square _ _ _ P _ x u HR HK). cbv zeta in C. fold S in C.
  assert (EY : add6 (mv6 (design_A Ts) x) (mv63 (design_B Ts J) u) = scale6 (-1) x). { unfold x, u. rewrite A_axis, B_axis. unf6. rewrite !sc_sc, !sc_add. apply six_eq; field; lra. }
  assert (ED : add3 u (mv36 (mkK Kq Kw) x) = scale3 (kw - 2 * j / Ts) n). { unfold x, u, mv36. cbn [k1 k2 u1 u2]. rewrite !mv_scale3, EQ, EW, !sc_sc, !sc_add. f_equal. ring. }
  rewrite EY, ED in C. rewrite mv6_scale, dot6_scale_r, dot6_comm, dot6_scale_r, (dot6_comm _ x), (proj2 (R_pos u)), mv_scale3 in C. set (k := kw - 2 * j / Ts) in *.
  assert (D1 : dot3 (scale3 k n) (scale3 k (mv S n)) = k ^ 2 * s) by (rewrite dot_sc2; unfold s; ring). assert (D2 : dot3 u u = (2 * j / Ts) ^ 2 * dot3 n n) by (unfold u; rewrite dot_sc2; ring). rewrite D1, D2, U in C.
  destruct (weight_low e w NE NW) as (m & Hm & QL). specialize (QL x). assert (XX : dot6 x x = 1). { unfold x, dot6. cbn [u1 u2]. rewrite !dot_sc2, U. ring. } rewrite XX in QL. lra.
Qed.
Lemma damped : j * kq < kw ^ 2.
Proof.
  assert (L := loop_det). assert (A := alternating). assert (S0 := s_pos). clearbody s. rewrite <- L in A. replace (s * (1 - Ts * kw / j + Ts ^ 2 * kq / (4 * j)) * (2 * j / Ts) ^ 2) with (s * ((2 * j / Ts) ^ 2 - 4 * j * kw / Ts + j * kq)) in A by (field; lra). apply Rmult_lt_reg_l in A; [|exact S0].
  replace ((kw - 2 * j / Ts) ^ 2) with (kw ^ 2 + ((2 * j / Ts) ^ 2 - 4 * j * kw / Ts)) in A by (field; lra). lra.
Qed.
Lemma not_too_fast : dies_out (looped (design_A Ts) (design_B Ts J) (mkK Kq Kw)) -> Ts * kw < 2 * j.
Proof.
  intros D. apply Rnot_le_lt. intros Z. assert (ND := damped). destruct HN as (U & EJ & _). assert (NN := zero_unit n U).
  assert (EA : smp_A Ts 1 = design_A Ts) by (unfold smp_A, design_A; f_equal; f_equal; ring). assert (EB : smp_B Ts 1 (inv3 J) = design_B Ts J) by (unfold smp_B, design_B; f_equal; f_equal; ring). rewrite <- EA, <- EB in D.
  set (b := Ts * kw + Ts ^ 2 / 4 * kq). set (c := Ts ^ 2 / 2 * kq). assert (EB0 : b = Ts * kw + Ts ^ 2 / 4 * kq) by reflexivity. assert (EC0 : c = Ts ^ 2 / 2 * kq) by reflexivity. assert (F2 : 4 * j - 2 * b + c <= 0) by (rewrite EB0, EC0; lra). clearbody b c.
  assert (DI : (b - 4 * j) * (b - 4 * j) <= b * b - 4 * j * c) by nra. set (q := sqrt (b * b - 4 * j * c)). assert (Q0 : 0 <= q) by apply sqrt_pos. assert (SQ0 := Rle_0_sqr (b - 4 * j)). unfold Rsqr in SQ0. assert (Q2 : q * q = b * b - 4 * j * c) by (apply sqrt_def; lra).
  assert (QB : 4 * j - b <= q). { apply Rnot_lt_le. intros L. assert (q * q < (4 * j - b) * (4 * j - b)) by (apply Rmult_le_0_lt_compat; lra). lra. }
  set (mu := (- b - q) / (2 * j)). assert (HM : mu <= - 2). { unfold mu. apply (Rmult_le_reg_r (2 * j)); [lra|]. replace ((- b - q) / (2 * j) * (2 * j)) with (- b - q) by (field; lra). lra. }
  assert (R0 : j * mu ^ 2 + b * mu + c = 0). { unfold mu. replace (j * ((- b - q) / (2 * j)) ^ 2 + b * ((- b - q) / (2 * j)) + c) with ((q * q - b * b + 4 * j * c) / (4 * j)) by (field; lra). rewrite Q2. field. lra. }
  apply (no_mode_neg _ _ _ (1 + mu) (mk6 (scale3 (1 * Ts * (mu + 2) / (4 * mu)) n) n) D); [lra|intros X; apply NN; exact (f_equal u2 X)|].
  apply mode_from_pencil; try assumption; try lra. unfold pencil. rewrite !mv_addm, !mv_scalem, EJ, EQ, EW.
  assert (X : mu ^ 2 * j + Ts * mu * kw + 1 * (Ts ^ 2 / 4) * (mu + 2) * kq = 0) by (rewrite <- R0; rewrite EB0, EC0; field).
  rewrite !sc_sc, !sc_add, X. apply sc0.
Qed.
End Axis.
(** ** half a sample is less than the delay the damping allows *)
Lemma atan_2 : 11 / 10 < atan 2.
Proof.
  assert (E : atan 2 = atan (/ 2) + 2 * atan (/ 3)). { assert (M := Machin_2_3). assert (I : atan (/ 2) = PI / 2 - atan 2) by (apply atan_inv; lra). lra. }
  assert (L : forall y, 0 <= y -> y - y ^ 3 / 3 <= atan y).
  { intros y Y. destruct (Req_dec y 0) as [->|N]; [rewrite atan_0; lra|]. destruct (MVT_cor2 (fun x => atan x - (x - x ^ 3 / 3)) (fun x => / (1 + x ^ 2) - (1 - x ^ 2)) 0 y ltac:(lra)) as (c & E' & C).
    - intros c _. apply derivable_pt_lim_minus; [apply derivable_pt_lim_atan|]. replace (1 - c ^ 2) with (1 - (INR 3 * c ^ 2) * / 3) by (cbn [INR]; field). apply derivable_pt_lim_minus; [apply derivable_pt_lim_id|]. apply (derivable_pt_lim_ext (fun x => / 3 * x ^ 3)); [intros x; field|]. rewrite (Rmult_comm _ (/ 3)). apply (derivable_pt_lim_scal (fun x => x ^ 3)). apply (derivable_pt_lim_pow c 3).
    - rewrite atan_0 in E'. assert (K : 0 <= / (1 + c ^ 2) - (1 - c ^ 2)). { assert (P : 0 < 1 + c ^ 2) by (assert (Q := pow2_ge_0 c); lra). replace (/ (1 + c ^ 2) - (1 - c ^ 2)) with (c ^ 2 * c ^ 2 / (1 + c ^ 2)) by (field; lra). apply Rmult_le_pos; [|left; apply Rinv_0_lt_compat, P]. assert (Q := pow2_ge_0 c). nra. }
      assert (0 <= (/ (1 + c ^ 2) - (1 - c ^ 2)) * (y - 0)) by (apply Rmult_le_pos; lra). lra. }
  assert (L2 := L (/ 2) ltac:(lra)). assert (L3 := L (/ 3) ltac:(lra)). lra.
Qed.
Lemma half_fits a b w Ts : 0 < a -> 0 < b -> 0 < w -> 0 < Ts -> w ^ 4 = a ^ 2 * w ^ 2 + b ^ 2 -> 2 * b < a ^ 2 -> Ts * a < 2 -> Ts / 2 * w < 11 / 10 /\ 2 < a * w / b.
Proof.
  intros Ha Hb Hw HT W4 D F. assert (W2 : 0 < w ^ 2) by (apply pow_lt, Hw). assert (A2 : 0 < a ^ 2) by (apply pow_lt, Ha). assert (AW : a < w). { apply Rnot_le_lt. intros L. assert (w ^ 2 <= a ^ 2) by (apply pow_incr; lra). assert (0 < b ^ 2) by (apply pow_lt, Hb). replace (w ^ 4) with (w ^ 2 * w ^ 2) in W4 by ring. assert (w ^ 2 * w ^ 2 <= a ^ 2 * w ^ 2) by (apply Rmult_le_compat_r; lra). lra. }
  split.
  - assert (WA : w < 11 / 10 * a). { apply Rnot_le_lt. intros L. assert (Q : 121 / 100 * a ^ 2 <= w ^ 2) by (assert ((11 / 10 * a) ^ 2 <= w ^ 2) by (apply pow_incr; lra); lra). replace (w ^ 4) with (w ^ 2 * w ^ 2) in W4 by ring. set (m := a ^ 2) in *. set (t := w ^ 2) in *. assert (B2 : b * b < m / 2 * (m / 2)) by (apply Rmult_le_0_lt_compat; lra). clearbody m t. nra. }
    assert (Ts / 2 * w < Ts / 2 * (11 / 10 * a)) by (apply Rmult_lt_compat_l; lra). lra.
  - apply (Rmult_lt_reg_r b); [exact Hb|]. replace (a * w / b * b) with (a * w) by (field; lra). assert (a * a < a * w) by (apply Rmult_lt_compat_l; assumption). cbn [pow] in D. lra.
Qed.
