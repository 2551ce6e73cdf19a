(** * Lemmas: the linear-quadratic design of the simulation's attitude loop *)
From Coq Require Import Reals List Bool Lra Psatz Lia.
From Verif Require Import Num Vec Mat6 M_struct M_sim M_lqr S_obs S_lqr P_quat P_wheel P_obs.
Local Open Scope R_scope.

Ltac unf63 := unfold mv63, mv36, tr63, mm_6_63, mm_36_6, mm_36_63, mm_63_36, mm_3_36, addm63, scalem63; cbn [c1 c2 k1 k2 u1 u2 b11 b12 b21 b22].
Lemma dot3_add_l (a b c : v3) : dot3 (add3 a b) c = dot3 a c + dot3 b c. Proof. vring. Qed.
Lemma dot3_add_r (a b c : v3) : dot3 c (add3 a b) = dot3 c a + dot3 c b. Proof. vring. Qed.
Lemma dot3_opp_l (a c : v3) : dot3 (opp3 a) c = - dot3 a c. Proof. vring. Qed.
Lemma mv_opp3 (m : m3) (x : v3) : mv m (opp3 x) = opp3 (mv m x). Proof. vring. Qed.
Lemma dot63 B u y : dot6 (mv63 B u) y = dot3 u (mv36 (tr63 B) y).
Proof. destruct B as [B1 B2], y as [y1 y2]. unfold dot6. unf63. rewrite !dot_tr, dot3_add_r. reflexivity. Qed.
Lemma mv36_add K x y : mv36 K (add6 x y) = add3 (mv36 K x) (mv36 K y).
Proof. destruct K as [K1 K2], x as [x1 x2], y as [y1 y2]. unfold add6. unf63. rewrite !mv_add3. apply add3_4. Qed.
Lemma mv63_add B u v : mv63 B (add3 u v) = add6 (mv63 B u) (mv63 B v).
Proof. destruct B as [B1 B2]. unfold add6. unf63. rewrite !mv_add3. reflexivity. Qed.
Lemma mv_36_6 K A x : mv36 (mm_36_6 K A) x = mv36 K (mv6 A x).
Proof. destruct K as [K1 K2], A as [A1 A2 A3 A4], x as [x1 x2]. unfold mv6. unf63. rewrite !mv_addm, !mv_add3, !mv_mm. apply add3_4. Qed.
Lemma mv_3_36 m K x : mv36 (mm_3_36 m K) x = mv m (mv36 K x).
Proof. destruct K as [K1 K2], x as [x1 x2]. unf63. rewrite mv_add3, !mv_mm. reflexivity. Qed.
Lemma mv_36_63 K B u : mv (mm_36_63 K B) u = mv36 K (mv63 B u).
Proof. destruct K as [K1 K2], B as [B1 B2]. unf63. rewrite mv_addm, !mv_mm. reflexivity. Qed.
Lemma mv_6_63 A B u : mv63 (mm_6_63 A B) u = mv6 A (mv63 B u).
Proof. destruct A as [A1 A2 A3 A4], B as [B1 B2]. unfold mv6. unf63. rewrite !mv_addm, !mv_mm. reflexivity. Qed.
Lemma mv_addm63 a b u : mv63 (addm63 a b) u = add6 (mv63 a u) (mv63 b u).
Proof. destruct a as [A1 A2], b as [B1 B2]. unfold add6. unf63. rewrite !mv_addm. reflexivity. Qed.
Lemma mv_scalem63 k a u : mv63 (scalem63 k a) u = scale6 k (mv63 a u).
Proof. destruct a as [A1 A2]. unfold scale6. unf63. rewrite !mv_scalem. reflexivity. Qed.
Lemma mv6_scalem k a x : mv6 (scalem6 k a) x = scale6 k (mv6 a x).
Proof. destruct a as [A1 A2 A3 A4], x as [x1 x2]. unf6. rewrite !mv_scalem. f_equal; vring. Qed.
Lemma lqr_S_mv B Rm P u : mv (lqr_S B Rm P) u = add3 (mv Rm u) (mv36 (tr63 B) (mv6 P (mv63 B u))).
Proof. unfold lqr_S. rewrite mv_addm, mv_36_63, mv_36_6. reflexivity. Qed.
Lemma lqr_R_mv u : mv lqr_R u = scale3 625 u.
Proof. unfold lqr_R. rewrite mv_scalem, mv_id3. replace (1 / 0.04 ^ 2) with 625 by lra. reflexivity. Qed.

(** ** the weight of the input is positive, so R + B'PB is invertible *)
Lemma lqr_S_pos B P u : psd6 P -> u <> zero3 -> 0 < dot3 u (mv (lqr_S B lqr_R P) u).
Proof.
  intros HP N. rewrite lqr_S_mv, dot3_add_r, <- dot63, lqr_R_mv. assert (H := HP (mv63 B u)). assert (H2 := dot3_pos u N).
  assert (E : dot3 u (scale3 625 u) = 625 * dot3 u u) by vring. rewrite E. lra.
Qed.
Lemma lqr_S_nonneg B P u : psd6 P -> 0 <= dot3 u (mv (lqr_S B lqr_R P) u).
Proof.
  intros HP. destruct (zero3_dec u) as [->|N]; [|left; apply lqr_S_pos; assumption]. rewrite mv_zero3. assert (E : dot3 (zero3 : v3) zero3 = 0) by vring. lra.
Qed.
(** a singular matrix has a kernel *)
Lemma cross_dot_l (a b : v3) : dot3 a (cross3 a b) = 0. Proof. vring. Qed.
Lemma cross_dot_r (a b : v3) : dot3 b (cross3 a b) = 0. Proof. vring. Qed.
Lemma perp_exists (a : v3) : exists w, w <> zero3 /\ dot3 a w = 0.
Proof.
  destruct a as [p q r]. destruct (Req_EM_T p 0) as [->|N].
  - exists (mk3 1 0 0). split; [intros E; apply mk3_inj in E; rnum; lra|]. vunfoldg; rnumg. ring.
  - exists (mk3 (- q) p 0). split; [intros E; apply mk3_inj in E; rnum; lra|]. vunfoldg; rnumg. ring.
Qed.
Lemma kernel3 (m : m3) : det3 m = 0 -> exists w, w <> zero3 /\ mv m w = zero3.
Proof.
  destruct m as [a b c]. intros D. unfold det3 in D. cbn [row1 row2 row3] in D.
  destruct (zero3_dec (cross3 a b)) as [Eab|N].
  2:{ exists (cross3 a b). split; [exact N|]. unfold mv. cbn [row1 row2 row3]. apply V3_eq; cbn; [apply cross_dot_l|apply cross_dot_r|]. rewrite <- D. vring. }
  destruct (zero3_dec (cross3 b c)) as [Ebc|N].
  2:{ exists (cross3 b c). split; [exact N|]. unfold mv. cbn [row1 row2 row3]. apply V3_eq; cbn; [exact D|apply cross_dot_l|apply cross_dot_r]. }
  destruct (zero3_dec (cross3 a c)) as [Eac|N].
  2:{ exists (cross3 a c). split; [exact N|]. unfold mv. cbn [row1 row2 row3]. apply V3_eq; cbn; [apply cross_dot_l| |apply cross_dot_r].
      assert (X : dot3 b (cross3 a c) = - dot3 a (cross3 b c)) by vring. rewrite X, D. rnumg. ring. }
  (* all rows are parallel to one of them, or zero *)
  assert (Par : forall p q w : v3, p <> zero3 -> cross3 p q = zero3 -> dot3 p w = 0 -> dot3 q w = 0).
  { intros p q w Np Z W. assert (X : dot3 p p * dot3 q w = dot3 p q * dot3 p w - dot3 (cross3 p q) (cross3 w p)) by vring.
    rewrite Z, W in X. assert (Y : dot3 (zero3 : v3) (cross3 w p) = 0) by vring. rewrite Y in X. assert (Pp := dot3_pos p Np). nra. }
  assert (Zr : forall w : v3, dot3 zero3 w = 0) by vring.
  assert (Anti : forall p q : v3, cross3 p q = zero3 -> cross3 q p = zero3).
  { intros p q E. assert (X : cross3 q p = opp3 (cross3 p q)) by vring. rewrite X, E. vring. }
  destruct (zero3_dec a) as [Za|Na].
  - destruct (zero3_dec b) as [Zb|Nb].
    + destruct (perp_exists c) as (w & W1 & W2). exists w. split; [exact W1|]. unfold mv. cbn [row1 row2 row3]. subst a b. rewrite !Zr, W2. reflexivity.
    + destruct (perp_exists b) as (w & W1 & W2). exists w. split; [exact W1|]. unfold mv. cbn [row1 row2 row3]. subst a. rewrite Zr, W2, (Par b c w Nb Ebc W2). reflexivity.
  - destruct (perp_exists a) as (w & W1 & W2). exists w. split; [exact W1|]. unfold mv. cbn [row1 row2 row3]. rewrite W2, (Par a b w Na Eab W2), (Par a c w Na Eac W2). reflexivity.
Qed.
Lemma lqr_S_det B P : psd6 P -> det3 (lqr_S B lqr_R P) <> 0.
Proof.
  intros HP D. destruct (kernel3 _ D) as (w & N & E). assert (H := lqr_S_pos B P w HP N). rewrite E in H.
  assert (X : dot3 w zero3 = 0) by vring. lra.
Qed.

(** ** completing the square *)
Lemma lqr_gain A B P x K : lqr_K A B lqr_R P = Ok K -> psd6 P -> mv (lqr_S B lqr_R P) (mv36 K x) = mv36 (tr63 B) (mv6 P (mv6 A x)).
Proof.
  unfold lqr_K. intros H HP. destruct (Reqb_spec (det3 (lqr_S B lqr_R P)) 0) as [|N]; [discriminate|]. injection H as <-.
  rewrite !mv_36_6, mv_3_36. apply mv_inv3, N.
Qed.
Lemma lqr_K_ok A B P : psd6 P -> exists K, lqr_K A B lqr_R P = Ok K.
Proof. intros HP. unfold lqr_K. destruct (Reqb_spec (det3 (lqr_S B lqr_R P)) 0) as [E|N]; [exfalso; revert E; apply lqr_S_det, HP|eauto]. Qed.
Lemma opp3_invol (a : v3) : opp3 (opp3 a) = a. Proof. vring. Qed.
Lemma complete_square A B Q P K x u : riccati A B Q lqr_R P -> lqr_K A B lqr_R P = Ok K ->
  let y := add6 (mv6 A x) (mv63 B u) in let d := add3 u (mv36 K x) in
  dot6 y (mv6 P y) + dot3 u (mv lqr_R u) + dot6 x (mv6 Q x) = dot6 x (mv6 P x) + dot3 d (mv (lqr_S B lqr_R P) d).
Proof.
  intros (SY & HP & Si & I & E) HK y d. assert (G := lqr_gain A B P x K HK HP). set (g := mv36 (tr63 B) (mv6 P (mv6 A x))) in *.
  assert (EK : mv Si g = mv36 K x). { rewrite <- G, lqr_S_mv. apply I. }
  rewrite (E x), dot6_add_r, dot6_sub_r. fold g. rewrite EK.
  rewrite <- !dot6_tr. set (k := mv36 K x) in *. set (a := mv6 A x) in *.
  assert (T1 : dot6 a (mv6 P (mv63 B k)) = dot3 k g).
  { rewrite dot6_comm, symm6_dot by exact SY. rewrite dot63. reflexivity. }
  rewrite T1.
  assert (T2 : dot6 y (mv6 P y) = dot6 a (mv6 P a) + 2 * dot3 u g + dot3 u (mv36 (tr63 B) (mv6 P (mv63 B u)))).
  { unfold y. rewrite mv6_add, !dot6_add_l, !dot6_add_r. rewrite (dot6_comm a (mv6 P (mv63 B u))), symm6_dot by exact SY. rewrite !dot63. fold g. ring. }
  rewrite T2. unfold d. rewrite mv_add3, !dot3_add_l, !dot3_add_r, G. rewrite (lqr_S_mv B lqr_R P u) at 1 2. rewrite !dot3_add_r.
  assert (T3 : dot3 k (mv lqr_R u) + dot3 k (mv36 (tr63 B) (mv6 P (mv63 B u))) = dot3 u g).
  { rewrite <- dot3_add_r, <- lqr_S_mv. rewrite <- G.
    (* S is symmetric *)
    rewrite (dot_comm3 u). rewrite !lqr_S_mv, dot3_add_r, dot3_add_l, <- dot63, (dot_comm3 (mv36 _ _)), <- dot63, !lqr_R_mv.
    rewrite (dot6_comm (mv63 B u)), symm6_dot by exact SY. f_equal. clearbody k. vring. }
  lra.
Qed.

(** ** the design trajectory *)
Lemma looped_driven A B K x n : looped A B K x n = driven A B (fun n => opp3 (mv36 K (looped A B K x n))) x n.
Proof. induction n as [|n IH]; [reflexivity|]. cbn [looped driven]. cbv zeta. rewrite IH at 1. reflexivity. Qed.
Lemma add3_opp_l (a : v3) : add3 (opp3 a) a = zero3. Proof. vring. Qed.
Lemma optimal_cost A B Q P K x : riccati A B Q lqr_R P -> lqr_K A B lqr_R P = Ok K ->
  (forall u n, dot6 x (mv6 P x) <= cost Q lqr_R (driven A B u x) u n + dot6 (driven A B u x n) (mv6 P (driven A B u x n))) /\
  forall n, dot6 x (mv6 P x) = cost Q lqr_R (looped A B K x) (fun n => opp3 (mv36 K (looped A B K x n))) n + dot6 (looped A B K x n) (mv6 P (looped A B K x n)).
Proof.
  intros HR HK. assert (HP : psd6 P) by (destruct HR as (_ & H & _); exact H). split.
  - intros u n. induction n as [|n IH]; [cbn; lra|]. cbn [cost driven]. set (y := driven A B u x n) in *.
    assert (C := complete_square A B Q P K y (u n) HR HK). cbv zeta in C. assert (S1 := lqr_S_nonneg B P (add3 (u n) (mv36 K y)) HP). lra.
  - intros n. induction n as [|n IH]; [cbn; lra|]. cbn [cost looped]. cbv zeta. set (y := looped A B K x n) in *.
    assert (C := complete_square A B Q P K y (opp3 (mv36 K y)) HR HK). cbv zeta in C.
    rewrite add3_opp_l, mv_zero3 in C. assert (Z : dot3 (zero3 : v3) zero3 = 0) by vring. lra.
Qed.

(** ** convergence *)
Lemma young (m a b : R) : a * (m * b) <= Rabs m * (a * a + b * b).
Proof.
  assert (H : Rabs (a * (m * b)) <= Rabs m * (a * a + b * b)).
  { rewrite !Rabs_mult. assert (P := Rabs_pos m). assert (A := Rabs_pos a). assert (B := Rabs_pos b).
    assert (SA : a * a = Rabs a * Rabs a) by (rewrite <- Rabs_mult, Rabs_right; [reflexivity|nra]).
    assert (SB : b * b = Rabs b * Rabs b) by (rewrite <- Rabs_mult, Rabs_right; [reflexivity|nra]). rewrite SA, SB.
    replace (Rabs a * (Rabs m * Rabs b)) with (Rabs m * (Rabs a * Rabs b)) by ring. apply Rmult_le_compat_l; [exact P|]. nra. }
  assert (H2 := Rle_abs (a * (m * b))). lra.
Qed.
Lemma bounded3 (m : m3) : exists c, 0 <= c /\ forall a b : v3, dot3 a (mv m b) <= c * (dot3 a a + dot3 b b).
Proof.
  destruct m as [[m1 m2 m3'] [m4 m5 m6] [m7 m8 m9]].
  exists (Rabs m1 + Rabs m2 + Rabs m3' + Rabs m4 + Rabs m5 + Rabs m6 + Rabs m7 + Rabs m8 + Rabs m9). split.
  - assert (H := Rabs_pos m1). assert (H2 := Rabs_pos m2). assert (H3 := Rabs_pos m3'). assert (H4 := Rabs_pos m4). assert (H5 := Rabs_pos m5). assert (H6 := Rabs_pos m6). assert (H7 := Rabs_pos m7). assert (H8 := Rabs_pos m8). assert (H9 := Rabs_pos m9). lra.
  - intros [a1 a2 a3] [e1 e2 e3]. vunfoldg; rnumg.
    assert (G : forall m a e T, 0 <= T - (a * a + e * e) -> a * (m * e) <= Rabs m * T).
    { intros m a e T HT. assert (Y := young m a e). assert (PP := Rabs_pos m). nra. }
    set (T := a1 * a1 + a2 * a2 + a3 * a3 + (e1 * e1 + e2 * e2 + e3 * e3)).
    assert (A1 := G m1 a1 e1 T). assert (A2 := G m2 a1 e2 T). assert (A3 := G m3' a1 e3 T). assert (A4 := G m4 a2 e1 T). assert (A5 := G m5 a2 e2 T). assert (A6 := G m6 a2 e3 T).
    assert (A7 := G m7 a3 e1 T). assert (A8 := G m8 a3 e2 T). assert (A9 := G m9 a3 e3 T).
    assert (Q1 := Rle_0_sqr a1). assert (Q2 := Rle_0_sqr a2). assert (Q3 := Rle_0_sqr a3). assert (Q4 := Rle_0_sqr e1). assert (Q5 := Rle_0_sqr e2). assert (Q6 := Rle_0_sqr e3). unfold Rsqr in *.
    unfold T in A1 at 1, A2 at 1, A3 at 1, A4 at 1, A5 at 1, A6 at 1, A7 at 1, A8 at 1, A9 at 1.
    assert (L : a1 * (m1 * e1) + a1 * (m2 * e2) + a1 * (m3' * e3) + (a2 * (m4 * e1) + a2 * (m5 * e2) + a2 * (m6 * e3)) + (a3 * (m7 * e1) + a3 * (m8 * e2) + a3 * (m9 * e3)) <= (Rabs m1 + Rabs m2 + Rabs m3' + Rabs m4 + Rabs m5 + Rabs m6 + Rabs m7 + Rabs m8 + Rabs m9) * T) by lra.
    lra.
Qed.
Lemma dot6_nonneg x : 0 <= dot6 x x.
Proof. unfold dot6. assert (A := dot3_nonneg (u1 x)). assert (B := dot3_nonneg (u2 x)). lra. Qed.
Lemma bounded6 (m : M6) : exists c, 0 < c /\ forall x, dot6 x (mv6 m x) <= c * dot6 x x.
Proof.
  destruct m as [m11 m12 m21 m22]. destruct (bounded3 m11) as (p & P & HP), (bounded3 m12) as (q & Q & HQ), (bounded3 m21) as (r & Rr & HR), (bounded3 m22) as (s & Ss & HS).
  exists (2 * p + q + r + 2 * s + 1). split; [lra|]. intros [x1 x2]. unfold dot6, mv6. cbn [u1 u2 b11 b12 b21 b22]. rewrite !dot3_add_r.
  assert (A := HP x1 x1). assert (B := HQ x1 x2). assert (C := HR x2 x1). assert (D := HS x2 x2).
  assert (N1 := dot3_nonneg x1). assert (N2 := dot3_nonneg x2). set (a := dot3 x1 x1) in *. set (b := dot3 x2 x2) in *. clearbody a b.
  assert (p * (a + a) <= p * (2 * (a + b))) by (apply Rmult_le_compat_l; lra). assert (s * (b + b) <= s * (2 * (a + b))) by (apply Rmult_le_compat_l; lra). lra.
Qed.
Lemma lqr_decay A B Q P K m : riccati A B Q lqr_R P -> lqr_K A B lqr_R P = Ok K -> 0 < m -> (forall x, m * dot6 x x <= dot6 x (mv6 Q x)) ->
  exists C rho, 0 <= C /\ 0 <= rho < 1 /\ forall x n, dot6 (looped A B K x n) (looped A B K x n) <= C * rho ^ n * dot6 x x.
Proof.
  intros HR HK Hm HQ. assert (HP : psd6 P) by (destruct HR as (_ & H & _); exact H). destruct (bounded6 P) as (c & Hc & HB).
  assert (Step : forall x, let y := add6 (mv6 A x) (mv63 B (opp3 (mv36 K x))) in dot6 y (mv6 P y) + m * dot6 x x <= dot6 x (mv6 P x)).
  { intros x y. assert (C := complete_square A B Q P K x (opp3 (mv36 K x)) HR HK). cbv zeta in C. fold y in C.
    rewrite add3_opp_l, mv_zero3 in C. assert (Z : dot3 (zero3 : v3) zero3 = 0) by vring.
    assert (U : 0 <= dot3 (opp3 (mv36 K x)) (mv lqr_R (opp3 (mv36 K x)))).
    { rewrite lqr_R_mv. set (k := opp3 _). assert (N := dot3_nonneg k). assert (X : dot3 k (scale3 625 k) = 625 * dot3 k k) by vring. lra. }
    assert (HQx := HQ x). lra. }
  assert (Low : forall x, m * dot6 x x <= dot6 x (mv6 P x)).
  { intros x. assert (H := Step x). cbv zeta in H. assert (H2 := HP (add6 (mv6 A x) (mv63 B (opp3 (mv36 K x))))). lra. }
  (* rho = 1 - m / c, made nonnegative by taking c at least m *)
  set (c' := c + m). assert (HB' : forall x, dot6 x (mv6 P x) <= c' * dot6 x x) by (intros x; assert (H := HB x); assert (N := dot6_nonneg x); unfold c'; nra).
  assert (Hc' : 0 < c') by (unfold c'; lra). assert (Hr : 0 <= 1 - m / c' < 1).
  { split.
    - assert (m / c' <= 1) by (apply (Rmult_le_reg_r c'); [exact Hc'|]; unfold Rdiv; rewrite Rmult_assoc, Rinv_l by lra; unfold c'; lra). lra.
    - assert (0 < m / c') by (apply Rdiv_lt_0_compat; lra). lra. }
  exists (c' / m), (1 - m / c'). split; [left; apply Rdiv_lt_0_compat; lra|]. split; [exact Hr|].
  intros x n. set (rho := 1 - m / c') in *.
  assert (D : dot6 (looped A B K x n) (mv6 P (looped A B K x n)) <= rho ^ n * dot6 x (mv6 P x)).
  { induction n as [|n IH]; [cbn; lra|]. cbn [looped]. cbv zeta. set (y := looped A B K x n) in *. assert (H := Step y). cbv zeta in H.
    assert (HBy := HB' y).
    assert (F : m * dot6 y y >= m / c' * dot6 y (mv6 P y)).
    { apply Rle_ge. unfold Rdiv. rewrite Rmult_assoc. apply Rmult_le_compat_l; [lra|]. apply (Rmult_le_reg_l c'); [exact Hc'|]. rewrite <- Rmult_assoc, Rinv_r by lra. lra. }
    assert (G : dot6 (add6 (mv6 A y) (mv63 B (opp3 (mv36 K y)))) (mv6 P (add6 (mv6 A y) (mv63 B (opp3 (mv36 K y))))) <= rho * dot6 y (mv6 P y)) by (unfold rho; lra).
    apply (Rle_trans _ _ _ G). cbn [pow]. rewrite Rmult_assoc. apply Rmult_le_compat_l; [lra|exact IH]. }
  assert (L := Low (looped A B K x n)). assert (U := HB' x). assert (Pn : 0 <= rho ^ n) by (apply pow_le; lra).
  apply (Rmult_le_reg_l m); [exact Hm|]. apply (Rle_trans _ _ _ L). apply (Rle_trans _ _ _ D).
  replace (m * (c' / m * rho ^ n * dot6 x x)) with (rho ^ n * (c' * dot6 x x)) by (field; lra). apply Rmult_le_compat_l; assumption.
Qed.
Lemma decay_dies C rho (f : nat -> R) k : 0 <= C -> 0 <= rho < 1 -> 0 <= k -> (forall n, 0 <= f n <= C * rho ^ n * k) -> Un_cv f 0.
Proof.
  intros HC Hr Hk H eps He. assert (Z : Un_cv (fun n => rho ^ n) 0).
  { intros e E. destruct (pow_lt_1_zero rho) with (y := e) as (N & HN); [rewrite Rabs_right; lra|exact E|]. exists N. intros n Hn. unfold R_dist. rewrite Rminus_0_r. apply HN, Hn. }
  destruct (Z (eps / (C * k + 1))) as (N & HN); [apply Rdiv_lt_0_compat; [exact He|nra]|]. exists N. intros n Hn. specialize (HN n Hn).
  unfold R_dist in *. rewrite Rminus_0_r in *. assert (Pn : 0 <= rho ^ n) by (apply pow_le; lra). rewrite Rabs_right in HN by lra. rewrite Rabs_right by (specialize (H n); lra).
  destruct (H n) as [_ U]. apply (Rle_lt_trans _ _ _ U). assert (X : rho ^ n * (C * k + 1) < eps).
  { apply (Rmult_lt_compat_r (C * k + 1)) in HN; [|nra]. unfold Rdiv in HN. rewrite Rmult_assoc, Rinv_l in HN by nra. lra. }
  nra.
Qed.

(** ** the discretisation *)
Lemma add6_0_r x : add6 x zero6 = x. Proof. destruct x as [x1 x2]. unf6. rewrite !add3_0_r. reflexivity. Qed.
Lemma scale3_zero k : scale3 k (zero3 : v3) = zero3. Proof. vring. Qed.
Lemma scale6_zero k : scale6 k zero6 = zero6. Proof. unf6. rewrite !scale3_zero. reflexivity. Qed.
Lemma lqr_A_mv x : mv6 lqr_A x = mk6 (scale3 (1 / 2) (u2 x)) zero3.
Proof. destruct x as [x1 x2]. unfold lqr_A. unf6. rewrite !mv_zerom, mv_scalem, mv_id3, add3_0_l, add3_0_r. replace 0.5 with (1 / 2) by lra. reflexivity. Qed.
Lemma lqr_A_sq x : mv6 lqr_A (mv6 lqr_A x) = zero6.
Proof. rewrite !lqr_A_mv. cbn [u2]. rewrite scale3_zero. reflexivity. Qed.
Lemma pow6_A n x : (2 <= n)%nat -> mv6 (pow6 lqr_A n) x = zero6.
Proof. intros H. destruct n as [|[|n]]; [lia|lia|]. cbn [pow6]. rewrite !mv6_mm, lqr_A_sq. apply mv6_zero. Qed.
Lemma expm_A_mv Ts n x : (1 <= n)%nat -> mv6 (expm_A lqr_A Ts n) x = add6 x (scale6 Ts (mv6 lqr_A x)).
Proof.
  intros H. induction n as [|n IH]; [lia|]. destruct n as [|n].
  - cbn [expm_A]. rewrite mv6_addm, mv6_scalem, mv6_id. cbn [pow6]. rewrite mv6_mm, mv6_id. cbn [fact]. replace (Ts ^ 1 / INR (1 * 1)) with Ts by (cbn; field). reflexivity.
  - change (expm_A lqr_A Ts (S (S n))) with (addm6 (expm_A lqr_A Ts (S n)) (scalem6 (Ts ^ (S (S n)) / INR (fact (S (S n)))) (pow6 lqr_A (S (S n))))).
    rewrite mv6_addm, mv6_scalem, pow6_A, scale6_zero, add6_0_r by lia. apply IH. lia.
Qed.
Lemma expm_B_mv B Ts n u : (2 <= n)%nat -> mv63 (expm_B lqr_A B Ts n) u = add6 (scale6 Ts (mv63 B u)) (scale6 (Ts ^ 2 / 2) (mv6 lqr_A (mv63 B u))).
Proof.
  intros H. induction n as [|n IH]; [lia|]. destruct n as [|[|n]]; [lia| |].
  - cbn [expm_B]. rewrite !mv_addm63, !mv_scalem63, !mv_6_63. cbn [pow6]. rewrite mv6_mm, !mv6_id. cbn [fact].
    assert (Z : mv63 (mkC zerom zerom) u = zero6) by (unf63; rewrite !mv_zerom; reflexivity). rewrite Z.
    replace (Ts ^ 1 / INR (1 * 1)) with Ts by (cbn; field). replace (Ts ^ 2 / INR (2 * (1 * 1))) with (Ts ^ 2 / 2) by (cbn; field).
    assert (L : forall y, add6 zero6 y = y) by (intros [y1 y2]; unf6; rewrite !add3_0_l; reflexivity). rewrite L. reflexivity.
  - change (expm_B lqr_A B Ts (S (S (S n)))) with (addm63 (expm_B lqr_A B Ts (S (S n))) (scalem63 (Ts ^ (S (S (S n))) / INR (fact (S (S (S n))))) (mm_6_63 (pow6 lqr_A (S (S n))) B))).
    rewrite mv_addm63, mv_scalem63, mv_6_63, pow6_A, scale6_zero, add6_0_r by lia. apply IH. lia.
Qed.
(** a function with the derivative b + c t is a + b t + c t^2/2 *)
Lemma integrate_affine f b c : (forall t, derivable_pt_lim f t (b + c * t)) -> forall t, f t = f 0 + b * t + c * t ^ 2 / 2.
Proof.
  intros H. set (g := fun t => f t - (b * t + c * t ^ 2 / 2)).
  assert (D : forall t, derivable_pt_lim g t 0).
  { intros t. replace 0 with ((b + c * t) - (b + c * t)) by ring. apply derivable_pt_lim_minus; [apply H|].
    apply derivable_pt_lim_plus.
    - replace b with (0 * t + b * 1) at 2 by ring. apply (derivable_pt_lim_mult (fct_cte b) id); [apply derivable_pt_lim_const|apply derivable_pt_lim_id].
    - assert (X := derivable_pt_lim_scal (fun t => t ^ 2) (c / 2) t (2 * t)). unfold mult_real_fct in X.
      assert (E : derivable_pt_lim (fun x => c / 2 * x ^ 2) t (c / 2 * (2 * t))). { apply X. replace (2 * t) with (INR 2 * t ^ pred 2) by (cbn; ring). apply derivable_pt_lim_pow. }
      replace (c * t) with (c / 2 * (2 * t)) by field. intros e He. destruct (E e He) as (d & Hd). exists d. intros h Hh Hl. specialize (Hd h Hh Hl).
      replace (c * (t + h) ^ 2 / 2 - c * t ^ 2 / 2) with (c / 2 * (t + h) ^ 2 - c / 2 * t ^ 2) by field. exact Hd. }
  assert (pr : derivable g) by (intros t; exists 0; apply D).
  assert (C := null_derivative_1 g pr). assert (Z : forall t, derive_pt g t (pr t) = 0) by (intros t; rewrite derive_pt_eq; apply D).
  specialize (C Z). intros t. assert (E := C t 0). unfold g in E. lra.
Qed.
Lemma integrate_const f c : (forall t, derivable_pt_lim f t c) -> forall t, f t = f 0 + c * t.
Proof.
  intros H t. rewrite (integrate_affine f c 0); [|intros s; rewrite Rmult_0_l, Rplus_0_r; apply H]. unfold Rdiv. ring.
Qed.
Lemma flow_exact Jinv u (q w : R -> v3) : (forall t, deriv3 q t (scale3 (1 / 2) (w t))) -> (forall t, deriv3 w t (mv Jinv u)) ->
  forall t, mk6 (q t) (w t) = add6 (mv6 (expm_A lqr_A t 2) (mk6 (q 0) (w 0))) (mv63 (expm_B lqr_A (lqr_B Jinv) t 2) u).
Proof.
  intros Hq Hw t. rewrite expm_A_mv, expm_B_mv by lia. rewrite !lqr_A_mv. unfold lqr_B. unf63. rewrite mv_zerom. unf6.
  set (a := mv Jinv u) in *. clearbody a.
  assert (Ew1 : forall t, x3 (w t) = x3 (w 0) + x3 a * t) by (apply (integrate_const (fun t => x3 (w t))); intros s; apply (Hw s)).
  assert (Ew2 : forall t, y3 (w t) = y3 (w 0) + y3 a * t) by (apply (integrate_const (fun t => y3 (w t))); intros s; apply (Hw s)).
  assert (Ew3 : forall t, z3 (w t) = z3 (w 0) + z3 a * t) by (apply (integrate_const (fun t => z3 (w t))); intros s; apply (Hw s)).
  assert (A : forall (f : R -> R) g b c, (forall s, derivable_pt_lim f s (1 / 2 * g s)) -> (forall s, g s = b + c * s) -> f t = f 0 + b / 2 * t + c / 2 * t ^ 2 / 2).
  { intros f g b c Hf Hg. apply (integrate_affine f (b / 2) (c / 2)). intros s. replace (b / 2 + c / 2 * s) with (1 / 2 * g s) by (rewrite Hg; field). apply Hf. }
  assert (E1 := A (fun t => x3 (q t)) _ _ _ (fun s => proj1 (Hq s)) Ew1).
  assert (E2 := A (fun t => y3 (q t)) _ _ _ (fun s => proj1 (proj2 (Hq s))) Ew2).
  assert (E3 := A (fun t => z3 (q t)) _ _ _ (fun s => proj2 (proj2 (Hq s))) Ew3).
  specialize (Ew1 t). specialize (Ew2 t). specialize (Ew3 t). cbn beta in E1, E2, E3.
  destruct (q t) as [q1 q2 q3], (w t) as [w1 w2 w3], (q 0) as [p1 p2 p3], (w 0) as [r1 r2 r3], a as [a1 a2 a3]. cbn in E1, E2, E3, Ew1, Ew2, Ew3. subst.
  f_equal; vunfoldg; rnumg; apply mk3_c; field.
Qed.
