(** * Lemmas: a momentum damped in steps, across the field seen at each step *)
From Coq Require Import Reals ZArith List Bool Arith Lra Psatz Lia.
From Verif Require Import Num Vec M_vector M_quaternion S_rot S_dyn P_quat P_struct P_dyn P_ctrl2 P_vec2 P_conv P_tot3 P_orb3 P_posf P_detum P_samp.
From Verif Require P_exist2 P_exist3.
Import ListNotations.
Local Open Scope R_scope.

(** ** the undisturbed steps *)
Definition cut (a : R) (b h : v3) : v3 := sub3 h (scale3 a (rej b h)).
Lemma cut_sq a b h : b <> zero3 -> dot3 (cut a b h) (cut a b h) = dot3 h h - a * (2 - a) * across h b.
Proof.
  intros N. assert (E : dot3 (cut a b h) (cut a b h) = dot3 h h - 2 * a * dot3 h (rej b h) + a * a * dot3 (rej b h) (rej b h)) by (unfold cut; generalize (rej b h); intros r; destruct h as [?a ?b ?c], r as [?a ?b ?c]; vunfoldg; rnumg; ring).
  rewrite E, rej_dot, rej_sq by exact N. ring.
Qed.
Lemma cut_sub a b h g : cut a b (sub3 h g) = sub3 (cut a b h) (cut a b g).
Proof. unfold cut, rej, Rdiv. destruct h as [h1 h2 h3], g as [g1 g2 g3], b as [b1 b2 b3]. vunfoldg. cbn [x3 y3 z3]. rnumg. generalize (/ (b1 * b1 + b2 * b2 + b3 * b3)). intros i. apply mk3_c; ring. Qed.
Lemma norm3_mono (u v : v3) : dot3 u u <= dot3 v v -> norm3 u <= norm3 v.
Proof. intros L. unfold norm3. rnumg. apply sqrt_le_1_alt, L. Qed.
Lemma cut_le a b h : 0 <= a <= 1 -> b <> zero3 -> norm3 (cut a b h) <= norm3 h.
Proof. intros A N. apply norm3_mono. rewrite cut_sq by exact N. assert (X := across_pos h b N). assert (0 <= a * (2 - a)) by nra. nra. Qed.

Section Steps.
Variables (a : R) (B H : nat -> v3).
Hypothesis Ha : 0 < a <= 1.
Hypothesis NB : forall i, B i <> zero3.
Hypothesis SH : forall i, H (S i) = cut a (B i) (H i).
Let V i := dot3 (H i) (H i).
Let s i := across (H i) (B i).
Lemma V_step i : V (S i) = V i - a * (2 - a) * s i. Proof. unfold V. rewrite SH, cut_sq by apply NB. reflexivity. Qed.
Lemma s_pos i : 0 <= s i. Proof. apply across_pos, NB. Qed.
Lemma V_fall i : a * s i <= V i - V (S i). Proof. rewrite V_step. assert (X := s_pos i). assert (Y : 0 <= a * (1 - a)) by nra. assert (Z : 0 <= a * (1 - a) * s i) by (apply Rmult_le_pos; assumption). lra. Qed.
Lemma V_down i : V (S i) <= V i. Proof. assert (X := V_fall i). assert (Y := s_pos i). assert (0 <= a * s i) by (apply Rmult_le_pos; lra). lra. Qed.
Lemma V_below i j : (i <= j)%nat -> V j <= V i.
Proof. induction 1 as [|j L IH]; [lra|]. assert (X := V_down j). lra. Qed.
Lemma gone i : dot3 (sub3 (H i) (H 0%nat)) (sub3 (H i) (H 0%nat)) <= INR i * a * (V 0%nat - V i).
Proof.
  induction i as [|i IH].
  { replace (dot3 (sub3 (H 0%nat) (H 0%nat)) (sub3 (H 0%nat) (H 0%nat))) with 0 by (destruct (H 0%nat) as [?a ?b ?c]; vunfoldg; rnumg; ring). cbn [INR]. lra. }
  set (x := sub3 (H i) (H 0%nat)) in *. set (d := scale3 (- a) (rej (B i) (H i))).
  assert (E : sub3 (H (S i)) (H 0%nat) = add3 x d) by (rewrite SH; unfold x, d, cut; generalize (rej (B i) (H i)); intros r; destruct (H i) as [?a ?b ?c], (H 0%nat) as [?a ?b ?c], r as [?a ?b ?c]; vunfoldg; rnumg; apply mk3_c; ring). rewrite E.
  assert (DD : dot3 d d <= a * (V i - V (S i))).
  { replace (dot3 d d) with (a * (a * s i)); [apply Rmult_le_compat_l; [lra|apply V_fall]|]. unfold d, s. rewrite <- rej_sq by apply NB. generalize (rej (B i) (H i)). intros r. destruct r as [?a ?b ?c]. vunfoldg. rnumg. ring. }
  assert (CS : dot3 x d * dot3 x d <= dot3 x x * dot3 d d).
  { assert (P := dot3_nonneg (cross3 x d)). assert (Q : dot3 (cross3 x d) (cross3 x d) = dot3 x x * dot3 d d - dot3 x d * dot3 x d) by (destruct x as [?a ?b ?c], d as [?a ?b ?c]; vunfoldg; rnumg; ring). lra. }
  assert (XD : dot3 (add3 x d) (add3 x d) = dot3 x x + 2 * dot3 x d + dot3 d d) by (destruct x as [?a ?b ?c], d as [?a ?b ?c]; vunfoldg; rnumg; ring). rewrite XD, S_INR.
  assert (A0 : 0 <= V 0%nat - V i) by (assert (X := V_below 0 i (Nat.le_0_l i)); lra). assert (D0 : 0 <= V i - V (S i)) by (assert (X := V_down i); lra).
  assert (I0 := pos_INR i). assert (PX := dot3_nonneg x). assert (PD := dot3_nonneg d).
  replace (V 0%nat - V (S i)) with ((V 0%nat - V i) + (V i - V (S i))) by ring. revert IH DD CS A0 D0 I0 PX PD. generalize (V 0%nat - V i) (V i - V (S i)) (INR i) (dot3 x x) (dot3 d d) (dot3 x d). clear - Ha.
  intros A D n p q r IH DD CS A0 D0 I0 PX PD.
  assert (K : 2 * r <= a * (A + n * D)).
  { assert (P : 0 <= a * (A + n * D)) by (apply Rmult_le_pos; [lra|assert (0 <= n * D) by (apply Rmult_le_pos; assumption); lra]).
    assert (Q : (2 * r) * (2 * r) <= (a * (A + n * D)) * (a * (A + n * D))).
    { assert (Y : p * q <= n * a * A * (a * D)) by (apply Rmult_le_compat; assumption). assert (Z : 0 <= (a * (A - n * D)) * (a * (A - n * D))) by apply Rle_0_sqr. nra. }
    destruct (Rle_dec (2 * r) (a * (A + n * D))) as [L|L]; [exact L|nra]. }
  nra.
Qed.
Fixpoint psum (f : nat -> R) (n : nat) : R := match n with O => 0 | S m => psum f m + f m end.
Lemma psum_le f g n : (forall i, (i < n)%nat -> f i <= g i) -> psum f n <= psum g n.
Proof. induction n as [|n IH]; intros L; cbn [psum]; [lra|]. assert (X := L n ltac:(lia)). assert (Y := IH ltac:(intros i Hi; apply L; lia)). lra. Qed.
Lemma psum_s n : a * psum s n <= V 0%nat - V n.
Proof. induction n as [|n IH]; cbn [psum]; [lra|]. assert (X := V_fall n). lra. Qed.
Lemma psum_lin k f c n : psum (fun i => k * f i + c) n = k * psum f n + INR n * c.
Proof. induction n as [|n IH]; [cbn [psum INR]; ring|]. rewrite S_INR. cbn [psum]. rewrite IH. ring. Qed.
Lemma step_window c p : c * INR p * V 0%nat <= psum (fun i => across (H 0%nat) (B i)) p -> let W := a * INR p in V p <= (1 - c * W / (2 * (1 + W * W))) * V 0%nat.
Proof.
  intros PE W. set (D := V 0%nat - V p). assert (PN := pos_INR p).
  assert (L : psum (fun i => across (H 0%nat) (B i)) p <= psum (fun i => 2 * s i + 2 * (a * INR p * D)) p).
  { apply psum_le. intros i Hi. assert (X := across_split (H 0%nat) (H i) (B i) (NB i)). assert (G := gone i).
    assert (E : dot3 (sub3 (H 0%nat) (H i)) (sub3 (H 0%nat) (H i)) = dot3 (sub3 (H i) (H 0%nat)) (sub3 (H i) (H 0%nat))) by (destruct (H 0%nat) as [?a ?b ?c], (H i) as [?a ?b ?c]; vunfoldg; rnumg; ring). rewrite E in X.
    assert (K : INR i * a * (V 0%nat - V i) <= a * INR p * D).
    { assert (Y := V_below i p ltac:(lia)). assert (Z := V_below 0 i (Nat.le_0_l i)). assert (I := le_INR i p ltac:(lia)). assert (I0 := pos_INR i). apply Rmult_le_compat; [apply Rmult_le_pos; lra|lra|rewrite Rmult_comm; apply Rmult_le_compat_l; lra|unfold D; lra]. }
    unfold s. lra. }
  rewrite psum_lin in L. assert (Q := psum_s p). fold D in Q.
  assert (Y : c * W * V 0%nat <= 2 * (1 + W * W) * D).
  { apply (Rle_trans _ (a * (2 * psum s p + INR p * (2 * (a * INR p * D))))); [replace (c * W * V 0%nat) with (a * (c * INR p * V 0%nat)) by (unfold W; ring); apply Rmult_le_compat_l; lra|]. replace (a * (2 * psum s p + INR p * (2 * (a * INR p * D)))) with (2 * (a * psum s p) + 2 * (W * W) * D) by (unfold W; ring). lra. }
  assert (P : 0 < 2 * (1 + W * W)) by nra.
  assert (Z : c * W * V 0%nat / (2 * (1 + W * W)) <= D) by (apply (Rmult_le_reg_r (2 * (1 + W * W))); [exact P|]; unfold Rdiv; rewrite Rmult_assoc, Rinv_l by lra; lra).
  replace ((1 - c * W / (2 * (1 + W * W))) * V 0%nat) with (V 0%nat - c * W * V 0%nat / (2 * (1 + W * W))) by (field; lra). unfold D in Z. lra.
Qed.
End Steps.

(** ** disturbed steps *)
Lemma bern e i : 0 <= e -> (1 + e) ^ i * (1 - INR i * e) <= 1.
Proof.
  intros E. induction i as [|i IH]; [cbn [pow INR]; lra|]. rewrite S_INR. cbn [pow]. assert (P : 0 < (1 + e) ^ i) by (apply pow_lt; lra). assert (I := pos_INR i).
  assert (K : (1 + e) * (1 - (INR i + 1) * e) <= 1 - INR i * e) by (assert (0 <= INR i * (e * e)) by (apply Rmult_le_pos; nra); nra).
  assert ((1 + e) ^ i * ((1 + e) * (1 - (INR i + 1) * e)) <= (1 + e) ^ i * (1 - INR i * e)) by (apply Rmult_le_compat_l; lra). lra.
Qed.
Lemma grown e i p : 0 <= e -> (i <= p)%nat -> INR p * e <= 1 / 2 -> 1 <= (1 + e) ^ i <= 2 /\ (1 + e) ^ i - 1 <= 2 * (INR p * e).
Proof.
  intros E L P. assert (X := bern e i E). assert (Q : 1 <= (1 + e) ^ i) by (apply pow_R1_Rle; lra). assert (I := le_INR i p L). assert (I0 := pos_INR i).
  assert (K : INR i * e <= INR p * e) by (apply Rmult_le_compat_r; lra). assert (0 <= INR i * e) by (apply Rmult_le_pos; lra). split; [split; [exact Q|nra]|nra].
Qed.
Lemma norm3_sub_split (x y : v3) : norm3 x <= norm3 (sub3 x y) + norm3 y.
Proof. eapply Rle_trans; [|apply norm3_triangle]. right. f_equal. destruct x as [?a ?b ?c], y as [?a ?b ?c]. vunfoldg. rnumg. apply mk3_c; ring. Qed.

Fixpoint pure_steps (a : R) (B : nat -> v3) (h : v3) (i : nat) : v3 := match i with O => h | S j => cut a (B j) (pure_steps a B h j) end.
Lemma disturbed a B (G : nat -> v3) e p M : 0 < a <= 1 -> (forall i, B i <> zero3) -> 0 <= e -> INR p * e <= 1 / 2 -> norm3 (G 0%nat) <= M ->
  (forall i, (i < p)%nat -> norm3 (G i) <= 2 * M -> norm3 (sub3 (G (S i)) (cut a (B i) (G i))) <= e * norm3 (G i)) ->
  forall i, (i <= p)%nat -> norm3 (G i) <= 2 * norm3 (G 0%nat) /\ norm3 (sub3 (G i) (pure_steps a B (G 0%nat) i)) <= 2 * (INR p * e) * norm3 (G 0%nat).
Proof.
  intros A NB E P M0 ST.
  assert (K : forall i, (i <= p)%nat -> norm3 (G i) <= (1 + e) ^ i * norm3 (G 0%nat) /\ norm3 (sub3 (G i) (pure_steps a B (G 0%nat) i)) <= ((1 + e) ^ i - 1) * norm3 (G 0%nat)).
  { induction i as [|i IH]; intros L.
    - cbn [pow pure_steps]. split; [lra|]. replace (sub3 (G 0%nat) (G 0%nat)) with (zero3 (T:=R)) by (destruct (G 0%nat) as [?a ?b ?c]; vunfoldg; rnumg; apply mk3_c; ring). replace (norm3 zero3) with 0 by (unfold norm3; vunfoldg; rnumg; replace (0 * 0 + 0 * 0 + 0 * 0) with 0 by ring; rewrite sqrt_0; reflexivity). lra.
    - destruct (IH ltac:(lia)) as (I1 & I2). destruct (grown e i p E ltac:(lia) P) as ((G1 & G2) & _). assert (N0 := norm3_pos (G 0%nat)).
      assert (B2 : norm3 (G i) <= 2 * M) by (assert ((1 + e) ^ i * norm3 (G 0%nat) <= 2 * norm3 (G 0%nat)) by (apply Rmult_le_compat_r; lra); lra).
      assert (X := ST i ltac:(lia) B2). assert (C := cut_le a (B i) (G i) ltac:(lra) (NB i)). assert (Y := norm3_sub_split (G (S i)) (cut a (B i) (G i))).
      assert (EI : e * norm3 (G i) <= e * ((1 + e) ^ i * norm3 (G 0%nat))) by (apply Rmult_le_compat_l; lra). cbn [pow pure_steps]. split; [lra|].
      assert (Z : norm3 (sub3 (cut a (B i) (G i)) (cut a (B i) (pure_steps a B (G 0%nat) i))) <= norm3 (sub3 (G i) (pure_steps a B (G 0%nat) i))) by (rewrite <- cut_sub; apply cut_le; [lra|apply NB]).
      set (g := cut a (B i) (G i)) in *. set (r := cut a (B i) (pure_steps a B (G 0%nat) i)) in *.
      assert (T : norm3 (sub3 (G (S i)) r) <= norm3 (sub3 (G (S i)) g) + norm3 (sub3 g r)).
      { eapply Rle_trans; [|apply norm3_triangle]. right. f_equal. destruct (G (S i)) as [?a ?b ?c], g as [?a ?b ?c], r as [?a ?b ?c]. vunfoldg. rnumg. apply mk3_c; ring. }
      lra. }
  intros i L. destruct (K i L) as (K1 & K2). destruct (grown e i p E L P) as ((G1 & G2) & G3). assert (N0 := norm3_pos (G 0%nat)). split; [nra|]. eapply Rle_trans; [exact K2|]. apply Rmult_le_compat_r; lra.
Qed.
Lemma sqrt_below x : 0 <= x <= 1 -> sqrt (1 - x) <= 1 - x / 2.
Proof. intros H. rewrite <- (sqrt_square (1 - x / 2)) by lra. apply sqrt_le_1_alt. nra. Qed.
Lemma norm3_of_sq (u v : v3) k : 0 <= k -> dot3 u u <= k * dot3 v v -> norm3 u <= sqrt k * norm3 v.
Proof. intros K L. unfold norm3. rnumg. rewrite <- sqrt_mult_alt by exact K. apply sqrt_le_1_alt, L. Qed.
(** p disturbed steps: the momentum falls by the factor 1 - g/4 *)
Lemma window_falls a B (G : nat -> v3) e p M c : 0 < a <= 1 -> (forall i, B i <> zero3) -> 0 <= e -> 0 < c <= 1 -> norm3 (G 0%nat) <= M ->
  (forall i, (i < p)%nat -> norm3 (G i) <= 2 * M -> norm3 (sub3 (G (S i)) (cut a (B i) (G i))) <= e * norm3 (G i)) ->
  c * INR p * dot3 (G 0%nat) (G 0%nat) <= psum (fun i => across (G 0%nat) (B i)) p ->
  let W := a * INR p in let g := c * W / (2 * (1 + W * W)) in 8 * (INR p * e) <= g ->
  0 <= g <= 1 / 4 /\ (forall i, (i <= p)%nat -> norm3 (G i) <= 2 * norm3 (G 0%nat)) /\ norm3 (G p) <= (1 - g / 4) * norm3 (G 0%nat).
Proof.
  intros A NB E C M0 ST PE W g HG. assert (PN := pos_INR p). assert (W0 : 0 <= W) by (unfold W; apply Rmult_le_pos; lra). assert (P : 0 < 2 * (1 + W * W)) by nra.
  assert (G0 : 0 <= g) by (unfold g; apply Rmult_le_pos; [apply Rmult_le_pos; lra|left; apply Rinv_0_lt_compat, P]).
  assert (G1 : g <= 1 / 4). { unfold g. apply (Rmult_le_reg_r (2 * (1 + W * W))); [exact P|]. unfold Rdiv at 1. rewrite Rmult_assoc, Rinv_l by lra. assert (0 <= (1 - W) * (1 - W)) by apply Rle_0_sqr. nra. }
  split; [lra|]. assert (D := disturbed a B G e p M A NB E ltac:(lra) M0 ST). split; [intros i L; apply (D i L)|].
  destruct (D p (Nat.le_refl p)) as (_ & D2). assert (S := step_window a B (pure_steps a B (G 0%nat)) A NB (fun i => eq_refl) c p PE). cbv zeta in S. cbn [pure_steps] in S. fold W g in S.
  assert (N := norm3_of_sq _ _ (1 - g) ltac:(lra) S). assert (Q := sqrt_below g ltac:(lra)). assert (N0 := norm3_pos (G 0%nat)).
  assert (Y := norm3_sub_split (G p) (pure_steps a B (G 0%nat) p)). assert (sqrt (1 - g) * norm3 (G 0%nat) <= (1 - g / 2) * norm3 (G 0%nat)) by (apply Rmult_le_compat_r; lra).
  assert (2 * (INR p * e) * norm3 (G 0%nat) <= g / 4 * norm3 (G 0%nat)) by (apply Rmult_le_compat_r; lra). lra.
Qed.

(** ** one period with the moment held *)
Lemma d3_ramp (c : v3) t0 t : deriv3 (fun u => scale3 (u - t0) c) t c.
Proof.
  assert (D : forall x, derivable_pt_lim (fun u => (u - t0) * x) t x) by (intros x; eapply d_eq; [apply d_mult; [apply d_minus; [apply d_id|apply d_const]|apply d_const]|cbv beta; ring]).
  destruct c as [c1 c2 c3]. repeat split; cbn [scale3 x3 y3 z3]; rnumg; apply D.
Qed.
Section Period.
Variables (H M M' B : R -> v3) (t0 h K L N be mu : R).
Hypothesis Hh : 0 < h.
Hypothesis HK : 0 < K.
Hypothesis HL : 0 <= L.
Hypothesis HN : 0 <= N.
Hypothesis Hbe : 0 <= be.
Hypothesis DH : forall t, t0 <= t <= t0 + h -> deriv3 H t (cross3 (M t) (B t)).
Hypothesis DM : forall t, t0 <= t <= t0 + h -> deriv3 M t (M' t).
Hypothesis NM' : forall t, t0 <= t <= t0 + h -> norm3 (M' t) <= L * norm3 (H t) * mu.
Hypothesis NM : forall t, t0 <= t <= t0 + h -> norm3 (M t) = mu.
Hypothesis MU : mu * norm3 (B t0) <= K * norm3 (H t0).
Hypothesis ST : cross3 (M t0) (B t0) = scale3 (- K) (rej (B t0) (H t0)).
Hypothesis LB : forall t, t0 <= t <= t0 + h -> norm3 (sub3 (B t) (B t0)) <= be * (t - t0) * norm3 (B t0).
Hypothesis KH : K * h <= 1 / 2.
Hypothesis BH : be * h <= 1.
Hypothesis N0 : norm3 (H t0) <= 2 * N.
Lemma p_B t : t0 <= t <= t0 + h -> norm3 (B t) <= 2 * norm3 (B t0) /\ norm3 (sub3 (B t) (B t0)) <= be * h * norm3 (B t0).
Proof.
  intros Ht. assert (X := LB t Ht). assert (P := norm3_pos (B t0)). assert (Y := norm3_sub_split (B t) (B t0)).
  assert (Z : be * (t - t0) * norm3 (B t0) <= be * h * norm3 (B t0)) by (apply Rmult_le_compat_r; [exact P|apply Rmult_le_compat_l; lra]). assert (be * h * norm3 (B t0) <= 1 * norm3 (B t0)) by (apply Rmult_le_compat_r; lra). split; lra.
Qed.
Lemma mu_pos : 0 <= mu. Proof. rewrite <- (NM t0) by lra. apply norm3_pos. Qed.
Lemma p_H t : t0 <= t <= t0 + h -> norm3 (H t) <= 2 * norm3 (H t0).
Proof.
  intros Ht. assert (X := vmvt H (fun u => cross3 (M u) (B u)) t0 t (2 * K * norm3 (H t0)) (proj1 Ht)).
  assert (Y : norm3 (sub3 (H t) (H t0)) <= 2 * K * norm3 (H t0) * (t - t0)).
  { apply X; intros u Hu; [apply DH; lra|]. eapply Rle_trans; [apply cross_norm|]. rewrite (NM u) by lra. destruct (p_B u ltac:(lra)) as (B1 & _). assert (P := mu_pos). assert (mu * norm3 (B u) <= mu * (2 * norm3 (B t0))) by (apply Rmult_le_compat_l; lra). lra. }
  assert (P := norm3_pos (H t0)). assert (Z := norm3_sub_split (H t) (H t0)).
  assert (K * (t - t0) <= 1 / 2) by (apply (Rle_trans _ (K * h)); [apply Rmult_le_compat_l; lra|exact KH]). assert (2 * K * norm3 (H t0) * (t - t0) <= norm3 (H t0)) by (replace (2 * K * norm3 (H t0) * (t - t0)) with (2 * (K * (t - t0)) * norm3 (H t0)) by ring; nra). lra.
Qed.
Lemma p_step : norm3 (sub3 (H (t0 + h)) (cut (K * h) (B t0) (H t0))) <= K * (h * h) * (8 * L * N + be) * norm3 (H t0).
Proof.
  assert (P := mu_pos). assert (PB := norm3_pos (B t0)). assert (PH := norm3_pos (H t0)). set (C := cross3 (M t0) (B t0)) in *.
  assert (GM : forall u, t0 <= u <= t0 + h -> norm3 (sub3 (M u) (M t0)) <= 4 * L * N * mu * h).
  { intros u Hu. assert (X := vmvt M M' t0 u (4 * L * N * mu) (proj1 Hu)). assert (Q : 0 <= 4 * L * N * mu) by (apply Rmult_le_pos; [apply Rmult_le_pos; lra|exact P]).
    assert (Y : norm3 (sub3 (M u) (M t0)) <= 4 * L * N * mu * (u - t0)).
    { apply X; intros v Hv; [apply DM; lra|]. eapply Rle_trans; [apply NM'; lra|]. assert (Z := p_H v ltac:(lra)). replace (4 * L * N * mu) with (L * (4 * N) * mu) by ring. apply Rmult_le_compat_r; [exact P|]. apply Rmult_le_compat_l; lra. }
    eapply Rle_trans; [exact Y|]. apply Rmult_le_compat_l; lra. }
  assert (X := vmvt (fun u => sub3 (H u) (scale3 (u - t0) C)) (fun u => sub3 (cross3 (M u) (B u)) C) t0 (t0 + h) (K * h * (8 * L * N + be) * norm3 (H t0)) ltac:(lra)). cbv beta in X.
  assert (Y : norm3 (sub3 (sub3 (H (t0 + h)) (scale3 (t0 + h - t0) C)) (sub3 (H t0) (scale3 (t0 - t0) C))) <= K * h * (8 * L * N + be) * norm3 (H t0) * (t0 + h - t0)).
  { apply X.
    - intros u Hu. apply P_exist2.d3_sub; [apply DH, Hu|]. apply d3_ramp.
    - intros u Hu. replace (sub3 (cross3 (M u) (B u)) C) with (add3 (cross3 (sub3 (M u) (M t0)) (B u)) (cross3 (M t0) (sub3 (B u) (B t0)))) by (unfold C; destruct (M u) as [?a ?b ?c], (M t0) as [?a ?b ?c], (B u) as [?a ?b ?c], (B t0) as [?a ?b ?c]; vunfoldg; rnumg; apply mk3_c; ring).
      eapply Rle_trans; [apply norm3_triangle|]. assert (C1 := cross_norm (sub3 (M u) (M t0)) (B u)). assert (C2 := cross_norm (M t0) (sub3 (B u) (B t0))). rewrite (NM t0) in C2 by lra. destruct (p_B u Hu) as (B1 & B2). assert (G := GM u Hu).
      assert (K1 : norm3 (sub3 (M u) (M t0)) * norm3 (B u) <= 4 * L * N * mu * h * (2 * norm3 (B t0))) by (apply Rmult_le_compat; [apply norm3_pos|apply norm3_pos|exact G|exact B1]).
      assert (K2 : mu * norm3 (sub3 (B u) (B t0)) <= mu * (be * h * norm3 (B t0))) by (apply Rmult_le_compat_l; assumption).
      assert (K3 : h * (8 * L * N + be) * (mu * norm3 (B t0)) <= h * (8 * L * N + be) * (K * norm3 (H t0))) by (apply Rmult_le_compat_l; [apply Rmult_le_pos; [lra|assert (0 <= 8 * L * N) by (apply Rmult_le_pos; lra); lra]|exact MU]). lra. }
  clear X. replace (t0 + h - t0) with h in Y by ring. replace (t0 - t0) with 0 in Y by ring.
  replace (sub3 (H (t0 + h)) (cut (K * h) (B t0) (H t0))) with (sub3 (sub3 (H (t0 + h)) (scale3 h C)) (sub3 (H t0) (scale3 0 C))); [eapply Rle_trans; [exact Y|]; right; ring|].
  rewrite ST. unfold cut. generalize (rej (B t0) (H t0)). intros r. destruct (H (t0 + h)) as [?a ?b ?c], (H t0) as [?a ?b ?c], r as [?a ?b ?c]. vunfoldg. rnumg. apply mk3_c; ring.
Qed.
End Period.
