(** * The damped momentum with a fading offset; the tracking error along a moving reference *)
From Coq Require Import Reals ZArith List Bool Arith Lra Psatz Lia Classical_Prop.
From Coquelicot Require Import Coquelicot.
From Verif Require Import Num Vec M_vector M_quaternion M_struct M_dyn M_ctrl S_rot S_dyn P_quat P_dyn P_dyn2 P_ctrl2 P_detum P_detum2.
Import ListNotations.
Local Open Scope R_scope.

Lemma dot_add_r (a b c : v3) : dot3 a (add3 b c) = dot3 a b + dot3 a c. Proof. destruct a as [a1 a2 a3], b as [b1 b2 b3], c as [c1 c2 c3]. vunfoldg. cbn [x3 y3 z3]. rnumg. ring. Qed.
Lemma dot_sub_l (a b c : v3) : dot3 (sub3 a b) c = dot3 a c - dot3 b c. Proof. destruct a as [a1 a2 a3], b as [b1 b2 b3], c as [c1 c2 c3]. vunfoldg. cbn [x3 y3 z3]. rnumg. ring. Qed.
Lemma dot_sub_r (a b c : v3) : dot3 a (sub3 b c) = dot3 a b - dot3 a c. Proof. destruct a as [a1 a2 a3], b as [b1 b2 b3], c as [c1 c2 c3]. vunfoldg. cbn [x3 y3 z3]. rnumg. ring. Qed.
Lemma rej_pair (b h l : v3) : b <> zero3 -> 2 * dot3 h (rej b (sub3 h l)) = across h b + across (sub3 h l) b - across l b.
Proof.
  intros N. assert (P := dpos b N). rewrite rej_dot_raw, !across_raw by lra. rewrite !dot_sub_l, !dot_sub_r. rewrite (dot_comm3 l h). field. lra.
Qed.
Lemma rej_perp (b h n : v3) : b <> zero3 -> cross3 b n = zero3 -> dot3 (rej b h) n = 0.
Proof.
  intros N X. assert (P := dpos b N). rewrite dot_comm3, rej_dot_raw by lra. assert (Q : dot3 n h * dot3 b b = dot3 h b * dot3 n b).
  { assert (I : dot3 n h * dot3 b b - dot3 h b * dot3 n b = dot3 h (cross3 b (scale3 (-1) (cross3 b n)))) by (destruct h as [h1 h2 h3], b as [b1 b2 b3], n as [n1 n2 n3]; vunfoldg; cbn [x3 y3 z3]; rnumg; ring).
    rewrite X in I. replace (dot3 h (cross3 b (scale3 (-1) zero3))) with 0 in I by (destruct h as [h1 h2 h3], b as [b1 b2 b3]; vunfoldg; cbn [x3 y3 z3]; rnumg; ring). lra. }
  unfold Rdiv. rewrite <- Q. field. lra.
Qed.
Lemma d_expo lam C t : derivable_pt_lim (fun u => C * exp (- lam * u)) t (- lam * C * exp (- lam * t)).
Proof.
  eapply d_eq; [apply d_lin; apply (derivable_pt_lim_comp (fun u => - lam * u) exp t (- lam * 1)); [apply d_lin, d_id|apply derivable_pt_lim_exp]|]. cbv beta. ring.
Qed.

Section Offset.
Variables (H L B : R -> v3) (k C lam : R).
Hypothesis kp : 0 < k.
Hypothesis Cp : 0 <= C.
Hypothesis lp : 0 < lam.
Hypothesis NB : forall t, B t <> zero3.
Hypothesis CB : cont3 B.
Hypothesis DH : forall t, 0 <= t -> deriv3 H t (scale3 (- k) (rej (B t) (sub3 (H t) (L t)))).
Hypothesis LB : forall t, 0 <= t -> dot3 (L t) (L t) <= C * exp (- lam * t).
Let V (t : R) : R := dot3 (H t) (H t).
Let W (t : R) : R := V t + k * C / lam * exp (- lam * t).
Let a1 (t : R) := across (H t) (B t).
Let a2 (t : R) := across (sub3 (H t) (L t)) (B t).
Let W' (t : R) : R := - k * (a1 t + a2 t - across (L t) (B t)) + - lam * (k * C / lam) * exp (- lam * t).
Lemma dW t : 0 <= t -> derivable_pt_lim W t (W' t).
Proof.
  intros Ht. unfold W, W'. apply d_plus; [|apply d_expo]. eapply d_eq; [apply d_dot3; apply DH, Ht|]. cbv beta. rewrite (dot_comm3 (scale3 _ _)), !dot_scale_r. assert (E := rej_pair (B t) (H t) (L t) (NB t)). fold (a1 t) (a2 t) in E. nra.
Qed.
Lemma W'_le t : 0 <= t -> W' t <= - k * (a1 t + a2 t).
Proof.
  intros Ht. unfold W'. assert (X := across_le (L t) (B t) (NB t)). assert (Y := LB t Ht). replace (- lam * (k * C / lam) * exp (- lam * t)) with (- k * (C * exp (- lam * t))) by (field; lra). nra.
Qed.
Lemma a_pos t : 0 <= a1 t /\ 0 <= a2 t. Proof. split; apply across_pos, NB. Qed.
Lemma W_dec t s : 0 <= t -> t <= s -> W s <= W t.
Proof. intros Ht Ls. apply (le_of_deriv W W' t s Ls (fun u Hu => dW u ltac:(lra))). intros u Hu. assert (X := W'_le u ltac:(lra)). destruct (a_pos u). nra. Qed.
Lemma W_pos t : 0 <= W t.
Proof. unfold W, V. assert (X := dot3_nonneg (H t)). assert (E := exp_pos (- lam * t)). assert (0 <= k * C / lam) by (apply Rdiv_le_0_compat; nra). nra. Qed.
Lemma W_moved t s : 0 <= t -> t <= s -> dot3 (sub3 (H s) (H t)) (sub3 (H s) (H t)) <= k * (s - t) * (W t - W s).
Proof.
  intros Ht Ls. destruct (Rle_lt_or_eq_dec t s Ls) as [L'| ->].
  2: { replace (dot3 (sub3 (H s) (H s)) (sub3 (H s) (H s))) with 0; [lra|]. destruct (H s) as [h1 h2 h3]. vunfoldg. cbn [x3 y3 z3]. rnumg. ring. }
  set (d := sub3 (H s) (H t)). set (m := k * (s - t)). assert (mp : 0 < m) by (unfold m; nra).
  assert (G : forall u, t <= u <= s -> derivable_pt_lim (fun u => dot3 d (H u) + m / 2 * W u - k * (dot3 d d / (2 * m)) * u) u (dot3 d (scale3 (- k) (rej (B u) (sub3 (H u) (L u)))) + m / 2 * W' u - k * (dot3 d d / (2 * m)) * 1)).
  { intros u Hu. apply d_minus; [apply d_plus|].
    - eapply d_eq; [apply d_dot3; [apply (d3_const d)|apply DH; lra]|]. cbv beta. generalize (scale3 (- k) (rej (B u) (sub3 (H u) (L u)))). intros w. destruct w as [w1 w2 w3], d as [e1 e2 e3], (H u) as [h1 h2 h3]. vunfoldg. cbn [x3 y3 z3]. rnumg. ring.
    - apply d_lin, dW. lra.
    - apply d_lin, d_id. }
  assert (X := le_of_deriv _ _ t s Ls G). cbv beta in X.
  assert (X' : dot3 d (H s) + m / 2 * W s - k * (dot3 d d / (2 * m)) * s <= dot3 d (H t) + m / 2 * W t - k * (dot3 d d / (2 * m)) * t).
  { apply X. intros u Hu. rewrite dot_scale_r. assert (WL := W'_le u ltac:(lra)). destruct (a_pos u) as (P1 & _). assert (E2 : a2 u = dot3 (rej (B u) (sub3 (H u) (L u))) (rej (B u) (sub3 (H u) (L u)))) by (symmetry; apply rej_sq, NB).
    set (r := rej (B u) (sub3 (H u) (L u))) in *. assert (WM : m / 2 * W' u <= m / 2 * (- k * dot3 r r)) by (apply Rmult_le_compat_l; nra).
    assert (Q : 0 <= dot3 (add3 d (scale3 m r)) (add3 d (scale3 m r))) by apply dot3_nonneg.
    assert (E : dot3 (add3 d (scale3 m r)) (add3 d (scale3 m r)) = dot3 d d + 2 * m * dot3 d r + m * m * dot3 r r) by (destruct d as [e1 e2 e3], r as [f1 f2 f3]; vunfoldg; cbn [x3 y3 z3]; rnumg; ring).
    assert (Y : - k * dot3 d r + m / 2 * (- k * dot3 r r) - k * (dot3 d d / (2 * m)) * 1 = - (k / (2 * m)) * (dot3 d d + 2 * m * dot3 d r + m * m * dot3 r r)) by (field; lra).
    rewrite <- E in Y. assert (0 < k / (2 * m)) by (apply Rdiv_lt_0_compat; lra). nra. }
  clear X. assert (E : dot3 d d = dot3 d (H s) - dot3 d (H t)) by (unfold d; destruct (H s) as [h1 h2 h3], (H t) as [g1 g2 g3]; vunfoldg; cbn [x3 y3 z3]; rnumg; ring).
  assert (F : k * (dot3 d d / (2 * m)) * s - k * (dot3 d d / (2 * m)) * t = dot3 d d / 2) by (unfold m; field; split; lra). fold m. lra.
Qed.
Lemma W_window t T c : 0 <= t -> 0 < T -> c * V t <= RInt (fun s => across (H t) (B s)) t (t + T) -> c * V t <= (2 / k + 2 * k * T * T) * (W t - W (t + T)).
Proof.
  intros Ht Tp PE. set (D := W t - W (t + T)).
  assert (D0 : forall u, t <= u <= t + T -> W t - W u <= D) by (intros u Hu; unfold D; assert (X := W_dec u (t + T) ltac:(lra) ltac:(lra)); lra).
  assert (CC := across_cont B (H t) CB NB).
  assert (G : forall u, t <= u <= t + T -> derivable_pt_lim (fun u => RInt (fun s => across (H t) (B s)) t u + 2 / k * W u - 2 * k * T * D * u) u (across (H t) (B u) + 2 / k * W' u - 2 * k * T * D * 1)).
  { intros u Hu. apply d_minus; [apply d_plus|].
    - apply (d_prim (fun s => across (H t) (B s)) t u CC).
    - apply d_lin, dW. lra.
    - apply d_lin, d_id. }
  assert (X := le_of_deriv _ _ t (t + T) ltac:(lra) G). cbv beta in X.
  assert (K2 : 0 < 2 / k) by (apply Rdiv_lt_0_compat; lra).
  assert (X' : RInt (fun s => across (H t) (B s)) t (t + T) + 2 / k * W (t + T) - 2 * k * T * D * (t + T) <= RInt (fun s => across (H t) (B s)) t t + 2 / k * W t - 2 * k * T * D * t).
  { apply X. intros u Hu. assert (S := across_split (H t) (H u) (B u) (NB u)). fold (a1 u) in S. assert (M := W_moved t u Ht ltac:(lra)). assert (DU := D0 u Hu).
    assert (E : dot3 (sub3 (H t) (H u)) (sub3 (H t) (H u)) = dot3 (sub3 (H u) (H t)) (sub3 (H u) (H t))) by (destruct (H t) as [h1 h2 h3], (H u) as [g1 g2 g3]; vunfoldg; cbn [x3 y3 z3]; rnumg; ring).
    assert (VD := W_dec t u Ht ltac:(lra)). assert (WL := W'_le u ltac:(lra)). destruct (a_pos u) as (_ & P2).
    assert (WM : 2 / k * W' u <= 2 / k * (- k * (a1 u + a2 u))) by (apply Rmult_le_compat_l; lra). replace (2 / k * (- k * (a1 u + a2 u))) with (-2 * (a1 u + a2 u)) in WM by (field; lra).
    assert (k * (u - t) * (W t - W u) <= k * T * D) by (apply Rmult_le_compat; [apply Rmult_le_pos; lra|lra|apply Rmult_le_compat_l; lra|exact DU]). lra. }
  clear X. assert (Z : RInt (fun s => across (H t) (B s)) t t = 0) by exact (RInt_point t (fun s => across (H t) (B s))). rewrite Z in X'. unfold D in *. lra.
Qed.
Lemma offset_lim T c : 0 < T -> 0 < c -> turning B T c -> is_lim (fun t => dot3 (H t) (H t)) p_infty 0.
Proof.
  intros Tp cp TU. apply is_lim_spec. intros [e ep]. cbn [pos]. set (q := 2 / k + 2 * k * T * T). assert (qp : 0 < q) by (unfold q; assert (0 < 2 / k) by (apply Rdiv_lt_0_compat; lra); assert (0 < k * T * T) by (repeat apply Rmult_lt_0_compat; lra); lra).
  set (e' := c * e / q). assert (ep' : 0 < e') by (unfold e'; apply Rdiv_lt_0_compat; nra).
  set (E := fun x => exists t, 0 <= t /\ x = - W t).
  destruct (completeness E) as (m & M1 & M2); [exists 0; intros x (t & _ & ->); assert (X := W_pos t); lra|exists (- W 0), 0; split; [lra|reflexivity]|].
  destruct (classic (exists t, 0 <= t /\ m - e' < - W t)) as [(t0 & T0 & HT)|NO].
  2: { exfalso. assert (m <= m - e'); [|lra]. apply M2. intros x (t & Ht & ->). destruct (Rle_lt_dec (- W t) (m - e')) as [|Z]; [assumption|]. exfalso. apply NO. exists t. auto. }
  exists t0. intros t Ht. rewrite Rminus_0_r, Rabs_pos_eq by apply dot3_nonneg. assert (T1 : 0 <= t) by lra.
  assert (X := W_window t T c T1 Tp (turning_any B T c t (H t) CB NB TU T1)). fold q in X.
  assert (Y : W t <= W t0) by (apply W_dec; lra). assert (Z : - W (t + T) <= m) by (apply M1; exists (t + T); split; [lra|reflexivity]).
  assert (D : W t - W (t + T) < e') by lra. assert (U : q * (W t - W (t + T)) < q * e') by (apply Rmult_lt_compat_l; assumption).
  replace (q * e') with (c * e) in U by (unfold e'; field; lra). unfold V in X. apply Rmult_lt_reg_l with c; [exact cp|]. lra.
Qed.
Lemma offset_kept (n : v3) : (forall t, cross3 (B t) n = zero3) -> forall t, 0 <= t -> dot3 (H t) n = dot3 (H 0) n.
Proof.
  intros PN t Ht.
  assert (G : forall u, 0 <= u -> derivable_pt_lim (fun u => dot3 (H u) n) u 0).
  { intros u Hu. eapply d_eq; [apply d_dot3; [apply DH, Hu|apply (d3_const n)]|]. cbv beta. assert (E := rej_perp (B u) (sub3 (H u) (L u)) n (NB u) (PN u)).
    rewrite (dot_comm3 (scale3 _ _)), dot_scale_r, (dot_comm3 n), E. replace (dot3 (H u) zero3) with 0 by (destruct (H u) as [h1 h2 h3]; vunfoldg; cbn [x3 y3 z3]; rnumg; ring). ring. }
  assert (A := le_of_deriv (fun u => dot3 (H u) n) (fun _ => 0) 0 t Ht (fun u Hu => G u ltac:(lra)) ltac:(intros; lra)).
  assert (D := le_of_deriv (fun u => -1 * dot3 (H u) n) (fun _ => -1 * 0) 0 t Ht (fun u Hu => d_lin _ _ _ (-1) (G u ltac:(lra))) ltac:(intros; lra)). cbv beta in *. lra.
Qed.
End Offset.
