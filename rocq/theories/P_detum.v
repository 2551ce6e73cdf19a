(** * Momentum under a damping torque confined to the plane across a changing field *)
From Coq Require Import Reals ZArith List Bool Arith Lra Psatz Lia.
From Coquelicot Require Import Coquelicot.
From Verif Require Import Num Vec M_vector M_quaternion M_struct M_dyn M_ctrl S_rot S_dyn P_quat P_dyn P_ctrl2.
Import ListNotations.
Local Open Scope R_scope.

(** ** vectors *)
Lemma dot_comm3 (a b : v3) : dot3 a b = dot3 b a. Proof. destruct a as [?a ?b ?c], b as [?a ?b ?c]. vunfoldg. cbn [x3 y3 z3]. rnumg. ring. Qed.
Definition rej (b h : v3) : v3 := sub3 h (scale3 (dot3 h b / dot3 b b) b).
Lemma dpos (b : v3) : b <> zero3 -> 0 < dot3 b b.
Proof.
  intros N. destruct (Rle_lt_dec (dot3 b b) 0) as [L|L]; [|exact L]. exfalso. apply N. destruct b as [x y z]. revert L. vunfoldg. cbn [x3 y3 z3]. rnumg. intros L.
  assert (A := Rle_0_sqr x). assert (B := Rle_0_sqr y). assert (C := Rle_0_sqr z). unfold Rsqr in *. apply mk3_c; apply Rsqr_0_uniq; unfold Rsqr; lra.
Qed.
Lemma rej_dot_raw (b h g : v3) : dot3 b b <> 0 -> dot3 g (rej b h) = dot3 g h - dot3 h b * dot3 g b / dot3 b b.
Proof. unfold rej. destruct b as [a b c], h as [x y z], g as [p q r]. vunfoldg. cbn [x3 y3 z3]. rnumg. intros P. field. exact P. Qed.
Lemma across_raw (h b : v3) : dot3 b b <> 0 -> across h b = dot3 h h - dot3 h b * dot3 h b / dot3 b b.
Proof. unfold across. destruct b as [a b c], h as [x y z]. vunfoldg. cbn [x3 y3 z3]. rnumg. intros P. field. exact P. Qed.
Lemma rej_dot (b h : v3) : b <> zero3 -> dot3 h (rej b h) = across h b.
Proof. intros N. assert (P := dpos b N). rewrite rej_dot_raw, across_raw by lra. reflexivity. Qed.
Lemma rej_sq (b h : v3) : b <> zero3 -> dot3 (rej b h) (rej b h) = across h b.
Proof.
  intros N. assert (P := dpos b N). rewrite rej_dot_raw by lra. rewrite (dot_comm3 (rej b h) h), (dot_comm3 (rej b h) b), (rej_dot b h N), (rej_dot_raw b h b) by lra. rewrite (dot_comm3 b h). field. lra.
Qed.
Lemma across_le (h b : v3) : b <> zero3 -> across h b <= dot3 h h.
Proof.
  intros N. assert (P := dpos b N). rewrite across_raw by lra. assert (0 <= dot3 h b * dot3 h b / dot3 b b); [|lra].
  apply Rmult_le_pos; [apply Rle_0_sqr|left; apply Rinv_0_lt_compat, P].
Qed.
Lemma across_pos (h b : v3) : b <> zero3 -> 0 <= across h b. Proof. intros N. exact (proj1 (across_nonneg h b N)). Qed.
Lemma dot_sub_sq (v u w : v3) : dot3 v w = dot3 (sub3 v u) w + dot3 u w.
Proof. destruct v as [?a ?b ?c], u as [?a ?b ?c], w as [?a ?b ?c]. vunfoldg. cbn [x3 y3 z3]. rnumg. ring. Qed.
Lemma across_scale a (h b : v3) : across (scale3 a h) b = a * a * across h b.
Proof. unfold across, Rdiv. rewrite <- Rmult_assoc. f_equal. destruct h as [?a ?b ?c], b as [?a ?b ?c]. vunfoldg. cbn [x3 y3 z3]. rnumg. ring. Qed.
(** the square splits: |P v|^2 <= 2 |v - u|^2 + 2 |P u|^2 *)
Lemma across_split (v u b : v3) : b <> zero3 -> across v b <= 2 * dot3 (sub3 v u) (sub3 v u) + 2 * across u b.
Proof.
  intros N. assert (A := across_le (sub3 v u) b N). assert (C := across_pos (add3 (sub3 v u) (scale3 (-1) u)) b N). assert (P := dpos b N).
  assert (E : across v b + across (add3 (sub3 v u) (scale3 (-1) u)) b = 2 * across (sub3 v u) b + 2 * across u b).
  { unfold across. assert (Q : dot3 b b <> 0) by lra. revert Q. clear. destruct v as [?a ?b ?c], u as [?a ?b ?c], b as [?a ?b ?c]. vunfoldg. cbn [x3 y3 z3]. rnumg. intros Q. field. exact Q. }
  lra.
Qed.
(** turning out of the body: the part across the field is the same physical vector *)
Lemma rej_turn (q : quat) (b h : v3) : unitq q -> sandwich_opp q (rej (sandwich q b) h) = rej b (sandwich_opp q h).
Proof.
  intros U. destruct (sandwich_opp_rigid q U) as (R1 & _ & R3 & R4). destruct (sandwich_rigid q U) as (S1 & _).
  unfold rej. rewrite S1. replace (dot3 h (sandwich q b)) with (dot3 (sandwich_opp q h) b) by (rewrite <- (R1 h (sandwich q b)), sandwich_opp_sandwich by exact U; reflexivity).
  set (c := dot3 (sandwich_opp q h) b / dot3 b b). replace (sub3 h (scale3 c (sandwich q b))) with (add3 h (scale3 (- c) (sandwich q b))) by (generalize (sandwich q b); intros s; destruct h as [?a ?b ?c], s as [?a ?b ?c]; vunfoldg; cbn [x3 y3 z3]; rnumg; apply mk3_c; ring).
  rewrite R3, R4, sandwich_opp_sandwich by exact U. generalize (sandwich_opp q h). intros g. destruct g as [?a ?b ?c], b as [?a ?b ?c]. vunfoldg; cbn [x3 y3 z3]; rnumg; apply mk3_c; ring.
Qed.

(** ** calculus *)
Lemma le_of_deriv (f f' : R -> R) a s : a <= s -> (forall u, a <= u <= s -> derivable_pt_lim f u (f' u)) -> (forall u, a <= u <= s -> f' u <= 0) -> f s <= f a.
Proof.
  intros L D N. destruct (Rle_lt_or_eq_dec a s L) as [L'| ->]; [|lra].
  destruct (MVT_cor2 f f' a s L' D) as (c & E & Hc). assert (X := N c ltac:(lra)). nra.
Qed.
Lemma d_lin (f : R -> R) t a k : derivable_pt_lim f t a -> derivable_pt_lim (fun u => k * f u) t (k * a).
Proof. intros D. eapply d_eq; [apply d_mult; [apply d_const|exact D]|]. cbv beta. ring. Qed.
Lemma d_id t : derivable_pt_lim (fun u => u) t 1. Proof. apply derivable_pt_lim_id. Qed.
Lemma d_prim (f : R -> R) a t : (forall s, continuous f s) -> derivable_pt_lim (fun x => RInt f a x) t (f t).
Proof.
  intros C. apply is_derive_Reals, (is_derive_RInt f (fun x => RInt f a x) a t); [|apply C].
  exists (mkposreal 1 Rlt_0_1). intros y _. apply (RInt_correct f a y), (ex_RInt_continuous f a y). intros z _. apply C.
Qed.
Lemma RInt_sub (f : R -> R) k a p q b : (forall s, continuous f s) -> (forall s, 0 <= f s) -> a <= p -> p <= q -> q <= b -> (forall s, p <= s <= q -> k <= f s) -> k * (q - p) <= RInt f a b.
Proof.
  intros C N L1 L2 L3 K.
  assert (M : forall x y, x <= y -> RInt f a x <= RInt f a y).
  { intros x y L. assert (X := le_of_deriv (fun u => -1 * RInt f a u) (fun u => -1 * f u) x y L (fun u _ => d_lin _ _ _ (-1) (d_prim f a u C)) ltac:(intros u _; specialize (N u); cbv beta; lra)). cbv beta in X. lra. }
  assert (A : RInt f a a = 0) by exact (RInt_point a f).
  assert (X := le_of_deriv (fun u => k * u - RInt f a u) (fun u => k * 1 - f u) p q L2 (fun u _ => d_minus _ _ u _ _ (d_lin _ _ _ k (d_id u)) (d_prim f a u C)) ltac:(intros u Hu; specialize (K u Hu); cbv beta; lra)). cbv beta in X.
  assert (Y := M a p L1). assert (Z := M q b L3). lra.
Qed.

(** ** fields *)
Definition cont3 (B : R -> v3) : Prop := forall t, continuous (fun s => x3 (B s)) t /\ continuous (fun s => y3 (B s)) t /\ continuous (fun s => z3 (B s)) t.
Lemma c_mult (f g : R -> R) t : continuous f t -> continuous g t -> continuous (fun s => f s * g s) t.
Proof. intros F G. apply (continuous_mult f g t F G). Qed.
Lemma c_plus (f g : R -> R) t : continuous f t -> continuous g t -> continuous (fun s => f s + g s) t.
Proof. intros F G. apply (continuous_plus f g t F G). Qed.
Lemma c_minus (f g : R -> R) t : continuous f t -> continuous g t -> continuous (fun s => f s - g s) t.
Proof. intros F G. apply (continuous_minus f g t F G). Qed.
Lemma c_inv (f : R -> R) t : continuous f t -> f t <> 0 -> continuous (fun s => / f s) t.
Proof. intros F N. apply (continuous_comp f Rinv); [exact F|]. apply continuous_Rinv, N. Qed.
Lemma across_cont (B : R -> v3) v : cont3 B -> (forall t, B t <> zero3) -> forall t, continuous (fun s => across v (B s)) t.
Proof.
  intros C N t. destruct (C t) as (X & Y & Z).
  assert (D : continuous (fun s => dot3 (B s) (B s)) t).
  { apply (continuous_ext (fun s => x3 (B s) * x3 (B s) + y3 (B s) * y3 (B s) + z3 (B s) * z3 (B s))). - intros s. unfold dot3. rnumg. reflexivity. - repeat apply c_plus; apply c_mult; assumption. }
  assert (E : continuous (fun s => dot3 v (B s)) t).
  { apply (continuous_ext (fun s => x3 v * x3 (B s) + y3 v * y3 (B s) + z3 v * z3 (B s))). - intros s. unfold dot3. rnumg. reflexivity. - repeat apply c_plus; apply c_mult; try assumption; apply continuous_const. }
  apply (continuous_ext (fun s => dot3 v v - dot3 v (B s) * dot3 v (B s) * / dot3 (B s) (B s))).
  - intros s. assert (P := dpos _ (N s)). rewrite across_raw by lra. reflexivity.
  - apply c_minus; [apply continuous_const|]. apply c_mult; [apply c_mult; exact E|]. apply c_inv; [exact D|]. assert (P := dpos _ (N t)). lra.
Qed.

(** ** the damped momentum *)
Section Damped.
Variables (H B : R -> v3) (k : R).
Hypothesis kp : 0 < k.
Hypothesis NB : forall t, B t <> zero3.
Hypothesis CB : cont3 B.
Hypothesis DH : forall t, 0 <= t -> deriv3 H t (scale3 (- k) (rej (B t) (H t))).
Let V (t : R) : R := dot3 (H t) (H t).
Lemma dot_scale_r (a : R) (u w : v3) : dot3 u (scale3 a w) = a * dot3 u w.
Proof. destruct u as [?a ?b ?c], w as [?a ?b ?c]. vunfoldg. cbn [x3 y3 z3]. rnumg. ring. Qed.
Lemma dV t : 0 <= t -> derivable_pt_lim V t (- 2 * k * across (H t) (B t)).
Proof.
  intros Ht. eapply d_eq; [apply d_dot3; apply DH, Ht|]. rewrite (dot_comm3 (scale3 _ _)), !dot_scale_r, rej_dot by apply NB. ring.
Qed.
Lemma V_dec t s : 0 <= t -> t <= s -> V s <= V t.
Proof. intros Ht L. apply (le_of_deriv V _ t s L (fun u Hu => dV u ltac:(lra))). intros u Hu. cbv beta. assert (X := across_pos (H u) (B u) (NB u)). nra. Qed.
Lemma moved t s : 0 <= t -> t <= s -> dot3 (sub3 (H s) (H t)) (sub3 (H s) (H t)) <= k / 2 * (s - t) * (V t - V s).
Proof.
  intros Ht L. destruct (Rle_lt_or_eq_dec t s L) as [L'| ->].
  2: { replace (dot3 (sub3 (H s) (H s)) (sub3 (H s) (H s))) with 0; [lra|]. destruct (H s) as [?a ?b ?c]. vunfoldg. cbn [x3 y3 z3]. rnumg. ring. }
  set (d := sub3 (H s) (H t)). set (m := k * (s - t)). assert (mp : 0 < m) by (unfold m; nra).
  assert (G : forall u, t <= u <= s -> derivable_pt_lim (fun u => dot3 d (H u) + m / 4 * V u - k * (dot3 d d / (2 * m)) * u) u (dot3 d (scale3 (- k) (rej (B u) (H u))) + m / 4 * (- 2 * k * across (H u) (B u)) - k * (dot3 d d / (2 * m)) * 1)).
  { intros u Hu. apply d_minus; [apply d_plus|].
    - eapply d_eq; [apply d_dot3; [apply (d3_const d)|apply DH; lra]|]. cbv beta. generalize (scale3 (- k) (rej (B u) (H u))). intros w. destruct w as [?a ?b ?c], d as [?a ?b ?c], (H u) as [?a ?b ?c]. vunfoldg. cbn [x3 y3 z3]. rnumg. ring.
    - apply d_lin, dV. lra.
    - apply d_lin, d_id. }
  assert (X := le_of_deriv _ _ t s L G). cbv beta in X.
  assert (X' : dot3 d (H s) + m / 4 * V s - k * (dot3 d d / (2 * m)) * s <= dot3 d (H t) + m / 4 * V t - k * (dot3 d d / (2 * m)) * t).
  { apply X. intros u Hu. rewrite dot_scale_r. rewrite <- (rej_sq (B u) (H u)) by apply NB. set (r := rej (B u) (H u)).
    assert (Q : 0 <= dot3 (add3 d (scale3 m r)) (add3 d (scale3 m r))) by apply dot3_nonneg.
    assert (E : dot3 (add3 d (scale3 m r)) (add3 d (scale3 m r)) = dot3 d d + 2 * m * dot3 d r + m * m * dot3 r r) by (destruct d as [?a ?b ?c], r as [?a ?b ?c]; vunfoldg; cbn [x3 y3 z3]; rnumg; ring).
    replace (- k * dot3 d r + m / 4 * (-2 * k * dot3 r r) - k * (dot3 d d / (2 * m)) * 1) with (- (k / (2 * m)) * (dot3 d d + 2 * m * dot3 d r + m * m * dot3 r r)) by (field; lra).
    rewrite <- E. assert (0 < k / (2 * m)) by (apply Rdiv_lt_0_compat; lra). nra. }
  clear X. assert (E : dot3 d d = dot3 d (H s) - dot3 d (H t)) by (unfold d; destruct (H s) as [?a ?b ?c], (H t) as [?a ?b ?c]; vunfoldg; cbn [x3 y3 z3]; rnumg; ring).
  assert (F : k * (dot3 d d / (2 * m)) * s - k * (dot3 d d / (2 * m)) * t = dot3 d d / 2) by (unfold m; field; split; lra).
  replace (k / 2 * (s - t) * (V t - V s)) with (2 * (m / 4 * (V t - V s))) by (unfold m; field). lra.
Qed.
Lemma window t T c : 0 <= t -> 0 < T -> c * V t <= RInt (fun s => across (H t) (B s)) t (t + T) -> V (t + T) <= (1 - c * k / (1 + k * k * (T * T))) * V t.
Proof.
  intros Ht Tp PE. set (D := V t - V (t + T)).
  assert (D0 : forall u, t <= u <= t + T -> V t - V u <= D) by (intros u Hu; unfold D; assert (X := V_dec u (t + T) ltac:(lra) ltac:(lra)); lra).
  assert (C := across_cont B (H t) CB NB).
  assert (G : forall u, t <= u <= t + T -> derivable_pt_lim (fun u => RInt (fun s => across (H t) (B s)) t u + / k * V u - k * T * D * u) u (across (H t) (B u) + / k * (- 2 * k * across (H u) (B u)) - k * T * D * 1)).
  { intros u Hu. apply d_minus; [apply d_plus|].
    - apply (d_prim (fun s => across (H t) (B s)) t u C).
    - apply d_lin, dV. lra.
    - apply d_lin, d_id. }
  assert (X := le_of_deriv _ _ t (t + T) ltac:(lra) G). cbv beta in X.
  assert (X' := X ltac:(intros u Hu; assert (S := across_split (H t) (H u) (B u) (NB u)); assert (M := moved t u Ht ltac:(lra)); assert (DU := D0 u Hu);
    assert (E : dot3 (sub3 (H t) (H u)) (sub3 (H t) (H u)) = dot3 (sub3 (H u) (H t)) (sub3 (H u) (H t))) by (destruct (H t) as [?a ?b ?c], (H u) as [?a ?b ?c]; vunfoldg; cbn [x3 y3 z3]; rnumg; ring);
    assert (VD := V_dec t u Ht ltac:(lra));
    replace (/ k * (-2 * k * across (H u) (B u))) with (-2 * across (H u) (B u)) by (field; lra);
    assert (k / 2 * (u - t) * (V t - V u) <= k / 2 * T * D) by (apply Rmult_le_compat; [apply Rmult_le_pos; lra|lra|apply Rmult_le_compat_l; lra|exact DU]); lra)).
  clear X. rewrite RInt_point in X'. change (zero : R) with 0 in X'.
  assert (Y : c * V t <= (k * T * T + / k) * D) by (unfold D in *; lra).
  assert (P : 0 < 1 + k * k * (T * T)) by (assert (0 < k * k) by nra; assert (0 < T * T) by nra; nra).
  assert (Z : c * k * V t <= (1 + k * k * (T * T)) * D).
  { replace ((1 + k * k * (T * T)) * D) with (k * ((k * T * T + / k) * D)) by (field; lra). replace (c * k * V t) with (k * (c * V t)) by ring. apply Rmult_le_compat_l; lra. }
  assert (W : c * k * V t / (1 + k * k * (T * T)) <= D).
  { apply Rmult_le_reg_r with (1 + k * k * (T * T)); [exact P|]. unfold Rdiv. rewrite Rmult_assoc, Rinv_l by lra. lra. }
  replace ((1 - c * k / (1 + k * k * (T * T))) * V t) with (V t - c * k * V t / (1 + k * k * (T * T))) by (field; lra). unfold D in W. lra.
Qed.
(** the component along a direction the field keeps never changes *)
Lemma kept (n : v3) : (forall t, cross3 (B t) n = zero3) -> forall t, 0 <= t -> dot3 (H t) n = dot3 (H 0) n.
Proof.
  intros PN t Ht.
  assert (G : forall u, 0 <= u -> derivable_pt_lim (fun u => dot3 (H u) n) u 0).
  { intros u Hu. eapply d_eq; [apply d_dot3; [apply DH, Hu|apply (d3_const n)]|]. cbv beta.
    assert (P := dpos _ (NB u)). assert (E : dot3 (rej (B u) (H u)) n = 0).
    { rewrite dot_comm3, rej_dot_raw by lra. assert (Q : dot3 n (H u) * dot3 (B u) (B u) = dot3 (H u) (B u) * dot3 n (B u)).
      { assert (X := PN u). assert (I : dot3 n (H u) * dot3 (B u) (B u) - dot3 (H u) (B u) * dot3 n (B u) = dot3 (H u) (cross3 (B u) (scale3 (-1) (cross3 (B u) n)))) by (destruct (H u) as [?a ?b ?c], (B u) as [?a ?b ?c], n as [?a ?b ?c]; vunfoldg; cbn [x3 y3 z3]; rnumg; ring).
        rewrite X in I. replace (dot3 (H u) (cross3 (B u) (scale3 (-1) zero3))) with 0 in I by (destruct (H u) as [?a ?b ?c], (B u) as [?a ?b ?c]; vunfoldg; cbn [x3 y3 z3]; rnumg; ring). lra. }
      unfold Rdiv. rewrite <- Q. field. lra. }
    rewrite (dot_comm3 (scale3 _ _)), dot_scale_r, (dot_comm3 n), E. replace (dot3 (H u) zero3) with 0 by (destruct (H u) as [?a ?b ?c]; vunfoldg; cbn [x3 y3 z3]; rnumg; ring). ring. }
  assert (A := le_of_deriv (fun u => dot3 (H u) n) (fun _ => 0) 0 t Ht (fun u Hu => G u ltac:(lra)) ltac:(intros; lra)).
  assert (C := le_of_deriv (fun u => -1 * dot3 (H u) n) (fun _ => -1 * 0) 0 t Ht (fun u Hu => d_lin _ _ _ (-1) (G u ltac:(lra))) ltac:(intros; lra)). cbv beta in *. lra.
Qed.
End Damped.
