(** * Sampled tracking: one control period *)
From Coq Require Import Reals Lra Psatz Lia.
From Verif Require Import Num Vec M_vector M_quaternion S_rot S_dyn P_quat P_struct P_dyn P_ctrl2 P_vec2 P_conv P_tot3 P_orb3 P_posf P_detum.
From Verif Require P_exist3 P_ctrl3.
Local Open Scope R_scope.

(** ** norms *)
Lemma sub_norm (a b : v3) : norm3 (sub3 a b) <= norm3 a + norm3 b.
Proof. replace (sub3 a b) with (add3 a (opp3 b)) by (destruct a as [a1 a2 a3], b as [b1 b2 b3]; vunfoldg; rnumg; apply mk3_c; ring). eapply Rle_trans; [apply norm3_triangle|]. rewrite norm3_opp. lra. Qed.
Lemma cross_norm (a b : v3) : norm3 (cross3 a b) <= norm3 a * norm3 b.
Proof.
  apply P_exist3.norm3_le_sq; [apply Rmult_le_pos; apply norm3_pos|]. replace (norm3 a * norm3 b * (norm3 a * norm3 b)) with ((norm3 a * norm3 a) * (norm3 b * norm3 b)) by ring. rewrite !P_quat.norm3_sq.
  assert (E : dot3 (cross3 a b) (cross3 a b) = dot3 a a * dot3 b b - dot3 a b ^ 2) by (destruct a as [a1 a2 a3], b as [b1 b2 b3]; vunfoldg; rnumg; ring). assert (0 <= dot3 a b ^ 2) by apply pow2_ge_0. lra.
Qed.
Lemma dot_const (d : v3) f t a : deriv3 f t a -> derivable_pt_lim (fun u => dot3 d (f u)) t (dot3 d a).
Proof. intros H. eapply d_eq; [apply d_dot3; [exact (d3_const d t)|exact H]|]. cbv beta. destruct (f t) as [a1 a2 a3], a as [b1 b2 b3], d as [c1 c2 c3]. vunfoldg; rnumg. ring. Qed.
Lemma vmvt (f f' : R -> v3) t0 t M : t0 <= t -> (forall u, t0 <= u <= t -> deriv3 f u (f' u)) -> (forall u, t0 <= u <= t -> norm3 (f' u) <= M) ->
  norm3 (sub3 (f t) (f t0)) <= M * (t - t0).
Proof.
  intros Ht D B. assert (M0 : 0 <= M) by (assert (K := B t0 ltac:(lra)); assert (P := norm3_pos (f' t0)); lra). set (d := sub3 (f t) (f t0)).
  assert (L := le_of_deriv (fun u => dot3 d (f u) - M * norm3 d * u) (fun u => dot3 d (f' u) - M * norm3 d) t0 t Ht).
  assert (K : dot3 d (f t) - M * norm3 d * t <= dot3 d (f t0) - M * norm3 d * t0).
  { apply L.
    - intros u Hu. apply d_minus; [apply dot_const, D, Hu|]. eapply d_eq; [apply d_mult; [apply d_const|apply d_id]|]. cbv beta. ring.
    - intros u Hu. assert (X := dot_norm d (f' u)). assert (Y := Rle_abs (dot3 d (f' u))). assert (Z := B u Hu). assert (P := norm3_pos d). nra. }
  assert (Q : dot3 d (f t) - dot3 d (f t0) = dot3 d d) by (unfold d at 3; destruct d as [a b c], (f t) as [a1 a2 a3], (f t0) as [b1 b2 b3]; vunfoldg; rnumg; ring).
  assert (S := P_quat.norm3_sq d). assert (P := norm3_pos d). destruct (Req_dec (norm3 d) 0) as [Z|Z]; [rewrite Z; apply Rmult_le_pos; lra|].
  apply (Rmult_le_reg_l (norm3 d)); [lra|]. nra.
Qed.

(** ** the mixed Lyapunov function with a weight e of one's choice *)
Lemma w_point al ga de e x n r : 0 < al -> 0 < ga -> 0 < de -> 0 < e -> e <= cv_eps al ga -> -1 + de <= x <= 1 -> 0 <= n -> r ^ 2 <= (1 - x ^ 2) * n ->
  Rabs (e * r) <= e * (/ (2 * al) + 1) * (2 * al * (1 - x) + n / 2) /\
  - ga * n + e * (x * n / 2 - al * (1 - x ^ 2) - ga * r) <= - Rmin ga (e * de / 4) * (2 * al * (1 - x) + n / 2).
Proof.
  intros A G D E0 EC Hx Hn Hr. destruct (cv_eps_spec al ga A G) as (_ & C1 & C2 & C3). set (c := cv_eps al ga) in *.
  assert (E1 : e <= al) by lra. assert (E2 : e <= 1 / 2) by lra. assert (E3 : e * (al + ga ^ 2) <= ga * al) by (assert (0 <= ga ^ 2) by apply pow2_ge_0; nra). clearbody c.
  set (p := 1 - x ^ 2) in *. assert (P0 : 0 <= p) by (unfold p; nra). assert (P2 : p <= 2 * (1 - x)) by (unfold p; nra). assert (PD : de * (1 - x) <= p) by (unfold p; nra).
  assert (RA : Rabs r <= (p + n) / 2). { apply Rabs_le. assert (0 <= (p - n) ^ 2) by apply pow2_ge_0. split; nra. }
  assert (RB : ga * Rabs r <= al * p / 2 + ga ^ 2 * n / (2 * al)).
  { assert (X : 0 <= ga ^ 2 * n / (2 * al)) by (apply Rmult_le_pos; [nra|left; apply Rinv_0_lt_compat; lra]).
    set (y := ga ^ 2 * n / (2 * al)) in *. assert (Y : al * y = ga ^ 2 * n / 2) by (unfold y; field; lra). assert (N : 0 <= Rabs r) by apply Rabs_pos. assert (S : Rabs r ^ 2 = r ^ 2) by (apply pow2_abs).
    assert (0 <= al * p / 2) by nra. apply Rsqr_incr_0; [|nra|lra]. unfold Rsqr.
    assert (K : (ga * Rabs r) * (ga * Rabs r) <= ga ^ 2 * (p * n)) by (replace (ga * Rabs r * (ga * Rabs r)) with (ga ^ 2 * (Rabs r ^ 2)) by ring; rewrite S; apply Rmult_le_compat_l; [apply pow2_ge_0|exact Hr]).
    eapply Rle_trans; [exact K|]. replace (ga ^ 2 * (p * n)) with (2 * p * (al * y)) by (rewrite Y; field). assert (0 <= (al * p / 2 - y) ^ 2) by apply pow2_ge_0. nra. }
  split.
  - rewrite Rabs_mult, (Rabs_right e) by lra. rewrite Rmult_assoc. apply Rmult_le_compat_l; [lra|]. assert (I : 0 < / (2 * al)) by (apply Rinv_0_lt_compat; lra).
    replace ((/ (2 * al) + 1) * (2 * al * (1 - x) + n / 2)) with ((1 - x) + n / 2 + (2 * al * (1 - x)) + / (2 * al) * (n / 2)) by (field; lra).
    assert (0 <= / (2 * al) * (n / 2)) by (apply Rmult_le_pos; lra). assert (0 <= 2 * al * (1 - x)) by nra. lra.
  - assert (RR := Rle_abs r). assert (RR' := Rle_abs (- r)). rewrite Rabs_Ropp in RR'.
    assert (DW : - ga * n + e * (x * n / 2 - al * p - ga * r) <= - (ga / 2 * n) - e * al / 2 * p).
    { assert (T1 : e * (- (ga * r)) <= e * (al * p / 2 + ga ^ 2 * n / (2 * al))) by (apply Rmult_le_compat_l; nra).
      assert (T2 : e * (ga ^ 2 * n / (2 * al)) + e * n / 2 <= ga * n / 2).
      { apply (Rmult_le_reg_r (2 * al)); [lra|]. replace ((e * (ga ^ 2 * n / (2 * al)) + e * n / 2) * (2 * al)) with (e * (al + ga ^ 2) * n) by (field; lra). replace (ga * n / 2 * (2 * al)) with (ga * al * n) by field. apply Rmult_le_compat_r; assumption. }
      assert (T0 : x * n <= n) by nra. assert (T3 : e * (x * n) <= e * n) by (apply Rmult_le_compat_l; lra). lra. }
    assert (e * al * de / 2 * (1 - x) <= e * al / 2 * p). { replace (e * al * de / 2 * (1 - x)) with (e * al / 2 * (de * (1 - x))) by field. apply Rmult_le_compat_l; nra. }
    assert (L1 := Rmin_l ga (e * de / 4)). assert (L2 := Rmin_r ga (e * de / 4)). set (l := Rmin ga (e * de / 4)) in *.
    assert (l * (2 * al * (1 - x)) <= e * de / 4 * (2 * al * (1 - x))) by (apply Rmult_le_compat_r; nra). assert (l * (n / 2) <= ga * (n / 2)) by (apply Rmult_le_compat_r; lra). lra.
Qed.

(** ** algebra of the error quaternion *)
Lemma err_w (E : quat) (w : v3) : qw (scaleq 0.5 (product E (pure w))) = - (1 / 2) * dot3 (vec E) w.
Proof. destruct E as [a b c d], w as [x y z]. unfold pure, product. replace 0.5 with (1 / 2) by lra. vunfold; rnum. field. Qed.
Lemma err_v_dot (E : quat) (w : v3) : dot3 (vec (scaleq 0.5 (product E (pure w)))) w = qw E * dot3 w w / 2.
Proof. destruct E as [a b c d], w as [x y z]. unfold pure, product. replace 0.5 with (1 / 2) by lra. vunfold; rnum. field. Qed.
Lemma err_v_norm (E : quat) (w : v3) : unitq E -> norm3 (vec (scaleq 0.5 (product E (pure w)))) <= norm3 w / 2.
Proof.
  intros U. assert (P := norm3_pos w). apply P_exist3.norm3_le_sq; [lra|]. replace (norm3 w / 2 * (norm3 w / 2)) with (norm3 w * norm3 w / 4) by field. rewrite P_quat.norm3_sq.
  assert (K : dot3 (vec (scaleq 0.5 (product E (pure w)))) (vec (scaleq 0.5 (product E (pure w)))) = (dotq E E * dot3 w w - dot3 (vec E) w ^ 2) / 4).
  { destruct E as [a b c d], w as [x y z]. unfold pure, product. replace 0.5 with (1 / 2) by lra. vunfold; rnum. field. }
  unfold unitq in U. rewrite K, U. assert (0 <= dot3 (vec E) w ^ 2) by apply pow2_ge_0. lra.
Qed.
Lemma unit_split (E : quat) : unitq E -> dot3 (vec E) (vec E) = 1 - qw E ^ 2.
Proof. unfold unitq. destruct E as [a b c d]. vunfold; rnum. lra. Qed.
