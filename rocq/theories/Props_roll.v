(** * C106: the safe-mode roll and its completion check *)
From Coq Require Import Reals ZArith List Bool Arith Lra Psatz Lia.
From Verif Require Import Num Vec M_vector M_quaternion M_jday M_frame M_struct M_env M_dyn M_ctrl S_rot S_dyn P_quat P_wheel P_dyn P_dyn2 P_ctrl2 P_ctrl3 P_tot3 P_detum.
Import ListNotations.
Local Open Scope R_scope.

(** the ecliptic pole in inertial axes; the body momentum of the wanted spin (0.02932 rad/s about body z); the momentum of the same
    size along the ecliptic pole, as the body sees it *)
Definition pole : v3 := mk3 0 (- sin EPS) (cos EPS).
Definition aim_body (sat : Satellite) : v3 := mv (s_total_moment sat) (mk3 0 0 0.02932).
Definition aim_sky (sat : Satellite) (q : quat) : v3 := sandwich q (scale3 (norm3 (aim_body sat)) pole).
(** how far the momentum is from both *)
Definition off (sat : Satellite) (v : SVec) : R :=
  let h := mv (s_total_moment sat) (v_rate v) in
  dot3 (sub3 h (aim_body sat)) (sub3 h (aim_body sat)) + dot3 (sub3 h (aim_sky sat (v_att v))) (sub3 h (aim_sky sat (v_att v))).
(** the motion at time [t], wheels at rest, under the moment that no_q_bbq_roll commands in the body field [B] (before distribute) *)
Definition rolled (sat : Satellite) (B F : v3) (accl : list R) (y : R -> SVec) (t : R) : Prop :=
  deriv_sv y t (derivative sat (y t) F (cross3 (mag_moment_cmd B (scale3 (- K_BBQ) (roll_error sat (v_att (y t)) (v_rate (y t))))) B) zero3 zero3 accl).

Lemma BBQ_eq : BBQ = mk3 0 0 0.02932. Proof. unfold BBQ. vunfoldg. cbn [x3 y3 z3]. rnumg. apply mk3_c; lra. Qed.
Lemma hd_eq sat : hd_body sat = aim_body sat. Proof. unfold hd_body, aim_body. rewrite BBQ_eq. reflexivity. Qed.
Lemma pole_eq : sandwich_opp ECL (mk3 0 0 1) = pole.
Proof.
  unfold ECL, pole. replace EPS with (2 * (0.5 * EPS)) at 3 4 by lra. generalize (0.5 * EPS). intros x. rewrite sin_2a, cos_2a.
  unfold sandwich_opp, sandwich, product, conjugate. vunfoldg. cbn [qw qx qy qz x3 y3 z3]. rnumg. apply mk3_c; ring.
Qed.
Lemma Hd_eq sat q : sandwich q (Hd_intl sat) = aim_sky sat q.
Proof. unfold Hd_intl, aim_sky. rewrite pole_eq, hd_eq. reflexivity. Qed.
Definition err (sat : Satellite) (v : SVec) : v3 := sub3 (sub3 (scale3 2 (mv (s_total_moment sat) (v_rate v))) (aim_body sat)) (aim_sky sat (v_att v)).
Lemma err_eq sat v : roll_error sat (v_att v) (v_rate v) = err sat v.
Proof. unfold roll_error, err. cbv zeta. rewrite Hd_eq, hd_eq. generalize (mv (s_total_moment sat) (v_rate v)) (aim_body sat) (aim_sky sat (v_att v)). intros [a b c] [d e f] [g h i]. vunfoldg. cbn [x3 y3 z3]. rnumg. apply mk3_c; ring. Qed.

Lemma rate_alg (h a s w T e : v3) : e = sub3 (sub3 (scale3 2 h) a) s ->
  dot3 (sub3 (sub3 T (cross3 w h)) zero3) (sub3 h a) + dot3 (sub3 h a) (sub3 (sub3 T (cross3 w h)) zero3) +
  (dot3 (sub3 (sub3 T (cross3 w h)) (cross3 s w)) (sub3 h s) + dot3 (sub3 h s) (sub3 (sub3 T (cross3 w h)) (cross3 s w))) = 2 * dot3 e T + 2 * dot3 a (cross3 w h).
Proof. intros ->. destruct h as [h1 h2 h3], a as [a1 a2 a3], s as [s1 s2 s3], w as [w1 w2 w3], T as [t1 t2 t3]. vunfoldg. cbn [x3 y3 z3]. rnumg. ring. Qed.
Lemma tidy (T w h : v3) : sub3 (sub3 T zero3) (cross3 w (add3 zero3 h)) = sub3 T (cross3 w h).
Proof. destruct h as [h1 h2 h3], w as [w1 w2 w3], T as [t1 t2 t3]. vunfoldg. cbn [x3 y3 z3]. rnumg. apply mk3_c; ring. Qed.
Lemma sky_d (s c w : v3) : add3 (sandwich (q1 : quat) zero3) (cross3 s w) = cross3 s w.
Proof. destruct s as [s1 s2 s3], w as [w1 w2 w3]. unfold sandwich, product, conjugate, q1. vunfoldg. cbn [qw qx qy qz x3 y3 z3]. rnumg. apply mk3_c; ring. Qed.
Lemma sandwich_zero (q : quat) : sandwich q zero3 = zero3 :> v3.
Proof. destruct q as [a b c d]. unfold sandwich, product, conjugate. vunfoldg. cbn [qw qx qy qz x3 y3 z3]. rnumg. apply mk3_c; ring. Qed.
Lemma add_zero_l (v : v3) : add3 zero3 v = v. Proof. destruct v as [a b c]. vunfoldg. cbn [x3 y3 z3]. rnumg. apply mk3_c; ring. Qed.

(** ** C106 *)
(** the distance changes at the rate -2 k |e across B|^2, as the controller's authors want, plus a term of the body's own making that no
    command controls *)
Theorem C106_rate : forall sat (B F : v3) accl (y : R -> SVec) t, B <> zero3 -> det3 (s_total_moment sat) <> 0 -> rolled sat B F accl y t ->
  let w := v_rate (y t) in let h := mv (s_total_moment sat) w in
  let e := sub3 (sub3 (scale3 2 h) (aim_body sat)) (aim_sky sat (v_att (y t))) in
  derivable_pt_lim (fun u => off sat (y u)) t
    (- 2 * K_BBQ * (dot3 (cross3 e B) (cross3 e B) / dot3 B B) + 2 * dot3 (aim_body sat) (cross3 w h)).
Proof.
  intros sat B F accl y t NB DJ D w h e. destruct D as (_ & _ & DQ & DW & _). unfold derivative in DQ, DW. cbn [v_att v_rate] in DQ, DW. rewrite err_eq in DW. fold w in DQ, DW. fold h in DW.
  change (err sat (y t)) with e in DW. assert (MP := mag_power K_BBQ e B NB). set (T := cross3 (mag_moment_cmd B (scale3 (- K_BBQ) e)) B) in *.
  assert (DH := d3_mv (s_total_moment sat) _ t _ DW). unfold s_inv_tot in DH. rewrite mv_inv3, tidy in DH by exact DJ. cbv beta in DH.
  assert (DS := d3_sandwich _ (fun _ => scale3 (norm3 (aim_body sat)) pole) t zero3 w DQ (d3_const _ t)). cbv beta in DS. rewrite sandwich_zero, add_zero_l in DS.
  change (sandwich (v_att (y t)) (scale3 (norm3 (aim_body sat)) pole)) with (aim_sky sat (v_att (y t))) in DS.
  assert (D1 := d3_sub _ _ t _ _ DH (d3_const (aim_body sat) t)). assert (D2 := d3_sub _ _ t _ _ DH DS). cbv beta in D1, D2.
  assert (X := d_plus _ _ t _ _ (d_dot3 _ _ t _ _ D1 D1) (d_dot3 _ _ t _ _ D2 D2)). cbv beta in X. eapply d_eq; [exact X|].
  change (mv (s_total_moment sat) (v_rate (y t))) with h. change (sandwich (v_att (y t)) (scale3 (norm3 (aim_body sat)) pole)) with (aim_sky sat (v_att (y t))).
  rewrite (rate_alg h (aim_body sat) (aim_sky sat (v_att (y t))) w T e eq_refl), MP. unfold across. ring.
Qed.
Print Assumptions C106_rate.
(** a curve through every state that moves as the equations say *)
Lemma curve_exists (v : SVec) (t : R) (d : SVec) : v_whl v = [] -> v_whl d = [] -> exists y, y t = v /\ deriv_sv y t d.
Proof.
  intros W1 W2. destruct v as [[p1 p2 p3] [u1 u2 u3] [a b c e] [w1 w2 w3] l], d as [[p1' p2' p3'] [u1' u2' u3'] [a' b' c' e'] [w1' w2' w3'] l']. cbn [v_whl] in W1, W2. subst l l'.
  set (g := fun x x' u : R => x + x' * (u - t)). assert (G0 : forall x x', g x x' t = x) by (intros; unfold g; ring).
  assert (GD : forall x x', derivable_pt_lim (g x x') t x').
  { intros x x'. eapply d_eq; [unfold g; exact (d_plus _ _ t _ _ (d_const x t) (d_mult _ _ t _ _ (d_const x' t) (d_minus _ _ t _ _ (d_id t) (d_const t t))))|]. cbv beta. ring. }
  exists (fun u => mkSV (mk3 (g p1 p1' u) (g p2 p2' u) (g p3 p3' u)) (mk3 (g u1 u1' u) (g u2 u2' u) (g u3 u3' u)) (mkq (g a a' u) (g b b' u) (g c c' u) (g e e' u)) (mk3 (g w1 w1' u) (g w2 w2' u) (g w3 w3' u)) []).
  split; [rewrite !G0; reflexivity|]. unfold deriv_sv. cbn [v_pos v_vel v_att v_rate v_whl].
  split; [repeat split; apply GD|]. split; [repeat split; apply GD|]. split; [repeat split; apply GD|]. split; [repeat split; apply GD|].
  intros i. destruct i; apply d_const.
Qed.
Lemma form_symmetric (a b c d e f : R) : 0 < a -> 0 < c -> 0 < a * b - d * d ->
  (forall x y z, dot3 (mk3 e f c) (cross3 (mk3 x y z) (mv (mkm (mk3 a d e) (mk3 d b f) (mk3 e f c)) (mk3 x y z))) <= 0) -> a = b /\ d = 0 /\ e = 0 /\ f = 0.
Proof.
  intros A C D Q.
  assert (P : forall x y z, dot3 (mk3 e f c) (cross3 (mk3 x y z) (mv (mkm (mk3 a d e) (mk3 d b f) (mk3 e f c)) (mk3 x y z))) =
    (c * d - e * f) * (x * x - y * y) + (e * e - f * f + c * (b - a)) * (x * y) + (a * f - d * e) * (x * z) + (d * f - b * e) * (y * z)).
  { intros x y z. vunfoldg. cbn [x3 y3 z3 row1 row2 row3]. rnumg. ring. }
  assert (E1 := Q 1 0 0). assert (E2 := Q 0 1 0). assert (E3 := Q 1 1 0). assert (E4 := Q 1 (-1) 0). assert (E5 := Q 1 0 1). assert (E6 := Q 1 0 (-1)). assert (E7 := Q 0 1 1). assert (E8 := Q 0 1 (-1)).
  rewrite P in *. assert (F1 : a * f - d * e = 0) by lra. assert (F2 : d * f - b * e = 0) by lra. assert (F3 : c * d - e * f = 0) by lra. assert (F4 : e * e - f * f + c * (b - a) = 0) by lra.
  assert (Z1 : (a * b - d * d) * e = 0) by (replace ((a * b - d * d) * e) with (d * (a * f - d * e) - a * (d * f - b * e)) by ring; rewrite F1, F2; ring).
  assert (ez : e = 0) by (apply Rmult_integral in Z1; destruct Z1; [lra|assumption]). subst e.
  assert (fz : f = 0) by (assert (X : a * f = 0) by lra; apply Rmult_integral in X; destruct X; [lra|assumption]). subst f.
  assert (dz : d = 0) by (assert (X : c * d = 0) by lra; apply Rmult_integral in X; destruct X; [lra|assumption]).
  assert (X : c * (b - a) = 0) by lra. apply Rmult_integral in X. destruct X; [lra|]. split; [lra|]. split; [exact dz|]. split; reflexivity.
Qed.
Lemma across_self_or (e : v3) : exists B, B <> zero3 /\ cross3 e B = zero3.
Proof.
  destruct (Req_dec (dot3 e e) 0) as [Z|Z].
  - exists (mk3 1 0 0). split; [intros E; injection E as E; rnumg; lra|]. rewrite (P_quat.dot3_zero e Z). vunfoldg. cbn [x3 y3 z3]. rnumg. apply mk3_c; ring.
  - exists e. split; [intros ->; apply Z; vunfoldg; cbn [x3 y3 z3]; rnumg; ring|]. destruct e as [a b c]. vunfoldg. cbn [x3 y3 z3]. rnumg. apply mk3_c; ring.
Qed.
(** the distance never grows, in any state and field, exactly when the body is symmetric about its z axis *)
Theorem C106_iff : forall sat, symm (s_total_moment sat) -> (forall v : v3, v <> zero3 -> 0 < dot3 v (mv (s_total_moment sat) v)) ->
  ((forall B F accl y t d, B <> zero3 -> unitq (v_att (y t)) -> rolled sat B F accl y t -> derivable_pt_lim (fun u => off sat (y u)) t d -> d <= 0) <->
   exists a c, s_total_moment sat = diag3 a a c).
Proof.
  intros sat SY PD. remember (s_total_moment sat) as J eqn:EJ. destruct J as [[a d1 e1] [d2 b f1] [e2 f2 c]]. unfold symm, tr3 in SY. cbn [row1 row2 row3 x3 y3 z3] in SY. injection SY as -> -> _ -> _ _. rename d1 into d, e1 into e, f1 into f.
  assert (PDc : forall x y z, mk3 x y z <> zero3 -> 0 < a * (x * x) + b * (y * y) + c * (z * z) + 2 * (d * (x * y)) + 2 * (e * (x * z)) + 2 * (f * (y * z))).
  { intros x y z N. assert (X := PD _ N). revert X. vunfoldg. cbn [x3 y3 z3 row1 row2 row3]. rnumg. intros X. lra. }
  assert (Ap : 0 < a). { assert (X := PDc 1 0 0 ltac:(intros E; injection E as E; rnumg; lra)). lra. }
  assert (Bp : 0 < b). { assert (X := PDc 0 1 0 ltac:(intros E; injection E as E; rnumg; lra)). lra. }
  assert (Cp : 0 < c). { assert (X := PDc 0 0 1 ltac:(intros E; injection E as E; rnumg; lra)). lra. }
  assert (Dp : 0 < a * b - d * d).
  { assert (X := PDc d (- a) 0 ltac:(intros E; injection E as _ E; rnumg; lra)). assert (Y : 0 < a * (a * b - d * d)) by lra. apply Rmult_lt_reg_l with a; [exact Ap|]. lra. }
  assert (DJ : det3 (s_total_moment sat) <> 0).
  { intros Z. rewrite <- EJ in Z. set (x := mk3 (d * f - b * e) (d * e - a * f) (a * b - d * d)). assert (N : x <> zero3) by (intros E; injection E as _ _ E; rnumg; lra).
    assert (X := PD x N). assert (W : dot3 x (mv (mkm (mk3 a d e) (mk3 d b f) (mk3 e f c)) x) = (a * b - d * d) * det3 (mkm (mk3 a d e) (mk3 d b f) (mk3 e f c))) by (unfold x; vunfoldg; cbn [x3 y3 z3 row1 row2 row3]; rnumg; ring).
    rewrite W, Z in X. lra. }
  assert (AB : aim_body sat = scale3 0.02932 (mk3 e f c)) by (unfold aim_body; rewrite <- EJ; vunfoldg; cbn [x3 y3 z3 row1 row2 row3]; rnumg; apply mk3_c; ring).
  split.
  - intros H. assert (Q : forall x y z, dot3 (mk3 e f c) (cross3 (mk3 x y z) (mv (mkm (mk3 a d e) (mk3 d b f) (mk3 e f c)) (mk3 x y z))) <= 0).
    { intros x y0 z. set (v := mkSV zero3 zero3 q1 (mk3 x y0 z) [] : SVec). destruct (across_self_or (err sat v)) as (B & NB & CB).
      destruct (curve_exists v 0 (derivative sat v zero3 (cross3 (mag_moment_cmd B (scale3 (- K_BBQ) (roll_error sat (v_att v) (v_rate v)))) B) zero3 zero3 []) eq_refl eq_refl) as (y & Y0 & YD).
      assert (RO : rolled sat B zero3 [] y 0) by (unfold rolled; rewrite Y0; exact YD).
      assert (X := C106_rate sat B zero3 [] y 0 NB DJ RO). cbv zeta in X. rewrite Y0 in X. change (sub3 (sub3 (scale3 2 (mv (s_total_moment sat) (v_rate v))) (aim_body sat)) (aim_sky sat (v_att v))) with (err sat v) in X. rewrite CB in X.
      assert (U : unitq (v_att (y 0))) by (rewrite Y0; unfold unitq, v, q1; cbn [v_att]; vunfoldg; cbn [qw qx qy qz]; rnumg; ring).
      assert (L := H B zero3 [] y 0 _ NB U RO X). rewrite AB in L. unfold v in L. cbn [v_rate] in L. rewrite <- EJ in L.
      replace (dot3 zero3 zero3) with 0 in L by (vunfoldg; cbn [x3 y3 z3]; rnumg; ring).
      set (m := cross3 (mk3 x y0 z) (mv (mkm (mk3 a d e) (mk3 d b f) (mk3 e f c)) (mk3 x y0 z))) in *.
      assert (SC : dot3 (scale3 0.02932 (mk3 e f c)) m = 0.02932 * dot3 (mk3 e f c) m) by (destruct m as [m1 m2 m3']; vunfoldg; cbn [x3 y3 z3]; rnumg; ring). rewrite SC in L. unfold Rdiv in L. lra. }
    destruct (form_symmetric a b c d e f Ap Cp Dp Q) as (-> & -> & -> & ->). exists b, c. reflexivity.
  - intros (a' & c' & E). injection E as E1 E2 E3 E4 E5 E6. rnumg. subst. intros B F accl y t r NB U RO X.
    assert (Y := C106_rate sat B F accl y t NB DJ RO). cbv zeta in Y. assert (R := uniqueness_limite _ _ _ _ X Y). clear X Y. rewrite AB, <- EJ in R.
    set (e := sub3 (sub3 (scale3 2 (mv _ (v_rate (y t)))) _) _) in R. assert (N := across_pos e B NB). unfold across in N. assert (K := K_pos).
    assert (Z : dot3 (scale3 0.02932 (mk3 0 0 c')) (cross3 (v_rate (y t)) (mv (mkm (mk3 a' 0 0) (mk3 0 a' 0) (mk3 0 0 c')) (v_rate (y t)))) = 0).
    { clear. generalize (v_rate (y t)). intros [w1 w2 w3]. vunfoldg. cbn [x3 y3 z3 row1 row2 row3]. rnumg. ring. }
    rewrite Z in R. rewrite R. nra.
Qed.
Print Assumptions C106_iff.
Lemma pole_unit : unit3 pole.
Proof. unfold unit3, pole. vunfoldg. cbn [x3 y3 z3]. rnumg. assert (X := sin2_cos2 EPS). unfold Rsqr in X. lra. Qed.
Lemma sky_dot sat q : unitq q -> dot3 (aim_sky sat q) (aim_sky sat q) = norm3 (aim_body sat) * norm3 (aim_body sat).
Proof.
  intros U. unfold aim_sky. destruct (sandwich_rigid q U) as (R1 & _). rewrite R1. transitivity (norm3 (aim_body sat) * norm3 (aim_body sat) * dot3 pole pole); [generalize (norm3 (aim_body sat)) pole; intros m [a b c]; vunfoldg; cbn [x3 y3 z3]; rnumg; ring|].
  assert (X := pole_unit). unfold unit3 in X. rewrite X. ring.
Qed.
Lemma norm_scale2 (k : R) (v : v3) : 0 <= k -> norm3 (scale3 k v) = k * norm3 v.
Proof.
  intros K. unfold norm3. rnumg. replace (dot3 (scale3 k v) (scale3 k v)) with (k * k * dot3 v v) by (destruct v as [a b c]; vunfoldg; cbn [x3 y3 z3]; rnumg; ring).
  rewrite sqrt_mult by (try apply P_quat.dot3_nonneg; nra). rewrite sqrt_square by exact K. reflexivity.
Qed.
(** the number [check] returns: small when the momentum is near both aims; and conversely, as long as the momentum is at least that of
    the wanted spin *)
Theorem C106_check : forall sat q w, unitq q ->
  let h := mv (s_total_moment sat) w in let a := aim_body sat in let s := aim_sky sat q in let m := norm3 a in
  mag_check sat q w <= norm3 (sub3 h a) + norm3 (sub3 h s) /\
  (forall eps, m <= norm3 h -> mag_check sat q w <= eps -> eps <= 2 * m ->
     norm3 (sub3 h a) <= sqrt (m * eps) + eps / 2 /\ norm3 (sub3 h s) <= sqrt (m * eps) + eps / 2).
Proof.
  intros sat q w U h a s m. unfold mag_check. set (v := mkSV zero3 zero3 q w []). change (roll_error sat q w) with (roll_error sat (v_att v) (v_rate v)). rewrite err_eq. unfold err, v. cbn [v_att v_rate]. fold h a s.
  set (e := sub3 (sub3 (scale3 2 h) a) s). split.
  - replace e with (add3 (sub3 h a) (sub3 h s)) by (unfold e; generalize h a s; intros [h1 h2 h3] [a1 a2 a3] [s1 s2 s3]; vunfoldg; cbn [x3 y3 z3]; rnumg; apply mk3_c; ring). apply norm3_triangle.
  - intros eps Lh Le Lm. assert (e0 : 0 <= norm3 e) by apply norm3_pos. assert (m0 : 0 <= m) by apply norm3_pos.
    assert (SS : dot3 s s = m * m) by (apply sky_dot, U). assert (AA : dot3 a a = m * m) by (unfold m; rewrite P_quat.norm3_sq; reflexivity).
    assert (T1 : 2 * m <= eps + norm3 (add3 a s)).
    { apply Rle_trans with (norm3 (scale3 2 h)); [rewrite norm_scale2 by lra; lra|]. replace (scale3 2 h) with (add3 e (add3 a s)) by (unfold e; generalize h a s; intros [h1 h2 h3] [a1 a2 a3] [s1 s2 s3]; vunfoldg; cbn [x3 y3 z3]; rnumg; apply mk3_c; ring).
      eapply Rle_trans; [apply norm3_triangle|]. lra. }
    assert (P2 := norm3_pos (add3 a s)). assert (Q1 := P_quat.norm3_sq (add3 a s)). assert (Q2 := P_quat.norm3_sq (sub3 s a)).
    assert (PL : dot3 (add3 a s) (add3 a s) + dot3 (sub3 s a) (sub3 s a) = 2 * dot3 a a + 2 * dot3 s s) by (generalize a s; intros [a1 a2 a3] [s1 s2 s3]; vunfoldg; cbn [x3 y3 z3]; rnumg; ring).
    assert (D : norm3 (sub3 s a) * norm3 (sub3 s a) <= 4 * (m * eps)).
    { rewrite Q2. assert ((2 * m - eps) * (2 * m - eps) <= norm3 (add3 a s) * norm3 (add3 a s)) by (apply Rmult_le_compat; lra). assert (Z := Rle_0_sqr eps). unfold Rsqr in Z. lra. }
    assert (DN : norm3 (sub3 s a) <= 2 * sqrt (m * eps)).
    { assert (ee : 0 <= eps) by lra. assert (me : 0 <= m * eps) by (apply Rmult_le_pos; lra). apply Rsqr_incr_0_var; [|assert (X := sqrt_pos (m * eps)); lra]. unfold Rsqr. assert (X := sqrt_sqrt _ me). nra. }
    assert (DN' : norm3 (sub3 a s) = norm3 (sub3 s a)) by (unfold norm3; rnumg; f_equal; generalize a s; intros [a1 a2 a3] [s1 s2 s3]; vunfoldg; cbn [x3 y3 z3]; rnumg; ring).
    split.
    + replace (sub3 h a) with (scale3 (1 / 2) (add3 e (sub3 s a))) by (unfold e; generalize h a s; intros [h1 h2 h3] [a1 a2 a3] [s1 s2 s3]; vunfoldg; cbn [x3 y3 z3]; rnumg; apply mk3_c; field).
      rewrite norm_scale2 by lra. assert (X := norm3_triangle e (sub3 s a)). lra.
    + replace (sub3 h s) with (scale3 (1 / 2) (add3 e (sub3 a s))) by (unfold e; generalize h a s; intros [h1 h2 h3] [a1 a2 a3] [s1 s2 s3]; vunfoldg; cbn [x3 y3 z3]; rnumg; apply mk3_c; field).
      rewrite norm_scale2 by lra. assert (X := norm3_triangle e (sub3 a s)). lra.
Qed.
Print Assumptions C106_check.
(** every direction can be turned onto every other *)
Lemma turn_exists (b p : v3) : unit3 b -> unit3 p -> exists q, unitq q /\ sandwich_opp q b = p.
Proof.
  intros Hb Hp. destruct (Req_dec (dot3 b p) (-1)) as [E|E].
  - assert (EP := unit_dot_m1 b p Hb Hp E). subst p.
    assert (X : exists u : v3, unit3 u /\ dot3 u b = 0).
    { destruct b as [x y z]. set (g := x * x + y * y). destruct (Req_dec g 0) as [Z|Z].
      - exists (mk3 1 0 0). split; [unfold unit3; vunfoldg; cbn [x3 y3 z3]; rnumg; ring|]. vunfoldg. cbn [x3 y3 z3]. rnumg. assert (A := Rle_0_sqr x). assert (B := Rle_0_sqr y). unfold Rsqr, g in *. assert (x = 0) by (apply Rsqr_0_uniq; unfold Rsqr; lra). subst x. ring.
      - assert (gp : 0 < g) by (assert (A := Rle_0_sqr x); assert (B := Rle_0_sqr y); unfold Rsqr, g in *; lra). set (n := sqrt g). assert (nn : n * n = g) by (apply sqrt_sqrt; lra). assert (np : 0 < n) by (apply sqrt_lt_R0, gp).
        exists (mk3 (- y / n) (x / n) 0). split.
        + unfold unit3. vunfoldg. cbn [x3 y3 z3]. rnumg. transitivity (g / (n * n)); [unfold g; field; lra|]. rewrite nn. field. exact Z.
        + vunfoldg. cbn [x3 y3 z3]. rnumg. field. lra. }
    destruct X as (u & U & D). exists (mkq 0 (x3 u) (y3 u) (z3 u)). split; [|apply half_turn; assumption].
    unfold unitq, unit3 in *. rewrite <- U. destruct u as [u1 u2 u3]. vunfoldg. cbn [qw qx qy qz x3 y3 z3]. rnumg. ring.
  - assert (N : p <> opp3 b). { intros ->. apply E. unfold unit3 in Hb. transitivity (- dot3 b b); [destruct b as [x y z]; vunfoldg; cbn [x3 y3 z3]; rnumg; ring|lra]. }
    destruct (pointing_ok b p Hb Hp N) as (A & B). eexists. split; [exact A|exact B].
Qed.
(** but a satellite that does not turn at all passes the check with the value 0, and stays where it is for ever, in every field: body z
    opposite to the ecliptic pole *)
Theorem C106_upside_down_refuted : forall sat, det3 (s_total_moment sat) <> 0 ->
  exists q, unitq q /\ aim_sky sat q = opp3 (aim_body sat) /\ aim_body sat <> zero3 /\
  let y := fun _ : R => mkSV zero3 zero3 q zero3 [] in
  (forall B t, B <> zero3 -> rolled sat B zero3 [] y t) /\ forall t, v_rate (y t) = zero3 /\ mag_check sat (v_att (y t)) (v_rate (y t)) = 0.
Proof.
  intros sat DJ. set (a := aim_body sat). assert (Na : a <> zero3).
  { intros E. assert (X : mk3 0 0 0.02932 = zero3 :> v3) by (rewrite <- (inv3_mv (s_total_moment sat) (mk3 0 0 0.02932) DJ); change (mv (s_total_moment sat) (mk3 0 0 0.02932)) with a; rewrite E; generalize (inv3 (s_total_moment sat)); intros [[m1 m2 m3'] [m4 m5 m6] [m7 m8 m9]]; vunfoldg; cbn [x3 y3 z3 row1 row2 row3]; rnumg; apply mk3_c; ring).
    injection X as X. rnumg. lra. }
  assert (np : 0 < norm3 a) by (unfold norm3; rnumg; apply sqrt_lt_R0, dpos, Na). set (n := norm3 a) in *. assert (nn : n * n = dot3 a a) by apply P_quat.norm3_sq.
  assert (UA : unit3 (scale3 (- / n) a)).
  { unfold unit3. transitivity (/ n * / n * dot3 a a); [generalize a; intros [x y z]; vunfoldg; cbn [x3 y3 z3]; rnumg; ring|]. rewrite <- nn. field. lra. }
  destruct (turn_exists (scale3 (- / n) a) pole UA pole_unit) as (q & U & T).
  assert (S : aim_sky sat q = opp3 a).
  { unfold aim_sky. fold a n. rewrite <- T. destruct (sandwich_rigid q U) as (_ & _ & _ & R4). rewrite R4, sandwich_sandwich_opp by exact U. generalize a. intros [x y z]. vunfoldg. cbn [x3 y3 z3]. rnumg. apply mk3_c; field; lra. }
  exists q. split; [exact U|]. split; [exact S|]. split; [exact Na|]. intros y.
  assert (JZ : mv (s_total_moment sat) zero3 = zero3) by (generalize (s_total_moment sat); intros [[m1 m2 m3'] [m4 m5 m6] [m7 m8 m9]]; vunfoldg; cbn [x3 y3 z3 row1 row2 row3]; rnumg; apply mk3_c; ring).
  assert (IZ : mv (s_inv_tot sat) zero3 = zero3) by (generalize (s_inv_tot sat); intros [[m1 m2 m3'] [m4 m5 m6] [m7 m8 m9]]; vunfoldg; cbn [x3 y3 z3 row1 row2 row3]; rnumg; apply mk3_c; ring).
  assert (E : forall t, roll_error sat (v_att (y t)) (v_rate (y t)) = zero3).
  { intros t. rewrite err_eq. unfold err, y. cbn [v_att v_rate]. rewrite JZ, S. fold a. generalize a. intros [x0 y0 z0]. vunfoldg. cbn [x3 y3 z3]. rnumg. apply mk3_c; ring. }
  split.
  - intros B t NB. unfold rolled. rewrite E. rewrite mag_torque by exact NB. unfold derivative, y. cbn [v_vel v_att v_rate]. rewrite JZ.
    replace (sub3 (sub3 (sub3 (scale3 (- K_BBQ) zero3) (scale3 (dot3 (scale3 (- K_BBQ) zero3) B / dot3 B B) B)) zero3) (cross3 zero3 (add3 zero3 zero3))) with (zero3 : v3).
    2: { replace (dot3 (scale3 (- K_BBQ) zero3) B) with 0 by (destruct B as [b1 b2 b3]; vunfoldg; cbn [x3 y3 z3]; rnumg; ring). replace (0 / dot3 B B) with 0 by (unfold Rdiv; ring). destruct B as [b1 b2 b3]. vunfoldg. cbn [x3 y3 z3]. rnumg. apply mk3_c; ring. }
    rewrite IZ. unfold deriv_sv. cbn [v_pos v_vel v_att v_rate v_whl].
    split; [apply d3_const|]. split; [eapply d3_eq; [apply d3_const|]; vunfoldg; cbn [x3 y3 z3]; rnumg; apply mk3_c; unfold Rdiv; ring|]. split; [|split; [apply d3_const|intros i; destruct i; apply d_const]].
    destruct q as [a1 b1 c1 d1]. unfold product, scaleq. vunfoldg. cbn [qw qx qy qz x3 y3 z3]. rnumg. repeat split; cbn [qw qx qy qz]; (eapply d_eq; [apply d_const|ring]).
  - intros t. split; [reflexivity|]. unfold mag_check. rewrite E. unfold norm3. rnumg. replace (dot3 zero3 zero3) with 0 by (vunfoldg; cbn [x3 y3 z3]; rnumg; ring). apply sqrt_0.
Qed.
Print Assumptions C106_upside_down_refuted.
(** a symmetric and an unsymmetric satellite; in the second a state where the distance grows although the error is not zero *)
Definition slab : Satellite := mkSat 0 0 0 1 1 1 (mkRWS [] 0 true) (mk3 1 2 3) zero3 false.
Lemma slab_total : s_total_moment slab = diag3 1 2 3.
Proof.
  unfold s_total_moment, s_wheel_moment, s_reduced_moment, rw_parallel, rw_orthogonal, slab, summ.
  cbn [s_rw s_principal s_reduced rw_wheels map fold_right x3 y3 z3]. vunfoldg. rnumg. repeat (apply mkm_c || apply mk3_c); ring.
Qed.
Example C106_ex :
  symm (s_total_moment ball) /\ (forall v : v3, v <> zero3 -> 0 < dot3 v (mv (s_total_moment ball) v)) /\ s_total_moment ball = diag3 4 4 4 /\
  symm (s_total_moment slab) /\ (forall v : v3, v <> zero3 -> 0 < dot3 v (mv (s_total_moment slab) v)) /\
  (exists B y, B <> zero3 /\ unitq (v_att (y 0)) /\ rolled slab B zero3 [] y 0 /\ v_rate (y 0) = mk3 1 1 0 /\
     (let e := sub3 (sub3 (scale3 2 (mv (s_total_moment slab) (v_rate (y 0)))) (aim_body slab)) (aim_sky slab (v_att (y 0))) in cross3 e B = zero3) /\
     0 < 2 * dot3 (aim_body slab) (cross3 (v_rate (y 0)) (mv (s_total_moment slab) (v_rate (y 0))))).
Proof.
  rewrite ball_total, slab_total.
  split; [unfold symm, tr3, scalem, id3; cbn [row1 row2 row3 x3 y3 z3]; reflexivity|].
  split. { intros v N. assert (X := dpos v N). replace (dot3 v (mv (scalem 4 id3) v)) with (4 * dot3 v v) by (destruct v as [a b c]; vunfoldg; cbn [x3 y3 z3 row1 row2 row3]; rnumg; ring). lra. }
  split; [vunfoldg; cbn [x3 y3 z3 row1 row2 row3]; rnumg; repeat (apply mkm_c || apply mk3_c); ring|].
  split; [reflexivity|].
  split. { intros v N. assert (X := dpos v N). revert X. destruct v as [a b c]. vunfoldg. cbn [x3 y3 z3 row1 row2 row3]. rnumg. intros X. assert (A := Rle_0_sqr a). assert (B := Rle_0_sqr b). assert (C := Rle_0_sqr c). unfold Rsqr in *. lra. }
  set (v := mkSV zero3 zero3 q1 (mk3 1 1 0) [] : SVec). destruct (across_self_or (err slab v)) as (B & NB & CB).
  destruct (curve_exists v 0 (derivative slab v zero3 (cross3 (mag_moment_cmd B (scale3 (- K_BBQ) (roll_error slab (v_att v) (v_rate v)))) B) zero3 zero3 []) eq_refl eq_refl) as (y & Y0 & YD).
  exists B, y. split; [exact NB|]. split; [rewrite Y0; unfold unitq, v, q1; cbn [v_att]; vunfoldg; cbn [qw qx qy qz]; rnumg; ring|]. split; [unfold rolled; rewrite Y0; exact YD|]. rewrite Y0. split; [reflexivity|].
  split; [cbv zeta; unfold err in CB; rewrite slab_total in CB; exact CB|]. unfold aim_body. rewrite slab_total. unfold v. cbn [v_rate]. vunfoldg. cbn [x3 y3 z3 row1 row2 row3]. rnumg. lra.
Qed.
