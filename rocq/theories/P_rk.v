(** * Lemmas: Runge-Kutta steps of a quadratic vector field *)
From Coq Require Import Reals List Lra Psatz Lia.
From Verif Require Import Num Vec M_vector M_quaternion M_struct S_rot S_dyn.
Import ListNotations.
Local Open Scope R_scope.

(** ** attitude, rate, wheel momentum and a constant as one vector; the equation of motion is then homogeneous of degree two *)
Record X := mkX { xq : quat; xw : v3; xh : v3; xo : R }.
Definition xadd (a b : X) : X := mkX (addq (xq a) (xq b)) (add3 (xw a) (xw b)) (add3 (xh a) (xh b)) (xo a + xo b).
Definition xscale (k : R) (a : X) : X := mkX (scaleq k (xq a)) (scale3 k (xw a)) (scale3 k (xh a)) (k * xo a).
Definition xsub (a b : X) : X := xadd a (xscale (-1) b).
Inductive ix := Q0 | Q1 | Q2 | Q3 | W1 | W2 | W3 | H1 | H2 | H3 | O0.
Definition co (i : ix) (x : X) : R :=
  match i with Q0 => qw (xq x) | Q1 => qx (xq x) | Q2 => qy (xq x) | Q3 => qz (xq x) | W1 => x3 (xw x) | W2 => y3 (xw x) | W3 => z3 (xw x)
  | H1 => x3 (xh x) | H2 => y3 (xh x) | H3 => z3 (xh x) | O0 => xo x end.
Lemma co_add i a b : co i (xadd a b) = co i a + co i b.
Proof. destruct i; reflexivity. Qed.
Lemma co_scale i k a : co i (xscale k a) = k * co i a.
Proof. destruct i; reflexivity. Qed.
Lemma co_sub i a b : co i (xsub a b) = co i a - co i b.
Proof. unfold xsub. rewrite co_add, co_scale. ring. Qed.
Lemma x_ext a b : (forall i, co i a = co i b) -> a = b.
Proof.
  intros H. destruct a as [[a0 a1 a2 a3] [a4 a5 a6] [a7 a8 a9] a10], b as [[b0 b1 b2 b3] [b4 b5 b6] [b7 b8 b9] b10].
  assert (E0 := H Q0). assert (E1 := H Q1). assert (E2 := H Q2). assert (E3 := H Q3). assert (E4 := H W1). assert (E5 := H W2). assert (E6 := H W3). assert (E7 := H H1). assert (E8 := H H2). assert (E9 := H H3). assert (E10 := H O0).
  cbn in *. congruence.
Qed.
Ltac xlin := apply x_ext; let i := fresh "i" in intros i; repeat rewrite ?co_add, ?co_scale, ?co_sub; repeat match goal with |- context [co i ?a] => generalize (co i a); intros ? end; field.

Definition n1 (v : v3) : R := Rabs (x3 v) + Rabs (y3 v) + Rabs (z3 v).
Definition nq (q : quat) : R := Rabs (qw q) + Rabs (qx q) + Rabs (qy q) + Rabs (qz q).
Definition nx (x : X) : R := nq (xq x) + n1 (xw x) + n1 (xh x) + Rabs (xo x).
Ltac absb := repeat match goal with |- context [Rabs ?a] => lazymatch goal with H : 0 <= Rabs a |- _ => fail | _ => pose proof (Rabs_pos a) end end.
Lemma nx_pos x : 0 <= nx x.
Proof. unfold nx, nq, n1. absb. lra. Qed.
Lemma nx_add a b : nx (xadd a b) <= nx a + nx b.
Proof.
  assert (T : forall u v, Rabs (u + v) <= Rabs u + Rabs v) by apply Rabs_triang.
  destruct a as [[a0 a1 a2 a3] [a4 a5 a6] [a7 a8 a9] a10], b as [[b0 b1 b2 b3] [b4 b5 b6] [b7 b8 b9] b10]. unfold nx, nq, n1, xadd, addq, add3. cbn [xq xw xh xo qw qx qy qz x3 y3 z3]. rnumg.
  assert (E0 := T a0 b0). assert (E1 := T a1 b1). assert (E2 := T a2 b2). assert (E3 := T a3 b3). assert (E4 := T a4 b4). assert (E5 := T a5 b5). assert (E6 := T a6 b6). assert (E7 := T a7 b7). assert (E8 := T a8 b8). assert (E9 := T a9 b9). assert (E10 := T a10 b10). lra.
Qed.
Lemma nx_scale k a : nx (xscale k a) = Rabs k * nx a.
Proof.
  destruct a as [[a0 a1 a2 a3] [a4 a5 a6] [a7 a8 a9] a10]. unfold nx, nq, n1, xscale, scaleq, scale3. cbn [xq xw xh xo qw qx qy qz x3 y3 z3]. rnumg. rewrite !Rabs_mult. ring.
Qed.
Lemma nx_sub a b : nx (xsub a b) <= nx a + nx b.
Proof. unfold xsub. eapply Rle_trans; [apply nx_add|]. rewrite nx_scale, Rabs_left by lra. lra. Qed.
Lemma nx_co i x : Rabs (co i x) <= nx x.
Proof. unfold nx, nq, n1. destruct i; cbn [co]; absb; lra. Qed.
Lemma nx_le x e : (forall i, Rabs (co i x) <= e) -> nx x <= 11 * e.
Proof.
  intros H. assert (E0 := H Q0). assert (E1 := H Q1). assert (E2 := H Q2). assert (E3 := H Q3). assert (E4 := H W1). assert (E5 := H W2). assert (E6 := H W3). assert (E7 := H H1). assert (E8 := H H2). assert (E9 := H H3). assert (E10 := H O0).
  cbn [co] in *. unfold nx, nq, n1. lra.
Qed.
Lemma nx_tri a b c : nx (xsub a c) <= nx (xsub a b) + nx (xsub b c).
Proof. replace (xsub a c) with (xadd (xsub a b) (xsub b c)) by xlin. apply nx_add. Qed.

(** ** norms of products *)
Lemma nq_product a b : nq (product a b) <= nq a * nq b.
Proof.
  destruct a as [a0 a1 a2 a3], b as [b0 b1 b2 b3]. unfold nq, product. vunfoldg. rnumg.
  assert (T : forall u v w z, Rabs (u + v + w + z) <= Rabs u + Rabs v + Rabs w + Rabs z) by (intros u v w z; assert (A := Rabs_triang (u + v + w) z); assert (B := Rabs_triang (u + v) w); assert (C := Rabs_triang u v); lra).
  match goal with |- Rabs ?p + Rabs ?q + Rabs ?r + Rabs ?s <= _ =>
    assert (E0 : Rabs p <= Rabs a0 * Rabs b0 + Rabs a1 * Rabs b1 + Rabs a2 * Rabs b2 + Rabs a3 * Rabs b3);
    [|assert (E1 : Rabs q <= Rabs a0 * Rabs b1 + Rabs a1 * Rabs b0 + Rabs a2 * Rabs b3 + Rabs a3 * Rabs b2);
    [|assert (E2 : Rabs r <= Rabs a0 * Rabs b2 + Rabs a1 * Rabs b3 + Rabs a2 * Rabs b0 + Rabs a3 * Rabs b1);
    [|assert (E3 : Rabs s <= Rabs a0 * Rabs b3 + Rabs a1 * Rabs b2 + Rabs a2 * Rabs b1 + Rabs a3 * Rabs b0); [|lra]]]] end.
  - eapply Rle_trans; [|eapply Rle_trans; [apply (T (a0 * b0) (- (a1 * b1)) (- (a2 * b2)) (- (a3 * b3)))|rewrite ?Rabs_Ropp, !Rabs_mult; lra]]. right. f_equal. ring.
  - eapply Rle_trans; [|eapply Rle_trans; [apply (T (a0 * b1) (a1 * b0) ((a2 * b3)) (- (a3 * b2)))|rewrite ?Rabs_Ropp, !Rabs_mult; lra]]. right. f_equal. ring.
  - eapply Rle_trans; [|eapply Rle_trans; [apply (T (a0 * b2) (- (a1 * b3)) ((a2 * b0)) ((a3 * b1)))|rewrite ?Rabs_Ropp, !Rabs_mult; lra]]. right. f_equal. ring.
  - eapply Rle_trans; [|eapply Rle_trans; [apply (T (a0 * b3) (a1 * b2) (- (a2 * b1)) ((a3 * b0)))|rewrite ?Rabs_Ropp, !Rabs_mult; lra]]. right. f_equal. ring.
Qed.
Lemma n1_pos v : 0 <= n1 v. Proof. unfold n1. absb. lra. Qed.
Lemma nq_pos v : 0 <= nq v. Proof. unfold nq. absb. lra. Qed.
Lemma n1_add a b : n1 (add3 a b) <= n1 a + n1 b.
Proof. destruct a as [a b' c], b as [d e f]. unfold n1. vunfoldg. rnumg. assert (A := Rabs_triang a d). assert (B := Rabs_triang b' e). assert (C := Rabs_triang c f). lra. Qed.
Lemma n1_scale k a : n1 (scale3 k a) = Rabs k * n1 a.
Proof. destruct a as [a b c]. unfold n1. vunfoldg. rnumg. rewrite !Rabs_mult. ring. Qed.
Lemma n1_sub a b : n1 (sub3 a b) <= n1 a + n1 b.
Proof. replace (sub3 a b) with (add3 a (scale3 (-1) b)) by vring. eapply Rle_trans; [apply n1_add|]. rewrite n1_scale, Rabs_left by lra. lra. Qed.
Lemma nq_add a b : nq (addq a b) <= nq a + nq b.
Proof. destruct a as [a b' c g], b as [d e f h]. unfold nq. vunfoldg. rnumg. assert (A := Rabs_triang a d). assert (B := Rabs_triang b' e). assert (C := Rabs_triang c f). assert (D := Rabs_triang g h). lra. Qed.
Lemma nq_scale k a : nq (scaleq k a) = Rabs k * nq a.
Proof. destruct a as [a b c d]. unfold nq. vunfoldg. rnumg. rewrite !Rabs_mult. ring. Qed.
Lemma n1_cross a b : n1 (cross3 a b) <= n1 a * n1 b.
Proof.
  destruct a as [a0 a1 a2], b as [b0 b1 b2]. unfold n1. vunfoldg. rnumg.
  assert (T : forall u v u' v', Rabs (u * v - u' * v') <= Rabs u * Rabs v + Rabs u' * Rabs v') by (intros u v u' v'; rewrite <- !Rabs_mult; replace (u * v - u' * v') with (u * v + - (u' * v')) by ring; rewrite <- (Rabs_Ropp (u' * v')); apply Rabs_triang).
  assert (E0 := T a1 b2 a2 b1). assert (E1 := T a2 b0 a0 b2). assert (E2 := T a0 b1 a1 b0).
  assert (P0 := Rabs_pos a0). assert (P1 := Rabs_pos a1). assert (P2 := Rabs_pos a2). assert (R0 := Rabs_pos b0). assert (R1' := Rabs_pos b1). assert (R2' := Rabs_pos b2).
  assert (0 <= Rabs a0 * Rabs b0) by (apply Rmult_le_pos; assumption). assert (0 <= Rabs a1 * Rabs b1) by (apply Rmult_le_pos; assumption). assert (0 <= Rabs a2 * Rabs b2) by (apply Rmult_le_pos; assumption). lra.
Qed.
Definition nm (m : m3) : R := n1 (row1 m) + n1 (row2 m) + n1 (row3 m).
Lemma nm_pos m : 0 <= nm m.
Proof. unfold nm. assert (A := n1_pos (row1 m)). assert (B := n1_pos (row2 m)). assert (C := n1_pos (row3 m)). lra. Qed.
Lemma dot_le a b : Rabs (dot3 a b) <= n1 a * n1 b.
Proof.
  destruct a as [a0 a1 a2], b as [b0 b1 b2]. unfold n1. vunfoldg. rnumg.
  assert (T : Rabs (a0 * b0 + a1 * b1 + a2 * b2) <= Rabs a0 * Rabs b0 + Rabs a1 * Rabs b1 + Rabs a2 * Rabs b2).
  { rewrite <- !Rabs_mult. assert (A := Rabs_triang (a0 * b0 + a1 * b1) (a2 * b2)). assert (B := Rabs_triang (a0 * b0) (a1 * b1)). lra. }
  assert (P0 := Rabs_pos a0). assert (P1 := Rabs_pos a1). assert (P2 := Rabs_pos a2). assert (R0 := Rabs_pos b0). assert (R1' := Rabs_pos b1). assert (R2' := Rabs_pos b2). nra.
Qed.
Lemma n1_mv m v : n1 (mv m v) <= nm m * n1 v.
Proof.
  assert (A := dot_le (row1 m) v). assert (B := dot_le (row2 m) v). assert (C := dot_le (row3 m) v).
  unfold nm. unfold n1 at 1. unfold mv. cbn [x3 y3 z3]. lra.
Qed.

(** ** the bilinear form of the equation of motion: J w' = g - w x (h + J w), h' = k *)
Definition pureq (w : v3) : quat := mkq 0 (x3 w) (y3 w) (z3 w).
Lemma add3_swap (u v : v3) : add3 u v = add3 v u.
Proof. destruct u as [a b c], v as [d e f]. vunfoldg; rnumg; apply mk3_c; ring. Qed.
Lemma addq_swap (u v : quat) : addq u v = addq v u.
Proof. destruct u as [a b c g], v as [d e f h]. vunfoldg; rnumg; apply mkq_c; ring. Qed.
Section Quadratic.
Context (J Ji : m3) (g k : v3).
Definition bf (a b : X) : X :=
  mkX (scaleq (1 / 4) (addq (product (xq a) (pureq (xw b))) (product (xq b) (pureq (xw a)))))
      (mv Ji (sub3 (scale3 (xo a * xo b) g) (scale3 (1 / 2) (add3 (cross3 (xw a) (add3 (xh b) (mv J (xw b)))) (cross3 (xw b) (add3 (xh a) (mv J (xw a))))))))
      (scale3 (xo a * xo b) k) 0.
Lemma bf_sym a b : bf a b = bf b a.
Proof.
  unfold bf. rewrite (Rmult_comm (xo a) (xo b)), (add3_swap (cross3 (xw a) _)), (addq_swap (product (xq a) _)). reflexivity.
Qed.
Lemma bf_add_l a b c : bf (xadd a b) c = xadd (bf a c) (bf b c).
Proof.
  destruct J as [[j1 j2 j3] [j4 j5 j6] [j7 j8 j9]]. destruct Ji as [[i1 i2 i3] [i4 i5 i6] [i7 i8 i9]].
  destruct a as [[a0 a1 a2 a3] [a4 a5 a6] [a7 a8 a9] a10], b as [[b0 b1 b2 b3] [b4 b5 b6] [b7 b8 b9] b10], c as [[c0 c1 c2 c3] [c4 c5 c6] [c7 c8 c9] c10].
  destruct g as [g1 g2 g3], k as [k1 k2 k3]. unfold bf, xadd, pureq, product. cbn [xq xw xh xo]. vunfoldg. rnumg. cbn [xq xw xh xo x3 y3 z3 qw qx qy qz row1 row2 row3]. f_equal; [apply mkq_c; field|apply mk3_c; field|apply mk3_c; field|ring].
Qed.
Lemma bf_scale_l r a c : bf (xscale r a) c = xscale r (bf a c).
Proof.
  destruct J as [[j1 j2 j3] [j4 j5 j6] [j7 j8 j9]]. destruct Ji as [[i1 i2 i3] [i4 i5 i6] [i7 i8 i9]].
  destruct a as [[a0 a1 a2 a3] [a4 a5 a6] [a7 a8 a9] a10], c as [[c0 c1 c2 c3] [c4 c5 c6] [c7 c8 c9] c10].
  destruct g as [g1 g2 g3], k as [k1 k2 k3]. unfold bf, xscale, pureq, product. cbn [xq xw xh xo]. vunfoldg. rnumg. cbn [xq xw xh xo x3 y3 z3 qw qx qy qz row1 row2 row3]. f_equal; [apply mkq_c; field|apply mk3_c; field|apply mk3_c; field|ring].
Qed.
Lemma bf_add_r a b c : bf c (xadd a b) = xadd (bf c a) (bf c b).
Proof. rewrite bf_sym, bf_add_l, (bf_sym a), (bf_sym b). reflexivity. Qed.
Lemma bf_scale_r r a c : bf c (xscale r a) = xscale r (bf c a).
Proof. rewrite bf_sym, bf_scale_l, (bf_sym a). reflexivity. Qed.
Definition bb : R := 1 + nm Ji * (n1 g + 2 + 2 * nm J) + n1 k.
Lemma bb_pos : 1 <= bb.
Proof. unfold bb. assert (A := nm_pos Ji). assert (B := nm_pos J). assert (C := n1_pos g). assert (D := n1_pos k). assert (0 <= nm Ji * (n1 g + 2 + 2 * nm J)) by (apply Rmult_le_pos; lra). lra. Qed.
Lemma bf_le a b : nx (bf a b) <= bb * (nx a * nx b).
Proof.
  assert (PJ := nm_pos J). assert (PI := nm_pos Ji). assert (Pg := n1_pos g). assert (Pk := n1_pos k).
  assert (qa := nq_pos (xq a)). assert (wa := n1_pos (xw a)). assert (ha := n1_pos (xh a)). assert (oa := Rabs_pos (xo a)).
  assert (qb := nq_pos (xq b)). assert (wb := n1_pos (xw b)). assert (hb := n1_pos (xh b)). assert (ob := Rabs_pos (xo b)).
  assert (A0 : nq (xq a) + n1 (xw a) + n1 (xh a) + Rabs (xo a) = nx a) by reflexivity. assert (B0 : nq (xq b) + n1 (xw b) + n1 (xh b) + Rabs (xo b) = nx b) by reflexivity.
  assert (PP : forall u v, 0 <= u <= nx a -> 0 <= v <= nx b -> 0 <= u * v <= nx a * nx b) by (intros u v Hu Hv; split; [apply Rmult_le_pos; lra|apply Rmult_le_compat; lra]).
  assert (Q : nq (scaleq (1 / 4) (addq (product (xq a) (pureq (xw b))) (product (xq b) (pureq (xw a))))) <= nx a * nx b).
  { rewrite nq_scale, Rabs_pos_eq by lra. assert (PU : forall w, nq (pureq w) = n1 w) by (intros w; unfold nq, pureq, n1; cbn [qw qx qy qz]; rewrite Rabs_R0; ring).
    assert (T := nq_add (product (xq a) (pureq (xw b))) (product (xq b) (pureq (xw a)))). assert (T1 := nq_product (xq a) (pureq (xw b))). assert (T2 := nq_product (xq b) (pureq (xw a))). rewrite !PU in *.
    assert (U1 := PP (nq (xq a)) (n1 (xw b)) ltac:(lra) ltac:(lra)). assert (U2 := PP (n1 (xw a)) (nq (xq b)) ltac:(lra) ltac:(lra)). lra. }
  assert (OO : Rabs (xo a * xo b) <= nx a * nx b) by (rewrite Rabs_mult; apply PP; lra).
  assert (NN : 0 <= nx a * nx b) by (apply Rmult_le_pos; apply nx_pos).
  assert (K : n1 (scale3 (xo a * xo b) k) <= n1 k * (nx a * nx b)) by (rewrite n1_scale; nra).
  assert (CR : forall c d, nx c * nx d = nx a * nx b -> n1 (cross3 (xw c) (add3 (xh d) (mv J (xw d)))) <= (1 + nm J) * (nx a * nx b)).
  { intros c d <-. eapply Rle_trans; [apply n1_cross|]. assert (T := n1_add (xh d) (mv J (xw d))). assert (T1 := n1_mv J (xw d)).
    assert (qc := nq_pos (xq c)). assert (wc := n1_pos (xw c)). assert (hc := n1_pos (xh c)). assert (oc := Rabs_pos (xo c)). assert (qd := nq_pos (xq d)). assert (wd := n1_pos (xw d)). assert (hd := n1_pos (xh d)). assert (od := Rabs_pos (xo d)).
    assert (C0 : n1 (xw c) <= nx c) by (unfold nx; lra). assert (D0 : n1 (xw d) <= nx d) by (unfold nx; lra). assert (D1 : n1 (xh d) <= nx d) by (unfold nx; lra).
    assert (E : n1 (add3 (xh d) (mv J (xw d))) <= (1 + nm J) * nx d). { assert (nm J * n1 (xw d) <= nm J * nx d) by (apply Rmult_le_compat_l; lra). lra. }
    apply Rle_trans with (nx c * ((1 + nm J) * nx d)); [apply Rmult_le_compat; [lra|apply n1_pos|lra|exact E]|lra]. }
  assert (C1 := CR a b eq_refl). assert (C2 := CR b a (Rmult_comm _ _)).
  assert (V : n1 (sub3 (scale3 (xo a * xo b) g) (scale3 (1 / 2) (add3 (cross3 (xw a) (add3 (xh b) (mv J (xw b)))) (cross3 (xw b) (add3 (xh a) (mv J (xw a))))))) <= (n1 g + 2 + 2 * nm J) * (nx a * nx b)).
  { eapply Rle_trans; [apply n1_sub|]. rewrite !n1_scale, (Rabs_pos_eq (1 / 2)) by lra. assert (T := n1_add (cross3 (xw a) (add3 (xh b) (mv J (xw b)))) (cross3 (xw b) (add3 (xh a) (mv J (xw a))))).
    assert (Rabs (xo a * xo b) * n1 g <= nx a * nx b * n1 g) by (apply Rmult_le_compat_r; lra). nra. }
  assert (M := n1_mv Ji (sub3 (scale3 (xo a * xo b) g) (scale3 (1 / 2) (add3 (cross3 (xw a) (add3 (xh b) (mv J (xw b)))) (cross3 (xw b) (add3 (xh a) (mv J (xw a)))))))).
  assert (M' := Rmult_le_compat_l _ _ _ PI V). unfold nx at 1. unfold bf. cbn [xq xw xh xo]. rewrite Rabs_R0. unfold bb. lra.
Qed.
End Quadratic.
