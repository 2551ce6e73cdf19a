(** * TRIAD *)
From Coq Require Import Reals ZArith List Bool Lra Psatz.
From Verif Require Import Num Vec M_vector M_quaternion M_att S_rot P_quat.
Local Open Scope R_scope.

Lemma sandwich_vec (w : R) (u v : v3) : sandwich (mkqv w u) v =
  add3 (add3 (scale3 (w * w - dot3 u u) v) (scale3 (2 * dot3 u v) u)) (scale3 (2 * w) (cross3 v u)).
Proof. unfold sandwich, product, conjugate. vring. Qed.
Lemma cross_cross (a b c : v3) : cross3 a (cross3 b c) = sub3 (scale3 (dot3 a c) b) (scale3 (dot3 a b) c).
Proof. vring. Qed.
Lemma gram (b r p q : v3) : dot3 (cross3 b r) p * dot3 (cross3 b r) q =
   dot3 b b * (dot3 r r * dot3 p q - dot3 r q * dot3 p r)
 - dot3 b r * (dot3 r b * dot3 p q - dot3 r q * dot3 p b)
 + dot3 b q * (dot3 r b * dot3 p r - dot3 r r * dot3 p b).
Proof. vring. Qed.

Lemma u_sq (b1 r1 : v3) (Hb : dot3 b1 b1 = 1) (Hr : dot3 r1 r1 = 1) al be : dot3 (add3 (scale3 al (cross3 b1 r1)) (scale3 be (add3 b1 r1))) (add3 (scale3 al (cross3 b1 r1)) (scale3 be (add3 b1 r1))) = al * al * (1 - (dot3 b1 r1) * (dot3 b1 r1)) + be * be * (2 * (1 + dot3 b1 r1)).
Proof.
  transitivity (al * al * (dot3 b1 b1 * dot3 r1 r1 - (dot3 b1 r1) * (dot3 b1 r1)) + be * be * (dot3 b1 b1 + dot3 r1 r1 + 2 * (dot3 b1 r1))).
  { vring. } rewrite Hb, Hr. ring.
Qed.
Lemma q_sq (b1 r1 : v3) (Hb : dot3 b1 b1 = 1) (Hr : dot3 r1 r1 = 1) al be : dotq (mkqv (al * (1 + dot3 b1 r1)) (add3 (scale3 al (cross3 b1 r1)) (scale3 be (add3 b1 r1)))) (mkqv (al * (1 + dot3 b1 r1)) (add3 (scale3 al (cross3 b1 r1)) (scale3 be (add3 b1 r1)))) = 2 * (1 + dot3 b1 r1) * (al * al + be * be).
Proof. transitivity (al * (1 + dot3 b1 r1) * (al * (1 + dot3 b1 r1)) + dot3 (add3 (scale3 al (cross3 b1 r1)) (scale3 be (add3 b1 r1))) (add3 (scale3 al (cross3 b1 r1)) (scale3 be (add3 b1 r1)))); [generalize (add3 (scale3 al (cross3 b1 r1)) (scale3 be (add3 b1 r1))); vring|]. rewrite (u_sq b1 r1 Hb Hr). ring. Qed.
Lemma q_r1 (b1 r1 : v3) (Hb : dot3 b1 b1 = 1) (Hr : dot3 r1 r1 = 1) al be : sandwich (mkqv (al * (1 + dot3 b1 r1)) (add3 (scale3 al (cross3 b1 r1)) (scale3 be (add3 b1 r1)))) r1 = scale3 (2 * (1 + dot3 b1 r1) * (al * al + be * be)) b1.
Proof.
  rewrite sandwich_vec, (u_sq b1 r1 Hb Hr).
  assert (U : dot3 (add3 (scale3 al (cross3 b1 r1)) (scale3 be (add3 b1 r1))) r1 = be * (1 + dot3 b1 r1)).
  { transitivity (be * ((dot3 b1 r1) + dot3 r1 r1)); [vring|]. rewrite Hr. ring. }
  assert (C : cross3 r1 (add3 (scale3 al (cross3 b1 r1)) (scale3 be (add3 b1 r1))) = sub3 (scale3 al (sub3 b1 (scale3 (dot3 b1 r1) r1))) (scale3 be (cross3 b1 r1))).
  { transitivity (sub3 (scale3 al (sub3 (scale3 (dot3 r1 r1) b1) (scale3 (dot3 b1 r1) r1))) (scale3 be (cross3 b1 r1))); [vring|].
    rewrite Hr. vring. }
  rewrite U, C. generalize (dot3 b1 r1). intros. vring.
Qed.
Lemma tri_b (b1 r1 b3 r3 : v3) (Hb : dot3 b1 b1 = 1) (Hr : dot3 r1 r1 = 1) (Hb3 : dot3 b1 b3 = 0) (Hr3 : dot3 r1 r3 = 0) : dot3 b1 r3 * dot3 (cross3 b1 r1) b3 = dot3 r1 (cross3 b3 r3) - (dot3 b1 r1) * dot3 b1 (cross3 b3 r3).
Proof.
  assert (E : dot3 b1 r3 * dot3 (cross3 b1 r1) b3 = dot3 b1 b1 * dot3 r1 (cross3 b3 r3) - (dot3 b1 r1) * dot3 b1 (cross3 b3 r3) + dot3 b1 b3 * dot3 b1 (cross3 r1 r3) ).
  { vring. }
  rewrite E, Hb, Hb3. ring.
Qed.
Lemma tri_r (b1 r1 b3 r3 : v3) (Hb : dot3 b1 b1 = 1) (Hr : dot3 r1 r1 = 1) (Hb3 : dot3 b1 b3 = 0) (Hr3 : dot3 r1 r3 = 0) : dot3 (cross3 b1 r1) r3 * dot3 r1 b3 = dot3 b1 (cross3 b3 r3) - (dot3 b1 r1) * dot3 r1 (cross3 b3 r3).
Proof.
  assert (E : dot3 (cross3 b1 r1) r3 * dot3 r1 b3 = dot3 r1 r1 * dot3 b1 (cross3 b3 r3) - (dot3 b1 r1) * dot3 r1 (cross3 b3 r3) + dot3 r1 r3 * dot3 b3 (cross3 b1 r1)).
  { vring. }
  rewrite E, Hr, Hr3. ring.
Qed.
Lemma q_r3 (b1 r1 b3 r3 : v3) (Hb : dot3 b1 b1 = 1) (Hr : dot3 r1 r1 = 1) (Hb3 : dot3 b1 b3 = 0) (Hr3 : dot3 r1 r3 = 0) al be : dot3 b3 (sandwich (mkqv (al * (1 + dot3 b1 r1)) (add3 (scale3 al (cross3 b1 r1)) (scale3 be (add3 b1 r1)))) r3) = 2 * (al * al - be * be) * ((1 + dot3 b1 r1) * dot3 b3 r3 - dot3 b1 r3 * dot3 r1 b3) + 4 * al * be * (dot3 (add3 b1 r1) (cross3 b3 r3)).
Proof.
  rewrite sandwich_vec, (u_sq b1 r1 Hb Hr).
  set (X := dot3 b3 r3). set (P := dot3 b1 r3). set (Q := dot3 r1 b3).
  assert (U3 : dot3 (add3 (scale3 al (cross3 b1 r1)) (scale3 be (add3 b1 r1))) r3 = al * dot3 (cross3 b1 r1) r3 + be * P).
  { unfold P. transitivity (al * dot3 (cross3 b1 r1) r3 + be * (dot3 b1 r3 + dot3 r1 r3)); [vring|]. rewrite Hr3. ring. }
  assert (UB : dot3 b3 (add3 (scale3 al (cross3 b1 r1)) (scale3 be (add3 b1 r1))) = al * dot3 (cross3 b1 r1) b3 + be * Q).
  { unfold Q. transitivity (al * dot3 (cross3 b1 r1) b3 + be * (dot3 b1 b3 + dot3 r1 b3)); [vring|]. rewrite Hb3. ring. }
  assert (C3 : dot3 b3 (cross3 r3 (add3 (scale3 al (cross3 b1 r1)) (scale3 be (add3 b1 r1)))) = - al * P * Q + be * (dot3 (add3 b1 r1) (cross3 b3 r3))).
  { unfold P, Q. transitivity (al * (dot3 r1 r3 * dot3 b1 b3 - dot3 b1 r3 * dot3 r1 b3) + be * dot3 (add3 b1 r1) (cross3 b3 r3)); [vring|]. rewrite Hr3. ring. }
  assert (G := gram b1 r1 r3 b3). rewrite Hb, Hr, Hb3 in G.
  replace (dot3 r3 r1) with 0 in G by (rewrite <- Hr3; vring).
  replace (dot3 r1 b1) with (dot3 b1 r1) in G by (vring). 
  replace (dot3 r3 b1) with P in G by (unfold P; vring). replace (dot3 r3 b3) with X in G by (unfold X; vring). fold Q in G.
  assert (TB := tri_b b1 r1 b3 r3 Hb Hr Hb3 Hr3). assert (TR := tri_r b1 r1 b3 r3 Hb Hr Hb3 Hr3). fold P in TB. fold Q in TR.
  replace (dot3 b3 _) with ((al * (1 + dot3 b1 r1) * (al * (1 + dot3 b1 r1)) - (al * al * (1 - (dot3 b1 r1) * (dot3 b1 r1)) + be * be * (2 * (1 + dot3 b1 r1)))) * X
     + 2 * dot3 (add3 (scale3 al (cross3 b1 r1)) (scale3 be (add3 b1 r1))) r3 * dot3 b3 (add3 (scale3 al (cross3 b1 r1)) (scale3 be (add3 b1 r1))) + 2 * (al * (1 + dot3 b1 r1)) * dot3 b3 (cross3 r3 (add3 (scale3 al (cross3 b1 r1)) (scale3 be (add3 b1 r1))))).
  2:{ unfold X. generalize (add3 (scale3 al (cross3 b1 r1)) (scale3 be (add3 b1 r1))). generalize (al * (1 + dot3 b1 r1) * (al * (1 + dot3 b1 r1)) - (al * al * (1 - (dot3 b1 r1) * (dot3 b1 r1)) + be * be * (2 * (1 + dot3 b1 r1)))) (al * (1 + dot3 b1 r1)). vring. }
  rewrite U3, UB, C3.
  set (A := dot3 (cross3 b1 r1) r3) in *. set (B := dot3 (cross3 b1 r1) b3) in *.
  assert (NU : (dot3 (add3 b1 r1) (cross3 b3 r3)) = dot3 b1 (cross3 b3 r3) + dot3 r1 (cross3 b3 r3)) by (vring).
  transitivity ((al * (1 + dot3 b1 r1) * (al * (1 + dot3 b1 r1)) - (al * al * (1 - (dot3 b1 r1) * (dot3 b1 r1)) + be * be * (2 * (1 + dot3 b1 r1)))) * X
    + 2 * (al * al * (A * B) + al * be * (A * Q + P * B) + be * be * (P * Q)) + 2 * (al * (1 + dot3 b1 r1)) * (- al * P * Q + be * (dot3 (add3 b1 r1) (cross3 b3 r3)))); [ring|].
  rewrite G, TR, TB. rewrite NU. fold X P Q. ring.
Qed.
(** mu^2 + nu^2 = (d |b3| |r3|)^2 *)
Lemma mu_nu (b1 r1 b3 r3 : v3) (Hb : dot3 b1 b1 = 1) (Hr : dot3 r1 r1 = 1) (Hb3 : dot3 b1 b3 = 0) (Hr3 : dot3 r1 r3 = 0) : (1 + dot3 b1 r1) <> 0 -> ((1 + dot3 b1 r1) * dot3 b3 r3 - dot3 b1 r3 * dot3 r1 b3) * ((1 + dot3 b1 r1) * dot3 b3 r3 - dot3 b1 r3 * dot3 r1 b3) + (dot3 (add3 b1 r1) (cross3 b3 r3)) * (dot3 (add3 b1 r1) (cross3 b3 r3)) = (1 + dot3 b1 r1) * (1 + dot3 b1 r1) * (dot3 b3 b3 * dot3 r3 r3).
Proof.
  intros Hd.
  (* e: r3 carried to the plane normal to b1 by the shortest rotation *)
  set (e := sub3 r3 (scale3 (dot3 b1 r3 / (1 + dot3 b1 r1)) (add3 b1 r1))).
  assert (E1 : ((1 + dot3 b1 r1) * dot3 b3 r3 - dot3 b1 r3 * dot3 r1 b3) = (1 + dot3 b1 r1) * dot3 b3 e).
  { unfold e. transitivity ((1 + dot3 b1 r1) * dot3 b3 r3 - dot3 b1 r3 * (dot3 b1 b3 + dot3 r1 b3)); [rewrite Hb3; ring|].
    assert (K : (1 + dot3 b1 r1) * (dot3 b1 r3 / (1 + dot3 b1 r1)) = dot3 b1 r3) by (field; exact Hd). revert K. generalize (dot3 b1 r3 / (1 + dot3 b1 r1)). intros k K.
    transitivity ((1 + dot3 b1 r1) * dot3 b3 r3 - ((1 + dot3 b1 r1) * k) * (dot3 b1 b3 + dot3 r1 b3)); [rewrite K; ring|]. clear. vring. }
  assert (E2 : (dot3 (add3 b1 r1) (cross3 b3 r3)) = - ((1 + dot3 b1 r1) * dot3 b3 (cross3 b1 e))).
  { assert (TB := tri_b b1 r1 b3 r3 Hb Hr Hb3 Hr3). assert (K : (1 + dot3 b1 r1) * (dot3 b1 r3 / (1 + dot3 b1 r1)) = dot3 b1 r3) by (field; exact Hd). unfold e. revert K. generalize (dot3 b1 r3 / (1 + dot3 b1 r1)). intros k K.
    transitivity ((1 + dot3 b1 r1) * dot3 b1 (cross3 b3 r3) + ((1 + dot3 b1 r1) * k) * dot3 (cross3 b1 r1) b3).
    - rewrite K, TB. replace (dot3 (add3 b1 r1) (cross3 b3 r3)) with (dot3 b1 (cross3 b3 r3) + dot3 r1 (cross3 b3 r3)) by vring. ring.
    - clear. vring. }
  assert (E3 : dot3 b1 e = 0).
  { unfold e. transitivity (dot3 b1 r3 - (dot3 b1 r3 / (1 + dot3 b1 r1)) * (dot3 b1 b1 + (dot3 b1 r1))); [vring|]. rewrite Hb. field. exact Hd. }
  assert (E4 : dot3 e e = dot3 r3 r3).
  { unfold e. transitivity (dot3 r3 r3 - 2 * (dot3 b1 r3 / (1 + dot3 b1 r1)) * (dot3 b1 r3 + dot3 r1 r3) + (dot3 b1 r3 / (1 + dot3 b1 r1)) * (dot3 b1 r3 / (1 + dot3 b1 r1)) * (dot3 b1 b1 + dot3 r1 r1 + 2 * (dot3 b1 r1))); [vring|].
    rewrite Hr3, Hb, Hr. replace (1 + 1 + 2 * (dot3 b1 r1)) with (2 * (1 + dot3 b1 r1)) by (ring). field. exact Hd. }
  (* two vectors normal to the unit b1: (b3.e)^2 + (b3 . b1 x e)^2 = |b3|^2 |e|^2 *)
  assert (L : dot3 b3 e * dot3 b3 e + dot3 b3 (cross3 b1 e) * dot3 b3 (cross3 b1 e) = dot3 b3 b3 * dot3 e e).
  { transitivity (dot3 b3 e * dot3 b3 e + dot3 (cross3 b1 e) b3 * dot3 (cross3 b1 e) b3); [clear; generalize e; vring|].
    rewrite (gram b1 e b3 b3). rewrite Hb, E3, Hb3.
    replace (dot3 e b3) with (dot3 b3 e) by (generalize e; clear; vring). replace (dot3 e b1) with 0 by (rewrite <- E3; generalize e; clear; vring). ring. }
  rewrite E1, E2, <- E4, <- L. ring.
Qed.

(** A rotation is determined by its effect on two non-parallel vectors. *)
Lemma expand3 (r1 r3 v : v3) : dot3 r1 r1 = 1 -> dot3 r1 r3 = 0 -> dot3 r3 r3 <> 0 ->
  v = add3 (add3 (scale3 (dot3 v r1) r1) (scale3 (dot3 v r3 / dot3 r3 r3) r3)) (scale3 (dot3 v (cross3 r1 r3) / dot3 r3 r3) (cross3 r1 r3)).
Proof.
  intros H1 H2 H3.
  set (w := sub3 v (add3 (add3 (scale3 (dot3 v r1) r1) (scale3 (dot3 v r3 / dot3 r3 r3) r3)) (scale3 (dot3 v (cross3 r1 r3) / dot3 r3 r3) (cross3 r1 r3)))).
  assert (C : dot3 (cross3 r1 r3) (cross3 r1 r3) = dot3 r3 r3).
  { assert (K := cauchy3 r1 r3). rewrite H1, H2 in K. lra. }
  assert (W1 : dot3 w r1 = 0).
  { unfold w. transitivity (dot3 v r1 - dot3 v r1 * dot3 r1 r1 - dot3 v r3 / dot3 r3 r3 * dot3 r1 r3); [generalize (dot3 v r3 / dot3 r3 r3) (dot3 v (cross3 r1 r3) / dot3 r3 r3); intros|rewrite H1, H2; ring]. clear. vdestruct. vunfoldg; rnumg. ring. }
  assert (W2 : dot3 w r3 = 0).
  { unfold w. transitivity (dot3 v r3 - dot3 v r1 * dot3 r1 r3 - dot3 v r3 / dot3 r3 r3 * dot3 r3 r3).
    - generalize (dot3 v r1) (dot3 v r3 / dot3 r3 r3) (dot3 v (cross3 r1 r3) / dot3 r3 r3). clear. vring.
    - rewrite H2. field. exact H3. }
  assert (W3 : dot3 w (cross3 r1 r3) = 0).
  { unfold w. transitivity (dot3 v (cross3 r1 r3) - dot3 v (cross3 r1 r3) / dot3 r3 r3 * dot3 (cross3 r1 r3) (cross3 r1 r3)).
    - generalize (dot3 v r1) (dot3 v r3 / dot3 r3 r3) (dot3 v (cross3 r1 r3) / dot3 r3 r3). clear. vring.
    - rewrite C. field. exact H3. }
  assert (Z : dot3 w w = 0).
  { (* |r3|^2 |w|^2 is a combination of the three products *)
    assert (K : dot3 w w * (dot3 r1 r1 * dot3 r3 r3 - dot3 r1 r3 * dot3 r1 r3) =
        dot3 w (cross3 r1 r3) * dot3 w (cross3 r1 r3) + dot3 w r1 * (dot3 w r1 * dot3 r3 r3 - dot3 w r3 * dot3 r1 r3) + dot3 w r3 * (dot3 w r3 * dot3 r1 r1 - dot3 w r1 * dot3 r1 r3)).
    { generalize w. clear. vring. }
    rewrite W1, W2, W3, H1, H2 in K. assert (dot3 w w * dot3 r3 r3 = 0) by lra. apply Rmult_integral in H. destruct H; [exact H|contradiction]. }
  apply dot3_zero in Z. unfold w in Z.
  match type of Z with sub3 _ ?y = _ => set (Y := y) in * end. clearbody Y. clear - Z. destruct v as [a b c], Y as [a' b' c']. vunfold. rnum. injection Z; intros. f_equal; lra.
Qed.
Lemma rigid_agree (f g : v3 -> v3) (r1 r3 : v3) : rigid f -> rigid g -> dot3 r1 r1 = 1 -> dot3 r1 r3 = 0 -> dot3 r3 r3 <> 0 ->
  f r1 = g r1 -> f r3 = g r3 -> forall v, f v = g v.
Proof.
  intros (_ & Fc & Fa & Fs) (_ & Gc & Ga & Gs) H1 H2 H3 E1 E3 v.
  rewrite (expand3 r1 r3 v H1 H2 H3). rewrite !Fa, !Ga, !Fs, !Gs, <- Fc, <- Gc, E1, E3. reflexivity.
Qed.

Lemma triad_ok (r1 r2 b1 b2 : v3) (p : quat) : unitq p -> unit3 r1 -> cross3 r1 r2 <> zero3 ->
  b1 = sandwich p r1 -> b2 = sandwich p r2 -> b1 <> opp3 r1 ->
  let q := triad_algorithm r1 r2 b1 b2 in
  unitq q /\ forall v, sandwich q v = sandwich p v.
Proof.
  intros Hp Hr1 Hc Eb1 Eb2 Hopp q.
  destruct (sandwich_rigid p Hp) as (Rd & Rc & Ra & Rs).
  assert (Hr : dot3 r1 r1 = 1) by exact Hr1.
  assert (Hb : dot3 b1 b1 = 1) by (rewrite Eb1, Rd; exact Hr).
  set (r3 := cross3 r1 r2) in *. set (b3 := cross3 b1 b2).
  assert (E3 : b3 = sandwich p r3) by (unfold b3, r3; rewrite Eb1, Eb2; apply Rc).
  assert (Hr3 : dot3 r1 r3 = 0) by (unfold r3; vring).
  assert (Hb3 : dot3 b1 b3 = 0) by (unfold b3; vring).
  assert (N3 : 0 < dot3 r3 r3). { destruct (Rle_lt_or_eq_dec _ _ (dot3_nonneg r3)) as [L|E]; [exact L|]. exfalso; apply Hc. apply dot3_zero. symmetry; exact E. }
  assert (NB : dot3 b3 b3 = dot3 r3 r3) by (rewrite E3; apply Rd).
  set (d := 1 + dot3 b1 r1).
  assert (Hd : 0 < d).
  { destruct (unit_dot_range b1 r1 Hb Hr) as [L _]. destruct (Rle_lt_or_eq_dec _ _ L) as [L'|E]; [unfold d; lra|].
    exfalso; apply Hopp. assert (K : dot3 r1 b1 = -1) by (rewrite E; clear; vring). apply (unit_dot_m1 r1 b1 Hr Hb K). }
  set (mu := d * dot3 b3 r3 - dot3 b1 r3 * dot3 r1 b3).
  set (nu := dot3 (add3 b1 r1) (cross3 b3 r3)).
  assert (MN : mu * mu + nu * nu = d * d * (dot3 b3 b3 * dot3 r3 r3)) by (apply mu_nu; try assumption; fold d; lra).
  set (rho := sqrt (mu * mu + nu * nu)).
  assert (RHO : rho = d * dot3 r3 r3).
  { unfold rho. rewrite MN, NB. replace (d * d * (dot3 r3 r3 * dot3 r3 r3)) with ((d * dot3 r3 r3) * (d * dot3 r3 r3)) by ring. apply sqrt_square. nra. }
  assert (RP : 0 < rho) by (rewrite RHO; nra).
  assert (RR : rho * rho = mu * mu + nu * nu) by (unfold rho; apply sqrt_sqrt; nra).
  (* the result is in the family, with the right normalisation *)
  assert (F : exists al be, q = mkqv (al * d) (add3 (scale3 al (cross3 b1 r1)) (scale3 be (add3 b1 r1))) /\
     2 * d * (al * al + be * be) = 1 /\ 2 * (al * al - be * be) * mu + 4 * al * be * nu = dot3 r3 r3).
  { unfold q, triad_algorithm. fold r3 b3. change (@nadd R RNum n1 (dot3 b1 r1)) with d. rnumg. fold mu nu rho.
    destruct (Rleb_spec 0 mu) as [L|L].
    - set (k := 1 / 2 * 1 / sqrt (rho * ((rho + mu) * d))).
      assert (P : 0 < rho * ((rho + mu) * d)) by (apply Rmult_lt_0_compat; [exact RP|]; nra).
      assert (K : k * k * (4 * (rho * ((rho + mu) * d))) = 1).
      { unfold k. rewrite <- (sqrt_sqrt (rho * ((rho + mu) * d))) at 3 by lra. assert (S := sqrt_lt_R0 _ P). field. lra. }
      exists (k * (rho + mu)), (k * nu). split; [|split].
      + generalize k nu (rho + mu) d. clear. intros. vdestruct. vunfoldg; rnumg; vsplit; ring.
      + rewrite <- K. transitivity (2 * d * (k * k) * ((rho * rho + 2 * rho * mu + mu * mu) + nu * nu)); [ring|].
        transitivity (2 * d * (k * k) * (rho * rho + 2 * rho * mu + (mu * mu + nu * nu))); [ring|]. rewrite <- RR. ring.
      + transitivity (4 * (k * k) * (rho + mu) * (mu * mu + nu * nu) + 2 * (k * k) * mu * (rho * rho - (mu * mu + nu * nu))); [ring|].
        rewrite <- RR. apply (Rmult_eq_reg_l d); [|lra]. rewrite <- RHO. transitivity (rho * (k * k * (4 * (rho * ((rho + mu) * d))))); [ring|]. rewrite K. ring.
    - apply Rnot_le_lt in L. set (k := 1 / 2 * 1 / sqrt (rho * (rho - mu) * d)).
      assert (P : 0 < rho * (rho - mu) * d) by (apply Rmult_lt_0_compat; [|exact Hd]; nra).
      assert (K : k * k * (4 * (rho * (rho - mu) * d)) = 1).
      { unfold k. rewrite <- (sqrt_sqrt (rho * (rho - mu) * d)) at 3 by lra. assert (S := sqrt_lt_R0 _ P). field. lra. }
      exists (k * nu), (k * (rho - mu)). split; [|split].
      + generalize k nu (rho - mu) d. clear. intros. vdestruct. vunfoldg; rnumg; vsplit; ring.
      + rewrite <- K. transitivity (2 * d * (k * k) * (rho * rho - 2 * rho * mu + (mu * mu + nu * nu))); [ring|]. rewrite <- RR. ring.
      + transitivity (4 * (k * k) * (rho - mu) * (mu * mu + nu * nu) - 2 * (k * k) * mu * (rho * rho - (mu * mu + nu * nu))); [ring|].
        rewrite <- RR. apply (Rmult_eq_reg_l d); [|lra]. rewrite <- RHO. transitivity (rho * (k * k * (4 * (rho * (rho - mu) * d)))); [ring|]. rewrite K. ring. }
  destruct F as (al & be & Eq & U & M).
  assert (Uq : unitq q). { unfold unitq. rewrite Eq. unfold d. rewrite (q_sq b1 r1 Hb Hr al be). exact U. }
  split; [exact Uq|].
  assert (S1 : sandwich q r1 = b1). { rewrite Eq. unfold d. rewrite (q_r1 b1 r1 Hb Hr al be). fold d. rewrite U. apply scale3_1. }
  assert (S3 : dot3 b3 (sandwich q r3) = dot3 r3 r3). { rewrite Eq. unfold d. rewrite (q_r3 b1 r1 b3 r3 Hb Hr Hb3 Hr3 al be). exact M. }
  destruct (sandwich_rigid q Uq) as (Qd & _).
  assert (S3' : sandwich q r3 = b3).
  { assert (Z : dot3 (sub3 (sandwich q r3) b3) (sub3 (sandwich q r3) b3) = 0).
    { transitivity (dot3 (sandwich q r3) (sandwich q r3) - 2 * dot3 b3 (sandwich q r3) + dot3 b3 b3); [generalize (sandwich q r3) b3; clear; vring|].
      rewrite S3, NB, Qd. ring. }
    apply dot3_zero in Z. revert Z. generalize (sandwich q r3) b3. clear. intros [a b c] [a' b' c'] Z. vunfold. rnum. injection Z; intros. f_equal; lra. }
  apply (rigid_agree (sandwich q) (sandwich p) r1 r3 (sandwich_rigid q Uq) (sandwich_rigid p Hp) Hr Hr3).
  - apply Rgt_not_eq. exact N3.
  - rewrite S1. exact Eb1.
  - rewrite S3'. exact E3.
Qed.
