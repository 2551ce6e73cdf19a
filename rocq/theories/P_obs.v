(** * Lemmas for the Kalman filters *)
From Coq Require Import Reals List Bool Lra Psatz Lia.
From Verif Require Import Num Vec Mat6 M_vector M_quaternion M_jday M_frame M_env M_dyn M_obs S_rot S_obs P_quat P_wheel.
Local Open Scope R_scope.

(** ** 3-dimensional algebra *)
Lemma mv_mm (a b : m3) (x : v3) : mv (mm a b) x = mv a (mv b x). Proof. vring. Qed.
Lemma mv_addm (a b : m3) (x : v3) : mv (addm a b) x = add3 (mv a x) (mv b x). Proof. vring. Qed.
Lemma mv_subm (a b : m3) (x : v3) : mv (subm a b) x = sub3 (mv a x) (mv b x). Proof. vring. Qed.
Lemma mv_scalem k (a : m3) (x : v3) : mv (scalem k a) x = scale3 k (mv a x). Proof. vring. Qed.
Lemma mv_add3 (a : m3) (x y : v3) : mv a (add3 x y) = add3 (mv a x) (mv a y). Proof. vring. Qed.
Lemma mv_sub3 (a : m3) (x y : v3) : mv a (sub3 x y) = sub3 (mv a x) (mv a y). Proof. vring. Qed.
Lemma mv_scale3 (a : m3) k (x : v3) : mv a (scale3 k x) = scale3 k (mv a x). Proof. vring. Qed.
Lemma mv_id3 (x : v3) : mv id3 x = x. Proof. vring. Qed.
Lemma mv_zerom (x : v3) : mv zerom x = zero3. Proof. vring. Qed.
Lemma mv_zero3 (a : m3) : mv a zero3 = zero3. Proof. vring. Qed.
Lemma dot_tr (a : m3) (x y : v3) : dot3 (mv a x) y = dot3 x (mv (tr3 a) y). Proof. vring. Qed.
Lemma dot_comm3 (x y : v3) : dot3 x y = dot3 y x. Proof. vring. Qed.
Lemma add3_0_r (x : v3) : add3 x zero3 = x. Proof. vring. Qed.
Lemma add3_0_l (x : v3) : add3 zero3 x = x. Proof. vring. Qed.
Lemma sub3_0_r (x : v3) : sub3 x zero3 = x. Proof. vring. Qed.
Lemma sub3_self (x : v3) : sub3 x x = zero3. Proof. vring. Qed.
Lemma m3_ext (a b : m3) : (forall x, mv a x = mv b x) -> a = b.
Proof.
  intros H. assert (H1 := H (mk3 1 0 0)). assert (H2 := H (mk3 0 1 0)). assert (H3 := H (mk3 0 0 1)).
  destruct a as [[a1 a2 a3] [a4 a5 a6] [a7 a8 a9]], b as [[c1 c2 c3] [c4 c5 c6] [c7 c8 c9]].
  revert H1 H2 H3. vunfoldg. rnumg. intros H1 H2 H3. apply mk3_inj in H1, H2, H3. destruct H1 as (? & ? & ?), H2 as (? & ? & ?), H3 as (? & ? & ?).
  apply mkm_c; apply mk3_c; lra.
Qed.

(** ** 6-dimensional algebra *)
Lemma V6_eq a b : u1 a = u1 b -> u2 a = u2 b -> a = b. Proof. destruct a, b; simpl; intros -> ->; reflexivity. Qed.
Lemma M6_eq a b : b11 a = b11 b -> b12 a = b12 b -> b21 a = b21 b -> b22 a = b22 b -> a = b.
Proof. destruct a, b; simpl; intros -> -> -> ->; reflexivity. Qed.
Ltac unf6 := unfold mv6, mm6, addm6, subm6, scalem6, tr6, id6, diag6, add6, sub6, scale6, dot6, zero6; cbn [u1 u2 b11 b12 b21 b22].
Lemma add3_4 (a b c d : v3) : add3 (add3 a b) (add3 c d) = add3 (add3 a c) (add3 b d). Proof. vring. Qed.
Lemma mv6_mm a b x : mv6 (mm6 a b) x = mv6 a (mv6 b x).
Proof. destruct a as [a1 a2 a3 a4], b as [c1 c2 c3 c4], x as [x1 x2]. unf6. f_equal; rewrite !mv_addm, !mv_mm, !mv_add3; apply add3_4. Qed.
Lemma mv6_addm a b x : mv6 (addm6 a b) x = add6 (mv6 a x) (mv6 b x).
Proof. destruct a as [a1 a2 a3 a4], b as [c1 c2 c3 c4], x as [x1 x2]. unf6. f_equal; rewrite !mv_addm; apply add3_4. Qed.
Lemma sub3_4 (a b c d : v3) : add3 (sub3 a b) (sub3 c d) = sub3 (add3 a c) (add3 b d). Proof. vring. Qed.
Lemma mv6_subm a b x : mv6 (subm6 a b) x = sub6 (mv6 a x) (mv6 b x).
Proof. destruct a as [a1 a2 a3 a4], b as [c1 c2 c3 c4], x as [x1 x2]. unf6. f_equal; rewrite !mv_subm; apply sub3_4. Qed.
Lemma mv6_id x : mv6 id6 x = x.
Proof. destruct x as [x1 x2]. unf6. f_equal; rewrite mv_id3, mv_zerom; [apply add3_0_r|apply add3_0_l]. Qed.
Lemma mv6_add a x y : mv6 a (add6 x y) = add6 (mv6 a x) (mv6 a y).
Proof. destruct a as [a1 a2 a3 a4], x as [x1 x2], y as [y1 y2]. unf6. f_equal; rewrite !mv_add3; apply add3_4. Qed.
Lemma mv6_sub a x y : mv6 a (sub6 x y) = sub6 (mv6 a x) (mv6 a y).
Proof. destruct a as [a1 a2 a3 a4], x as [x1 x2], y as [y1 y2]. unf6. f_equal; rewrite !mv_sub3; apply sub3_4. Qed.
Lemma mv6_zero a : mv6 a zero6 = zero6.
Proof. destruct a as [a1 a2 a3 a4]. unf6. f_equal; rewrite !mv_zero3; apply add3_0_r. Qed.
Lemma dot6_comm x y : dot6 x y = dot6 y x. Proof. unfold dot6. rewrite (dot_comm3 (u1 x)), (dot_comm3 (u2 x)). reflexivity. Qed.
Lemma dot6_add_r x y z : dot6 x (add6 y z) = dot6 x y + dot6 x z.
Proof. destruct x as [x1 x2], y as [y1 y2], z as [z1 z2]. unf6. vring. Qed.
Lemma dot6_add_l x y z : dot6 (add6 y z) x = dot6 y x + dot6 z x.
Proof. rewrite dot6_comm, dot6_add_r, (dot6_comm x y), (dot6_comm x z). reflexivity. Qed.
Lemma dot6_sub_r x y z : dot6 x (sub6 y z) = dot6 x y - dot6 x z.
Proof. destruct x as [x1 x2], y as [y1 y2], z as [z1 z2]. unf6. vring. Qed.
Lemma dot6_sub_l x y z : dot6 (sub6 y z) x = dot6 y x - dot6 z x.
Proof. rewrite dot6_comm, dot6_sub_r, (dot6_comm x y), (dot6_comm x z). reflexivity. Qed.
Lemma dot6_tr a x y : dot6 (mv6 a x) y = dot6 x (mv6 (tr6 a) y).
Proof.
  assert (D : forall p q r : v3, dot3 (add3 p q) r = dot3 p r + dot3 q r) by vring. assert (D' : forall p q r : v3, dot3 p (add3 q r) = dot3 p q + dot3 p r) by vring.
  destruct a as [a1 a2 a3 a4], x as [x1 x2], y as [y1 y2]. unf6. rewrite !D, !D', !dot_tr. ring.
Qed.
Lemma m6_ext a b : (forall x, mv6 a x = mv6 b x) -> a = b.
Proof.
  intros H. assert (H1 := fun x => H (mk6 x zero3)). assert (H2 := fun x => H (mk6 zero3 x)).
  destruct a as [a1 a2 a3 a4], b as [c1 c2 c3 c4]. revert H1 H2. unf6. intros H1 H2.
  apply M6_eq; cbn [b11 b12 b21 b22]; apply m3_ext; intros x.
  - assert (E := f_equal u1 (H1 x)). cbn [u1] in E. rewrite !mv_zero3, !add3_0_r in E. exact E.
  - assert (E := f_equal u1 (H2 x)). cbn [u1] in E. rewrite !mv_zero3, !add3_0_l in E. exact E.
  - assert (E := f_equal u2 (H1 x)). cbn [u2] in E. rewrite !mv_zero3, !add3_0_r in E. exact E.
  - assert (E := f_equal u2 (H2 x)). cbn [u2] in E. rewrite !mv_zero3, !add3_0_l in E. exact E.
Qed.
Lemma symm6_dot m x y : symm6 m -> dot6 (mv6 m x) y = dot6 x (mv6 m y).
Proof. intros S. rewrite dot6_tr, S. reflexivity. Qed.
Lemma dot6_ext a b : (forall x, dot6 x a = dot6 x b) -> a = b.
Proof.
  intros H. assert (E : forall u v : v3, (forall x, dot3 x u = dot3 x v) -> u = v).
  { intros [p q r] [p' q' r'] K. assert (K1 := K (mk3 1 0 0)). assert (K2 := K (mk3 0 1 0)). assert (K3 := K (mk3 0 0 1)). revert K1 K2 K3. vunfoldg. rnumg. intros. apply mk3_c; lra. }
  assert (Z : forall u : v3, dot3 zero3 u = 0) by vring.
  apply V6_eq; apply E; intros x.
  - assert (K := H (mk6 x zero3)). unfold dot6 in K. cbn [u1 u2] in K. rewrite !Z in K. lra.
  - assert (K := H (mk6 zero3 x)). unfold dot6 in K. cbn [u1 u2] in K. rewrite !Z in K. lra.
Qed.
Lemma tr6_invol a : tr6 (tr6 a) = a.
Proof. destruct a as [[[? ? ?] [? ? ?] [? ? ?]] [[? ? ?] [? ? ?] [? ? ?]] [[? ? ?] [? ? ?] [? ? ?]] [[? ? ?] [? ? ?] [? ? ?]]]. reflexivity. Qed.
Lemma symm6_intro m : (forall x y, dot6 (mv6 m x) y = dot6 x (mv6 m y)) -> symm6 m.
Proof. intros H. apply m6_ext. intros x. apply dot6_ext. intros y. rewrite <- dot6_tr. apply H. Qed.
Lemma symm6_add a b : symm6 a -> symm6 b -> symm6 (addm6 a b).
Proof. intros A B. apply symm6_intro. intros x y. rewrite !mv6_addm, dot6_add_l, dot6_add_r, !symm6_dot by assumption. reflexivity. Qed.
Lemma symm6_conj f p : symm6 p -> symm6 (mm6 f (mm6 p (tr6 f))).
Proof. intros S. apply symm6_intro. intros x y. rewrite !mv6_mm, dot6_tr, symm6_dot by exact S. rewrite dot6_tr, tr6_invol. reflexivity. Qed.
Lemma psd6_conj f p : psd6 p -> psd6 (mm6 f (mm6 p (tr6 f))).
Proof. intros S x. rewrite !mv6_mm. rewrite dot6_comm, dot6_tr, dot6_comm. apply S. Qed.
Lemma psd6_add a b : psd6 a -> psd6 b -> psd6 (addm6 a b).
Proof. intros A B x. rewrite mv6_addm, dot6_add_r. assert (H1 := A x). assert (H2 := B x). lra. Qed.
Lemma diag6_mv a b x : mv6 (diag6 a b) x = mk6 (scale3 a (u1 x)) (scale3 b (u2 x)).
Proof. destruct x as [x1 x2]. unf6. f_equal; rewrite mv_zerom, mv_scalem, mv_id3; [apply add3_0_r|apply add3_0_l]. Qed.
Lemma diag6_symm a b : symm6 (diag6 a b).
Proof. apply symm6_intro. intros x y. rewrite !diag6_mv. destruct x as [x1 x2], y as [y1 y2]. unf6. vring. Qed.
Lemma diag6_form a b x : dot6 x (mv6 (diag6 a b) x) = a * dot3 (u1 x) (u1 x) + b * dot3 (u2 x) (u2 x).
Proof. rewrite diag6_mv. destruct x as [x1 x2]. unf6. vring. Qed.
Lemma diag6_psd a b : 0 <= a -> 0 <= b -> psd6 (diag6 a b).
Proof. intros A B x. rewrite diag6_form. assert (P1 := dot3_nonneg (u1 x)). assert (P2 := dot3_nonneg (u2 x)). nra. Qed.
Lemma dot3_pos (x : v3) : x <> zero3 -> 0 < dot3 x x.
Proof. intros N. assert (X := norm3_gt0 x N). rewrite <- norm3_sq. nra. Qed.
Lemma zero3_dec (x : v3) : {x = zero3} + {x <> zero3}.
Proof.
  destruct x as [a b c]. unfold zero3. rnumg.
  destruct (Req_EM_T a 0) as [->|N]; [|right; intros E; injection E; intros; contradiction].
  destruct (Req_EM_T b 0) as [->|N]; [|right; intros E; injection E; intros; contradiction].
  destruct (Req_EM_T c 0) as [->|N]; [left; reflexivity|right; intros E; injection E; intros; contradiction].
Qed.
Lemma diag6_pd a b : 0 < a -> 0 < b -> pd6 (diag6 a b).
Proof.
  intros A B x N. rewrite diag6_form. assert (P1 := dot3_nonneg (u1 x)). assert (P2 := dot3_nonneg (u2 x)).
  destruct (zero3_dec (u1 x)) as [E1|E1].
  - destruct (zero3_dec (u2 x)) as [E2|E2]; [exfalso; apply N; apply V6_eq; assumption|]. assert (H := dot3_pos _ E2). nra.
  - assert (H := dot3_pos _ E1). nra.
Qed.
Lemma pd6_add a b : psd6 a -> pd6 b -> pd6 (addm6 a b).
Proof. intros A B x N. rewrite mv6_addm, dot6_add_r. assert (H1 := A x). assert (H2 := B x N). lra. Qed.

Lemma sub3_swap (a b c : v3) : sub3 a b = c -> b = sub3 a c. Proof. intros <-. vring. Qed.

(** ** the inverse *)
Lemma mm_inv3 (m : m3) : det3 m <> 0 -> mm m (inv3 m) = id3 /\ mm (inv3 m) m = id3.
Proof. intros D. split; apply m3_ext; intros x; rewrite mv_mm, mv_id3; [apply mv_inv3|apply inv3_mv]; exact D. Qed.
Lemma inv6_correct m n : inv6 m = Ok n -> inverse6 m n.
Proof.
  unfold inv6. cbv zeta. destruct m as [A B C D]. cbn [b11 b12 b21 b22]. destruct (Reqb_spec (det3 A) 0) as [|NA]; [discriminate|].
  set (Ai := inv3 A). set (S := subm D (mm C (mm Ai B))). destruct (Reqb_spec (det3 S) 0) as [|NS]; [discriminate|]. intros H. injection H as <-.
  assert (E1 : forall x, mv A (mv Ai x) = x) by (intros; apply mv_inv3, NA). assert (E2 : forall x, mv Ai (mv A x) = x) by (intros; apply inv3_mv, NA).
  assert (E3 : forall x, mv S (mv (inv3 S) x) = x) by (intros; apply mv_inv3, NS). assert (E4 : forall x, mv (inv3 S) (mv S x) = x) by (intros; apply inv3_mv, NS).
  assert (ES : forall x, mv S x = sub3 (mv D x) (mv C (mv Ai (mv B x)))) by (intros; unfold S; rewrite mv_subm, !mv_mm; reflexivity).
  set (Si := inv3 S) in *. clearbody Si. clearbody S. clearbody Ai.
  split; apply m6_ext; intros [x1 x2]; rewrite mv6_id, mv6_mm; unfold mv6; cbn [u1 u2 b11 b12 b21 b22]; f_equal;
    repeat (rewrite ?mv_addm, ?mv_scalem, ?mv_mm, ?mv_add3, ?mv_scale3, ?E1, ?E2).
  - generalize (mv B (mv Si (mv C (mv Ai x1)))) (mv B (mv Si x2)). vring.
  - assert (K1 := E3 (mv C (mv Ai x1))). assert (K2 := E3 x2). rewrite ES in K1, K2. set (p := mv Si (mv C (mv Ai x1))) in *. set (q := mv Si x2) in *.
    transitivity (add3 (sub3 (mv C (mv Ai x1)) (sub3 (mv D p) (mv C (mv Ai (mv B p))))) (sub3 (mv D q) (mv C (mv Ai (mv B q))))).
    + generalize (mv C (mv Ai x1)) (mv C (mv Ai (mv B p))) (mv C (mv Ai (mv B q))) (mv D p) (mv D q). vring.
    + rewrite K1, K2. rewrite sub3_self. apply add3_0_l.
  - assert (K : mv Si (mv C (mv Ai (mv B x2))) = sub3 (mv Si (mv D x2)) x2).
    { assert (X := E4 x2). rewrite ES, mv_sub3 in X. apply sub3_swap, X. }
    rewrite K, !mv_sub3. generalize (mv Ai (mv B (mv Si (mv C x1)))) (mv Ai (mv B (mv Si (mv D x2)))) (mv Ai (mv B x2)). vring.
  - assert (K : mv Si (mv C (mv Ai (mv B x2))) = sub3 (mv Si (mv D x2)) x2).
    { assert (X := E4 x2). rewrite ES, mv_sub3 in X. apply sub3_swap, X. }
    rewrite K. generalize (mv Si (mv C x1)) (mv Si (mv D x2)). vring.
Qed.
Lemma inverse_unique m n n' : inverse6 m n -> mm6 n' m = id6 \/ mm6 m n' = id6 -> n' = n.
Proof.
  intros [H1 H2] [H|H]; apply m6_ext; intros x.
  - transitivity (mv6 n' (mv6 m (mv6 n x))); [rewrite <- (mv6_mm m), H1, mv6_id; reflexivity|]. rewrite <- (mv6_mm n'), H, mv6_id. reflexivity.
  - transitivity (mv6 n (mv6 m (mv6 n' x))); [rewrite <- (mv6_mm n), H2, mv6_id; reflexivity|]. rewrite <- (mv6_mm m), H, mv6_id. reflexivity.
Qed.
Lemma inv6_pd m : symm6 m -> pd6 m -> exists n, inv6 m = Ok n.
Proof.
  intros SM PM. destruct m as [A B C D].
  assert (BLK : tr3 A = A /\ tr3 C = B /\ tr3 B = C /\ tr3 D = D) by (unfold symm6, tr6 in SM; cbn [b11 b12 b21 b22] in SM; injection SM; auto).
  destruct BLK as (SA & SC & SB & SD).
  assert (PA : pdm A).
  { intros x N. assert (H := PM (mk6 x zero3)). unfold dot6, mv6 in H. cbn [u1 u2 b11 b12 b21 b22] in H. rewrite mv_zero3, add3_0_r in H.
    replace (dot3 zero3 _) with 0 in H by (generalize (add3 (mv C x) (mv D zero3)); vring). rewrite Rplus_0_r in H. apply H. intros E. apply N. exact (f_equal u1 E). }
  assert (DA := pd_det A SA PA). unfold inv6. cbv zeta. cbn [b11 b12 b21 b22]. destruct (Reqb_spec (det3 A) 0) as [E|NA]; [lra|].
  set (Ai := inv3 A). set (S := subm D (mm C (mm Ai B))).
  assert (E1 : forall x, mv A (mv Ai x) = x) by (intros; apply mv_inv3, NA).
  assert (DT : forall x y, dot3 (mv A x) y = dot3 x (mv A y)) by (intros; rewrite dot_tr, SA; reflexivity).
  assert (SAi : forall x y, dot3 (mv Ai x) y = dot3 x (mv Ai y)).
  { intros x y. rewrite <- (E1 y) at 1. rewrite <- (E1 x) at 2. rewrite DT. reflexivity. }
  assert (MS : forall x, mv S x = sub3 (mv D x) (mv C (mv Ai (mv B x)))) by (intros; unfold S; rewrite mv_subm, !mv_mm; reflexivity).
  assert (DS : forall p q r : v3, dot3 p (sub3 q r) = dot3 p q - dot3 p r) by vring. assert (DS' : forall p q r : v3, dot3 (sub3 q r) p = dot3 q p - dot3 r p) by vring.
  assert (SS : symm S).
  { apply m3_ext. intros x. assert (EX : forall u v : v3, (forall y, dot3 y u = dot3 y v) -> u = v).
    { intros [p q r] [p' q' r'] K. assert (K1 := K (mk3 1 0 0)). assert (K2 := K (mk3 0 1 0)). assert (K3 := K (mk3 0 0 1)). revert K1 K2 K3. vunfoldg. rnumg. intros. apply mk3_c; lra. }
    apply EX. intros y. rewrite <- dot_tr, !MS, DS, DS'. rewrite (dot_tr D), SD, (dot_tr C), SC, SAi, (dot_tr B), SB. reflexivity. }
  assert (PS : pdm S).
  { intros y N. assert (H := PM (mk6 (scale3 (-1) (mv Ai (mv B y))) y)). unfold dot6, mv6 in H. cbn [u1 u2 b11 b12 b21 b22] in H.
    rewrite !mv_scale3, E1 in H. rewrite MS. 
    assert (Q : dot3 (scale3 (-1) (mv Ai (mv B y))) (add3 (scale3 (-1) (mv B y)) (mv B y)) = 0) by (generalize (mv Ai (mv B y)) (mv B y); vring).
    rewrite Q, Rplus_0_l in H. replace (sub3 (mv D y) (mv C (mv Ai (mv B y)))) with (add3 (scale3 (-1) (mv C (mv Ai (mv B y)))) (mv D y)) by (generalize (mv C (mv Ai (mv B y))) (mv D y); vring).
    apply H. intros E. apply N. exact (f_equal u2 E). }
  assert (DSp := pd_det S SS PS). destruct (Reqb_spec (det3 S) 0) as [E|NS]; [lra|]. eexists. reflexivity.
Qed.

(** ** the position update *)
Lemma update_forms P Rm N : symm6 P -> symm6 Rm -> inverse6 (addm6 P Rm) N ->
  let K := mm6 P N in let P' := mm6 (subm6 id6 K) P in
  symm6 P' /\
  (forall x, let g := mv6 N (mv6 P x) in dot6 x (mv6 P' x) = dot6 (sub6 x g) (mv6 P (sub6 x g)) + dot6 g (mv6 Rm g)) /\
  (forall x, let g := mv6 N (mv6 P x) in dot6 x (mv6 P' x) = dot6 x (mv6 P x) - dot6 g (mv6 (addm6 P Rm) g)) /\
  (forall x, let g := mv6 N (mv6 Rm x) in dot6 x (mv6 P' x) = dot6 x (mv6 Rm x) - dot6 g (mv6 (addm6 P Rm) g)) /\
  (forall L x, dot6 x (mv6 (combined P Rm L) x) = dot6 x (mv6 P' x) +
     let z := sub6 (mv6 (tr6 L) x) (mv6 N (mv6 P x)) in dot6 z (mv6 (addm6 P Rm) z)).
Proof.
  intros SP SR [I1 I2] K P'.
  assert (SX := symm6_add _ _ SP SR). set (X := addm6 P Rm) in *.
  assert (E1 : forall x, mv6 X (mv6 N x) = x) by (intros; rewrite <- mv6_mm, I1; apply mv6_id).
  assert (E2 : forall x, mv6 N (mv6 X x) = x) by (intros; rewrite <- mv6_mm, I2; apply mv6_id).
  assert (SN : forall x y, dot6 (mv6 N x) y = dot6 x (mv6 N y)).
  { intros x y. rewrite <- (E1 y) at 1. rewrite <- (symm6_dot X) by exact SX. rewrite E1. reflexivity. }
  assert (MP : forall x, mv6 P' x = sub6 (mv6 P x) (mv6 P (mv6 N (mv6 P x)))) by (intros; unfold P', K; rewrite mv6_mm, mv6_subm, mv6_id, mv6_mm; reflexivity).
  assert (MX : forall x, mv6 X x = add6 (mv6 P x) (mv6 Rm x)) by (intros; apply mv6_addm).
  assert (DP : forall x y, dot6 (mv6 P x) y = dot6 x (mv6 P y)) by (intros; apply symm6_dot, SP).
  assert (DR : forall x y, dot6 (mv6 Rm x) y = dot6 x (mv6 Rm y)) by (intros; apply symm6_dot, SR).
  split; [|split; [|split; [|split]]].
  - apply symm6_intro. intros x y. rewrite !MP, dot6_sub_l, dot6_sub_r, !DP, SN, DP. reflexivity.
  - intros x. cbv zeta. set (g := mv6 N (mv6 P x)). rewrite MP. fold g. assert (G := E1 (mv6 P x)). fold g in G. rewrite MX in G.
    assert (GG : dot6 g (mv6 Rm g) = dot6 g (mv6 P x) - dot6 g (mv6 P g)) by (rewrite <- G, dot6_add_r; ring).
    rewrite GG, mv6_sub, dot6_sub_l, !dot6_sub_r. rewrite <- (DP g x). rewrite (dot6_comm (mv6 P g) x). ring.
  - intros x. cbv zeta. rewrite MP, E1, dot6_sub_r. rewrite <- (DP x (mv6 N (mv6 P x))). rewrite (dot6_comm (mv6 P x) (mv6 N (mv6 P x))). reflexivity.
  - intros x. cbv zeta. rewrite E1, MP.
    assert (G : mv6 N (mv6 Rm x) = sub6 x (mv6 N (mv6 P x))).
    { assert (E := E2 x). rewrite MX, mv6_add in E. rewrite <- E at 2. destruct (mv6 N (mv6 P x)) as [p q], (mv6 N (mv6 Rm x)) as [r s]. unf6. f_equal; vring. }
    rewrite G. set (g := mv6 N (mv6 P x)). assert (G2 := E1 (mv6 P x)). fold g in G2. rewrite MX in G2.
    assert (G3 : dot6 x (mv6 P g) + dot6 x (mv6 Rm g) = dot6 x (mv6 P x)) by (rewrite <- dot6_add_r, G2; reflexivity).
    assert (G4 : dot6 x (mv6 Rm g) = dot6 g (mv6 Rm x)) by (rewrite <- (DR x g), dot6_comm; reflexivity).
    rewrite dot6_sub_r, dot6_sub_l. lra.
  - intros L x. cbv zeta. set (z := mv6 (tr6 L) x). set (g := mv6 N (mv6 P x)).
    unfold combined. rewrite mv6_addm, dot6_add_r, !mv6_mm.
    assert (T : forall a x y, dot6 x (mv6 a y) = dot6 (mv6 (tr6 a) x) y) by (intros; rewrite dot6_tr, tr6_invol; reflexivity).
    rewrite (T (subm6 id6 L)), (T L). fold z.
    assert (TI : mv6 (tr6 (subm6 id6 L)) x = sub6 x z).
    { apply dot6_ext. intros y. rewrite <- dot6_tr, mv6_subm, mv6_id, dot6_sub_l, dot6_sub_r. unfold z. rewrite <- dot6_tr. reflexivity. }
    rewrite TI, MP. fold g. assert (G := E1 (mv6 P x)). fold g in G.
    rewrite !mv6_sub, !dot6_sub_l, !dot6_sub_r, G, !MX, !dot6_add_r.
    assert (C1 : dot6 g (mv6 P z) + dot6 g (mv6 Rm z) = dot6 z (mv6 P x)).
    { rewrite <- (DP g z), <- (DR g z), <- dot6_add_l, <- MX, G. apply dot6_comm. }
    assert (C2 : dot6 z (mv6 P x) = dot6 x (mv6 P z)) by (rewrite <- (DP x z), dot6_comm; reflexivity).
    assert (C3 : dot6 g (mv6 P x) = dot6 x (mv6 P g)) by (rewrite <- (DP x g), dot6_comm; reflexivity). lra.
Qed.
