(** * Lemmas: the position filter fed with fixes (3): the error measured by the covariance shrinks *)
From Coq Require Import Reals List Bool Lra Psatz Lia.
From Verif Require Import Num Vec Mat6 M_vector M_env M_dyn M_obs S_obs P_quat P_wheel P_tot3 P_dyn P_orb3 P_obs P_obs2 P_posf Props_obs P_gps1 P_gps2.
Local Open Scope R_scope.

Definition qf (P : M6) (x : V6) : R := dot6 x (mv6 P x).
Definition inside (P : M6) (c : R) (e : V6) : Prop := forall x, Rabs (dot6 x e) <= c * sqrt (qf P x).
Lemma inside_le P c c' e : c <= c' -> inside P c e -> inside P c' e.
Proof. intros H A x. eapply Rle_trans; [apply A|]. apply Rmult_le_compat_r; [apply sqrt_pos|exact H]. Qed.
Lemma dot6_split x e : Rabs (dot6 x e) <= norm3 (u1 x) * norm3 (u1 e) + norm3 (u2 x) * norm3 (u2 e).
Proof. unfold dot6. eapply Rle_trans; [apply Rabs_triang|]. apply Rplus_le_compat; apply dot_norm. Qed.
Lemma root_le a s z : 0 <= s -> 0 <= a -> a * (s * s) <= z -> sqrt a * s <= sqrt z.
Proof. intros S A H. replace (sqrt a * s) with (sqrt (a * (s * s))). - apply sqrt_le_1_alt. exact H. - rewrite sqrt_mult by nra. f_equal. apply sqrt_square. exact S. Qed.
Lemma root_lo k a s z : 0 <= s -> 0 <= k -> k * k <= a -> a * (s * s) <= z -> k * s <= sqrt z.
Proof.
  intros S K KA H. assert (0 <= s * s) by nra. apply Rle_trans with (sqrt a * s); [|apply root_le; try assumption; nra]. apply Rmult_le_compat_r; [exact S|]. rewrite <- (sqrt_square k) by exact K. apply sqrt_le_1_alt. exact KA.
Qed.
(** small vectors are inside *)
Lemma inside_small P e : above P Lform -> inside P (1.5 * norm3 (u1 e) + 22 * norm3 (u2 e)) e.
Proof.
  intros A x. eapply Rle_trans; [apply dot6_split|]. set (z := qf P x). assert (Z : 0.45 * (norm3 (u1 x) * norm3 (u1 x)) + 0.0021 * (norm3 (u2 x) * norm3 (u2 x)) <= z) by (rewrite !norm3_dot; eapply Rle_trans; [apply L_diag|apply A]).
  assert (X1 := norm3_pos (u1 x)). assert (X2 := norm3_pos (u2 x)). assert (E1 := norm3_pos (u1 e)). assert (E2 := norm3_pos (u2 e)).
  assert (Y1 : 0.67 * norm3 (u1 x) <= sqrt z) by (apply (root_lo _ 0.45); try lra; nra).
  assert (Y2 : 0.0457 * norm3 (u2 x) <= sqrt z) by (apply (root_lo _ 0.0021); try lra; nra).
  assert (W1 : norm3 (u1 x) * norm3 (u1 e) <= 1.5 * sqrt z * norm3 (u1 e)) by (apply Rmult_le_compat_r; lra).
  assert (W2 : norm3 (u2 x) * norm3 (u2 e) <= 22 * sqrt z * norm3 (u2 e)) by (apply Rmult_le_compat_r; lra). lra.
Qed.
Lemma inside_add P c d e f : inside P c e -> inside P d f -> inside P (c + d) (add6 e f).
Proof. intros A B x. rewrite dot6_add_r. eapply Rle_trans; [apply Rabs_triang|]. specialize (A x). specialize (B x). lra. Qed.
(** noise *)
Lemma noise_bound g n : Rabs (dot6 g n) <= (0.1 * norm3 (u1 n) + 2 * norm3 (u2 n)) * sqrt (qf pf_R g).
Proof.
  eapply Rle_trans; [apply dot6_split|]. set (z := qf pf_R g). assert (Z : z = x_sigma ^ 2 * (norm3 (u1 g) * norm3 (u1 g)) + v_sigma ^ 2 * (norm3 (u2 g) * norm3 (u2 g))) by (unfold z, qf, pf_R; rewrite diag6_form, !norm3_dot; reflexivity).
  assert (X1 := norm3_pos (u1 g)). assert (X2 := norm3_pos (u2 g)). assert (E1 := norm3_pos (u1 n)). assert (E2 := norm3_pos (u2 n)).
  assert (S1 : 0 <= norm3 (u1 g) * norm3 (u1 g)) by nra. assert (S2 : 0 <= norm3 (u2 g) * norm3 (u2 g)) by nra. unfold x_sigma, v_sigma in Z.
  assert (Y1 : 10 * norm3 (u1 g) <= sqrt z) by (apply (root_lo _ 100); lra).
  assert (Y2 : 0.5 * norm3 (u2 g) <= sqrt z) by (apply (root_lo _ 0.25); lra).
  assert (W1 : norm3 (u1 g) * norm3 (u1 n) <= 0.1 * sqrt z * norm3 (u1 n)) by (apply Rmult_le_compat_r; lra).
  assert (W2 : norm3 (u2 g) * norm3 (u2 n) <= 2 * sqrt z * norm3 (u2 n)) by (apply Rmult_le_compat_r; lra). lra.
Qed.
(** ** sizes of the parts *)
Lemma inside_first P c e k : (forall y, qf P (mk6 y zero3) <= k * k * dot3 y y) -> 0 <= k -> 0 <= c -> inside P c e -> norm3 (u1 e) <= c * k.
Proof.
  intros H K C A. assert (B := A (mk6 (u1 e) zero3)). unfold dot6 in B. cbn [u1 u2] in B. replace (dot3 zero3 (u2 e)) with 0 in B by (unfold dot3, zero3; cbn [x3 y3 z3]; rnumg; ring). rewrite Rplus_0_r, <- norm3_dot in B.
  assert (N := norm3_pos (u1 e)). assert (D : sqrt (qf P (mk6 (u1 e) zero3)) <= k * norm3 (u1 e)).
  { rewrite <- (sqrt_square (k * norm3 (u1 e))) by (apply Rmult_le_pos; lra). apply sqrt_le_1_alt. eapply Rle_trans; [apply H|]. rewrite <- norm3_dot. right. ring. }
  rewrite Rabs_pos_eq in B by nra. destruct (Req_dec (norm3 (u1 e)) 0) as [Z|Z]; [rewrite Z; apply Rmult_le_pos; lra|]. apply (Rmult_le_reg_r (norm3 (u1 e))); [lra|].
  eapply Rle_trans; [exact B|]. rewrite Rmult_assoc. apply Rmult_le_compat_l; lra.
Qed.
Lemma inside_second P c e k : (forall y, qf P (mk6 zero3 y) <= k * k * dot3 y y) -> 0 <= k -> 0 <= c -> inside P c e -> norm3 (u2 e) <= c * k.
Proof.
  intros H K C A. assert (B := A (mk6 zero3 (u2 e))). unfold dot6 in B. cbn [u1 u2] in B. replace (dot3 zero3 (u1 e)) with 0 in B by (unfold dot3, zero3; cbn [x3 y3 z3]; rnumg; ring). rewrite Rplus_0_l, <- norm3_dot in B.
  assert (N := norm3_pos (u2 e)). assert (D : sqrt (qf P (mk6 zero3 (u2 e))) <= k * norm3 (u2 e)).
  { rewrite <- (sqrt_square (k * norm3 (u2 e))) by (apply Rmult_le_pos; lra). apply sqrt_le_1_alt. eapply Rle_trans; [apply H|]. rewrite <- norm3_dot. right. ring. }
  rewrite Rabs_pos_eq in B by nra. destruct (Req_dec (norm3 (u2 e)) 0) as [Z|Z]; [rewrite Z; apply Rmult_le_pos; lra|]. apply (Rmult_le_reg_r (norm3 (u2 e))); [lra|].
  eapply Rle_trans; [exact B|]. rewrite Rmult_assoc. apply Rmult_le_compat_l; lra.
Qed.
(** ** the mismatch between the two models of the filter: the one that moves the estimate and the one that moves the covariance *)
Definition mis (p : v3) (t : R) (e : V6) : V6 := sub6 (step6 t e) (mv6 (F_discrete p t) e).
Lemma mis_form p t e : let ae := add3 (scale3 pf_a (u1 e)) (mv (grad_block p) (u1 e)) in
  mis p t e = mk6 (add3 (scale3 (- (t ^ 2 / 2)) ae) (scale3 (- (pf_b * t ^ 2 + 1666 / 10000 * pf_a * t ^ 3)) (u2 e)))
    (add3 (add3 (scale3 (- t) ae) (scale3 (- (pf_b * t ^ 2 / 2)) (mv (grad_block p) (u1 e)))) (add3 (scale3 (- (pf_a * t ^ 2 / 2 + 2 * pf_b * t + pf_b ^ 2 * t ^ 2 / 2)) (u2 e)) (scale3 (- (t ^ 2 / 2)) (mv (grad_block p) (u2 e))))).
Proof.
  cbv zeta. unfold mis, step6. rewrite F_mv. unfold tau, gam2, cA11, cA12, cA21, cA22. generalize (mv (grad_block p) (u1 e)) (mv (grad_block p) (u2 e)) pf_a pf_b. intros [a1 a2 a4] [b1 b2 b4] a b. destruct e as [[x y z] [x' y' z']].
  unfold sub6, add3, sub3, scale3. cbn [u1 u2 x3 y3 z3]. rnumg. f_equal; apply mk3_c; field.
Qed.
Lemma nscal_neg k (v : v3) : 0 <= k -> norm3 (scale3 (- k) v) = k * norm3 v.
Proof. intros H. rewrite norm3_scal, Rabs_Ropp, Rabs_pos_eq by exact H. reflexivity. Qed.
Lemma mis_size p t e : 6500000 <= norm3 p -> 0.5 <= t <= 1 ->
  norm3 (u1 (mis p t e)) <= 1.37 / 1000000 * norm3 (u1 e) + 0.22 / 1000000 * norm3 (u2 e) /\ norm3 (u2 (mis p t e)) <= 2.75 / 1000000 * norm3 (u1 e) + 2.2 / 1000000 * norm3 (u2 e).
Proof.
  intros HP HT. rewrite mis_form. cbn [u1 u2]. destruct (grad_far p (u1 e) HP) as [G1 G2]. destruct (grad_far p (u2 e) HP) as [G3 _].
  set (ae := add3 (scale3 pf_a (u1 e)) (mv (grad_block p) (u1 e))) in *. set (ge := mv (grad_block p) (u1 e)) in *. set (he := mv (grad_block p) (u2 e)) in *.
  assert (N1 := norm3_pos (u1 e)). assert (N2 := norm3_pos (u2 e)). assert (N3 := norm3_pos ae). assert (N4 := norm3_pos ge). assert (N5 := norm3_pos he).
  assert (PA := pfa_val). assert (PB := pfb_val). assert (T2 : 0.25 <= t ^ 2 <= 1) by (cbn [pow]; nra). assert (T3 : 0 <= t ^ 3 <= 1) by (replace (t ^ 3) with (t * t ^ 2) by ring; nra).
  assert (K1 : 0 <= pf_b * t ^ 2 + 1666 / 10000 * pf_a * t ^ 3 <= 0.22 / 1000000) by (rewrite PA, PB; lra).
  assert (K2 : 0 <= pf_b * t ^ 2 / 2 <= 1 / 1000000000) by (rewrite PB; lra).
  assert (K3 : 0 <= pf_a * t ^ 2 / 2 + 2 * pf_b * t + pf_b ^ 2 * t ^ 2 / 2 <= 0.7 / 1000000) by (rewrite PA, PB; lra).
  split.
  - eapply Rle_trans; [apply norm3_triangle|]. rewrite !nscal_neg by lra.
    assert (t ^ 2 / 2 * norm3 ae <= 0.5 * norm3 ae) by (apply Rmult_le_compat_r; lra).
    match goal with |- _ + ?k * _ <= _ => assert (k * norm3 (u2 e) <= 0.22 / 1000000 * norm3 (u2 e)) by (apply Rmult_le_compat_r; lra) end. lra.
  - eapply Rle_trans; [apply norm3_triangle|]. assert (A := norm3_triangle (scale3 (- t) ae) (scale3 (- (pf_b * t ^ 2 / 2)) ge)).
    match goal with |- _ + norm3 (add3 ?a ?b) <= _ => assert (B := norm3_triangle a b) end. rewrite !nscal_neg in A, B by lra.
    assert (t * norm3 ae <= 1 * norm3 ae) by (apply Rmult_le_compat_r; lra). assert (t ^ 2 / 2 * norm3 he <= 0.5 * norm3 he) by (apply Rmult_le_compat_r; lra).
    assert (pf_b * t ^ 2 / 2 * norm3 ge <= 1 / 1000000000 * norm3 ge) by (apply Rmult_le_compat_r; lra).
    match type of B with _ <= ?k * _ + _ => assert (k * norm3 (u2 e) <= 0.7 / 1000000 * norm3 (u2 e)) by (apply Rmult_le_compat_r; lra) end. lra.
Qed.
(** ** what holds of the covariance after every update *)
Definition cov_fine (P : M6) : Prop := symm6 P /\ psd6 P /\ above P Mform /\ forall x, qf P x <= x_sigma ^ 2 * dot3 (u1 x) (u1 x) + dot3 (u2 x) (u2 x).
Lemma cov_start : cov_fine id6.
Proof.
  destruct id6_cov as [A B]. split; [exact A|]. split; [exact B|]. split; [exact id_above|]. intros x. unfold qf. rewrite mv6_id. unfold dot6, x_sigma. assert (X := dot3_nonneg (u1 x)). lra.
Qed.
Lemma fine_first P y : cov_fine P -> qf P (mk6 y zero3) <= 10.0598 * 10.0598 * dot3 y y.
Proof. intros (_ & _ & _ & H). eapply Rle_trans; [apply H|]. cbn [u1 u2]. replace (dot3 (zero3 (T := R)) zero3) with 0 by (unfold dot3, zero3; cbn [x3 y3 z3]; rnumg; ring). unfold x_sigma. lra. Qed.
Lemma fine_second P y : cov_fine P -> qf P (mk6 zero3 y) <= 1 * 1 * dot3 y y.
Proof. intros (_ & _ & _ & H). eapply Rle_trans; [apply H|]. cbn [u1 u2]. replace (dot3 (zero3 (T := R)) zero3) with 0 by (unfold dot3, zero3; cbn [x3 y3 z3]; rnumg; ring). unfold x_sigma. lra. Qed.
(** propagation: error e of f against X becomes an error against X' with X' = step + d *)
Lemma inside_propagate t f X X' c : cov_fine (p_P f) -> 0 <= c -> 6500000 <= norm3 (u1 (p_x f)) -> 0.5 <= t <= 1 -> inside (p_P f) c (sub6 (p_x f) X) ->
  let d := sub6 X' (step6 t X) in
  inside (p_P (pf_propagate t f)) (1.00068 * c + (1.5 * norm3 (u1 d) + 22 * norm3 (u2 d))) (sub6 (p_x (pf_propagate t f)) X').
Proof.
  intros CF C0 HP HT IN d. assert (CF' := CF). destruct CF as (S & Q & AB & UP). assert (AL := above_propagate t f AB HP HT). set (e := sub6 (p_x f) X) in *. set (p := u1 (p_x f)) in *. set (P' := p_P (pf_propagate t f)) in *.
  assert (E1 : norm3 (u1 e) <= c * 10.0598) by (apply (inside_first (p_P f)); try lra; [intros y; apply fine_first, CF'|exact IN]).
  assert (E2 : norm3 (u2 e) <= c * 1) by (apply (inside_second (p_P f)); try lra; [intros y; apply fine_second, CF'|exact IN]).
  destruct (mis_size p t e HP HT) as [M1 M2].
  assert (EQ : sub6 (p_x (pf_propagate t f)) X' = add6 (mv6 (F_discrete p t) e) (add6 (mis p t e) (scale6 (-1) d))).
  { rewrite propagate_step. unfold mis, d. replace (p_x f) with (add6 e X) by (unfold e; destruct (p_x f) as [a b], X as [a' b']; unfold add6, sub6; cbn [u1 u2]; f_equal; vring). rewrite step6_add.
    generalize (step6 t e) (step6 t X) (mv6 (F_discrete p t) e). intros [a1 a2] [b1 b2] [c1 c2]. destruct X' as [x1 x2]. unfold add6, sub6, scale6. cbn [u1 u2]. f_equal; vring. }
  rewrite EQ.
  assert (I1 : inside P' c (mv6 (F_discrete p t) e)).
  { intros x. rewrite dot6_comm, dot6_tr, dot6_comm. eapply Rle_trans; [apply IN|]. apply Rmult_le_compat_l; [exact C0|]. apply sqrt_le_1_alt. unfold qf, P'. destruct (C47_propagate t f x) as [_ E]. cbv zeta in E. rewrite E. fold p. assert (Z := dot3_nonneg (u2 x)). unfold a_sigma. lra. }
  assert (I2 := inside_small P' (mis p t e) AL). assert (I3 := inside_small P' (scale6 (-1) d) AL).
  assert (ND : forall v : v3, norm3 (scale3 (-1) v) = norm3 v) by (intros v; rewrite norm3_scal; replace (Rabs (-1)) with 1 by (rewrite Rabs_left; lra); ring).
  unfold scale6 in I3 at 1 2. cbn [u1 u2] in I3. rewrite !ND in I3.
  eapply inside_le; [|exact (inside_add _ _ _ _ _ I1 (inside_add _ _ _ _ _ I2 I3))]. assert (0 <= norm3 (u1 e)) by apply norm3_pos. assert (0 <= norm3 (u2 e)) by apply norm3_pos. lra.
Qed.
(** update *)
Lemma shrink_root A B : 0 <= A -> kap * A <= B -> sqrt A <= 0.99727 * sqrt (A + B).
Proof.
  intros HA HB. unfold kap in HB. replace 0.99727 with (sqrt (0.99727 * 0.99727)) by (apply sqrt_square; lra). rewrite <- sqrt_mult by lra. apply sqrt_le_1_alt. lra.
Qed.
Lemma R_cauchy u g : dot6 u (mv6 pf_R g) * dot6 u (mv6 pf_R g) <= qf pf_R u * qf pf_R g.
Proof.
  assert (Z : forall k, 0 <= qf pf_R u + 2 * k * dot6 u (mv6 pf_R g) + k * k * qf pf_R g).
  { intros k. assert (W := pf_R_psd (add6 u (scale6 k g))). unfold pf_R in *. rewrite diag6_form in W. unfold qf. rewrite !diag6_form, diag6_mv. unfold dot6. cbn [u1 u2].
    destruct u as [[a1 a2 a3] [b1 b2 b3]], g as [[c1 c2 c3] [d1 d2 d3]]. unfold add6, scale6 in W. cbn [u1 u2] in *. unfold add3, scale3, dot3 in *. cbn [x3 y3 z3] in *. revert W. rnumg. intros W. eapply Rle_trans; [exact W|]. right. ring. }
  assert (G0 : 0 <= qf pf_R g) by apply pf_R_psd. set (b := dot6 u (mv6 pf_R g)) in *. destruct (Req_dec (qf pf_R g) 0) as [E|E].
  - rewrite E in *. assert (b = 0). { destruct (Req_dec b 0) as [E'|E']; [exact E'|]. exfalso. assert (W := Z (- ((qf pf_R u + 1) / (2 * b)))). replace (qf pf_R u + 2 * - ((qf pf_R u + 1) / (2 * b)) * b + - ((qf pf_R u + 1) / (2 * b)) * - ((qf pf_R u + 1) / (2 * b)) * 0) with (-1) in W by (field; exact E'). lra. } rewrite H. lra.
  - assert (W := Z (- (b / qf pf_R g))). assert (WW : 0 <= (qf pf_R u + 2 * - (b / qf pf_R g) * b + - (b / qf pf_R g) * - (b / qf pf_R g) * qf pf_R g) * qf pf_R g) by (apply Rmult_le_pos; assumption).
    replace ((qf pf_R u + 2 * - (b / qf pf_R g) * b + - (b / qf pf_R g) * - (b / qf pf_R g) * qf pf_R g) * qf pf_R g) with (qf pf_R u * qf pf_R g - b * b) in WW by (field; exact E). lra.
Qed.
Lemma gain_share P x g : above P Lform -> add6 (mv6 P g) (mv6 pf_R g) = mv6 P x -> kap * qf P (sub6 x g) <= qf pf_R g.
Proof.
  intros AL E. set (u := sub6 x g). assert (PU : mv6 P u = mv6 pf_R g). { unfold u. rewrite mv6_sub, <- E. destruct (mv6 P g) as [a b], (mv6 pf_R g) as [c d]. unfold sub6, add6. cbn [u1 u2]. f_equal; vring. }
  assert (A : qf P u = dot6 u (mv6 pf_R g)) by (unfold qf; rewrite PU; reflexivity). assert (C := R_cauchy u g). rewrite <- A in C.
  assert (L : kap * qf pf_R u <= qf P u) by (unfold qf at 1, pf_R; rewrite diag6_form; eapply Rle_trans; [apply L_R|apply AL]).
  assert (R0 : 0 <= qf pf_R u) by apply pf_R_psd. assert (G0 : 0 <= qf pf_R g) by apply pf_R_psd. unfold kap in *. assert (A0 : 0 <= qf P u) by lra.
  destruct (Req_dec (qf P u) 0) as [Z|Z]; [rewrite Z; lra|]. apply (Rmult_le_reg_r (qf P u)); [lra|].
  assert (0.0055 * qf pf_R u * qf pf_R g <= qf P u * qf pf_R g) by (apply Rmult_le_compat_r; lra). nra.
Qed.
Lemma inside_update h Y f X c : symm6 (p_P f) -> psd6 (p_P f) -> above (p_P f) Lform -> 0 <= c -> inside (p_P f) c (sub6 (p_x f) X) -> let n := sub6 Y X in let f' := fst (pf_update h (u1 Y) (u2 Y) f) in
  inside (p_P f') (0.99727 * c + (0.1 * norm3 (u1 n) + 2 * norm3 (u2 n))) (sub6 (p_x f') X).
Proof.
  intros S Q AL C0 IN n f' x. destruct (update_view h (u1 Y) (u2 Y) f S Q x) as (g & E1 & E2 & E3). fold f' in E2, E3.
  assert (GS := gain_share _ x g AL E1). change (qf (p_P f') x = qf (p_P f) (sub6 x g) + qf pf_R g) in E2. rewrite E2.
  assert (EE : dot6 x (sub6 (p_x f') X) = dot6 (sub6 x g) (sub6 (p_x f) X) + dot6 g n).
  { rewrite dot6_sub_r, E3. unfold n. replace (mk6 (u1 Y) (u2 Y)) with Y by (destruct Y; reflexivity). rewrite !dot6_sub_l, !dot6_sub_r. ring. }
  rewrite EE. set (A := qf (p_P f) (sub6 x g)) in *. set (B := qf pf_R g) in *. assert (A0 : 0 <= A) by apply Q. assert (B0 : 0 <= B) by apply pf_R_psd.
  eapply Rle_trans; [apply Rabs_triang|]. assert (I := IN (sub6 x g)). fold A in I. assert (N := noise_bound g n). fold B in N.
  assert (SR := shrink_root A B A0 GS). assert (SB : sqrt B <= sqrt (A + B)) by (apply sqrt_le_1_alt; lra).
  assert (0 <= norm3 (u1 n)) by apply norm3_pos. assert (0 <= norm3 (u2 n)) by apply norm3_pos.
  assert (c * sqrt A <= c * (0.99727 * sqrt (A + B))) by (apply Rmult_le_compat_l; lra).
  assert ((0.1 * norm3 (u1 n) + 2 * norm3 (u2 n)) * sqrt B <= (0.1 * norm3 (u1 n) + 2 * norm3 (u2 n)) * sqrt (A + B)) by (apply Rmult_le_compat_l; lra). lra.
Qed.
