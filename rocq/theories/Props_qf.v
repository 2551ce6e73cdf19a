(** * C98: quaternion products and changes of coordinates in the arithmetic the code runs on *)
From Coq Require Import Reals ZArith List Bool Lra Psatz Lia.
From Flocq Require Import Core BinarySingleNaN.
From Verif Require Import Num Flt Vec M_vector M_quaternion S_rot P_sat P_integ P_struct P_quat P_normf P_qf P_tot2 P_tot3 Props_vec Props_normf.
Import ListNotations.
Local Open Scope R_scope.

(** ** Products: [f] is any bilinear map with Hamilton's table and 1 as unit, i.e. the product (C01) *)
Theorem C98_product : forall (f : quat -> quat -> quat) (a b : Q4 b64), bilinear f -> hamilton_table f -> (forall x, f q1 x = x /\ f x q1 = x) ->
  finq a -> finq b -> normq (qR a) * normq (qR b) <= bpow radix2 1000 ->
  finq (product a b) /\ offq (qR (product a b)) (f (qR a) (qR b)) (4.01 / 2 ^ 53 * (normq (qR a) * normq (qR b)) + 5 * bpow radix2 (-1075)).
Proof.
  intros f a b HB HT HI Fa Fb HN. rewrite (C01_product_unique f HB HT HI). destruct (product_f a b Fa Fb HN) as [F O]. split; [exact F|].
  eapply offq_le; [exact O|]. right. rewrite ulp1_pow. unfold Rdiv, eta. ring.
Qed.
Print Assumptions C98_product.

(** ** Changes of coordinates: the matrix of the frame with attitude q, by its entries *)
Definition frame_matrix (q : quat) : m3 := let w := qw q in let x := qx q in let y := qy q in let z := qz q in
  mkm (mk3 (w * w + x * x - y * y - z * z) (2 * (x * y + w * z)) (2 * (x * z - w * y)))
      (mk3 (2 * (x * y - w * z)) (w * w - x * x + y * y - z * z) (2 * (y * z + w * x)))
      (mk3 (2 * (x * z + w * y)) (2 * (y * z - w * x)) (w * w - x * x - y * y + z * z)).
Lemma sandwich_matrix (q : quat) (v : v3) : sandwich q v = mv (frame_matrix q) v.
Proof. destruct q as [a b c d], v as [x y z]. unfold frame_matrix, sandwich, product, conjugate, mv, dot3, add3, scale3, cross3, vec. cbn [qw qx qy qz x3 y3 z3 row1 row2 row3]. rnumg. apply mk3_c; ring. Qed.
Lemma sandwich_opp_matrix (q : quat) (v : v3) : sandwich_opp q v = mv (tr3 (frame_matrix q)) v.
Proof.
  unfold sandwich_opp. rewrite sandwich_matrix. f_equal. destruct q as [a b c d]. unfold frame_matrix, conjugate, tr3. cbv zeta. cbn [qw qx qy qz x3 y3 z3 row1 row2 row3]. rnumg. apply mkm_c; apply mk3_c; ring.
Qed.
Definition in_range (q : Q4 b64) (v : V3 b64) : Prop := finq q /\ finv v /\ normq (qR q) <= bpow radix2 90 /\ norm3 (vR v) <= bpow radix2 800.
Lemma pure_norm (v : v3) : normq (mkq 0 (x3 v) (y3 v) (z3 v)) = norm3 v.
Proof. unfold normq, norm3, dotq, dot3. cbn [qw qx qy qz]. rnumg. f_equal. ring. Qed.
Lemma sandwich_f q v : in_range q v -> finv (sandwich q v) /\
  offv (vR (sandwich q v)) (sandwich (qR q) (vR v)) (12.1 * ulp1 * (normq (qR q) * normq (qR q) * norm3 (vR v)) + (6 + 11 * normq (qR q)) * eta).
Proof.
  intros (Fq & Fv & HQ & HV).
  set (pv := mkq n0 (x3 v) (y3 v) (z3 v) : Q4 b64). assert (EPV : qR pv = mkq 0 (x3 (vR v)) (y3 (vR v)) (z3 (vR v))) by reflexivity.
  assert (Fpv : finq pv) by (split; [reflexivity|exact Fv]).
  destruct (product3_f (conjugate q) pv q (finq_conj q Fq) Fpv Fq) as [F O].
  { rewrite EPV, pure_norm. apply Rle_trans with (bpow radix2 800 * bpow radix2 90).
    - apply Rmult_le_compat; [apply sqrt_pos|apply normq_pos|exact HV|exact HQ].
    - rewrite <- bpow_plus. apply bpow_le. lia. }
  { rewrite qR_conj, normq_conj. exact HQ. }
  cbv zeta in O. rewrite qR_conj, normq_conj, EPV, pure_norm in O. unfold sandwich. fold pv. set (r := product (conjugate q) (product pv q)) in *. destruct F as (_ & F1 & F2 & F3).
  split; [split; [exact F1|split; [exact F2|exact F3]]|]. destruct O as (_ & O1 & O2 & O3).
  replace (normq (qR q) * normq (qR q) * norm3 (vR v)) with (normq (qR q) * norm3 (vR v) * normq (qR q)) by ring.
  change (@n0 R RNum) with 0. split; [exact O1|split; [exact O2|exact O3]].
Qed.
Lemma in_range_conj q v : in_range q v -> in_range (conjugate q) v.
Proof. intros (A & B & C & D). split; [apply finq_conj; exact A|]. split; [exact B|]. split; [rewrite qR_conj, normq_conj; exact C|exact D]. Qed.

Theorem C98_coordinates : forall (q : Q4 b64) (v : V3 b64), in_range q v ->
  let e := 12.1 / 2 ^ 53 * (normq (qR q) * normq (qR q) * norm3 (vR v)) + (6 + 11 * normq (qR q)) * bpow radix2 (-1075) in
  finv (sandwich q v) /\ offv (vR (sandwich q v)) (mv (frame_matrix (qR q)) (vR v)) e /\
  finv (sandwich_opp q v) /\ offv (vR (sandwich_opp q v)) (mv (tr3 (frame_matrix (qR q))) (vR v)) e.
Proof.
  intros q v H e. assert (E : 12.1 * ulp1 * (normq (qR q) * normq (qR q) * norm3 (vR v)) + (6 + 11 * normq (qR q)) * eta = e) by (unfold e; rewrite ulp1_pow; unfold Rdiv, eta; ring).
  destruct (sandwich_f q v H) as [F O]. destruct (sandwich_f _ _ (in_range_conj q v H)) as [F' O']. rewrite qR_conj, normq_conj in O'. rewrite E in O, O'.
  rewrite <- sandwich_matrix, <- sandwich_opp_matrix. split; [exact F|]. split; [exact O|]. split; [exact F'|exact O'].
Qed.
Print Assumptions C98_coordinates.

(** ** There and back, with an attitude as normalize leaves it (C87) *)
Lemma offv_norm a b e : 0 <= e -> offv a b e -> norm3 (sub3 a b) <= 1.7321 * e.
Proof.
  intros He (A & B & C). assert (G : forall x, Rabs x <= e -> x * x <= e * e) by (intros x H; apply Rabs_le_inv in H; nra).
  rewrite <- (sqrt_Rsqr (1.7321 * e)) by lra. unfold norm3, dot3, sub3. cbn [x3 y3 z3]. rnumg. apply sqrt_le_1_alt. unfold Rsqr. apply G in A, B, C.
  assert (0 <= e * e) by nra. replace (1.7321 * e * (1.7321 * e)) with (1.7321 * 1.7321 * (e * e)) by ring. lra.
Qed.
Lemma norm_offv a b e : norm3 (sub3 a b) <= e -> offv a b e.
Proof.
  assert (G : forall x y, x * x <= y -> Rabs x <= sqrt y). { intros x y H. rewrite <- sqrt_Rsqr_abs. apply sqrt_le_1_alt. exact H. }
  unfold norm3, dot3, sub3. cbn [x3 y3 z3]. rnumg. intros H. unfold offv. set (x := x3 a - x3 b) in *. set (y := y3 a - y3 b) in *. set (z := z3 a - z3 b) in *.
  assert (A := Rle_0_sqr x). assert (B := Rle_0_sqr y). assert (C := Rle_0_sqr z). unfold Rsqr in *. split; [|split]; eapply Rle_trans; try exact H; apply G; lra.
Qed.
Lemma offv_trans a b c e f : offv a b e -> offv b c f -> offv a c (e + f).
Proof.
  assert (G : forall x y z e f, Rabs (x - y) <= e -> Rabs (y - z) <= f -> Rabs (x - z) <= e + f). { intros x y z e0 f0 A B. replace (x - z) with ((x - y) + (y - z)) by ring. eapply Rle_trans; [apply Rabs_triang|]. lra. }
  intros (A1 & A2 & A3) (B1 & B2 & B3). split; [|split]; eapply G; eassumption.
Qed.
Lemma offv_le a b e f : offv a b e -> e <= f -> offv a b f. Proof. intros (A & B & C) H. split; [|split]; lra. Qed.
Lemma offv_len a b e : 0 <= e -> offv a b e -> Rabs (norm3 a - norm3 b) <= 1.7321 * e.
Proof.
  intros He H. assert (D := offv_norm a b e He H).
  assert (T1 := norm3_triangle b (sub3 a b)). replace (add3 b (sub3 a b)) with a in T1 by (destruct a as [a1 a2 a3], b as [b1 b2 b3]; unfold add3, sub3; cbn [x3 y3 z3]; rnumg; apply mk3_c; ring).
  assert (T2 := norm3_triangle a (opp3 (sub3 a b))). replace (add3 a (opp3 (sub3 a b))) with b in T2 by (destruct a as [a1 a2 a3], b as [b1 b2 b3]; unfold add3, sub3, opp3; cbn [x3 y3 z3]; rnumg; apply mk3_c; ring).
  replace (norm3 (opp3 (sub3 a b))) with (norm3 (sub3 a b)) in T2 by (unfold norm3, dot3, opp3, sub3; cbn [x3 y3 z3]; rnumg; f_equal; ring). apply Rabs_le. lra.
Qed.
Lemma norm3_sand (q : quat) (v : v3) : norm3 (sandwich q v) = dotq q q * norm3 v.
Proof.
  assert (P : 0 <= dotq q q) by (unfold dotq; rnumg; nra). rewrite <- (sqrt_Rsqr (dotq q q * norm3 v)) by (apply Rmult_le_pos; [exact P|apply sqrt_pos]).
  unfold norm3 at 1. change (@nsqrt R RNum) with sqrt. f_equal. rewrite C02_sandwich_scale. unfold Rsqr. assert (N := proj2 (norm3_sq v)). replace (dotq q q * norm3 v * (dotq q q * norm3 v)) with (dotq q q ^ 2 * (norm3 v * norm3 v)) by ring. f_equal.
  assert (D : 0 <= dot3 v v) by (unfold dot3; rnumg; nra). unfold norm3. change (@nsqrt R RNum) with sqrt. rewrite sqrt_sqrt; [reflexivity|exact D].
Qed.
Lemma norm3_scale' s (v : v3) : norm3 (scale3 s v) = Rabs s * norm3 v.
Proof.
  rewrite <- (sqrt_Rsqr_abs s). unfold norm3. change (@nsqrt R RNum) with sqrt. rewrite <- sqrt_mult; [|apply Rle_0_sqr|unfold dot3; rnumg; nra]. f_equal. unfold dot3, scale3, Rsqr. cbn [x3 y3 z3]. rnumg. ring.
Qed.
Definition near_unit (q : Q4 b64) : Prop := finq q /\ Rabs (dotq (qR q) (qR q) - 1) <= 12 / 2 ^ 53.
Lemma near_unit_norm q : near_unit q -> finq q /\ 1 - 12 * ulp1 <= dotq (qR q) (qR q) <= 1 + 12 * ulp1 /\ 0 <= normq (qR q) <= 1.0001 /\ normq (qR q) * normq (qR q) = dotq (qR q) (qR q).
Proof.
  intros [F H]. unfold Rdiv in H. rewrite <- ulp1_pow in H. apply Rabs_le_inv in H. split; [exact F|]. split; [lra|]. assert (P := normq_pos (qR q)). assert (S := normq_sq (qR q)). assert (U := ulp1_rng). split; [|exact S]. split; [exact P|]. nra.
Qed.
Lemma sandwich_sub (q : quat) (v w : v3) : sandwich q (sub3 v w) = sub3 (sandwich q v) (sandwich q w).
Proof.
  assert (E : forall a b : v3, sub3 a b = add3 a (scale3 (-1) b)) by (intros [a1 a2 a3] [b1 b2 b3]; unfold sub3, add3, scale3; cbn [x3 y3 z3]; rnumg; apply mk3_c; ring).
  rewrite !E, sandwich_add, sandwich_scale. reflexivity.
Qed.
Lemma round_trip q v : near_unit q -> finv v -> norm3 (vR v) <= bpow radix2 700 ->
  finv (sandwich q v) /\ finv (sandwich_opp q (sandwich q v)) /\
  Rabs (norm3 (vR (sandwich q v)) - norm3 (vR v)) <= 34 * ulp1 * norm3 (vR v) + 30 * eta /\
  offv (vR (sandwich_opp q (sandwich q v))) (vR v) (58 * ulp1 * norm3 (vR v) + 50 * eta).
Proof.
  intros HU Fv HV. destruct (near_unit_norm q HU) as (Fq & HD & HN & HS). set (d := dotq (qR q) (qR q)) in *. set (n := normq (qR q)) in *. set (m := norm3 (vR v)) in *.
  assert (U := ulp1_rng). assert (ET := eta_tiny). assert (EP := eta_pos). assert (M0 : 0 <= m) by apply sqrt_pos.
  assert (B90 : 2 <= bpow radix2 90) by (change 2 with (bpow radix2 1); apply bpow_le; lia).
  assert (B800 : bpow radix2 700 * 4 <= bpow radix2 800) by (change 4 with (bpow radix2 2); rewrite <- bpow_plus; apply bpow_le; lia).
  assert (B700 : 1 <= bpow radix2 700) by (change 1 with (bpow radix2 0); apply bpow_le; lia).
  assert (R1 : in_range q v) by (split; [exact Fq|split; [exact Fv|split; [fold n; lra|fold m; lra]]]).
  destruct (sandwich_f q v R1) as [F1 O1]. fold n m in O1. rewrite HS in O1. set (s := sandwich q v) in *.
  set (e1 := 12.1 * ulp1 * (d * m) + (6 + 11 * n) * eta) in *.
  assert (UM : 0 <= ulp1 * m) by (apply Rmult_le_pos; lra).
  assert (UUM : ulp1 * (ulp1 * m) <= 1 / 1000000 * (ulp1 * m)) by (apply Rmult_le_compat_r; lra).
  assert (DM : ulp1 * (d * m) <= 1.0001 * (ulp1 * m)) by (replace (ulp1 * (d * m)) with (d * (ulp1 * m)) by ring; apply Rmult_le_compat_r; lra).
  assert (DM0 : 0 <= ulp1 * (d * m)) by (apply Rmult_le_pos; [lra|apply Rmult_le_pos; lra]).
  assert (NE : n * eta <= 1.0001 * eta) by (apply Rmult_le_compat_r; lra). assert (NE0 : 0 <= n * eta) by (apply Rmult_le_pos; lra).
  assert (E1 : 0 <= e1 <= 12.102 * (ulp1 * m) + 17.01 * eta).
  { unfold e1. replace (12.1 * ulp1 * (d * m)) with (12.1 * (ulp1 * (d * m))) by ring. replace ((6 + 11 * n) * eta) with (6 * eta + 11 * (n * eta)) by ring. lra. }
  assert (L1 := offv_len _ _ e1 (proj1 E1) O1). rewrite norm3_sand in L1. fold d m in L1. apply Rabs_le_inv in L1.
  assert (DM1 : Rabs (d * m - m) <= 12 * (ulp1 * m)). { replace (d * m - m) with ((d - 1) * m) by ring. rewrite Rabs_mult, (Rabs_pos_eq m M0). replace (12 * (ulp1 * m)) with (12 * ulp1 * m) by ring. apply Rmult_le_compat_r; [exact M0|apply Rabs_le; lra]. }
  apply Rabs_le_inv in DM1.
  assert (MS : norm3 (vR s) <= 1.001 * m + 1) by (assert (ulp1 * m <= 1 / 1000000 * m) by (apply Rmult_le_compat_r; lra); lra).
  assert (R2 : in_range (conjugate q) s). { split; [apply finq_conj; exact Fq|]. split; [exact F1|]. split; [rewrite qR_conj, normq_conj; fold n; lra|]. eapply Rle_trans; [exact MS|]. lra. }
  destruct (sandwich_f _ _ R2) as [F2 O2]. rewrite qR_conj, normq_conj in O2. fold n in O2. rewrite HS in O2.
  split; [exact F1|]. split; [exact F2|]. split. { apply Rabs_le. replace (34 * ulp1 * m) with (34 * (ulp1 * m)) by ring. lra. }
  (* second half of the trip *)
  assert (O3 : offv (sandwich (conjugate (qR q)) (vR s)) (sandwich (conjugate (qR q)) (sandwich (qR q) (vR v))) (d * (1.7321 * e1))).
  { apply norm_offv. replace (sub3 (sandwich (conjugate (qR q)) (vR s)) (sandwich (conjugate (qR q)) (sandwich (qR q) (vR v)))) with (sandwich (conjugate (qR q)) (sub3 (vR s) (sandwich (qR q) (vR v)))).
    - rewrite norm3_sand. replace (dotq (conjugate (qR q)) (conjugate (qR q))) with d by (unfold d; destruct (qR q) as [a b c e]; unfold dotq, conjugate; cbn [qw qx qy qz]; rnumg; ring). apply Rmult_le_compat_l; [lra|]. apply offv_norm; [apply E1|exact O1].
    - apply sandwich_sub. }
  assert (O4 : offv (sandwich (conjugate (qR q)) (sandwich (qR q) (vR v))) (vR v) (24.1 * (ulp1 * m))).
  { apply norm_offv. change (sandwich (conjugate (qR q)) (sandwich (qR q) (vR v))) with (sandwich_opp (qR q) (sandwich (qR q) (vR v))). rewrite sandwich_inv_l. fold d.
    replace (sub3 (scale3 (d ^ 2) (vR v)) (vR v)) with (scale3 (d ^ 2 - 1) (vR v)) by (generalize (vR v); clear; intros [x y z]; unfold sub3, scale3; cbn [x3 y3 z3]; rnumg; apply mk3_c; ring).
    rewrite norm3_scale'. fold m. replace (24.1 * (ulp1 * m)) with (24.1 * ulp1 * m) by ring. apply Rmult_le_compat_r; [exact M0|].
    assert (UU : ulp1 * ulp1 <= 1 / 1000000 * ulp1) by (apply Rmult_le_compat_r; lra). apply Rabs_le. cbn [pow]. nra. }
  change (sandwich_opp q s) with (sandwich (conjugate q) s).
  eapply offv_le; [eapply offv_trans; [exact O2|eapply offv_trans; [exact O3|exact O4]]|].
  assert (X1 : d * norm3 (vR s) <= (1 + 12 * ulp1) * (m + 34 * (ulp1 * m) + 30 * eta)) by (apply Rmult_le_compat; [lra|apply sqrt_pos|lra|lra]).
  assert (UE : ulp1 * eta <= 1 / 1000000 * eta) by (apply Rmult_le_compat_r; lra). assert (UE0 : 0 <= ulp1 * eta) by (apply Rmult_le_pos; lra).
  assert (X2 : ulp1 * (d * norm3 (vR s)) <= ulp1 * ((1 + 12 * ulp1) * (m + 34 * (ulp1 * m) + 30 * eta))) by (apply Rmult_le_compat_l; lra).
  assert (X3 : ulp1 * ((1 + 12 * ulp1) * (m + 34 * (ulp1 * m) + 30 * eta)) <= 1.001 * (ulp1 * m) + 0.001 * eta).
  { replace (ulp1 * ((1 + 12 * ulp1) * (m + 34 * (ulp1 * m) + 30 * eta))) with ((1 + 12 * ulp1) * (ulp1 * m + 34 * (ulp1 * (ulp1 * m)) + 30 * (ulp1 * eta))) by ring.
    assert (Y : ulp1 * m + 34 * (ulp1 * (ulp1 * m)) + 30 * (ulp1 * eta) <= 1.0001 * (ulp1 * m) + 0.0001 * eta) by lra. assert (Y0 : 0 <= ulp1 * m + 34 * (ulp1 * (ulp1 * m)) + 30 * (ulp1 * eta)) by (assert (0 <= ulp1 * (ulp1 * m)) by (apply Rmult_le_pos; lra); lra).
    apply Rle_trans with (1.0001 * (1.0001 * (ulp1 * m) + 0.0001 * eta)); [apply Rmult_le_compat; lra|lra]. }
  assert (X4 : d * (1.7321 * e1) <= 1.0001 * (1.7321 * (12.102 * (ulp1 * m) + 17.01 * eta))) by (apply Rmult_le_compat; lra).
  replace (12.1 * ulp1 * (d * norm3 (vR s))) with (12.1 * (ulp1 * (d * norm3 (vR s)))) by ring. replace ((6 + 11 * n) * eta) with (6 * eta + 11 * (n * eta)) by ring. replace (58 * ulp1 * m) with (58 * (ulp1 * m)) by ring. lra.
Qed.
Lemma near_unit_conj q : near_unit q -> near_unit (conjugate q).
Proof. intros [F H]. split; [apply finq_conj; exact F|]. rewrite qR_conj. replace (dotq (conjugate (qR q)) (conjugate (qR q))) with (dotq (qR q) (qR q)) by (destruct (qR q) as [a b c e]; unfold dotq, conjugate; cbn [qw qx qy qz]; rnumg; ring). exact H. Qed.
Lemma conj_conj_f (q : Q4 b64) : conjugate (conjugate q) = q.
Proof. destruct q as [a b c d]. unfold conjugate. cbn [qw qx qy qz nopp FNum]. unfold fopp. rewrite !Bopp_involutive. reflexivity. Qed.

Theorem C98_round_trip : forall (q : Q4 b64) (v : V3 b64), near_unit q -> finv v -> norm3 (vR v) <= bpow radix2 700 ->
  let e := 58 / 2 ^ 53 * norm3 (vR v) + 50 * bpow radix2 (-1075) in
  Rabs (norm3 (vR (sandwich q v)) - norm3 (vR v)) <= e /\ Rabs (norm3 (vR (sandwich_opp q v)) - norm3 (vR v)) <= e /\
  finv (sandwich_opp q (sandwich q v)) /\ offv (vR (sandwich_opp q (sandwich q v))) (vR v) e /\
  finv (sandwich q (sandwich_opp q v)) /\ offv (vR (sandwich q (sandwich_opp q v))) (vR v) e.
Proof.
  intros q v HU Fv HV e. destruct (round_trip q v HU Fv HV) as (_ & A & B & C). destruct (round_trip _ v (near_unit_conj q HU) Fv HV) as (_ & A' & B' & C').
  unfold sandwich_opp in A', B', C'. rewrite conj_conj_f in A', C'.
  assert (E : 58 * ulp1 * norm3 (vR v) + 50 * eta = e) by (unfold e; rewrite ulp1_pow; unfold Rdiv, eta; ring). rewrite E in C, C'.
  assert (L : 34 * ulp1 * norm3 (vR v) + 30 * eta <= e). { rewrite <- E. assert (U := ulp1_rng). assert (EP := eta_pos). assert (M0 : 0 <= norm3 (vR v)) by apply sqrt_pos. assert (0 <= ulp1 * norm3 (vR v)) by (apply Rmult_le_pos; lra). lra. }
  split; [lra|]. split; [unfold sandwich_opp; lra|]. split; [exact A|]. split; [exact C|]. split; [exact A'|exact C'].
Qed.
Print Assumptions C98_round_trip.
(** every attitude that normalize returns qualifies *)
Theorem C98_normalized : forall q : Q4 b64, normal_range (lq q) -> near_unit (normalizeq q).
Proof.
  intros q H. destruct (C87_normalize_quaternion q H) as [A B]. set (p := normalizeq q) in *. destruct p as [p0 p1 p2 p3]. unfold lq in A, B. cbn [qw qx qy qz] in A, B.
  inversion A as [|? ? ? ? [G1 _] T1]; subst. inversion T1 as [|? ? ? ? [G2 _] T2]; subst. inversion T2 as [|? ? ? ? [G3 _] T3]; subst. inversion T3 as [|? ? ? ? [G4 _] _]; subst.
  split; [repeat split; assumption|]. unfold dotq, qR. cbn [qw qx qy qz]. rnumg. unfold sumsq in B. cbn in B. eapply Rle_trans; [|eapply Rle_trans; [exact B|right; lra]]. right. f_equal. ring.
Qed.
Print Assumptions C98_normalized.

(** ** The attitude error of an attitude to itself, and associativity *)
Theorem C98_self_error : forall q : Q4 b64, near_unit q -> finq (error_quat q q) /\ offq (qR (error_quat q q)) q1 (17 / 2 ^ 53).
Proof.
  intros q HU. destruct (near_unit_norm q HU) as (Fq & HD & HN & HS). assert (U := ulp1_rng). assert (EP := eta_pos).
  assert (B : 2 <= bpow radix2 1000) by (change 2 with (bpow radix2 1); apply bpow_le; lia).
  destruct (product_f (conjugate q) q (finq_conj q Fq) Fq) as [F O]. { rewrite qR_conj, normq_conj, HS. unfold BIG. lra. }
  unfold error_quat. split; [exact F|]. rewrite qR_conj, normq_conj, HS in O.
  assert (E : product (conjugate (qR q)) (qR q) = scaleq (dotq (qR q) (qR q)) q1) by (generalize (qR q); clear; intros [a b c d]; unfold product, conjugate, scaleq, dotq, q1, dot3, add3, scale3, cross3, vec; cbn [qw qx qy qz x3 y3 z3]; rnumg; apply mkq_c; ring).
  rewrite E in O. set (d := dotq (qR q) (qR q)) in *.
  assert (O2 : offq (scaleq d q1) q1 (12 * ulp1)). { unfold offq, scaleq, q1. cbn [qw qx qy qz]. rnumg. assert (Z : Rabs (d * 0 - 0) <= 12 * ulp1) by (rewrite Rmult_0_r, Rminus_0_r, Rabs_R0; lra). split; [apply Rabs_le; lra|]. split; [exact Z|]. split; exact Z. }
  eapply offq_le; [eapply offq_trans; [exact O|exact O2]|]. unfold Rdiv. rewrite <- ulp1_pow.
  assert (UD : ulp1 * d <= ulp1 * 1.001) by (apply Rmult_le_compat_l; lra).
  assert (ES : eta <= ulp1 / 10000000000). { eapply Rle_trans; [apply eta_small|]. assert (bpow radix2 (-1000) <= ulp1) by (rewrite ulp1_bpow; apply bpow_le; lia). lra. }
  replace (4.01 * ulp1 * d) with (4.01 * (ulp1 * d)) by ring. lra.
Qed.
Print Assumptions C98_self_error.

Theorem C98_associative : forall a b c : Q4 b64, finq a -> finq b -> finq c ->
  normq (qR a) <= bpow radix2 90 -> normq (qR b) <= bpow radix2 90 -> normq (qR c) <= bpow radix2 90 ->
  finq (product (product a b) c) /\ finq (product a (product b c)) /\
  offq (qR (product (product a b) c)) (qR (product a (product b c)))
    (24.2 / 2 ^ 53 * (normq (qR a) * normq (qR b) * normq (qR c)) + (12 + 11 * (normq (qR a) + normq (qR c))) * bpow radix2 (-1075)).
Proof.
  intros a b c Fa Fb Fc Na Nb Nc. assert (Pa := normq_pos (qR a)). assert (Pb := normq_pos (qR b)). assert (Pc := normq_pos (qR c)).
  assert (B : bpow radix2 90 * bpow radix2 90 <= bpow radix2 900) by (rewrite <- bpow_plus; apply bpow_le; lia).
  destruct (product3_f a b c Fa Fb Fc) as [F1 O1]; [eapply Rle_trans; [apply Rmult_le_compat; eassumption|exact B]|exact Na|].
  destruct (product3_l a b c Fa Fb Fc) as [F2 O2]; [eapply Rle_trans; [apply Rmult_le_compat; eassumption|exact B]|exact Nc|].
  split; [exact F2|]. split; [exact F1|]. cbv zeta in O1, O2.
  rewrite product_assoc in O2.
  assert (O3 : offq (product (qR a) (product (qR b) (qR c))) (qR (product a (product b c))) (12.1 * ulp1 * (normq (qR a) * normq (qR b) * normq (qR c)) + (6 + 11 * normq (qR a)) * eta)).
  { destruct O1 as (G1 & G2 & G3 & G4). unfold offq. rewrite Rabs_minus_sym in G1, G2, G3, G4. split; [exact G1|]. split; [exact G2|]. split; [exact G3|exact G4]. }
  eapply offq_le; [eapply offq_trans; [exact O2|exact O3]|]. unfold Rdiv. rewrite <- ulp1_pow. change (bpow radix2 (-1075)) with eta. generalize eta ulp1 (normq (qR a) * normq (qR b) * normq (qR c)) (normq (qR a)) (normq (qR c)). clear. intros. lra.
Qed.
Print Assumptions C98_associative.
(** the docstring's equality (quaternion.py:57-62) is not exact *)
Definition qdec (a b c d : Z) : Q4 b64 := mkq (fdec a 10) (fdec b 10) (fdec c 10) (fdec d 10).
Theorem C98_associative_refuted : ~ (forall a b c : Q4 b64, finq a -> finq b -> finq c -> qR (product (product a b) c) = qR (product a (product b c))).
Proof.
  intros H. specialize (H (qdec 1 2 3 4) (qdec 7 1 5 2) (qdec 3 3 1 6)).
  assert (E : feqb (qw (product (product (qdec 1 2 3 4) (qdec 7 1 5 2)) (qdec 3 3 1 6))) (qw (product (qdec 1 2 3 4) (product (qdec 7 1 5 2) (qdec 3 3 1 6)))) = false) by (vm_compute; reflexivity).
  assert (G : forall x y : b64, fin x = true -> fin y = true -> fR x = fR y -> feqb x y = true).
  { intros x y Fx Fy Exy. unfold feqb. rewrite (Beqb_correct 53 1024 x y Fx Fy). apply Req_bool_true. exact Exy. }
  rewrite G in E; [discriminate|vm_compute; reflexivity|vm_compute; reflexivity|].
  apply (f_equal qw) in H; [exact H| | |]; (split; [|split; [|split]]; vm_compute; reflexivity).
Qed.
Print Assumptions C98_associative_refuted.

(** the attitude that normalize makes of (1, 2, 3, 4), and a position in a low orbit in metres *)
Example C98_ex : let q := mkq (fofZ 1) (fofZ 2) (fofZ 3) (fofZ 4) in let v := mk3 (fofZ 6771000) (fofZ (-12)) (fofZ 345) in
  finq q /\ normq (qR q) * normq (qR q) <= bpow radix2 1000 /\ in_range q v /\ normal_range (lq q) /\ near_unit (normalizeq q) /\ finv v /\ norm3 (vR v) <= bpow radix2 700.
Proof.
  intros q v. assert (EQ : qR q = mkq 1 2 3 4) by (unfold qR, q; cbn [qw qx qy qz]; rewrite !(fun z H => proj1 (fofZ_R z H)) by lia; reflexivity).
  assert (EV : vR v = mk3 6771000 (-12) 345) by (unfold vR, v; cbn [x3 y3 z3]; rewrite !(fun z H => proj1 (fofZ_R z H)) by lia; reflexivity).
  assert (NQ : normq (qR q) <= 6). { rewrite EQ, <- (sqrt_Rsqr 6) by lra. unfold normq, dotq. cbn [qw qx qy qz]. rnumg. apply sqrt_le_1_alt. unfold Rsqr. lra. }
  assert (NV : norm3 (vR v) <= 7000000). { rewrite EV, <- (sqrt_Rsqr 7000000) by lra. unfold norm3, dot3. cbn [x3 y3 z3]. rnumg. apply sqrt_le_1_alt. unfold Rsqr. lra. }
  assert (P := normq_pos (qR q)). assert (FQ : finq q) by (split; [|split; [|split]]; vm_compute; reflexivity). assert (FV : finv v) by (split; [|split]; vm_compute; reflexivity).
  assert (B6 : 64 <= bpow radix2 90) by (change 64 with (bpow radix2 6); apply bpow_le; lia). assert (B7 : bpow radix2 90 <= bpow radix2 1000) by (apply bpow_le; lia).
  assert (B8 : 8388608 <= bpow radix2 700) by (change 8388608 with (bpow radix2 23); apply bpow_le; lia). assert (B9 : bpow radix2 700 <= bpow radix2 800) by (apply bpow_le; lia).
  split; [exact FQ|]. split; [nra|]. split; [split; [exact FQ|split; [exact FV|split; lra]]|]. split; [exact C87_ex|]. split; [exact (C98_normalized q C87_ex)|]. split; [exact FV|lra].
Qed.
