(** * Lemmas: nine-dimensional algebra for the design with integrators *)
From Coq Require Import Reals List Bool Lra Psatz Lia.
From Verif Require Import Num Vec Mat6 M_struct M_sim M_lqr M_lqi S_obs S_lqr S_lqi P_quat P_wheel P_obs P_lqr P_lqr2 P_dare.
Local Open Scope R_scope.

Ltac unf9 := unfold mv9, mv93, mv39, mm9, addm9, subm9, scalem9, tr9, tr93, id9, mm_9_93, mm_39_9, mm_39_93, mm_93_39, mm_3_39, addm93, scalem93, add9, sub9, scale9, dot9, zero9;
  cbn [v6 vz e11 e12 e21 e22 ft fz lk lz].
(** ** the rectangular blocks *)
Lemma mv_63_3 B m u : mv63 (mm_63_3 B m) u = mv63 B (mv m u).
Proof. destruct B as [B1 B2]. unfold mm_63_3, mv63. cbn [c1 c2]. rewrite !mv_mm. reflexivity. Qed.
Lemma mv_subm63 a b u : mv63 (subm63 a b) u = sub6 (mv63 a u) (mv63 b u).
Proof. destruct a as [A1 A2], b as [B1 B2]. unfold subm63, sub6, mv63. cbn [c1 c2 u1 u2]. rewrite !mv_subm. reflexivity. Qed.
Lemma mv_addm36 a b x : mv36 (addm36 a b) x = add3 (mv36 a x) (mv36 b x).
Proof. destruct a as [A1 A2], b as [B1 B2], x as [x1 x2]. unfold addm36, mv36. cbn [k1 k2 u1 u2]. rewrite !mv_addm. apply add3_4. Qed.
Lemma mv_subm36 a b x : mv36 (subm36 a b) x = sub3 (mv36 a x) (mv36 b x).
Proof. destruct a as [A1 A2], b as [B1 B2], x as [x1 x2]. unfold subm36, mv36. cbn [k1 k2 u1 u2]. rewrite !mv_subm. apply sub3_4. Qed.
Lemma mv_scalem36 k a x : mv36 (scalem36 k a) x = scale3 k (mv36 a x).
Proof. destruct a as [A1 A2], x as [x1 x2]. unfold scalem36, mv36. cbn [k1 k2 u1 u2]. rewrite !mv_scalem. vring. Qed.
Lemma mv36_zero K : mv36 K zero6 = zero3.
Proof. destruct K as [K1 K2]. unfold mv36, zero6. cbn [k1 k2 u1 u2]. rewrite !mv_zero3. apply add3_0_r. Qed.
Lemma mv63_zero B : mv63 B zero3 = zero6.
Proof. destruct B as [B1 B2]. unfold mv63, zero6. cbn [c1 c2]. rewrite !mv_zero3. reflexivity. Qed.
Lemma mv_zero63 u : mv63 zero63 u = zero6.
Proof. unfold mv63, zero63, zero6. cbn [c1 c2]. rewrite !mv_zerom. reflexivity. Qed.
Lemma mv_zero36 x : mv36 zero36 x = zero3.
Proof. unfold mv36, zero36. cbn [k1 k2]. rewrite !mv_zerom. apply add3_0_r. Qed.
Lemma mv36_sub K x y : mv36 K (sub6 x y) = sub3 (mv36 K x) (mv36 K y).
Proof. destruct K as [K1 K2], x as [x1 x2], y as [y1 y2]. unfold sub6, mv36. cbn [k1 k2 u1 u2]. rewrite !mv_sub3. apply sub3_4. Qed.
Lemma mv63_sub B x y : mv63 B (sub3 x y) = sub6 (mv63 B x) (mv63 B y).
Proof. destruct B as [B1 B2]. unfold sub6, mv63. cbn [c1 c2 u1 u2]. rewrite !mv_sub3. reflexivity. Qed.
Lemma dot36 K x u : dot3 (mv36 K x) u = dot6 x (mv63 (tr36 K) u).
Proof. destruct K as [K1 K2], x as [x1 x2]. unfold mv36, tr36, mv63, dot6. cbn [k1 k2 c1 c2 u1 u2]. rewrite dot3_add_l, !dot_tr. reflexivity. Qed.
Lemma add6_4 a b c d : add6 (add6 a b) (add6 c d) = add6 (add6 a c) (add6 b d).
Proof. unfold add6. cbn [u1 u2]. f_equal; apply add3_4. Qed.
Lemma sub6_4 a b c d : add6 (sub6 a b) (sub6 c d) = sub6 (add6 a c) (add6 b d).
Proof. unfold add6, sub6. cbn [u1 u2]. f_equal; apply sub3_4. Qed.
Lemma add6_0_l x : add6 zero6 x = x. Proof. destruct x as [x1 x2]. unf6. rewrite !add3_0_l. reflexivity. Qed.
Lemma tr36_invol K : tr63 (tr36 K) = K.
Proof. destruct K as [K1 K2]. unfold tr63, tr36. cbn [c1 c2 k1 k2]. f_equal; vring. Qed.
Lemma tr63_invol B : tr36 (tr63 B) = B.
Proof. destruct B as [K1 K2]. unfold tr63, tr36. cbn [c1 c2 k1 k2]. f_equal; vring. Qed.
(** ** nine dimensions *)
Lemma V9_eq a b : v6 a = v6 b -> vz a = vz b -> a = b. Proof. destruct a, b; simpl; intros -> ->; reflexivity. Qed.
Lemma mv9_mm a b x : mv9 (mm9 a b) x = mv9 a (mv9 b x).
Proof.
  destruct a as [a1 a2 a3 a4], b as [d1 d2 d3 d4], x as [x1 x2]. unf9. f_equal.
  - rewrite mv6_addm, mv6_mm, mv_63_36, mv_addm63, mv_6_63, mv_63_3, mv6_add, mv63_add. apply add6_4.
  - rewrite mv_addm36, mv_36_6, mv_3_36, mv_addm, mv_36_63, mv_mm, mv36_add, mv_add3. apply add3_4.
Qed.
Lemma mv9_addm a b x : mv9 (addm9 a b) x = add9 (mv9 a x) (mv9 b x).
Proof. destruct a as [a1 a2 a3 a4], b as [d1 d2 d3 d4], x as [x1 x2]. unf9. f_equal; [rewrite mv6_addm, mv_addm63; apply add6_4|rewrite mv_addm36, mv_addm; apply add3_4]. Qed.
Lemma mv9_subm a b x : mv9 (subm9 a b) x = sub9 (mv9 a x) (mv9 b x).
Proof. destruct a as [a1 a2 a3 a4], b as [d1 d2 d3 d4], x as [x1 x2]. unf9. f_equal; [rewrite mv6_subm, mv_subm63; apply sub6_4|rewrite mv_subm36, mv_subm; apply sub3_4]. Qed.
Lemma scale6_add k a b : scale6 k (add6 a b) = add6 (scale6 k a) (scale6 k b).
Proof. destruct a as [a1 a2], b as [d1 d2]. unf6. f_equal; vring. Qed.
Lemma mv9_scalem k a x : mv9 (scalem9 k a) x = scale9 k (mv9 a x).
Proof. destruct a as [a1 a2 a3 a4], x as [x1 x2]. unf9. f_equal; [rewrite mv6_scalem, mv_scalem63, scale6_add; reflexivity|rewrite mv_scalem36, mv_scalem; vring]. Qed.
Lemma mv9_id x : mv9 id9 x = x.
Proof. destruct x as [x1 x2]. unf9. rewrite mv6_id, mv_zero63, mv_zero36, mv_id3, add6_0_r, add3_0_l. reflexivity. Qed.
Lemma mv9_add a x y : mv9 a (add9 x y) = add9 (mv9 a x) (mv9 a y).
Proof. destruct a as [a1 a2 a3 a4], x as [x1 x2], y as [y1 y2]. unf9. f_equal; [rewrite mv6_add, mv63_add; apply add6_4|rewrite mv36_add, mv_add3; apply add3_4]. Qed.
Lemma mv9_sub a x y : mv9 a (sub9 x y) = sub9 (mv9 a x) (mv9 a y).
Proof. destruct a as [a1 a2 a3 a4], x as [x1 x2], y as [y1 y2]. unf9. f_equal; [rewrite mv6_sub, mv63_sub; apply sub6_4|rewrite mv36_sub, mv_sub3; apply sub3_4]. Qed.
Lemma mv9_zero a : mv9 a zero9 = zero9.
Proof. destruct a as [a1 a2 a3 a4]. unf9. rewrite mv6_zero, mv63_zero, mv36_zero, mv_zero3, add6_0_r, add3_0_r. reflexivity. Qed.
Lemma mv9_scale A k x : mv9 A (scale9 k x) = scale9 k (mv9 A x).
Proof. destruct A as [a1 a2 a3 a4], x as [x1 x2]. unf9. rewrite mv6_scale, mv63_scale, mv36_scale, mv_scale3, scale6_add. f_equal. vring. Qed.
Lemma dot9_comm x y : dot9 x y = dot9 y x. Proof. unfold dot9. rewrite (dot6_comm (v6 x)), (dot_comm3 (vz x)). reflexivity. Qed.
Lemma dot3_sub_r (a b c : v3) : dot3 c (sub3 a b) = dot3 c a - dot3 c b. Proof. vring. Qed.
Lemma dot9_add_r x y z : dot9 x (add9 y z) = dot9 x y + dot9 x z.
Proof. unf9. rewrite dot6_add_r, dot3_add_r. ring. Qed.
Lemma dot9_add_l x y z : dot9 (add9 y z) x = dot9 y x + dot9 z x.
Proof. rewrite dot9_comm, dot9_add_r, (dot9_comm x y), (dot9_comm x z). reflexivity. Qed.
Lemma dot9_sub_r x y z : dot9 x (sub9 y z) = dot9 x y - dot9 x z.
Proof. unf9. rewrite dot6_sub_r, dot3_sub_r. ring. Qed.
Lemma dot9_sub_l x y z : dot9 (sub9 y z) x = dot9 y x - dot9 z x.
Proof. rewrite dot9_comm, dot9_sub_r, (dot9_comm x y), (dot9_comm x z). reflexivity. Qed.
Lemma dot9_tr a x y : dot9 (mv9 a x) y = dot9 x (mv9 (tr9 a) y).
Proof.
  destruct a as [a1 a2 a3 a4], x as [x1 x2], y as [y1 y2]. unf9. rewrite dot6_add_l, dot3_add_l, dot6_add_r, dot3_add_r, dot6_tr, dot63, dot36, dot_tr. ring.
Qed.
Lemma dot3_zero_r (a : v3) : dot3 a zero3 = 0. Proof. vring. Qed.
Lemma dot6_zero_r a : dot6 a zero6 = 0. Proof. unfold dot6, zero6. cbn [u1 u2]. rewrite !dot3_zero_r. ring. Qed.
Lemma dot3_ext (a b : v3) : (forall x, dot3 x a = dot3 x b) -> a = b.
Proof.
  intros H. destruct a as [p q r], b as [p' q' r']. assert (H1 := H (mk3 1 0 0)). assert (H2 := H (mk3 0 1 0)). assert (H3 := H (mk3 0 0 1)).
  revert H1 H2 H3. vunfoldg; rnumg. intros. apply mk3_c; lra.
Qed.
Lemma dot9_ext a b : (forall x, dot9 x a = dot9 x b) -> a = b.
Proof.
  intros H. apply V9_eq.
  - apply dot6_ext. intros x. assert (E := H (mk9 x zero3)). unfold dot9 in E. cbn [v6 vz] in E. rewrite !(dot_comm3 zero3), !dot3_zero_r in E. lra.
  - apply dot3_ext. intros x. assert (E := H (mk9 zero6 x)). unfold dot9 in E. cbn [v6 vz] in E. rewrite !(dot6_comm zero6), !dot6_zero_r in E. lra.
Qed.
Lemma m63_ext' a b : (forall u, mv63 a u = mv63 b u) -> a = b.
Proof. intros H. destruct a as [a1 a2], b as [d1 d2]. f_equal; apply m3_ext; intros x; assert (E := H x); unfold mv63 in E; cbn in E; [exact (f_equal u1 E)|exact (f_equal u2 E)]. Qed.
Lemma m36_ext a b : (forall u, mv36 a u = mv36 b u) -> a = b.
Proof.
  intros H. rewrite <- (tr36_invol a), <- (tr36_invol b). f_equal. apply m63_ext'. intros u. apply dot6_ext. intros x. rewrite <- !dot36, H. reflexivity.
Qed.
Lemma m9_ext a b : (forall x, mv9 a x = mv9 b x) -> a = b.
Proof.
  intros H. assert (H1 := fun x => H (mk9 x zero3)). assert (H2 := fun x => H (mk9 zero6 x)). destruct a as [a1 a2 a3 a4], b as [d1 d2 d3 d4]. revert H1 H2. unf9. intros H1 H2.
  f_equal.
  - apply m6_ext. intros x. assert (E := f_equal v6 (H1 x)). cbn [v6] in E. rewrite !mv63_zero, !add6_0_r in E. exact E.
  - apply m63_ext'. intros x. assert (E := f_equal v6 (H2 x)). cbn [v6] in E. rewrite !mv6_zero, !add6_0_l in E. exact E.
  - apply m36_ext. intros x. assert (E := f_equal vz (H1 x)). cbn [vz] in E. rewrite !mv_zero3, !add3_0_r in E. exact E.
  - apply m3_ext. intros x. assert (E := f_equal vz (H2 x)). cbn [vz] in E. rewrite !mv36_zero, !add3_0_l in E. exact E.
Qed.
Lemma m93_ext a b : (forall u, mv93 a u = mv93 b u) -> a = b.
Proof. intros H. destruct a as [a1 a2], b as [d1 d2]. f_equal; [apply m63_ext'|apply m3_ext]; intros x; assert (E := H x); unfold mv93 in E; cbn in E; [exact (f_equal v6 E)|exact (f_equal vz E)]. Qed.
Lemma symm9_dot m x y : symm9 m -> dot9 (mv9 m x) y = dot9 x (mv9 m y).
Proof. intros S. rewrite dot9_tr, S. reflexivity. Qed.
Lemma symm9_intro m : (forall x y, dot9 (mv9 m x) y = dot9 x (mv9 m y)) -> symm9 m.
Proof. intros H. apply m9_ext. intros x. apply dot9_ext. intros y. rewrite <- dot9_tr. apply H. Qed.
Lemma dot9_nonneg x : 0 <= dot9 x x.
Proof. unfold dot9. assert (A := dot6_nonneg (v6 x)). assert (B := dot3_nonneg (vz x)). lra. Qed.
Lemma dot93 B u y : dot9 (mv93 B u) y = dot3 u (mv39 (tr93 B) y).
Proof. destruct B as [B1 B2], y as [y1 y2]. unf9. rewrite dot63, dot_tr, dot3_add_r. reflexivity. Qed.
Lemma mv39_add K x y : mv39 K (add9 x y) = add3 (mv39 K x) (mv39 K y).
Proof. destruct K as [K1 K2], x as [x1 x2], y as [y1 y2]. unf9. rewrite mv36_add, mv_add3. apply add3_4. Qed.
Lemma mv39_sub K x y : mv39 K (sub9 x y) = sub3 (mv39 K x) (mv39 K y).
Proof. destruct K as [K1 K2], x as [x1 x2], y as [y1 y2]. unf9. rewrite mv36_sub, mv_sub3. apply sub3_4. Qed.
Lemma mv93_add B u v : mv93 B (add3 u v) = add9 (mv93 B u) (mv93 B v).
Proof. destruct B as [B1 B2]. unf9. rewrite mv63_add, mv_add3. reflexivity. Qed.
Lemma mv93_sub B u v : mv93 B (sub3 u v) = sub9 (mv93 B u) (mv93 B v).
Proof. destruct B as [B1 B2]. unf9. rewrite mv63_sub, mv_sub3. reflexivity. Qed.
Lemma mv39_scale K k x : mv39 K (scale9 k x) = scale3 k (mv39 K x).
Proof. destruct K as [K1 K2], x as [x1 x2]. unf9. rewrite mv36_scale, mv_scale3. vring. Qed.
Lemma mv93_scale B k u : mv93 B (scale3 k u) = scale9 k (mv93 B u).
Proof. destruct B as [B1 B2]. unf9. rewrite mv63_scale, mv_scale3. reflexivity. Qed.
Lemma mv_39_9 K A x : mv39 (mm_39_9 K A) x = mv39 K (mv9 A x).
Proof. destruct K as [K1 K2], A as [A1 A2 A3 A4], x as [x1 x2]. unf9. rewrite mv_addm36, mv_36_6, mv_3_36, mv_addm, mv_36_63, mv_mm, mv36_add, mv_add3. apply add3_4. Qed.
Lemma mv_3_39 m K x : mv39 (mm_3_39 m K) x = mv m (mv39 K x).
Proof. destruct K as [K1 K2], x as [x1 x2]. unf9. rewrite mv_3_36, mv_mm, mv_add3. reflexivity. Qed.
Lemma mv_39_93 K B u : mv (mm_39_93 K B) u = mv39 K (mv93 B u).
Proof. destruct K as [K1 K2], B as [B1 B2]. unf9. rewrite mv_addm, mv_36_63, mv_mm. reflexivity. Qed.
Lemma mv_93_39 B K x : mv9 (mm_93_39 B K) x = mv93 B (mv39 K x).
Proof. destruct B as [B1 B2], K as [K1 K2], x as [x1 x2]. unf9. rewrite mv_63_36, mv_63_3, mv_3_36, mv_mm, mv63_add, mv_add3. reflexivity. Qed.
Lemma mv_9_93 A B u : mv93 (mm_9_93 A B) u = mv9 A (mv93 B u).
Proof. destruct A as [A1 A2 A3 A4], B as [B1 B2]. unf9. rewrite mv_addm63, mv_6_63, mv_63_3, mv_addm, mv_36_63, mv_mm. reflexivity. Qed.
Lemma mv_addm93 a b u : mv93 (addm93 a b) u = add9 (mv93 a u) (mv93 b u).
Proof. destruct a as [A1 A2], b as [B1 B2]. unf9. rewrite mv_addm63, mv_addm. reflexivity. Qed.
Lemma mv_scalem93 k a u : mv93 (scalem93 k a) u = scale9 k (mv93 a u).
Proof. destruct a as [A1 A2]. unf9. rewrite mv_scalem63, mv_scalem. reflexivity. Qed.
Lemma add9_0_r x : add9 x zero9 = x. Proof. destruct x as [x1 x2]. unf9. rewrite add6_0_r, add3_0_r. reflexivity. Qed.
Lemma add9_0_l x : add9 zero9 x = x. Proof. destruct x as [x1 x2]. unf9. rewrite add6_0_l, add3_0_l. reflexivity. Qed.
Lemma scale9_zero k : scale9 k zero9 = zero9. Proof. unf9. rewrite scale6_zero, scale3_zero. reflexivity. Qed.
Lemma scale9_scale9 a b x : scale9 a (scale9 b x) = scale9 (a * b) x.
Proof. destruct x as [x1 x2]. unf9. rewrite scale6_scale6. f_equal. vring. Qed.
Lemma scale9_dot k x : dot9 (scale9 k x) (scale9 k x) = k ^ 2 * dot9 x x.
Proof. destruct x as [x1 x2]. unf9. rewrite scale6_dot. assert (E : dot3 (scale3 k x2) (scale3 k x2) = k ^ 2 * dot3 x2 x2) by vring. rewrite E. ring. Qed.
Lemma dot9_pos x : x <> zero9 -> 0 < dot9 x x.
Proof.
  intros N. destruct x as [a b]. unfold dot9. cbn [v6 vz]. assert (A := dot6_nonneg a). assert (B := dot3_nonneg b).
  destruct (zero3_dec b) as [->|Nb]; [|assert (H := dot3_pos b Nb); lra]. destruct (Rle_lt_or_eq_dec 0 (dot6 a a) A) as [P|Z]; [lra|].
  exfalso. apply N. unfold zero9. f_equal. destruct a as [a1 a2]. unfold dot6 in Z. cbn [u1 u2] in Z. assert (P1 := dot3_nonneg a1). assert (P2 := dot3_nonneg a2).
  destruct (zero3_dec a1) as [->|N1]; [|assert (H := dot3_pos _ N1); lra]. destruct (zero3_dec a2) as [->|N2]; [|assert (H := dot3_pos _ N2); lra]. reflexivity.
Qed.
(** a matrix is bounded *)
Lemma bounded63 (m : M63) : exists c, 0 <= c /\ forall x u, dot6 x (mv63 m u) <= c * (dot6 x x + dot3 u u).
Proof.
  destruct m as [m1 m2]. destruct (bounded3 m1) as (p & P & HP), (bounded3 m2) as (q & Q & HQ). exists (p + q). split; [lra|].
  intros [x1 x2] u. unfold dot6, mv63. cbn [u1 u2 c1 c2]. assert (A := HP x1 u). assert (B := HQ x2 u). assert (N1 := dot3_nonneg x1). assert (N2 := dot3_nonneg x2).
  set (a := dot3 x1 x1) in *. set (b := dot3 x2 x2) in *. set (c := dot3 u u) in *. clearbody a b c. nra.
Qed.
Lemma bounded9 (m : M9) : exists c, 0 < c /\ forall x, dot9 x (mv9 m x) <= c * dot9 x x.
Proof.
  destruct m as [m11 m12 m21 m22]. destruct (bounded6 m11) as (p & P & HP), (bounded63 m12) as (q & Q & HQ), (bounded63 (tr36 m21)) as (r & Rr & HR), (bounded3 m22) as (s & Ss & HS).
  exists (p + q + r + 2 * s). split; [lra|]. intros [x1 x2]. unfold dot9, mv9. cbn [v6 vz e11 e12 e21 e22]. rewrite dot6_add_r, dot3_add_r.
  rewrite (dot_comm3 x2 (mv36 m21 x1)), dot36. assert (A := HP x1). assert (B := HQ x1 x2). assert (C := HR x1 x2). assert (D := HS x2 x2).
  assert (N1 := dot6_nonneg x1). assert (N2 := dot3_nonneg x2). set (a := dot6 x1 x1) in *. set (b := dot3 x2 x2) in *. clearbody a b.
  assert (0 <= p * b) by nra. assert (0 <= s * a) by nra. lra.
Qed.
