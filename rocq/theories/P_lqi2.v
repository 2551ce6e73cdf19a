(** * Lemmas: the linear-quadratic theory of P_lqr and P_dare for nine states; a system that can be brought to rest in three steps *)
From Coq Require Import Reals List Bool Lra Psatz Lia.
From Verif Require Import Num Vec Mat6 M_struct M_sim M_lqr M_lqi S_rot S_obs S_lqr S_lqi P_quat P_wheel P_obs P_lqr P_lqr2 P_dare P_lqi.
Local Open Scope R_scope.

Lemma lqi_S_mv B Rm P u : mv (lqi_S B Rm P) u = add3 (mv Rm u) (mv39 (tr93 B) (mv9 P (mv93 B u))).
Proof. unfold lqi_S. rewrite mv_addm, mv_39_93, mv_39_9. reflexivity. Qed.
Lemma lqi_S_pos B P u : psd9 P -> u <> zero3 -> 0 < dot3 u (mv (lqi_S B lqr_R P) u).
Proof.
  intros HP N. rewrite lqi_S_mv, dot3_add_r, <- dot93, lqr_R_mv. assert (H := HP (mv93 B u)). assert (H2 := dot3_pos u N).
  assert (E : dot3 u (scale3 625 u) = 625 * dot3 u u) by vring. rewrite E. lra.
Qed.
Lemma lqi_S_nonneg B P u : psd9 P -> 0 <= dot3 u (mv (lqi_S B lqr_R P) u).
Proof.
  intros HP. destruct (zero3_dec u) as [->|N]; [|left; apply lqi_S_pos; assumption]. rewrite mv_zero3. assert (E : dot3 (zero3 : v3) zero3 = 0) by vring. lra.
Qed.
Lemma lqi_S_det B P : psd9 P -> det3 (lqi_S B lqr_R P) <> 0.
Proof.
  intros HP D. destruct (kernel3 _ D) as (w & N & E). assert (H := lqi_S_pos B P w HP N). rewrite E in H.
  assert (X : dot3 w zero3 = 0) by vring. lra.
Qed.

Lemma lqi_gain A B P x K : lqi_K A B lqr_R P = Ok K -> psd9 P -> mv (lqi_S B lqr_R P) (mv39 K x) = mv39 (tr93 B) (mv9 P (mv9 A x)).
Proof.
  unfold lqi_K. intros H HP. destruct (Reqb_spec (det3 (lqi_S B lqr_R P)) 0) as [|N]; [discriminate|]. injection H as <-.
  rewrite !mv_39_9, mv_3_39. apply mv_inv3, N.
Qed.
Lemma lqi_K_ok A B P : psd9 P -> exists K, lqi_K A B lqr_R P = Ok K.
Proof. intros HP. unfold lqi_K. destruct (Reqb_spec (det3 (lqi_S B lqr_R P)) 0) as [E|N]; [exfalso; revert E; apply lqi_S_det, HP|eauto]. Qed.
Lemma complete_square9 A B Q P K x u : riccati9 A B Q lqr_R P -> lqi_K A B lqr_R P = Ok K ->
  let y := add9 (mv9 A x) (mv93 B u) in let d := add3 u (mv39 K x) in
  dot9 y (mv9 P y) + dot3 u (mv lqr_R u) + dot9 x (mv9 Q x) = dot9 x (mv9 P x) + dot3 d (mv (lqi_S B lqr_R P) d).
Proof.
  intros (SY & HP & Si & I & E) HK y d. assert (G := lqi_gain A B P x K HK HP). set (g := mv39 (tr93 B) (mv9 P (mv9 A x))) in *.
  assert (EK : mv Si g = mv39 K x). { rewrite <- G, lqi_S_mv. apply I. }
  rewrite (E x), dot9_add_r, dot9_sub_r. fold g. rewrite EK.
  rewrite <- !dot9_tr. set (k := mv39 K x) in *. set (a := mv9 A x) in *.
  assert (T1 : dot9 a (mv9 P (mv93 B k)) = dot3 k g).
  { rewrite dot9_comm, symm9_dot by exact SY. rewrite dot93. reflexivity. }
  rewrite T1.
  assert (T2 : dot9 y (mv9 P y) = dot9 a (mv9 P a) + 2 * dot3 u g + dot3 u (mv39 (tr93 B) (mv9 P (mv93 B u)))).
  { unfold y. rewrite mv9_add, !dot9_add_l, !dot9_add_r. rewrite (dot9_comm a (mv9 P (mv93 B u))), symm9_dot by exact SY. rewrite !dot93. fold g. ring. }
  rewrite T2. unfold d. rewrite mv_add3, !dot3_add_l, !dot3_add_r, G. rewrite (lqi_S_mv B lqr_R P u) at 1 2. rewrite !dot3_add_r.
  assert (T3 : dot3 k (mv lqr_R u) + dot3 k (mv39 (tr93 B) (mv9 P (mv93 B u))) = dot3 u g).
  { rewrite <- dot3_add_r, <- lqi_S_mv. rewrite <- G.
    (* S is symmetric *)
    rewrite (dot_comm3 u). rewrite !lqi_S_mv, dot3_add_r, dot3_add_l, <- dot93, (dot_comm3 (mv39 _ _)), <- dot93, !lqr_R_mv.
    rewrite (dot9_comm (mv93 B u)), symm9_dot by exact SY. f_equal. clearbody k. vring. }
  lra.
Qed.

Lemma looped_driven9 A B K x n : looped9 A B K x n = driven9 A B (fun n => opp3 (mv39 K (looped9 A B K x n))) x n.
Proof. induction n as [|n IH]; [reflexivity|]. cbn [looped9 driven9]. cbv zeta. rewrite IH at 1. reflexivity. Qed.
Lemma optimal_cost9 A B Q P K x : riccati9 A B Q lqr_R P -> lqi_K A B lqr_R P = Ok K ->
  (forall u n, dot9 x (mv9 P x) <= cost9 Q lqr_R (driven9 A B u x) u n + dot9 (driven9 A B u x n) (mv9 P (driven9 A B u x n))) /\
  forall n, dot9 x (mv9 P x) = cost9 Q lqr_R (looped9 A B K x) (fun n => opp3 (mv39 K (looped9 A B K x n))) n + dot9 (looped9 A B K x n) (mv9 P (looped9 A B K x n)).
Proof.
  intros HR HK. assert (HP : psd9 P) by (destruct HR as (_ & H & _); exact H). split.
  - intros u n. induction n as [|n IH]; [cbn; lra|]. cbn [cost9 driven9]. set (y := driven9 A B u x n) in *.
    assert (C := complete_square9 A B Q P K y (u n) HR HK). cbv zeta in C. assert (S1 := lqi_S_nonneg B P (add3 (u n) (mv39 K y)) HP). lra.
  - intros n. induction n as [|n IH]; [cbn; lra|]. cbn [cost9 looped9]. cbv zeta. set (y := looped9 A B K x n) in *.
    assert (C := complete_square9 A B Q P K y (opp3 (mv39 K y)) HR HK). cbv zeta in C.
    rewrite add3_opp_l, mv_zero3 in C. assert (Z : dot3 (zero3 : v3) zero3 = 0) by vring. lra.
Qed.

Lemma lqi_decay A B Q P K m : riccati9 A B Q lqr_R P -> lqi_K A B lqr_R P = Ok K -> 0 < m -> (forall x, m * dot9 x x <= dot9 x (mv9 Q x)) ->
  exists C rho, 0 <= C /\ 0 <= rho < 1 /\ forall x n, dot9 (looped9 A B K x n) (looped9 A B K x n) <= C * rho ^ n * dot9 x x.
Proof.
  intros HR HK Hm HQ. assert (HP : psd9 P) by (destruct HR as (_ & H & _); exact H). destruct (bounded9 P) as (c & Hc & HB).
  assert (Step : forall x, let y := add9 (mv9 A x) (mv93 B (opp3 (mv39 K x))) in dot9 y (mv9 P y) + m * dot9 x x <= dot9 x (mv9 P x)).
  { intros x y. assert (C := complete_square9 A B Q P K x (opp3 (mv39 K x)) HR HK). cbv zeta in C. fold y in C.
    rewrite add3_opp_l, mv_zero3 in C. assert (Z : dot3 (zero3 : v3) zero3 = 0) by vring.
    assert (U : 0 <= dot3 (opp3 (mv39 K x)) (mv lqr_R (opp3 (mv39 K x)))).
    { rewrite lqr_R_mv. set (k := opp3 _). assert (N := dot3_nonneg k). assert (X : dot3 k (scale3 625 k) = 625 * dot3 k k) by vring. lra. }
    assert (HQx := HQ x). lra. }
  assert (Low : forall x, m * dot9 x x <= dot9 x (mv9 P x)).
  { intros x. assert (H := Step x). cbv zeta in H. assert (H2 := HP (add9 (mv9 A x) (mv93 B (opp3 (mv39 K x))))). lra. }
  (* rho = 1 - m / c, made nonnegative by taking c at least m *)
  set (c' := c + m). assert (HB' : forall x, dot9 x (mv9 P x) <= c' * dot9 x x) by (intros x; assert (H := HB x); assert (N := dot9_nonneg x); unfold c'; nra).
  assert (Hc' : 0 < c') by (unfold c'; lra). assert (Hr : 0 <= 1 - m / c' < 1).
  { split.
    - assert (m / c' <= 1) by (apply (Rmult_le_reg_r c'); [exact Hc'|]; unfold Rdiv; rewrite Rmult_assoc, Rinv_l by lra; unfold c'; lra). lra.
    - assert (0 < m / c') by (apply Rdiv_lt_0_compat; lra). lra. }
  exists (c' / m), (1 - m / c'). split; [left; apply Rdiv_lt_0_compat; lra|]. split; [exact Hr|].
  intros x n. set (rho := 1 - m / c') in *.
  assert (D : dot9 (looped9 A B K x n) (mv9 P (looped9 A B K x n)) <= rho ^ n * dot9 x (mv9 P x)).
  { induction n as [|n IH]; [cbn; lra|]. cbn [looped9]. cbv zeta. set (y := looped9 A B K x n) in *. assert (H := Step y). cbv zeta in H.
    assert (HBy := HB' y).
    assert (F : m * dot9 y y >= m / c' * dot9 y (mv9 P y)).
    { apply Rle_ge. unfold Rdiv. rewrite Rmult_assoc. apply Rmult_le_compat_l; [lra|]. apply (Rmult_le_reg_l c'); [exact Hc'|]. rewrite <- Rmult_assoc, Rinv_r by lra. lra. }
    assert (G : dot9 (add9 (mv9 A y) (mv93 B (opp3 (mv39 K y)))) (mv9 P (add9 (mv9 A y) (mv93 B (opp3 (mv39 K y))))) <= rho * dot9 y (mv9 P y)) by (unfold rho; lra).
    apply (Rle_trans _ _ _ G). cbn [pow]. rewrite Rmult_assoc. apply Rmult_le_compat_l; [lra|exact IH]. }
  assert (L := Low (looped9 A B K x n)). assert (U := HB' x). assert (Pn : 0 <= rho ^ n) by (apply pow_le; lra).
  apply (Rmult_le_reg_l m); [exact Hm|]. apply (Rle_trans _ _ _ L). apply (Rle_trans _ _ _ D).
  replace (m * (c' / m * rho ^ n * dot9 x x)) with (rho ^ n * (c' * dot9 x x)) by (field; lra). apply Rmult_le_compat_l; assumption.
Qed.
Definition form9 (P : M9) (x : V9) : R := dot9 x (mv9 P x).
Definition gain9 (A : M9) (B : M93) (P : M9) : M39 := mm_39_9 (mm_39_9 (mm_3_39 (inv3 (lqi_S B lqr_R P)) (tr93 B)) P) A.
(** one step of value iteration *)
Definition ric9 (A : M9) (B : M93) (Q P : M9) : M9 :=
  addm9 (subm9 (mm9 (tr9 A) (mm9 P A)) (mm9 (tr9 A) (mm9 P (mm_93_39 B (gain9 A B P))))) Q.
Fixpoint iter_ric9 (A : M9) (B : M93) (Q : M9) (k : nat) : M9 :=
  match k with O => mkE zero66 zero63 zero36 zerom | S k => ric9 A B Q (iter_ric9 A B Q k) end.
(** the cost9 of one step followed by P *)
Definition ahead9 (A : M9) (B : M93) (Q P : M9) (x : V9) (u : v3) : R :=
  form9 P (add9 (mv9 A x) (mv93 B u)) + dot3 u (mv lqr_R u) + form9 Q x.

Lemma gain_K9 A B P : psd9 P -> lqi_K A B lqr_R P = Ok (gain9 A B P).
Proof. intros HP. unfold lqi_K. destruct (Reqb_spec (det3 (lqi_S B lqr_R P)) 0) as [E|N]; [exfalso; revert E; apply lqi_S_det, HP|reflexivity]. Qed.
Lemma ric_mv9 A B Q P x : mv9 (ric9 A B Q P) x = add9 (sub9 (mv9 (tr9 A) (mv9 P (mv9 A x))) (mv9 (tr9 A) (mv9 P (mv93 B (mv39 (gain9 A B P) x))))) (mv9 Q x).
Proof. unfold ric9. rewrite mv9_addm, mv9_subm, !mv9_mm, mv_93_39. reflexivity. Qed.
Lemma lqi_S_symm B P u v : symm9 P -> dot3 u (mv (lqi_S B lqr_R P) v) = dot3 v (mv (lqi_S B lqr_R P) u).
Proof.
  intros SY. rewrite !lqi_S_mv, !dot3_add_r, <- !dot93, !lqr_R_mv, (dot9_comm (mv93 B u)), symm9_dot by exact SY. f_equal. vring.
Qed.
Lemma form_sum9 P a b : symm9 P -> form9 P (add9 a b) = form9 P a + 2 * dot9 a (mv9 P b) + form9 P b.
Proof. intros SY. unfold form9. rewrite mv9_add, dot9_add_l, !dot9_add_r, (dot9_comm b (mv9 P a)), symm9_dot by exact SY. ring. Qed.
Lemma square9 A B Q P x u : symm9 P -> psd9 P -> let d := add3 u (mv39 (gain9 A B P) x) in
  ahead9 A B Q P x u = form9 (ric9 A B Q P) x + dot3 d (mv (lqi_S B lqr_R P) d).
Proof.
  intros SY HP d. assert (G := lqi_gain A B P x _ (gain_K9 A B P HP) HP). unfold form9. rewrite ric_mv9, dot9_add_r, dot9_sub_r, <- !dot9_tr.
  unfold ahead9. rewrite form_sum9 by exact SY. unfold form9. set (k := mv39 (gain9 A B P) x) in *. set (a := mv9 A x) in *. set (g := mv39 (tr93 B) (mv9 P a)) in *.
  assert (T1 : forall v, dot9 a (mv9 P (mv93 B v)) = dot3 v g) by (intros v; rewrite dot9_comm, symm9_dot by exact SY; rewrite dot93; reflexivity).
  rewrite !T1. unfold d. rewrite mv_add3, !dot3_add_l, !dot3_add_r, G, (lqi_S_symm B P k u SY), G. rewrite lqi_S_mv, dot3_add_r, <- dot93. ring.
Qed.
Lemma ric_symm9 A B Q P : symm9 Q -> symm9 P -> psd9 P -> symm9 (ric9 A B Q P).
Proof.
  intros SQ SY HP. apply symm9_intro. intros x y. rewrite !ric_mv9, dot9_add_l, dot9_add_r, dot9_sub_l, dot9_sub_r.
  assert (G := fun x => lqi_gain A B P x _ (gain_K9 A B P HP) HP).
  assert (T : forall x y, dot9 x (mv9 (tr9 A) (mv9 P (mv93 B (mv39 (gain9 A B P) y)))) = dot3 (mv39 (gain9 A B P) y) (mv (lqi_S B lqr_R P) (mv39 (gain9 A B P) x))).
  { intros a b. rewrite <- dot9_tr, dot9_comm, symm9_dot by exact SY. rewrite dot93, G. reflexivity. }
  rewrite (dot9_comm (mv9 (tr9 A) (mv9 P (mv93 B (mv39 (gain9 A B P) x)))) y), !T, (lqi_S_symm B P _ _ SY).
  rewrite (symm9_dot Q x y SQ), (dot9_comm _ y), <- !dot9_tr, (dot9_comm (mv9 A y)), symm9_dot by exact SY. ring.
Qed.
Lemma ric_best9 A B Q P x : symm9 P -> psd9 P -> ahead9 A B Q P x (opp3 (mv39 (gain9 A B P) x)) = form9 (ric9 A B Q P) x.
Proof.
  intros SY HP. rewrite square9 by assumption. cbv zeta. rewrite add3_opp_l, mv_zero3. assert (Z : dot3 (zero3 : v3) zero3 = 0) by vring. lra.
Qed.
Lemma ric_least9 A B Q P x u : symm9 P -> psd9 P -> form9 (ric9 A B Q P) x <= ahead9 A B Q P x u.
Proof. intros SY HP. rewrite square9 by assumption. cbv zeta. assert (H := lqi_S_nonneg B P (add3 u (mv39 (gain9 A B P) x)) HP). lra. Qed.
Lemma ric_psd9 A B Q P : psd9 Q -> symm9 P -> psd9 P -> psd9 (ric9 A B Q P).
Proof.
  intros HQ SY HP x. fold (form9 (ric9 A B Q P) x). rewrite <- ric_best9 by assumption. unfold ahead9.
  set (u := opp3 _). destruct (R_pos u) as [U E]. assert (H := HP (add9 (mv9 A x) (mv93 B u))). assert (H2 := HQ x). unfold form9. lra.
Qed.
Lemma ric_mono9 A B Q P P' : symm9 P -> psd9 P -> symm9 P' -> psd9 P' -> (forall x, form9 P x <= form9 P' x) -> forall x, form9 (ric9 A B Q P) x <= form9 (ric9 A B Q P') x.
Proof.
  intros SY HP SY' HP' H x. rewrite <- (ric_best9 A B Q P') by assumption. set (u := opp3 _).
  eapply Rle_trans; [apply (ric_least9 A B Q P x u); assumption|]. unfold ahead9. assert (K := H (add9 (mv9 A x) (mv93 B u))). lra.
Qed.
Lemma form_09 P : form9 P zero9 = 0.
Proof. unfold form9. rewrite mv9_zero. unfold dot9. cbn [v6 vz zero9]. rewrite dot6_zero_r, dot3_zero_r. ring. Qed.
Lemma zero_mv9 x : mv9 (mkE zero66 zero63 zero36 zerom) x = zero9.
Proof.
  destruct x as [x1 x2]. unf9. rewrite mv_zero63, mv_zero36, mv_zerom, add6_0_r, add3_0_r. f_equal. unfold zero66. unf6. rewrite !mv_zerom, !add3_0_r. reflexivity.
Qed.
Lemma dot9_zero_r x : dot9 x zero9 = 0.
Proof. unfold dot9. cbn [v6 vz zero9]. rewrite dot6_zero_r, dot3_zero_r. ring. Qed.
Lemma zero_symm9 : symm9 (mkE zero66 zero63 zero36 zerom).
Proof. apply symm9_intro. intros x y. rewrite !zero_mv9, (dot9_comm zero9), !dot9_zero_r. reflexivity. Qed.
Lemma zero_form9 x : form9 (mkE zero66 zero63 zero36 zerom) x = 0.
Proof. unfold form9. rewrite zero_mv9. apply dot9_zero_r. Qed.
Lemma iter_good9 A B Q : symm9 Q -> psd9 Q -> forall k, symm9 (iter_ric9 A B Q k) /\ psd9 (iter_ric9 A B Q k).
Proof.
  intros SQ HQ k. induction k as [|k [I1 I2]]; cbn [iter_ric9].
  - split; [apply zero_symm9|]. intros x. fold (form9 (mkE zero66 zero63 zero36 zerom) x). rewrite zero_form9. lra.
  - split; [apply ric_symm9; assumption|apply ric_psd9; assumption].
Qed.
Lemma iter_grows9 A B Q : symm9 Q -> psd9 Q -> forall k x, form9 (iter_ric9 A B Q k) x <= form9 (iter_ric9 A B Q (S k)) x.
Proof.
  intros SQ HQ k. assert (G := iter_good9 A B Q SQ HQ). induction k as [|k IH]; intros x.
  - change (iter_ric9 A B Q 0) with (mkE zero66 zero63 zero36 zerom). rewrite zero_form9. apply (G 1%nat).
  - exact (ric_mono9 A B Q _ _ (proj1 (G k)) (proj2 (G k)) (proj1 (G (S k))) (proj2 (G (S k))) IH x).
Qed.
Definition top (x : V6) : V9 := mk9 x zero3.
Definition bot (z : v3) : V9 := mk9 zero6 z.
Definition of63 (b : V6 -> v3 -> R) : M63 := mkC (of3 (fun x y => b (up x) y)) (of3 (fun x y => b (dn x) y)).
Definition of36 (b : v3 -> V6 -> R) : M36 := mkK (of3 (fun x y => b x (up y))) (of3 (fun x y => b x (dn y))).
Definition of9 (b : V9 -> V9 -> R) : M9 :=
  mkE (of6 (fun x y => b (top x) (top y))) (of63 (fun x y => b (top x) (bot y))) (of36 (fun x y => b (bot x) (top y))) (of3 (fun x y => b (bot x) (bot y))).
Lemma of6_ext b b' : (forall x y, b x y = b' x y) -> of6 b = of6 b'.
Proof. intros H. unfold of6. f_equal; apply of3_ext; intros; apply H. Qed.
Lemma of63_mv (m : M63) : of63 (fun x y => dot6 x (mv63 m y)) = m.
Proof.
  destruct m as [m1 m2]. unfold of63. assert (E : forall (n : m3) b, (forall x y, b x y = dot3 x (mv n y)) -> of3 b = n) by (intros n b H; rewrite <- (of3_mv n); apply of3_ext, H).
  f_equal; apply E; intros x y; unfold dot6, up, dn, mv63; cbn [u1 u2 c1 c2]; generalize (mv m1 y) (mv m2 y); vring.
Qed.
Lemma of36_mv (m : M36) : of36 (fun x y => dot3 x (mv36 m y)) = m.
Proof.
  destruct m as [m1 m2]. unfold of36. assert (E : forall (n : m3) b, (forall x y, b x y = dot3 x (mv n y)) -> of3 b = n) by (intros n b H; rewrite <- (of3_mv n); apply of3_ext, H).
  f_equal; apply E; intros x y; unfold up, dn, mv36; cbn [u1 u2 k1 k2]; rewrite mv_zero3, ?add3_0_r, ?add3_0_l; reflexivity.
Qed.
Lemma top_dot m x y : dot9 (top x) (mv9 m (top y)) = dot6 x (mv6 (e11 m) y).
Proof. unfold top. unf9. rewrite mv63_zero, add6_0_r, mv_zero3, add3_0_r, dot_comm3, dot3_zero_r. ring. Qed.
Lemma top_bot m x y : dot9 (top x) (mv9 m (bot y)) = dot6 x (mv63 (e12 m) y).
Proof. unfold top, bot. unf9. rewrite mv6_zero, add6_0_l, (dot_comm3 zero3), dot3_zero_r. ring. Qed.
Lemma bot_top m x y : dot9 (bot x) (mv9 m (top y)) = dot3 x (mv36 (e21 m) y).
Proof. unfold top, bot. unf9. rewrite mv_zero3, add3_0_r, (dot6_comm zero6), dot6_zero_r. ring. Qed.
Lemma bot_bot m x y : dot9 (bot x) (mv9 m (bot y)) = dot3 x (mv (e22 m) y).
Proof. unfold bot. unf9. rewrite mv36_zero, add3_0_l, (dot6_comm zero6), dot6_zero_r. ring. Qed.
Lemma of9_mv (m : M9) : of9 (fun x y => dot9 x (mv9 m y)) = m.
Proof.
  unfold of9. destruct m as [m1 m2 m3' m4]. f_equal.
  - transitivity (of6 (fun x y => dot6 x (mv6 m1 y))); [apply of6_ext; intros x y; apply top_dot|apply of6_mv].
  - transitivity (of63 (fun x y => dot6 x (mv63 m2 y))); [unfold of63; f_equal; apply of3_ext; intros x y; rewrite top_bot; reflexivity|apply of63_mv].
  - transitivity (of36 (fun x y => dot3 x (mv36 m3' y))); [unfold of36; f_equal; apply of3_ext; intros x y; rewrite bot_top; reflexivity|apply of36_mv].
  - transitivity (of3 (fun x y => dot3 x (mv m4 y))); [apply of3_ext; intros x y; apply bot_bot|apply of3_mv].
Qed.
Lemma of9_cv (b : nat -> V9 -> V9 -> R) l : (forall x y, Un_cv (fun k => b k x y) (l x y)) -> forall x y, Un_cv (fun k => dot9 x (mv9 (of9 (b k)) y)) (dot9 x (mv9 (of9 l) y)).
Proof.
  intros H [x1 x2] [z1 z2]. unfold dot9, of9. unf9.
  assert (C6 := of6_cv (fun k x y => b k (top x) (top y)) (fun x y => l (top x) (top y)) (fun x y => H (top x) (top y)) x1 z1).
  assert (C63 : Un_cv (fun k => dot6 x1 (mv63 (of63 (fun x y => b k (top x) (bot y))) z2)) (dot6 x1 (mv63 (of63 (fun x y => l (top x) (bot y))) z2))).
  { unfold of63, dot6, mv63. cbn [c1 c2 u1 u2]. apply CV_plus; [apply (of3_cv (fun k x y => b k (top (up x)) (bot y)) (fun x y => l (top (up x)) (bot y)))|apply (of3_cv (fun k x y => b k (top (dn x)) (bot y)) (fun x y => l (top (dn x)) (bot y)))]; intros; apply H. }
  assert (C36 : Un_cv (fun k => dot3 x2 (mv36 (of36 (fun x y => b k (bot x) (top y))) z1)) (dot3 x2 (mv36 (of36 (fun x y => l (bot x) (top y))) z1))).
  { intros eps He. assert (X : Un_cv (fun k => dot3 x2 (mv (of3 (fun x y => b k (bot x) (top (up y)))) (u1 z1)) + dot3 x2 (mv (of3 (fun x y => b k (bot x) (top (dn y)))) (u2 z1)))
      (dot3 x2 (mv (of3 (fun x y => l (bot x) (top (up y)))) (u1 z1)) + dot3 x2 (mv (of3 (fun x y => l (bot x) (top (dn y)))) (u2 z1)))).
    { apply CV_plus; [apply (of3_cv (fun k x y => b k (bot x) (top (up y))) (fun x y => l (bot x) (top (up y))))|apply (of3_cv (fun k x y => b k (bot x) (top (dn y))) (fun x y => l (bot x) (top (dn y))))]; intros; apply H. }
    destruct (X eps He) as (N & HN). exists N. intros n Hn. specialize (HN n Hn). unfold of36, mv36. cbn [k1 k2]. rewrite !dot3_add_r. exact HN. }
  assert (C3 := of3_cv (fun k x y => b k (bot x) (bot y)) (fun x y => l (bot x) (bot y)) (fun x y => H (bot x) (bot y)) x2 z2).
  intros eps He. destruct (CV_plus _ _ _ _ (CV_plus _ _ _ _ C6 C63) (CV_plus _ _ _ _ C36 C3) eps He) as (N & HN).
  exists N. intros n Hn. rewrite !dot6_add_r, !dot3_add_r. exact (HN n Hn).
Qed.
Lemma dot9_scale_r k x y : dot9 x (scale9 k y) = k * dot9 x y.
Proof. unf9. rewrite dot6_scale_r. assert (E : dot3 (vz x) (scale3 k (vz y)) = k * dot3 (vz x) (vz y)) by (generalize (vz x) (vz y); vring). rewrite E. ring. Qed.
Lemma form_scale9 P k x : form9 P (scale9 k x) = k * k * form9 P x.
Proof. unfold form9. rewrite mv9_scale, dot9_scale_r, dot9_comm, dot9_scale_r, dot9_comm. ring. Qed.
Lemma form_two9 P a b : symm9 P -> psd9 P -> form9 P (add9 a b) <= 2 * form9 P a + 2 * form9 P b.
Proof.
  intros SY HP. assert (H := HP (add9 a (scale9 (-1) b))). fold (form9 P (add9 a (scale9 (-1) b))) in H. rewrite form_sum9 in H by exact SY.
  rewrite form_scale9, mv9_scale, dot9_scale_r in H. rewrite form_sum9 by exact SY. lra.
Qed.
Definition axes_sum9 (D : M9) : R :=
  form9 D (top (up ex)) + form9 D (top (up ey)) + form9 D (top (up ez)) + (form9 D (top (dn ex)) + form9 D (top (dn ey)) + form9 D (top (dn ez)))
  + (form9 D (bot ex) + form9 D (bot ey) + form9 D (bot ez)).
Lemma axes9_nonneg D : psd9 D -> 0 <= axes_sum9 D.
Proof. intros H. unfold axes_sum9. assert (P : forall v, 0 <= form9 D v) by (intros v; apply H). assert (X0 := P (top (up ex))). assert (X1 := P (top (up ey))). assert (X2 := P (top (up ez))). assert (X3 := P (top (dn ex))). assert (X4 := P (top (dn ey))). assert (X5 := P (top (dn ez))). assert (X6 := P (bot ex)). assert (X7 := P (bot ey)). assert (X8 := P (bot ez)). lra. Qed.
Lemma form9_le D z : symm9 D -> psd9 D -> form9 D z <= 16 * dot9 z z * axes_sum9 D.
Proof.
  intros SY HP. destruct z as [a b]. assert (E : mk9 a b = add9 (top a) (bot b)) by (unfold top, bot; unf9; rewrite add6_0_r, add3_0_l; reflexivity).
  assert (H := form_two9 D (top a) (bot b) SY HP). rewrite <- E in H.
  assert (FT : forall x, form9 D (top x) = form (e11 D) x) by (intros x; apply top_dot).
  assert (S6 : symm6 (e11 D)) by (exact (f_equal e11 SY)).
  assert (P6 : psd6 (e11 D)) by (intros x; fold (form (e11 D) x); rewrite <- FT; apply HP).
  assert (U := form_le (e11 D) a S6 P6). unfold axes_sum in U. rewrite <- !FT in U.
  assert (V : form9 D (bot b) <= 4 * dot3 b b * (form9 D (bot ex) + form9 D (bot ey) + form9 D (bot ez))).
  { apply (quad3 (fun v => form9 D (bot v))); clear - SY HP.
    - intros a b. replace (bot (add3 a b)) with (add9 (bot a) (bot b)) by (unfold bot; unf9; rewrite add6_0_r; reflexivity). apply form_two9; assumption.
    - intros k a. rewrite <- form_scale9. f_equal. unfold bot. unf9. rewrite scale6_zero. reflexivity.
    - intros a. apply HP. }
  unfold axes_sum9, dot9. cbn [v6 vz]. assert (A := dot6_nonneg a). assert (B := dot3_nonneg b).
  assert (P1 : forall v, 0 <= form9 D v) by (intros v; apply HP).
  assert (X0 := P1 (top (up ex))). assert (X1 := P1 (top (up ey))). assert (X2 := P1 (top (up ez))). assert (X3 := P1 (top (dn ex))). assert (X4 := P1 (top (dn ey))). assert (X5 := P1 (top (dn ez))). assert (X6 := P1 (bot ex)). assert (X7 := P1 (bot ey)). assert (X8 := P1 (bot ez)).
  set (s := form9 D (top (up ex)) + form9 D (top (up ey)) + form9 D (top (up ez)) + (form9 D (top (dn ex)) + form9 D (top (dn ey)) + form9 D (top (dn ez)))) in *.
  set (t := form9 D (bot ex) + form9 D (bot ey) + form9 D (bot ez)) in *.
  assert (S0 : 0 <= s) by (unfold s; lra). assert (T0 : 0 <= t) by (unfold t; lra).
  clear X0 X1 X2 X3 X4 X5 X6 X7 X8. clearbody s t. set (aa := dot6 a a) in *. set (bb := dot3 b b) in *. clearbody aa bb.
  assert (0 <= aa * t) by (apply Rmult_le_pos; assumption). assert (0 <= bb * s) by (apply Rmult_le_pos; assumption). assert (0 <= bb * t) by (apply Rmult_le_pos; assumption). lra.
Qed.
(** equal forms, equal matrices *)
Lemma form_ext9 P P' : symm9 P -> symm9 P' -> (forall x, form9 P x = form9 P' x) -> P = P'.
Proof.
  intros SY SY' H. apply m9_ext. intros y. apply dot9_ext. intros x. assert (E := H (add9 x y)). rewrite !form_sum9 in E by assumption. rewrite (H x), (H y) in E. lra.
Qed.
Lemma dare_exists9 A B Q : symm9 Q -> psd9 Q -> (forall x, exists a b c, add9 (mv9 A (add9 (mv9 A (add9 (mv9 A x) (mv93 B a))) (mv93 B b))) (mv93 B c) = zero9) ->
  exists P, riccati9 A B Q lqr_R P /\ forall x, Un_cv (fun k => form9 (iter_ric9 A B Q k) x) (form9 P x).
Proof.
  intros SQ HQ DB. set (T := iter_ric9 A B Q). assert (G := iter_good9 A B Q SQ HQ). assert (M := iter_grows9 A B Q SQ HQ). fold T in G, M.
  assert (GR : forall x, Un_growing (fun k => form9 (T k) x)) by (intros x k; apply M).
  assert (UB : forall x, exists c, forall k, form9 (T k) x <= c).
  { intros x. destruct (DB x) as (a & b & d & E). set (y := add9 (mv9 A x) (mv93 B a)) in *. set (z := add9 (mv9 A y) (mv93 B b)) in *.
    exists (dot3 d (mv lqr_R d) + form9 Q z + dot3 b (mv lqr_R b) + form9 Q y + dot3 a (mv lqr_R a) + form9 Q x). intros k.
    eapply Rle_trans; [apply M|]. eapply Rle_trans; [apply M|]. eapply Rle_trans; [apply M|]. unfold T. cbn [iter_ric9]. fold (T k).
    assert (E1 := proj1 (G (S k))). assert (E2 := proj2 (G (S k))). assert (F1 := proj1 (G (S (S k)))). assert (F2 := proj2 (G (S (S k)))). unfold T in E1, E2, F1, F2. cbn [iter_ric9] in E1, E2, F1, F2. fold (T k) in E1, E2, F1, F2.
    assert (L1 := ric_least9 A B Q _ x a F1 F2). assert (L2 := ric_least9 A B Q _ y b E1 E2). assert (L3 := ric_least9 A B Q (T k) z d (proj1 (G k)) (proj2 (G k))).
    unfold ahead9 in L1, L2, L3. fold y in L1. fold z in L2. rewrite E, form_09 in L3. lra. }
  assert (UB' : forall x, has_ub (fun k => form9 (T k) x)).
  { intros x. destruct (UB x) as (c & H). exists c. intros r (k & ->). apply H. }
  set (L := fun x => proj1_sig (growing_cv _ (GR x) (UB' x))).
  assert (HL : forall x, Un_cv (fun k => form9 (T k) x) (L x)) by (intros x; exact (proj2_sig (growing_cv _ (GR x) (UB' x)))).
  set (b := fun x y => (L (add9 x y) - L x - L y) / 2).
  assert (HB : forall x y, Un_cv (fun k => dot9 x (mv9 (T k) y)) (b x y)).
  { intros x y eps He. destruct (CV_mult _ _ _ _ (CV_minus _ _ _ _ (CV_minus _ _ _ _ (HL (add9 x y)) (HL x)) (HL y)) (cv_const (/ 2)) eps He) as (N & HN).
    exists N. intros n Hn. specialize (HN n Hn). cbv beta in HN. rewrite form_sum9 in HN by apply (G n). unfold b.
    replace (dot9 x (mv9 (T n) y)) with ((form9 (T n) x + 2 * dot9 x (mv9 (T n) y) + form9 (T n) y - form9 (T n) x - form9 (T n) y) * / 2) by field. exact HN. }
  set (P := of9 b).
  assert (HP : forall x y, Un_cv (fun k => dot9 x (mv9 (T k) y)) (dot9 x (mv9 P y))).
  { intros x y eps He. destruct (of9_cv _ _ HB x y eps He) as (N & HN). exists N. intros n Hn. specialize (HN n Hn). cbv beta in HN. rewrite of9_mv in HN. exact HN. }
  assert (HF : forall x, Un_cv (fun k => form9 (T k) x) (form9 P x)) by (intros x; apply HP).
  assert (SY : symm9 P).
  { apply symm9_intro. intros x y. rewrite dot9_comm. apply (UL_sequence (fun k => dot9 y (mv9 (T k) x))); [apply HP|].
    intros eps He. destruct (HP x y eps He) as (N & HN). exists N. intros n Hn. specialize (HN n Hn). rewrite dot9_comm, symm9_dot by apply (G n). exact HN. }
  assert (UP : forall k x, form9 (T k) x <= form9 P x) by (intros k x; exact (growing_ineq _ _ (GR x) (HF x) k)).
  assert (PS : psd9 P). { intros x. assert (H := UP 0%nat x). unfold T in H. cbn [iter_ric9] in H. rewrite zero_form9 in H. exact H. }
  assert (LE : forall x, form9 P x <= form9 (ric9 A B Q P) x).
  { intros x. apply (Rle_cv_lim (Un := fun k => form9 (T (S k)) x) (Vn := fun _ => form9 (ric9 A B Q P) x)).
    - intros k. exact (ric_mono9 A B Q (T k) P (proj1 (G k)) (proj2 (G k)) SY PS (UP k) x).
    - intros eps He. destruct (HF x eps He) as (N & HN). exists N. intros n Hn. apply HN. lia.
    - apply cv_const. }
  assert (GE : forall x, form9 (ric9 A B Q P) x <= form9 P x).
  { intros x. destruct (bounded3 (mm_39_93 (tr93 B) B)) as (c & Hc & BB).
    set (rr := 2 * dot9 (mv9 A x) (mv9 A x) + 2 * (2 * c * (form9 P x / 625))).
    assert (KEY : forall k, form9 (ric9 A B Q P) x <= form9 P x + 16 * rr * axes_sum9 (subm9 P (T k))).
    { intros k. set (u := opp3 (mv39 (gain9 A B (T k)) x)). assert (E := ric_best9 A B Q (T k) x (proj1 (G k)) (proj2 (G k))). fold u in E.
      assert (LS := ric_least9 A B Q P x u SY PS). unfold ahead9 in E, LS. set (z := add9 (mv9 A x) (mv93 B u)) in *. destruct (R_pos u) as [RU RE].
      assert (US := UP (S k) x). unfold T in US. cbn [iter_ric9] in US. fold (T k) in US.
      assert (F0 : 0 <= form9 (T k) z) by apply (G k). assert (Q0 : 0 <= form9 Q x) by apply HQ.
      assert (UU : dot3 u u <= form9 P x / 625) by lra.
      assert (DS : symm9 (subm9 P (T k))).
      { apply symm9_intro. intros p q. rewrite !mv9_subm, dot9_sub_l, dot9_sub_r, (symm9_dot P), (symm9_dot (T k)); [reflexivity|apply (G k)|exact SY]. }
      assert (DF : forall v, form9 (subm9 P (T k)) v = form9 P v - form9 (T k) v) by (intros v; unfold form9; rewrite mv9_subm, dot9_sub_r; reflexivity).
      assert (DP : psd9 (subm9 P (T k))) by (intros v; fold (form9 (subm9 P (T k)) v); rewrite DF; assert (H := UP k v); lra).
      assert (FL := form9_le (subm9 P (T k)) z DS DP). rewrite DF in FL.
      assert (ZZ : dot9 z z <= rr).
      { assert (I1 : symm9 id9) by (apply symm9_intro; intros p q; rewrite !mv9_id; reflexivity). assert (I2 : psd9 id9) by (intros v; rewrite mv9_id; apply dot9_nonneg).
        assert (H := form_two9 id9 (mv9 A x) (mv93 B u) I1 I2). unfold form9 in H. rewrite !mv9_id in H. fold z in H.
        rewrite (dot93 B u), <- mv_39_93 in H. assert (H2 := BB u u). unfold rr. assert (c * (dot3 u u + dot3 u u) <= 2 * c * (form9 P x / 625)) by nra. lra. }
      assert (AX : 0 <= axes_sum9 (subm9 P (T k))).
      { apply axes9_nonneg, DP. }
      assert (16 * dot9 z z * axes_sum9 (subm9 P (T k)) <= 16 * rr * axes_sum9 (subm9 P (T k))) by (apply Rmult_le_compat_r; [exact AX|lra]). lra. }
    assert (CV : Un_cv (fun k => form9 P x + 16 * rr * axes_sum9 (subm9 P (T k))) (form9 P x)).
    { assert (CD : forall v, Un_cv (fun k => form9 (subm9 P (T k)) v) 0).
      { intros v eps He. destruct (HF v eps He) as (N & HN). exists N. intros n Hn. specialize (HN n Hn). unfold R_dist in *. rewrite Rminus_0_r.
        replace (form9 (subm9 P (T n)) v) with (form9 P v - form9 (T n) v) by (unfold form9; rewrite mv9_subm, dot9_sub_r; reflexivity). rewrite Rabs_minus_sym. exact HN. }
      assert (CA := CV_plus _ _ _ _ (CV_plus _ _ _ _ (CV_plus _ _ _ _ (CV_plus _ _ _ _ (CD (top (up ex))) (CD (top (up ey)))) (CD (top (up ez)))) (CV_plus _ _ _ _ (CV_plus _ _ _ _ (CD (top (dn ex))) (CD (top (dn ey)))) (CD (top (dn ez))))) (CV_plus _ _ _ _ (CV_plus _ _ _ _ (CD (bot ex)) (CD (bot ey))) (CD (bot ez)))).
      intros eps He. destruct (CV_plus _ _ _ _ (cv_const (form9 P x)) (CV_mult _ _ _ _ (cv_const (16 * rr)) CA) eps He) as (N & HN). exists N. intros n Hn. specialize (HN n Hn). cbv beta in HN.
      replace (form9 P x + 16 * rr * (0 + 0 + 0 + (0 + 0 + 0) + (0 + 0 + 0))) with (form9 P x) in HN by ring. exact HN. }
    apply (Rle_cv_lim (Un := fun _ => form9 (ric9 A B Q P) x) (Vn := fun k => form9 P x + 16 * rr * axes_sum9 (subm9 P (T k)))); [exact KEY|apply cv_const|exact CV]. }
  exists P. split; [|exact HF]. split; [exact SY|]. split; [exact PS|].
  assert (EP : P = ric9 A B Q P) by (apply form_ext9; [exact SY|apply ric_symm9; assumption|intros x; apply Rle_antisym; [apply LE|apply GE]]).
  exists (inv3 (lqi_S B lqr_R P)). destruct (mm_inv3 _ (lqi_S_det B P PS)) as [_ I]. split.
  - intros u. rewrite <- lqi_S_mv, <- mv_mm, I. apply mv_id3.
  - intros x. rewrite EP at 1. rewrite ric_mv9. unfold gain9. rewrite !mv_39_9, mv_3_39. reflexivity.
Qed.
Lemma dare_unique9 A B Q P P' m : 0 < m -> (forall x, m * dot9 x x <= dot9 x (mv9 Q x)) -> riccati9 A B Q lqr_R P -> riccati9 A B Q lqr_R P' -> P = P'.
Proof.
  intros Hm HQ. assert (W : forall P P', riccati9 A B Q lqr_R P -> riccati9 A B Q lqr_R P' -> forall x, form9 P' x <= form9 P x).
  { clear P P'. intros P P' HR HR' x. assert (PS : psd9 P) by apply HR. assert (PS' : psd9 P') by apply HR'.
    destruct (lqi_decay A B Q P (gain9 A B P) m HR (gain_K9 A B P PS) Hm HQ) as (C & rho & HC & Hr & HB).
    destruct (optimal_cost9 A B Q P (gain9 A B P) x HR (gain_K9 A B P PS)) as [_ EQ].
    destruct (optimal_cost9 A B Q P' (gain9 A B P') x HR' (gain_K9 A B P' PS')) as [LE _].
    set (u := fun n => opp3 (mv39 (gain9 A B P) (looped9 A B (gain9 A B P) x n))) in *.
    assert (ED : forall n, looped9 A B (gain9 A B P) x n = driven9 A B u x n) by (intros n; apply looped_driven9).
    assert (EC : forall n, cost9 Q lqr_R (looped9 A B (gain9 A B P) x) u n = cost9 Q lqr_R (driven9 A B u x) u n).
    { intros n. induction n as [|n IH]; [reflexivity|]. cbn [cost9]. rewrite IH, ED. reflexivity. }
    destruct (bounded9 P') as (c & Hc & BP).
    assert (Z := decay_dies C rho _ (dot9 x x) HC Hr (dot9_nonneg x) (fun n => conj (dot9_nonneg (looped9 A B (gain9 A B P) x n)) (HB x n))).
    apply Rnot_lt_le. intros LT. destruct (Z ((form9 P' x - form9 P x) / c)) as (N & HN); [apply Rdiv_lt_0_compat; lra|].
    specialize (HN N (Nat.le_refl N)). unfold R_dist in HN. rewrite Rminus_0_r in HN. set (y := looped9 A B (gain9 A B P) x N) in *.
    specialize (EQ N). specialize (LE u N). rewrite <- EC, <- ED in LE. fold y in EQ, LE. assert (Py := PS y). assert (By := BP y). rewrite Rabs_right in HN by (assert (T := dot9_nonneg y); lra).
    apply (Rmult_lt_compat_l c) in HN; [|exact Hc]. replace (c * ((form9 P' x - form9 P x) / c)) with (form9 P' x - form9 P x) in HN by (field; lra). unfold form9 in *. lra. }
  intros HR HR'. apply form_ext9; [apply HR|apply HR'|]. intros x. apply Rle_antisym; apply W; assumption.
Qed.
