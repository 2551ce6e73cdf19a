(** * Lemmas: the Riccati equation of a sampled system that can be brought to rest in two steps has exactly one solution *)
From Coq Require Import Reals Lra Psatz Lia.
From Verif Require Import Num Vec Mat6 M_struct M_sim M_lqr S_rot S_sim S_obs S_lqr P_quat P_wheel P_obs P_lqr P_lqr2.
Local Open Scope R_scope.

Definition form (P : M6) (x : V6) : R := dot6 x (mv6 P x).
Definition gain (A : M6) (B : M63) (P : M6) : M36 := mm_36_6 (mm_36_6 (mm_3_36 (inv3 (lqr_S B lqr_R P)) (tr63 B)) P) A.
(** one step of value iteration *)
Definition ric (A : M6) (B : M63) (Q P : M6) : M6 :=
  addm6 (subm6 (mm6 (tr6 A) (mm6 P A)) (mm6 (tr6 A) (mm6 P (mm_63_36 B (gain A B P))))) Q.
Fixpoint iter_ric (A : M6) (B : M63) (Q : M6) (k : nat) : M6 :=
  match k with O => mkB zerom zerom zerom zerom | S k => ric A B Q (iter_ric A B Q k) end.
(** the cost of one step followed by P *)
Definition ahead (A : M6) (B : M63) (Q P : M6) (x : V6) (u : v3) : R :=
  form P (add6 (mv6 A x) (mv63 B u)) + dot3 u (mv lqr_R u) + form Q x.

Lemma mv_63_36 B K x : mv6 (mm_63_36 B K) x = mv63 B (mv36 K x).
Proof. destruct B as [B1 B2], K as [K1 K2], x as [x1 x2]. unfold mv6. unf63. cbn [mm_63_36 b11 b12 b21 b22]. rewrite !mv_mm, !mv_add3. reflexivity. Qed.
Lemma gain_K A B P : psd6 P -> lqr_K A B lqr_R P = Ok (gain A B P).
Proof. intros HP. unfold lqr_K. destruct (Reqb_spec (det3 (lqr_S B lqr_R P)) 0) as [E|N]; [exfalso; revert E; apply lqr_S_det, HP|reflexivity]. Qed.
Lemma ric_mv A B Q P x : mv6 (ric A B Q P) x = add6 (sub6 (mv6 (tr6 A) (mv6 P (mv6 A x))) (mv6 (tr6 A) (mv6 P (mv63 B (mv36 (gain A B P) x))))) (mv6 Q x).
Proof. unfold ric. rewrite mv6_addm, mv6_subm, !mv6_mm, mv_63_36. reflexivity. Qed.
Lemma lqr_S_symm B P u v : symm6 P -> dot3 u (mv (lqr_S B lqr_R P) v) = dot3 v (mv (lqr_S B lqr_R P) u).
Proof.
  intros SY. rewrite !lqr_S_mv, !dot3_add_r, <- !dot63, !lqr_R_mv, (dot6_comm (mv63 B u)), symm6_dot by exact SY. f_equal. vring.
Qed.
Lemma form_sum P a b : symm6 P -> form P (add6 a b) = form P a + 2 * dot6 a (mv6 P b) + form P b.
Proof. intros SY. unfold form. rewrite mv6_add, dot6_add_l, !dot6_add_r, (dot6_comm b (mv6 P a)), symm6_dot by exact SY. ring. Qed.
Lemma square A B Q P x u : symm6 P -> psd6 P -> let d := add3 u (mv36 (gain A B P) x) in
  ahead A B Q P x u = form (ric A B Q P) x + dot3 d (mv (lqr_S B lqr_R P) d).
Proof.
  intros SY HP d. assert (G := lqr_gain A B P x _ (gain_K A B P HP) HP). unfold form. rewrite ric_mv, dot6_add_r, dot6_sub_r, <- !dot6_tr.
  unfold ahead. rewrite form_sum by exact SY. unfold form. set (k := mv36 (gain A B P) x) in *. set (a := mv6 A x) in *. set (g := mv36 (tr63 B) (mv6 P a)) in *.
  assert (T1 : forall v, dot6 a (mv6 P (mv63 B v)) = dot3 v g) by (intros v; rewrite dot6_comm, symm6_dot by exact SY; rewrite dot63; reflexivity).
  rewrite !T1. unfold d. rewrite mv_add3, !dot3_add_l, !dot3_add_r, G, (lqr_S_symm B P k u SY), G. rewrite lqr_S_mv, dot3_add_r, <- dot63. ring.
Qed.
Lemma ric_symm A B Q P : symm6 Q -> symm6 P -> psd6 P -> symm6 (ric A B Q P).
Proof.
  intros SQ SY HP. apply symm6_intro. intros x y. rewrite !ric_mv, dot6_add_l, dot6_add_r, dot6_sub_l, dot6_sub_r.
  assert (G := fun x => lqr_gain A B P x _ (gain_K A B P HP) HP).
  assert (T : forall x y, dot6 x (mv6 (tr6 A) (mv6 P (mv63 B (mv36 (gain A B P) y)))) = dot3 (mv36 (gain A B P) y) (mv (lqr_S B lqr_R P) (mv36 (gain A B P) x))).
  { intros a b. rewrite <- dot6_tr, dot6_comm, symm6_dot by exact SY. rewrite dot63, G. reflexivity. }
  rewrite (dot6_comm (mv6 (tr6 A) (mv6 P (mv63 B (mv36 (gain A B P) x)))) y), !T, (lqr_S_symm B P _ _ SY).
  rewrite (symm6_dot Q x y SQ), (dot6_comm _ y), <- !dot6_tr, (dot6_comm (mv6 A y)), symm6_dot by exact SY. ring.
Qed.
Lemma ric_best A B Q P x : symm6 P -> psd6 P -> ahead A B Q P x (opp3 (mv36 (gain A B P) x)) = form (ric A B Q P) x.
Proof.
  intros SY HP. rewrite square by assumption. cbv zeta. rewrite add3_opp_l, mv_zero3. assert (Z : dot3 (zero3 : v3) zero3 = 0) by vring. lra.
Qed.
Lemma ric_least A B Q P x u : symm6 P -> psd6 P -> form (ric A B Q P) x <= ahead A B Q P x u.
Proof. intros SY HP. rewrite square by assumption. cbv zeta. assert (H := lqr_S_nonneg B P (add3 u (mv36 (gain A B P) x)) HP). lra. Qed.
Lemma R_pos u : 0 <= 625 * dot3 u u /\ dot3 u (mv lqr_R u) = 625 * dot3 u u.
Proof. assert (H := dot3_nonneg u). split; [lra|]. rewrite lqr_R_mv. vring. Qed.
Lemma ric_psd A B Q P : psd6 Q -> symm6 P -> psd6 P -> psd6 (ric A B Q P).
Proof.
  intros HQ SY HP x. fold (form (ric A B Q P) x). rewrite <- ric_best by assumption. unfold ahead.
  set (u := opp3 _). destruct (R_pos u) as [U E]. assert (H := HP (add6 (mv6 A x) (mv63 B u))). assert (H2 := HQ x). unfold form. lra.
Qed.
Lemma ric_mono A B Q P P' : symm6 P -> psd6 P -> symm6 P' -> psd6 P' -> (forall x, form P x <= form P' x) -> forall x, form (ric A B Q P) x <= form (ric A B Q P') x.
Proof.
  intros SY HP SY' HP' H x. rewrite <- (ric_best A B Q P') by assumption. set (u := opp3 _).
  eapply Rle_trans; [apply (ric_least A B Q P x u); assumption|]. unfold ahead. assert (K := H (add6 (mv6 A x) (mv63 B u))). lra.
Qed.
Lemma form_0 P : form P zero6 = 0.
Proof. unfold form. rewrite mv6_zero. unfold dot6. cbn [u1 u2 zero6]. vring. Qed.
Lemma zero_symm : symm6 (mkB zerom zerom zerom zerom).
Proof. unfold symm6, tr6. cbn [b11 b12 b21 b22]. f_equal; vring. Qed.
Lemma zero_form x : form (mkB zerom zerom zerom zerom) x = 0.
Proof. destruct x as [p q]. unfold form, dot6. unf6. rewrite !mv_zerom, !add3_0_r. vring. Qed.
Lemma iter_good A B Q : symm6 Q -> psd6 Q -> forall k, symm6 (iter_ric A B Q k) /\ psd6 (iter_ric A B Q k).
Proof.
  intros SQ HQ k. induction k as [|k [I1 I2]]; cbn [iter_ric].
  - split; [apply zero_symm|]. intros x. fold (form (mkB zerom zerom zerom zerom) x). rewrite zero_form. lra.
  - split; [apply ric_symm; assumption|apply ric_psd; assumption].
Qed.
Lemma iter_grows A B Q : symm6 Q -> psd6 Q -> forall k x, form (iter_ric A B Q k) x <= form (iter_ric A B Q (S k)) x.
Proof.
  intros SQ HQ k. assert (G := iter_good A B Q SQ HQ). induction k as [|k IH]; intros x.
  - change (iter_ric A B Q 0) with (mkB zerom zerom zerom zerom). rewrite zero_form. apply (G 1%nat).
  - exact (ric_mono A B Q _ _ (proj1 (G k)) (proj2 (G k)) (proj1 (G (S k))) (proj2 (G (S k))) IH x).
Qed.
(** ** sequences of matrices converge when their quadratic forms do *)
Definition of3 (b : v3 -> v3 -> R) : m3 := mkm (mk3 (b ex ex) (b ex ey) (b ex ez)) (mk3 (b ey ex) (b ey ey) (b ey ez)) (mk3 (b ez ex) (b ez ey) (b ez ez)).
Lemma of3_mv (m : m3) : of3 (fun x y => dot3 x (mv m y)) = m.
Proof. destruct m as [[a b c] [d e f] [g h i]]. unfold of3, ex, ey, ez. vunfoldg; rnumg. apply mkm_c; apply mk3_c; ring. Qed.
Lemma cv_const c : Un_cv (fun _ => c) c.
Proof. intros e E. exists 0%nat. intros n _. unfold R_dist. rewrite Rminus_eq_0, Rabs_R0. exact E. Qed.
Lemma of3_cv (b : nat -> v3 -> v3 -> R) l : (forall x y, Un_cv (fun k => b k x y) (l x y)) -> forall x y, Un_cv (fun k => dot3 x (mv (of3 (b k)) y)) (dot3 x (mv (of3 l) y)).
Proof.
  intros H [x1 x2 x3'] [z1 z2 z3']. unfold of3. vunfoldg; rnumg.
  repeat apply CV_plus; (apply CV_mult; [apply cv_const|]); repeat apply CV_plus; (apply CV_mult; [apply H|apply cv_const]).
Qed.
Definition up (v : v3) : V6 := mk6 v zero3.
Definition dn (v : v3) : V6 := mk6 zero3 v.
Definition of6 (b : V6 -> V6 -> R) : M6 :=
  mkB (of3 (fun x y => b (up x) (up y))) (of3 (fun x y => b (up x) (dn y))) (of3 (fun x y => b (dn x) (up y))) (of3 (fun x y => b (dn x) (dn y))).
Lemma of3_ext b b' : (forall x y, b x y = b' x y) -> of3 b = of3 b'.
Proof. intros H. unfold of3. rewrite !H. reflexivity. Qed.
Lemma of6_mv (m : M6) : of6 (fun x y => dot6 x (mv6 m y)) = m.
Proof.
  destruct m as [m1 m2 m3' m4]. unfold of6. assert (E : forall (n : m3) b, (forall x y, b x y = dot3 x (mv n y)) -> of3 b = n).
  { intros n b H. rewrite <- (of3_mv n). apply of3_ext, H. }
  f_equal; apply E; intros x y; unfold dot6, up, dn; unf6; rewrite !mv_zero3, ?add3_0_r, ?add3_0_l; generalize (mv m1 y) (mv m2 y) (mv m3' y) (mv m4 y); vring.
Qed.
Lemma of6_cv (b : nat -> V6 -> V6 -> R) l : (forall x y, Un_cv (fun k => b k x y) (l x y)) -> forall x y, Un_cv (fun k => dot6 x (mv6 (of6 (b k)) y)) (dot6 x (mv6 (of6 l) y)).
Proof.
  intros H [x1 x2] [z1 z2]. unfold dot6, of6. unf6.
  assert (E : forall a b c d e f : v3, dot3 a (add3 b c) + dot3 d (add3 e f) = dot3 a b + dot3 a c + (dot3 d e + dot3 d f)) by (intros; vring).
  assert (C := fun p q : v3 -> V6 => of3_cv (fun k x y => b k (p x) (q y)) (fun x y => l (p x) (q y)) (fun x y => H (p x) (q y))).
  intros eps He. destruct (CV_plus _ _ _ _ (CV_plus _ _ _ _ (C up up x1 z1) (C up dn x1 z2)) (CV_plus _ _ _ _ (C dn up x2 z1) (C dn dn x2 z2)) eps He) as (N & HN).
  exists N. intros n Hn. rewrite !E. exact (HN n Hn).
Qed.

(** ** a positive semidefinite form is bounded by its values on the axes *)
Lemma form_scale P k x : form P (scale6 k x) = k * k * form P x.
Proof. unfold form. rewrite mv6_scale. generalize (mv6 P x). intros y. unfold dot6, scale6. cbn [u1 u2]. generalize (u1 x) (u2 x) (u1 y) (u2 y). vring. Qed.
Lemma dot6_scale_r k x y : dot6 x (scale6 k y) = k * dot6 x y.
Proof. unfold dot6, scale6. cbn [u1 u2]. generalize (u1 x) (u2 x) (u1 y) (u2 y). vring. Qed.
Lemma form_two P a b : symm6 P -> psd6 P -> form P (add6 a b) <= 2 * form P a + 2 * form P b.
Proof.
  intros SY HP. assert (H := HP (add6 a (scale6 (-1) b))). fold (form P (add6 a (scale6 (-1) b))) in H. rewrite form_sum in H by exact SY.
  rewrite form_scale, mv6_scale, dot6_scale_r in H. rewrite form_sum by exact SY. lra.
Qed.
Lemma quad3 (f : v3 -> R) : (forall a b, f (add3 a b) <= 2 * f a + 2 * f b) -> (forall k a, f (scale3 k a) = k * k * f a) -> (forall a, 0 <= f a) ->
  forall v, f v <= 4 * dot3 v v * (f ex + f ey + f ez).
Proof.
  intros A S P [p q r]. assert (E : mk3 p q r = add3 (scale3 p ex) (add3 (scale3 q ey) (scale3 r ez))) by (unfold ex, ey, ez; vunfoldg; rnumg; apply mk3_c; ring).
  rewrite E at 1. assert (H1 := A (scale3 p ex) (add3 (scale3 q ey) (scale3 r ez))). assert (H2 := A (scale3 q ey) (scale3 r ez)). rewrite !S in H2. rewrite S in H1.
  assert (X := P ex). assert (Y := P ey). assert (Z := P ez). assert (D : dot3 (mk3 p q r) (mk3 p q r) = p * p + q * q + r * r) by (vunfoldg; rnumg; ring). rewrite D.
  assert (P1 := Rle_0_sqr p). assert (P2 := Rle_0_sqr q). assert (P3 := Rle_0_sqr r). unfold Rsqr in *. set (fx := f ex) in *. set (fy := f ey) in *. set (fz := f ez) in *. clearbody fx fy fz. set (p2 := p * p) in *. set (q2 := q * q) in *. set (rr := r * r) in *. clearbody p2 q2 rr.
  set (g := f (add3 (scale3 q ey) (scale3 r ez))) in *. clearbody g. assert (0 <= p2 * fx) by (apply Rmult_le_pos; assumption). assert (0 <= p2 * fy) by (apply Rmult_le_pos; assumption). assert (0 <= p2 * fz) by (apply Rmult_le_pos; assumption).
  assert (0 <= q2 * fx) by (apply Rmult_le_pos; assumption). assert (0 <= q2 * fz) by (apply Rmult_le_pos; assumption). assert (0 <= rr * fx) by (apply Rmult_le_pos; assumption). assert (0 <= rr * fy) by (apply Rmult_le_pos; assumption). lra.
Qed.
Definition axes_sum (D : M6) : R := form D (up ex) + form D (up ey) + form D (up ez) + (form D (dn ex) + form D (dn ey) + form D (dn ez)).
Lemma form_le D z : symm6 D -> psd6 D -> form D z <= 8 * dot6 z z * axes_sum D.
Proof.
  intros SY HP. destruct z as [a b]. assert (E : mk6 a b = add6 (up a) (dn b)) by (unfold up, dn; unf6; rewrite add3_0_r, add3_0_l; reflexivity).
  assert (H := form_two D (up a) (dn b) SY HP). rewrite <- E in H.
  assert (HU := quad3 (fun v => form D (up v))). assert (HD := quad3 (fun v => form D (dn v))). cbv beta in *.
  assert (U : form D (up a) <= 4 * dot3 a a * (form D (up ex) + form D (up ey) + form D (up ez))).
  { apply HU; clear - SY HP.
    - intros a b. replace (up (add3 a b)) with (add6 (up a) (up b)) by (unfold up; unf6; rewrite add3_0_r; reflexivity). apply form_two; assumption.
    - intros k a. rewrite <- form_scale. f_equal. unfold up, scale6. cbn [u1 u2]. rewrite scale3_zero. reflexivity.
    - intros a. apply HP. }
  assert (V : form D (dn b) <= 4 * dot3 b b * (form D (dn ex) + form D (dn ey) + form D (dn ez))).
  { apply HD; clear - SY HP.
    - intros a b. replace (dn (add3 a b)) with (add6 (dn a) (dn b)) by (unfold dn; unf6; rewrite add3_0_r; reflexivity). apply form_two; assumption.
    - intros k a. rewrite <- form_scale. f_equal. unfold dn, scale6. cbn [u1 u2]. rewrite scale3_zero. reflexivity.
    - intros a. apply HP. }
  clear HU HD. unfold axes_sum, dot6. cbn [u1 u2]. assert (A := dot3_nonneg a). assert (B := dot3_nonneg b).
  assert (P1 : forall v, 0 <= form D v) by (intros v; apply HP).
  assert (X := P1 (up ex)). assert (X2 := P1 (up ey)). assert (X3 := P1 (up ez)). assert (Y := P1 (dn ex)). assert (Y2 := P1 (dn ey)). assert (Y3 := P1 (dn ez)).
  set (s := form D (up ex) + form D (up ey) + form D (up ez)) in *. set (t := form D (dn ex) + form D (dn ey) + form D (dn ez)) in *.
  assert (S0 : 0 <= s) by (unfold s; lra). assert (T0 : 0 <= t) by (unfold t; lra). clearbody s t. set (aa := dot3 a a) in *. set (bb := dot3 b b) in *. clearbody aa bb.
  assert (0 <= aa * t) by (apply Rmult_le_pos; assumption). assert (0 <= bb * s) by (apply Rmult_le_pos; assumption). nra.
Qed.
(** equal forms, equal matrices *)
Lemma form_ext P P' : symm6 P -> symm6 P' -> (forall x, form P x = form P' x) -> P = P'.
Proof.
  intros SY SY' H. apply m6_ext. intros y. apply dot6_ext. intros x. assert (E := H (add6 x y)). rewrite !form_sum in E by assumption. rewrite (H x), (H y) in E. lra.
Qed.
(** ** a solution exists *)
Lemma dare_exists A B Q : symm6 Q -> psd6 Q -> (forall x, exists a b, add6 (mv6 A (add6 (mv6 A x) (mv63 B a))) (mv63 B b) = zero6) ->
  exists P, riccati A B Q lqr_R P /\ forall x, Un_cv (fun k => form (iter_ric A B Q k) x) (form P x).
Proof.
  intros SQ HQ DB. set (T := iter_ric A B Q). assert (G := iter_good A B Q SQ HQ). assert (M := iter_grows A B Q SQ HQ). fold T in G, M.
  assert (GR : forall x, Un_growing (fun k => form (T k) x)) by (intros x k; apply M).
  assert (UB : forall x, exists c, forall k, form (T k) x <= c).
  { intros x. destruct (DB x) as (a & b & E). set (y := add6 (mv6 A x) (mv63 B a)) in *.
    exists (dot3 b (mv lqr_R b) + form Q y + dot3 a (mv lqr_R a) + form Q x). intros k.
    eapply Rle_trans; [apply M|]. eapply Rle_trans; [apply M|]. unfold T. cbn [iter_ric]. fold (T k).
    eapply Rle_trans; [apply (ric_least A B Q (ric A B Q (T k)) x a)|]; [apply (G (S k))|apply (G (S k))|]. unfold ahead. fold y.
    assert (L := ric_least A B Q (T k) y b (proj1 (G k)) (proj2 (G k))). unfold ahead in L. rewrite E, form_0 in L. lra. }
  assert (UB' : forall x, has_ub (fun k => form (T k) x)).
  { intros x. destruct (UB x) as (c & H). exists c. intros r (k & ->). apply H. }
  set (L := fun x => proj1_sig (growing_cv _ (GR x) (UB' x))).
  assert (HL : forall x, Un_cv (fun k => form (T k) x) (L x)) by (intros x; exact (proj2_sig (growing_cv _ (GR x) (UB' x)))).
  set (b := fun x y => (L (add6 x y) - L x - L y) / 2).
  assert (HB : forall x y, Un_cv (fun k => dot6 x (mv6 (T k) y)) (b x y)).
  { intros x y eps He. destruct (CV_mult _ _ _ _ (CV_minus _ _ _ _ (CV_minus _ _ _ _ (HL (add6 x y)) (HL x)) (HL y)) (cv_const (/ 2)) eps He) as (N & HN).
    exists N. intros n Hn. specialize (HN n Hn). cbv beta in HN. rewrite form_sum in HN by apply (G n). unfold b.
    replace (dot6 x (mv6 (T n) y)) with ((form (T n) x + 2 * dot6 x (mv6 (T n) y) + form (T n) y - form (T n) x - form (T n) y) * / 2) by field. exact HN. }
  set (P := of6 b).
  assert (HP : forall x y, Un_cv (fun k => dot6 x (mv6 (T k) y)) (dot6 x (mv6 P y))).
  { intros x y eps He. destruct (of6_cv _ _ HB x y eps He) as (N & HN). exists N. intros n Hn. specialize (HN n Hn). cbv beta in HN. rewrite of6_mv in HN. exact HN. }
  assert (HF : forall x, Un_cv (fun k => form (T k) x) (form P x)) by (intros x; apply HP).
  assert (SY : symm6 P).
  { apply symm6_intro. intros x y. rewrite dot6_comm. apply (UL_sequence (fun k => dot6 y (mv6 (T k) x))); [apply HP|].
    intros eps He. destruct (HP x y eps He) as (N & HN). exists N. intros n Hn. specialize (HN n Hn). rewrite dot6_comm, symm6_dot by apply (G n). exact HN. }
  assert (UP : forall k x, form (T k) x <= form P x) by (intros k x; exact (growing_ineq _ _ (GR x) (HF x) k)).
  assert (PS : psd6 P). { intros x. assert (H := UP 0%nat x). unfold T in H. cbn [iter_ric] in H. rewrite zero_form in H. exact H. }
  assert (LE : forall x, form P x <= form (ric A B Q P) x).
  { intros x. apply (Rle_cv_lim (Un := fun k => form (T (S k)) x) (Vn := fun _ => form (ric A B Q P) x)).
    - intros k. exact (ric_mono A B Q (T k) P (proj1 (G k)) (proj2 (G k)) SY PS (UP k) x).
    - intros eps He. destruct (HF x eps He) as (N & HN). exists N. intros n Hn. apply HN. lia.
    - apply cv_const. }
  assert (GE : forall x, form (ric A B Q P) x <= form P x).
  { intros x. destruct (bounded3 (mm_36_63 (tr63 B) B)) as (c & Hc & BB).
    set (rr := 2 * dot6 (mv6 A x) (mv6 A x) + 2 * (2 * c * (form P x / 625))).
    assert (KEY : forall k, form (ric A B Q P) x <= form P x + 8 * rr * axes_sum (subm6 P (T k))).
    { intros k. set (u := opp3 (mv36 (gain A B (T k)) x)). assert (E := ric_best A B Q (T k) x (proj1 (G k)) (proj2 (G k))). fold u in E.
      assert (LS := ric_least A B Q P x u SY PS). unfold ahead in E, LS. set (z := add6 (mv6 A x) (mv63 B u)) in *. destruct (R_pos u) as [RU RE].
      assert (US := UP (S k) x). unfold T in US. cbn [iter_ric] in US. fold (T k) in US.
      assert (F0 : 0 <= form (T k) z) by apply (G k). assert (Q0 : 0 <= form Q x) by apply HQ.
      assert (UU : dot3 u u <= form P x / 625) by lra.
      assert (DS : symm6 (subm6 P (T k))).
      { apply symm6_intro. intros p q. rewrite !mv6_subm, dot6_sub_l, dot6_sub_r, (symm6_dot P), (symm6_dot (T k)); [reflexivity|apply (G k)|exact SY]. }
      assert (DF : forall v, form (subm6 P (T k)) v = form P v - form (T k) v) by (intros v; unfold form; rewrite mv6_subm, dot6_sub_r; reflexivity).
      assert (DP : psd6 (subm6 P (T k))) by (intros v; fold (form (subm6 P (T k)) v); rewrite DF; assert (H := UP k v); lra).
      assert (FL := form_le (subm6 P (T k)) z DS DP). rewrite DF in FL.
      assert (ZZ : dot6 z z <= rr).
      { assert (I1 : symm6 id6) by (apply symm6_intro; intros p q; rewrite !mv6_id; reflexivity). assert (I2 : psd6 id6) by (intros v; rewrite mv6_id; apply dot6_nonneg).
        assert (H := form_two id6 (mv6 A x) (mv63 B u) I1 I2). unfold form in H. rewrite !mv6_id in H. fold z in H.
        rewrite (dot63 B u), <- mv_36_63 in H. assert (H2 := BB u u). unfold rr. assert (c * (dot3 u u + dot3 u u) <= 2 * c * (form P x / 625)) by nra. lra. }
      assert (AX : 0 <= axes_sum (subm6 P (T k))).
      { unfold axes_sum. assert (P1 : forall v, 0 <= form (subm6 P (T k)) v) by (intros v; apply DP). assert (X := P1 (up ex)). assert (X2 := P1 (up ey)). assert (X3 := P1 (up ez)). assert (Y := P1 (dn ex)). assert (Y2 := P1 (dn ey)). assert (Y3 := P1 (dn ez)). lra. }
      assert (8 * dot6 z z * axes_sum (subm6 P (T k)) <= 8 * rr * axes_sum (subm6 P (T k))) by (apply Rmult_le_compat_r; [exact AX|lra]). lra. }
    assert (CV : Un_cv (fun k => form P x + 8 * rr * axes_sum (subm6 P (T k))) (form P x)).
    { assert (CD : forall v, Un_cv (fun k => form (subm6 P (T k)) v) 0).
      { intros v eps He. destruct (HF v eps He) as (N & HN). exists N. intros n Hn. specialize (HN n Hn). unfold R_dist in *. rewrite Rminus_0_r.
        replace (form (subm6 P (T n)) v) with (form P v - form (T n) v) by (unfold form; rewrite mv6_subm, dot6_sub_r; reflexivity). rewrite Rabs_minus_sym. exact HN. }
      assert (CA := CV_plus _ _ _ _ (CV_plus _ _ _ _ (CV_plus _ _ _ _ (CD (up ex)) (CD (up ey))) (CD (up ez))) (CV_plus _ _ _ _ (CV_plus _ _ _ _ (CD (dn ex)) (CD (dn ey))) (CD (dn ez)))).
      intros eps He. destruct (CV_plus _ _ _ _ (cv_const (form P x)) (CV_mult _ _ _ _ (cv_const (8 * rr)) CA) eps He) as (N & HN). exists N. intros n Hn. specialize (HN n Hn). cbv beta in HN.
      replace (form P x + 8 * rr * (0 + 0 + 0 + (0 + 0 + 0))) with (form P x) in HN by ring. exact HN. }
    apply (Rle_cv_lim (Un := fun _ => form (ric A B Q P) x) (Vn := fun k => form P x + 8 * rr * axes_sum (subm6 P (T k)))); [exact KEY|apply cv_const|exact CV]. }
  exists P. split; [|exact HF]. split; [exact SY|]. split; [exact PS|].
  assert (EP : P = ric A B Q P) by (apply form_ext; [exact SY|apply ric_symm; assumption|intros x; apply Rle_antisym; [apply LE|apply GE]]).
  exists (inv3 (lqr_S B lqr_R P)). destruct (mm_inv3 _ (lqr_S_det B P PS)) as [_ I]. split.
  - intros u. rewrite <- lqr_S_mv, <- mv_mm, I. apply mv_id3.
  - intros x. rewrite EP at 1. rewrite ric_mv. unfold gain. rewrite !mv_36_6, mv_3_36. reflexivity.
Qed.
(** ** and only one *)
Lemma dare_unique A B Q P P' m : 0 < m -> (forall x, m * dot6 x x <= dot6 x (mv6 Q x)) -> riccati A B Q lqr_R P -> riccati A B Q lqr_R P' -> P = P'.
Proof.
  intros Hm HQ. assert (W : forall P P', riccati A B Q lqr_R P -> riccati A B Q lqr_R P' -> forall x, form P' x <= form P x).
  { clear P P'. intros P P' HR HR' x. assert (PS : psd6 P) by apply HR. assert (PS' : psd6 P') by apply HR'.
    destruct (lqr_decay A B Q P (gain A B P) m HR (gain_K A B P PS) Hm HQ) as (C & rho & HC & Hr & HB).
    destruct (optimal_cost A B Q P (gain A B P) x HR (gain_K A B P PS)) as [_ EQ].
    destruct (optimal_cost A B Q P' (gain A B P') x HR' (gain_K A B P' PS')) as [LE _].
    set (u := fun n => opp3 (mv36 (gain A B P) (looped A B (gain A B P) x n))) in *.
    assert (ED : forall n, looped A B (gain A B P) x n = driven A B u x n) by (intros n; apply looped_driven).
    assert (EC : forall n, cost Q lqr_R (looped A B (gain A B P) x) u n = cost Q lqr_R (driven A B u x) u n).
    { intros n. induction n as [|n IH]; [reflexivity|]. cbn [cost]. rewrite IH, ED. reflexivity. }
    destruct (bounded6 P') as (c & Hc & BP).
    assert (Z := decay_dies C rho _ (dot6 x x) HC Hr (dot6_nonneg x) (fun n => conj (dot6_nonneg (looped A B (gain A B P) x n)) (HB x n))).
    apply Rnot_lt_le. intros LT. destruct (Z ((form P' x - form P x) / c)) as (N & HN); [apply Rdiv_lt_0_compat; lra|].
    specialize (HN N (Nat.le_refl N)). unfold R_dist in HN. rewrite Rminus_0_r in HN. set (y := looped A B (gain A B P) x N) in *.
    specialize (EQ N). specialize (LE u N). rewrite <- EC, <- ED in LE. fold y in EQ, LE. assert (Py := PS y). assert (By := BP y). rewrite Rabs_right in HN by (assert (T := dot6_nonneg y); lra).
    apply (Rmult_lt_compat_l c) in HN; [|exact Hc]. replace (c * ((form P' x - form P x) / c)) with (form P' x - form P x) in HN by (field; lra). unfold form in *. lra. }
  intros HR HR'. apply form_ext; [apply HR|apply HR'|]. intros x. apply Rle_antisym; apply W; assumption.
Qed.
