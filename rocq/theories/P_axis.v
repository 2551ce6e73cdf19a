(** * Lemmas: the symmetries of the linear-quadratic gain *)
From Coq Require Import Reals Lra Psatz Lia.
From Verif Require Import Num Vec Mat6 M_struct M_sim M_lqr S_rot S_sim S_obs S_lqr P_quat P_wheel P_obs P_lqr P_lqr2 P_dare Props_lqr Props_dare.
Local Open Scope R_scope.

Definition both (D : m3) (x : V6) : V6 := mk6 (mv D (u1 x)) (mv D (u2 x)).
Definition conj6 (D : m3) (P : M6) : M6 :=
  mkB (mm (tr3 D) (mm (b11 P) D)) (mm (tr3 D) (mm (b12 P) D)) (mm (tr3 D) (mm (b21 P) D)) (mm (tr3 D) (mm (b22 P) D)).
Lemma mv_add3 (m : m3) (a b : v3) : mv m (add3 a b) = add3 (mv m a) (mv m b). Proof. vring. Qed.
Lemma mv_sub3 (m : m3) (a b : v3) : mv m (sub3 a b) = sub3 (mv m a) (mv m b). Proof. vring. Qed.
Lemma conj6_mv D P x : mv6 (conj6 D P) x = both (tr3 D) (mv6 P (both D x)).
Proof. destruct x as [a b], P as [p q r s]. unfold conj6, both. unf6. rewrite !mv_mm, !mv_add3. reflexivity. Qed.
Lemma both_dot D x y : dot6 (both (tr3 D) x) y = dot6 x (both D y).
Proof. destruct x as [a b], y as [c d]. unfold both, dot6. cbn [u1 u2]. f_equal; destruct D as [[? ? ?] [? ? ?] [? ? ?]], a as [? ? ?], b as [? ? ?], c as [? ? ?], d as [? ? ?]; vring. Qed.
Lemma both_add D x y : both D (add6 x y) = add6 (both D x) (both D y).
Proof. destruct x as [a b], y as [c d]. unfold both. unf6. rewrite !mv_add3. reflexivity. Qed.
Lemma both_sub D x y : both D (sub6 x y) = sub6 (both D x) (both D y).
Proof. destruct x as [a b], y as [c d]. unfold both. unf6. rewrite !mv_sub3. reflexivity. Qed.
Lemma tr_mm (a b : m3) : tr3 (mm a b) = mm (tr3 b) (tr3 a).
Proof. destruct a as [[? ? ?] [? ? ?] [? ? ?]], b as [[? ? ?] [? ? ?] [? ? ?]]. vring. Qed.
Lemma tr_scalem k (a : m3) : tr3 (scalem k a) = scalem k (tr3 a).
Proof. destruct a as [[? ? ?] [? ? ?] [? ? ?]]. reflexivity. Qed.
Lemma tr_conj (D X : m3) : tr3 (mm (tr3 D) (mm X D)) = mm (tr3 D) (mm (tr3 X) D).
Proof. destruct D as [[? ? ?] [? ? ?] [? ? ?]], X as [[? ? ?] [? ? ?] [? ? ?]]. vring. Qed.
Lemma conj6_symm D P : symm6 P -> symm6 (conj6 D P).
Proof.
  unfold symm6. intros H. destruct P as [p q r s]. unfold conj6, tr6 in *. cbn [b11 b12 b21 b22] in *. rewrite !tr_conj. injection H as H1 H2 H3 H4. rewrite H1, H2, H3, H4. reflexivity.
Qed.
Section Sym.
Variable D : m3.
Hypothesis O1 : mm (tr3 D) D = id3.
Hypothesis O2 : mm D (tr3 D) = id3.
Lemma DtD v : mv (tr3 D) (mv D v) = v. Proof. rewrite <- mv_mm, O1. apply mv_id3. Qed.
Lemma DDt v : mv D (mv (tr3 D) v) = v. Proof. rewrite <- mv_mm, O2. apply mv_id3. Qed.
Lemma TtT x : both (tr3 D) (both D x) = x. Proof. destruct x as [a b]. unfold both. cbn [u1 u2]. rewrite !DtD. reflexivity. Qed.
Lemma TTt x : both D (both (tr3 D) x) = x. Proof. destruct x as [a b]. unfold both. cbn [u1 u2]. rewrite !DDt. reflexivity. Qed.
Variable A Q : M6.
Variable B : M63.
Hypothesis CA : forall x, mv6 A (both D x) = both D (mv6 A x).
Hypothesis CAt : forall x, mv6 (tr6 A) (both (tr3 D) x) = both (tr3 D) (mv6 (tr6 A) x).
Hypothesis CQ : forall x, mv6 Q (both D x) = both D (mv6 Q x).
Hypothesis CB : forall u, mv63 B (mv D u) = both D (mv63 B u).
Hypothesis CBt : forall x, mv36 (tr63 B) (both D x) = mv D (mv36 (tr63 B) x).
Lemma lqrR_D u : mv lqr_R (mv D u) = mv D (mv lqr_R u).
Proof. rewrite !lqr_R_mv, mv_scale3. reflexivity. Qed.
Lemma conj_riccati P : riccati A B Q lqr_R P -> riccati A B Q lqr_R (conj6 D P).
Proof.
  intros (Hs & Hp & Si & HS & E). assert (CBt' : forall x, mv D (mv36 (tr63 B) (both (tr3 D) x)) = mv36 (tr63 B) x) by (intros x; rewrite <- CBt, TTt; reflexivity).
  split; [|split].
  - apply conj6_symm, Hs.
  - intros x. rewrite conj6_mv, dot6_comm, both_dot, dot6_comm. apply Hp.
  - exists (mm (tr3 D) (mm Si D)). split.
    + intros u. rewrite !mv_mm, mv_add3, conj6_mv, CBt', <- CB, <- lqrR_D, HS. apply DtD.
    + intros x. rewrite !conj6_mv. rewrite (E (both D x)). rewrite !both_add, both_sub. rewrite <- !CAt. rewrite !CA, !mv_mm, !CBt'.
      rewrite CQ, TtT. rewrite <- CB, DDt. reflexivity.
Qed.
Lemma conj_gain P K m : 0 < m -> (forall x, m * dot6 x x <= dot6 x (mv6 Q x)) -> riccati A B Q lqr_R P -> lqr_K A B lqr_R P = Ok K ->
  forall x, mv36 K (both D x) = mv D (mv36 K x).
Proof.
  intros Hm QL HR HK x. assert (HP : psd6 P) by (destruct HR as (_ & H & _); exact H).
  assert (E : P = conj6 D P) by (apply (dare_unique A B Q P _ m Hm QL HR), conj_riccati, HR).
  assert (CP : forall y, mv6 P (both D y) = both D (mv6 P y)).
  { intros y. rewrite E at 2. rewrite conj6_mv, TTt. reflexivity. }
  assert (ND := lqr_S_det B P HP). assert (J : forall a b, mv (lqr_S B lqr_R P) a = mv (lqr_S B lqr_R P) b -> a = b).
  { intros a b H. rewrite <- (inv3_mv _ a ND), H. apply inv3_mv, ND. }
  apply J. rewrite (lqr_gain A B P _ K HK HP). assert (SD : forall u, mv (lqr_S B lqr_R P) (mv D u) = mv D (mv (lqr_S B lqr_R P) u)).
  { intros u. rewrite !lqr_S_mv, mv_add3, lqrR_D, CB, CP, CBt. reflexivity. }
  rewrite SD, (lqr_gain A B P _ K HK HP), CA, CP, CBt. reflexivity.
Qed.
End Sym.
(** ** the satellite's matrices commute with every rotation or reflection that the inertia commutes with *)
Lemma design_conj J Ts D : det3 J <> 0 -> mm (tr3 D) D = id3 -> mm D (tr3 D) = id3 -> mm D J = mm J D ->
  (forall x, mv6 (design_A Ts) (both D x) = both D (mv6 (design_A Ts) x)) /\
  (forall x, mv6 (tr6 (design_A Ts)) (both (tr3 D) x) = both (tr3 D) (mv6 (tr6 (design_A Ts)) x)) /\
  (forall e w x, mv6 (weight_x e w) (both D x) = both D (mv6 (weight_x e w) x)) /\
  (forall u, mv63 (design_B Ts J) (mv D u) = both D (mv63 (design_B Ts J) u)) /\
  (forall x, mv36 (tr63 (design_B Ts J)) (both D x) = mv D (mv36 (tr63 (design_B Ts J)) x)).
Proof.
  intros DJ O1 O2 C. assert (CI : forall u, mv (inv3 J) (mv D u) = mv D (mv (inv3 J) u)).
  { intros u. destruct (mm_inv3 J DJ) as [I1 I2]. assert (X : mv D u = mv J (mv D (mv (inv3 J) u))) by (rewrite <- (mv_mm J D), <- C, mv_mm, <- (mv_mm J), I1, mv_id3; reflexivity).
    rewrite X, <- (mv_mm (inv3 J) J), I2, mv_id3. reflexivity. }
  assert (CT : forall u, mv (tr3 (inv3 J)) (mv D u) = mv D (mv (tr3 (inv3 J)) u)).
  { intros u. assert (M : mm (inv3 J) D = mm D (inv3 J)) by (apply m3_ext; intros x; rewrite !mv_mm; apply CI). assert (M' := f_equal tr3 M). rewrite !tr_mm in M'.
    rewrite <- (DDt D O2 (mv (tr3 (inv3 J)) (mv D u))). rewrite <- (mv_mm (tr3 D) (tr3 (inv3 J))), M', mv_mm, (DtD D O1). reflexivity. }
  split; [|split; [|split; [|split]]].
  - intros [a b]. unfold design_A, both. unf6. rewrite !mv_scalem, !mv_id3, !mv_zerom, !mv_add3, mv_scale3, mv_zero3. reflexivity.
  - intros [a b]. unfold design_A, both. unf6. replace (tr3 (scalem (Ts / 2) id3)) with (scalem (Ts / 2) (id3 : m3)) by (unfold scalem, tr3, id3; vunfoldg; rnumg; apply mkm_c; apply mk3_c; ring).
    replace (tr3 (id3 : m3)) with (id3 : m3) by reflexivity. replace (tr3 (zerom : m3)) with (zerom : m3) by reflexivity.
    rewrite !mv_scalem, !mv_id3, !mv_zerom, !mv_add3, mv_scale3, mv_zero3. reflexivity.
  - intros e w [a b]. unfold weight_x, both. unf6. rewrite !mv_scalem, !mv_id3, !mv_zerom, !mv_add3, !mv_scale3, mv_zero3. reflexivity.
  - intros u. unfold design_B, both. unf63. rewrite !mv_scalem, CI, !mv_scale3. reflexivity.
  - intros [a b]. unfold design_B, both. unf63. rewrite !tr_scalem, !mv_scalem, !CT, mv_add3, !mv_scale3. reflexivity.
Qed.
(** ** principal axes *)
Definition mirror (n : v3) : m3 := subm id3 (scalem 2 (outer3 n n)).
Lemma mirror_mv n v : mv (mirror n) v = sub3 v (scale3 (2 * dot3 n v) n).
Proof. unfold mirror. destruct n as [a b c], v as [p q r]. vunfoldg; rnumg; apply mk3_c; ring. Qed.
Lemma mirror_tr n : tr3 (mirror n) = mirror n.
Proof. unfold mirror. destruct n as [a b c]. vunfoldg; rnumg. apply mkm_c; apply mk3_c; ring. Qed.
Lemma mirror_sq n : unit3 n -> mm (mirror n) (mirror n) = id3.
Proof.
  intros U. apply m3_ext. intros v. rewrite mv_mm, !mirror_mv, mv_id3. unfold unit3 in U.
  replace (dot3 n (sub3 v (scale3 (2 * dot3 n v) n))) with (dot3 n v - 2 * dot3 n v * dot3 n n) by (set (k := dot3 n v); replace k with (dot3 n v) at 1 by reflexivity; clearbody k; vring).
  rewrite U. set (k := dot3 n v). clearbody k. destruct n as [a b c], v as [p q r]. vunfoldg; rnumg; apply mk3_c; ring.
Qed.
(** n is a principal axis of J with the moment j *)
Definition principal (J : m3) (n : v3) (j : R) : Prop := unit3 n /\ mv J n = scale3 j n /\ mv (tr3 J) n = scale3 j n.
Lemma mirror_commutes J n j : principal J n j -> mm (mirror n) J = mm J (mirror n).
Proof.
  intros (U & E1 & E2). apply m3_ext. intros v. rewrite !mv_mm, !mirror_mv, mv_sub3, mv_scale3, E1.
  assert (X : dot3 n (mv J v) = j * dot3 n v). { rewrite dot_comm3, dot_tr, E2, dot_comm3. set (w := v). clearbody w. vring. }
  rewrite X. set (k := dot3 n v). set (y := mv J v). clearbody k y. vring.
Qed.
Lemma axis_gain J Ts e w P Kq Kw n j : det3 J <> 0 -> e <> 0 -> w <> 0 -> principal J n j ->
  riccati (design_A Ts) (design_B Ts J) (weight_x e w) weight_u P -> lqr_K (design_A Ts) (design_B Ts J) weight_u P = Ok (mkK Kq Kw) ->
  mv Kq n = scale3 (dot3 n (mv Kq n)) n /\ mv Kw n = scale3 (dot3 n (mv Kw n)) n.
Proof.
  intros DJ NE NW HN HR HK. destruct (weight_low e w NE NW) as (m & Hm & QL). rewrite <- lqr_R_eq in HR, HK. pose proof HN as (U & _ & _).
  assert (O : mm (mirror n) (mirror n) = id3) by (apply mirror_sq, U).
  assert (O1 : mm (tr3 (mirror n)) (mirror n) = id3) by (rewrite mirror_tr; exact O). assert (O2 : mm (mirror n) (tr3 (mirror n)) = id3) by (rewrite mirror_tr; exact O).
  destruct (design_conj J Ts (mirror n) DJ O1 O2 (mirror_commutes J n j HN)) as (CA & CAt & CQ & CB & CBt).
  assert (G := conj_gain (mirror n) O1 O2 (design_A Ts) (weight_x e w) (design_B Ts J) CA CAt (CQ e w) CB CBt P (mkK Kq Kw) m Hm QL HR HK).
  assert (MN : mv (mirror n) n = scale3 (-1) n) by (rewrite mirror_mv; unfold unit3 in U; rewrite U; vring). assert (MZ : mv (mirror n) zero3 = zero3) by apply mv_zero3.
  assert (F : forall K : m3, mv K (scale3 (-1) n) = mv (mirror n) (mv K n) -> mv K n = scale3 (dot3 n (mv K n)) n).
  { intros K H. rewrite mv_scale3, mirror_mv in H. set (y := mv K n) in *. set (k := dot3 n y) in *. clearbody y k. destruct y as [a b c], n as [p q r]. revert H. vunfoldg; rnumg. intros H. apply mk3_inj in H. destruct H as (A & B & C). apply mk3_c; lra. }
  split; apply F.
  - specialize (G (mk6 n zero3)). unfold both in G. cbn [u1 u2] in G. rewrite MN, MZ in G. unfold mv36 in G. cbn [u1 u2 k1 k2] in G. rewrite !mv_zero3, !add3_0_r in G. exact G.
  - specialize (G (mk6 zero3 n)). unfold both in G. cbn [u1 u2] in G. rewrite MN, MZ in G. unfold mv36 in G. cbn [u1 u2 k1 k2] in G. rewrite !mv_zero3, !add3_0_l in G. exact G.
Qed.
(** ** the signs of the gains about a principal axis *)
Lemma axis_kq_pos J Ts Kq Kw n j kq kw : det3 J <> 0 -> 0 < Ts -> 0 < j -> principal J n j -> mv Kq n = scale3 kq n -> mv Kw n = scale3 kw n ->
  dies_out (looped (design_A Ts) (design_B Ts J) (mkK Kq Kw)) -> 0 < kq.
Proof.
  intros DJ HT Hj (U & EJ & _) EQ EW D.
  assert (EA : smp_A Ts 1 = design_A Ts) by (unfold smp_A, design_A; f_equal; f_equal; ring). assert (EB : smp_B Ts 1 (inv3 J) = design_B Ts J) by (unfold smp_B, design_B; f_equal; f_equal; ring).
  rewrite <- EA, <- EB in D. assert (NN : n <> zero3) by (intros ->; revert U; unfold unit3; vunfoldg; rnumg; lra).
  destruct (Rtotal_order 0 kq) as [H|[H|H]]; [exact H|exfalso|exfalso].
  - apply (no_mode _ _ _ 1 (mk6 n zero3) D); [lra|intros X; apply NN; exact (f_equal u1 X)|].
    rewrite mode_fixed; [destruct n as [n1 n2 n3]; unf6; f_equal; vring|]. rewrite EQ, <- H. vring.
  - (* a real root mu > 0 of j mu^2 + (Ts kw + Ts^2/4 kq) mu + Ts^2/2 kq *)
    set (b := Ts * kw + Ts ^ 2 / 4 * kq). set (c := Ts ^ 2 / 2 * kq). assert (EB0 : b = Ts * kw + Ts ^ 2 / 4 * kq) by reflexivity. assert (EC0 : c = Ts ^ 2 / 2 * kq) by reflexivity. assert (HC : c < 0) by (assert (T2 : 0 < Ts ^ 2) by (apply pow_lt, HT); rewrite EC0; assert (0 < Ts ^ 2 * (- kq)) by (apply Rmult_lt_0_compat; lra); lra). assert (JC : 0 < j * (- c)) by (apply Rmult_lt_0_compat; lra). assert (BB : 0 <= b * b) by apply Rle_0_sqr. clearbody b c.
    set (q := sqrt (b * b - 4 * j * c)). assert (Q2 : q * q = b * b - 4 * j * c) by (apply sqrt_def; lra). assert (Q0 : 0 <= q) by apply sqrt_pos.
    assert (QB : b < q) by nra. set (mu := (q - b) / (2 * j)). assert (HM : 0 < mu) by (apply Rdiv_lt_0_compat; lra).
    assert (R0 : j * mu ^ 2 + b * mu + c = 0).
    { unfold mu. replace (j * ((q - b) / (2 * j)) ^ 2 + b * ((q - b) / (2 * j)) + c) with ((q * q - b * b + 4 * j * c) / (4 * j)) by (field; lra). rewrite Q2. field. lra. }
    apply (no_mode _ _ _ (1 + mu) (mk6 (scale3 (1 * Ts * (mu + 2) / (4 * mu)) n) n) D); [lra|intros X; apply NN; exact (f_equal u2 X)|].
    apply mode_from_pencil; try assumption; try lra. unfold pencil. rewrite !mv_addm, !mv_scalem, EJ, EQ, EW.
    assert (X : mu ^ 2 * j + Ts * mu * kw + 1 * (Ts ^ 2 / 4) * (mu + 2) * kq = 0) by (rewrite <- R0; rewrite EB0, EC0; field).
    clearbody mu. destruct n as [n1 n2 n3]. vunfoldg; rnumg. apply mk3_c; [replace 0 with (n1 * 0) by ring|replace 0 with (n2 * 0) by ring|replace 0 with (n3 * 0) by ring]; rewrite <- X; ring.
Qed.
(** the motion in the plane of a principal axis: two scalars *)
Lemma plane_step J Ts Kq Kw n j kq kw al be : det3 J <> 0 -> j <> 0 -> principal J n j -> mv Kq n = scale3 kq n -> mv Kw n = scale3 kw n ->
  one_step (design_A Ts) (design_B Ts J) (mkK Kq Kw) (mk6 (scale3 al n) (scale3 be n)) =
  mk6 (scale3 (al + Ts / 2 * be - Ts ^ 2 / 4 * ((kq * al + kw * be) / j)) n) (scale3 (be - Ts * ((kq * al + kw * be) / j)) n).
Proof.
  intros DJ NJ (U & EJ & _) EQ EW. assert (EI : mv (inv3 J) n = scale3 (/ j) n).
  { replace n with (mv J (scale3 (/ j) n)) at 1; [apply inv3_mv, DJ|]. rewrite mv_scale3, EJ. destruct n as [n1 n2 n3]. vunfoldg; rnumg; apply mk3_c; field; exact NJ. }
  unfold one_step, design_A, design_B. unf63. rewrite !mv_scale3, EQ, EW. set (u := opp3 _).
  assert (EU : u = scale3 (- (kq * al + kw * be)) n) by (unfold u; vring). rewrite EU, !mv_scalem, !mv_scale3, EI. unf6.
  rewrite !mv_scalem, !mv_id3, mv_zerom. f_equal; destruct n as [n1 n2 n3]; vunfoldg; rnumg; apply mk3_c; field; exact NJ.
Qed.
Lemma axis_kw_pos J Ts Kq Kw n j kq kw : det3 J <> 0 -> 0 < Ts -> 0 < j -> principal J n j -> mv Kq n = scale3 kq n -> mv Kw n = scale3 kw n ->
  dies_out (looped (design_A Ts) (design_B Ts J) (mkK Kq Kw)) -> 0 < kq -> Ts / 4 * kq < kw.
Proof.
  intros DJ HT Hj HN EQ EW D HQ. pose proof HN as (U & _ & _). set (A := design_A Ts) in *. set (B := design_B Ts J) in *. set (K := mkK Kq Kw) in *.
  set (m11 := 1 - Ts ^ 2 / 4 * (kq / j)). set (m12 := Ts / 2 - Ts ^ 2 / 4 * (kw / j)). set (m21 := - (Ts * (kq / j))). set (m22 := 1 - Ts * (kw / j)).
  set (det := m11 * m22 - m12 * m21).
  assert (ST : forall al be, one_step A B K (mk6 (scale3 al n) (scale3 be n)) = mk6 (scale3 (m11 * al + m12 * be) n) (scale3 (m21 * al + m22 * be) n)).
  { intros al be. unfold A, B, K. rewrite (plane_step J Ts Kq Kw n j kq kw al be DJ ltac:(lra) HN EQ EW). f_equal; f_equal; unfold m11, m12, m21, m22; field; lra. }
  assert (RUN : forall k, exists a b c d, looped A B K (mk6 (scale3 1 n) (scale3 0 n)) k = mk6 (scale3 a n) (scale3 b n) /\
     looped A B K (mk6 (scale3 0 n) (scale3 1 n)) k = mk6 (scale3 c n) (scale3 d n) /\ a * d - b * c = det ^ k).
  { induction k as [|k (a & b & c & d & H1 & H2 & H3)]; [exists 1, 0, 0, 1; split; [reflexivity|split; [reflexivity|cbn; ring]]|].
    exists (m11 * a + m12 * b), (m21 * a + m22 * b), (m11 * c + m12 * d), (m21 * c + m22 * d). cbn [looped pow]. rewrite H1, H2.
    split; [exact (ST a b)|]. split; [exact (ST c d)|]. rewrite <- H3. unfold det. ring. }
  apply Rnot_le_lt. intros Z. assert (HD : 1 <= det).
  { assert (W : det = 1 + (Ts / 4 * kq - kw) * (Ts / j)) by (unfold det, m11, m12, m21, m22; field; lra). rewrite W. assert (0 < Ts / j) by (apply Rdiv_lt_0_compat; lra). nra. }
  destruct (D (mk6 (scale3 1 n) (scale3 0 n)) (1 / 4) ltac:(lra)) as (N1 & C1). destruct (D (mk6 (scale3 0 n) (scale3 1 n)) (1 / 4) ltac:(lra)) as (N2 & C2).
  specialize (C1 (N1 + N2)%nat ltac:(lia)). specialize (C2 (N1 + N2)%nat ltac:(lia)). destruct (RUN (N1 + N2)%nat) as (a & b & c & d & H1 & H2 & H3). rewrite H1 in C1. rewrite H2 in C2.
  assert (DD : forall p q, dot6 (mk6 (scale3 p n) (scale3 q n)) (mk6 (scale3 p n) (scale3 q n)) = p * p + q * q).
  { intros p q. unfold dot6. cbn [u1 u2]. replace (dot3 (scale3 p n) (scale3 p n)) with (p * p * dot3 n n) by vring. replace (dot3 (scale3 q n) (scale3 q n)) with (q * q * dot3 n n) by vring. unfold unit3 in U. rewrite U. ring. }
  rewrite DD in C1, C2. unfold R_dist in C1, C2. rewrite Rminus_0_r in C1, C2. rewrite Rabs_right in C1 by nra. rewrite Rabs_right in C2 by nra.
  assert (P1 : 1 <= det ^ (N1 + N2)) by (apply pow_R1_Rle, HD). rewrite <- H3 in P1.
  assert (0 <= (a - d) * (a - d)) by apply Rle_0_sqr. assert (0 <= (b + c) * (b + c)) by apply Rle_0_sqr. lra.
Qed.
