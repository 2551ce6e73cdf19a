(** * Lemmas: the gains are close to the same multiple of the identity *)
From Coq Require Import Reals Lra Psatz Lia.
From Verif Require Import Num Vec Mat6 M_vector M_quaternion M_obs S_rot S_obs S_steady P_quat P_wheel P_dyn P_dyn2 P_obs P_obs3 P_steady Props_obs P_farr P_est1 P_est2 P_est3 P_tot3 P_orb3 P_tri1 P_tri2.
Local Open Scope R_scope.

(** the scalar update as a minimum, over vectors *)
Lemma nx_best3 h a c d Rv p q r : 0 < Rv -> 0 < pre_p h a p q r ->
  forall u x, let F := fm3 (nx_p h a Rv p q r) (nx_q h a c Rv p q r) (nx_r h a c d Rv p q r) u x in
  let J l := fm3 (pre_p h a p q r) (pre_q h c p q r) (pre_r d p q r) (sub3 u l) x + Rv * dot3 l l in (forall l, F <= J l) /\ exists l, F = J l.
Proof.
  intros HR P u x F J. unfold F, J, nx_p, nx_q, nx_r. set (P0 := pre_p h a p q r) in *. set (Q0 := pre_q h c p q r). set (R0 := pre_r d p q r). clearbody P0 Q0 R0. clear F J. set (s := P0 + Rv). assert (S0 : 0 < s) by (unfold s; lra).
  set (g := scale3 (/ s) (add3 (scale3 P0 u) (scale3 Q0 x))). assert (E : forall l, fm3 P0 Q0 R0 (sub3 u l) x + Rv * dot3 l l - fm3 (P0 - P0 * P0 / s) (Q0 - P0 * Q0 / s) (R0 - Q0 * Q0 / s) u x = s * dot3 (sub3 l g) (sub3 l g)).
  { intros l. replace Rv with (s - P0) by (unfold s; ring). unfold g. clearbody s. clear g. unfold fm3. destruct u as [ua ub uc], x as [xa xb xc], l as [la lb lc]. vunfoldg. cbn [x3 y3 z3]. rnumg. field. lra. }
  split.
  - intros l. assert (X := E l). assert (Y := dot3_nonneg (sub3 l g)). assert (0 <= s * dot3 (sub3 l g) (sub3 l g)) by (apply Rmult_le_pos; lra). lra.
  - exists g. assert (X := E g). replace (dot3 (sub3 g g) (sub3 g g)) with 0 in X by (generalize g; vring). lra.
Qed.
Lemma between_measure dt qr f f' eta p q r : 0 < dt -> 0 < eta <= 1 -> psd p q r -> between eta (a_P f) (pre_p dt (fa dt) p q r) (pre_q dt (fc dt) p q r) (pre_r (fd dt) p q r) -> af_measurement qr f = Ok f' ->
  let v := SENSOR_SIGMA ^ 2 in between eta (a_P f') (nx_p dt (fa dt) v p q r) (nx_q dt (fa dt) (fc dt) v p q r) (nx_r dt (fa dt) (fc dt) (fd dt) v p q r).
Proof.
  intros H ET PS B M v. destruct (noise_ok dt H) as (N1 & N2 & N3 & N4). assert (V := R_pos). fold v in V. assert (P0 := pre_pos dt (fa dt) (fd dt) H N2 N1 p q r PS).
  assert (PR : psd (pre_p dt (fa dt) p q r) (pre_q dt (fc dt) p q r) (pre_r (fd dt) p q r)). { intros x y. replace (fm (pre_p dt (fa dt) p q r) (pre_q dt (fc dt) p q r) (pre_r (fd dt) p q r) x y) with (fm p q r x (y - dt * x) + fm (fa dt) (fc dt) (fd dt) x y) by (unfold fm, pre_p, pre_q, pre_r; ring). assert (X := PS x (y - dt * x)). assert (Y := N_psd dt (fa dt) (fc dt) (fd dt) H N2 N1 N4 x y). lra. }
  destruct (between_cov _ _ _ _ _ (proj2 ET) PR B) as [SY PD]. destruct B as [_ B]. revert M. unfold af_measurement. destruct (Reqb_spec (det3 (addm af_R (b11 (a_P f)))) 0) as [E|E]; [discriminate|]. unfold af_gain. cbv zeta. intros M. injection M as <-. cbn [a_P af_reset].
  destruct (att_update v (a_P f) V SY PD) as (S' & _ & _). split; [exact S'|]. intros x. destruct (att_best v (a_P f) V SY PD x) as [UP (l0 & LO)]. unfold af_R. fold v.
  set (P' := mm6 (subm6 id6 (mkB (mm (b11 (a_P f)) (inv3 (addm (scalem v id3) (b11 (a_P f))))) zerom (mm (b21 (a_P f)) (inv3 (addm (scalem v id3) (b11 (a_P f))))) zerom)) (a_P f)) in *.
  destruct (nx_best3 dt (fa dt) (fc dt) (fd dt) v p q r V P0 (u1 x) (u2 x)) as [SU (l1 & SL)]. set (F := fm3 (nx_p dt (fa dt) v p q r) (nx_q dt (fa dt) (fc dt) v p q r) (nx_r dt (fa dt) (fc dt) (fd dt) v p q r) (u1 x) (u2 x)) in *. split.
  - rewrite LO. assert (B1 := proj1 (B (mk6 (sub3 (u1 x) l0) (u2 x)))). cbn [u1 u2] in B1. assert (X := SU l0). assert (Y := dot3_nonneg l0). assert (Z : 0 <= v * dot3 l0 l0) by (apply Rmult_le_pos; lra). assert ((1 - eta) * F <= (1 - eta) * (fm3 (pre_p dt (fa dt) p q r) (pre_q dt (fc dt) p q r) (pre_r (fd dt) p q r) (sub3 (u1 x) l0) (u2 x) + v * dot3 l0 l0)) by (apply Rmult_le_compat_l; lra). assert (0 <= eta * (v * dot3 l0 l0)) by (apply Rmult_le_pos; lra). lra.
  - rewrite SL. eapply Rle_trans; [apply (UP l1)|]. assert (B1 := proj2 (B (mk6 (sub3 (u1 x) l1) (u2 x)))). cbn [u1 u2] in B1. assert (Y := dot3_nonneg l1). assert (Z : 0 <= v * dot3 l1 l1) by (apply Rmult_le_pos; lra). assert (0 <= eta * (v * dot3 l1 l1)) by (apply Rmult_le_pos; lra). lra.
Qed.

(** ** operators *)
Lemma op_bound (F : m3) c : 0 < c -> (forall a b, Rabs (dot3 b (mv F a)) <= c * (dot3 a a + dot3 b b) / 2) -> forall a, norm3 (mv F a) <= c * norm3 a.
Proof.
  intros C H a. assert (X := H a (scale3 (/ c) (mv F a))). set (z := mv F a) in *. replace (dot3 (scale3 (/ c) z) z) with (/ c * dot3 z z) in X by vring. replace (dot3 (scale3 (/ c) z) (scale3 (/ c) z)) with (/ c * / c * dot3 z z) in X by vring.
  assert (IC := Rinv_0_lt_compat c C). assert (Z0 := dot3_nonneg z). rewrite Rabs_pos_eq in X by (apply Rmult_le_pos; lra). assert (SQ : dot3 z z <= c * c * dot3 a a).
  { apply (Rmult_le_compat_l (2 * c)) in X; [|lra]. replace (2 * c * (/ c * dot3 z z)) with (2 * dot3 z z) in X by (field; lra). replace (2 * c * (c * (dot3 a a + / c * / c * dot3 z z) / 2)) with (c * c * dot3 a a + dot3 z z) in X by (field; lra). lra. }
  rewrite <- (n3sq z), <- (n3sq a) in SQ. assert (A0 := n3pos a). assert (CA : 0 <= c * norm3 a) by (apply Rmult_le_pos; lra). apply Rsqr_incr_0; [unfold Rsqr; lra|apply n3pos|exact CA].
Qed.
Lemma blocks eta P p q r : 0 < eta -> between eta P p q r -> 0 < sz p q r ->
  (forall v, norm3 (sub3 (mv (b11 P) v) (scale3 p v)) <= 2 * (eta * sz p q r) * norm3 v) /\ (forall v, norm3 (sub3 (mv (b21 P) v) (scale3 q v)) <= 2 * (eta * sz p q r) * norm3 v).
Proof.
  intros E [S B] SZ. set (c := eta * sz p q r). assert (C0 : 0 < c) by (unfold c; apply Rmult_lt_0_compat; assumption).
  assert (D : forall u x, Rabs (dot6 (mk6 u x) (mv6 P (mk6 u x)) - fm3 p q r u x) <= 2 * c * (dot3 u u + dot3 x x)).
  { intros u x. destruct (B (mk6 u x)) as [B1 B2]. cbn [u1 u2] in B1, B2. assert (X := fm3_up p q r u x). assert (W := sq0 (norm3 u - norm3 x)). assert (N : (norm3 u + norm3 x) * (norm3 u + norm3 x) <= 2 * (dot3 u u + dot3 x x)) by (rewrite <- !n3sq; lra).
    assert (sz p q r * ((norm3 u + norm3 x) * (norm3 u + norm3 x)) <= sz p q r * (2 * (dot3 u u + dot3 x x))) by (apply Rmult_le_compat_l; lra). assert (Y := Rle_abs (fm3 p q r u x)). assert (eta * fm3 p q r u x <= eta * (sz p q r * (2 * (dot3 u u + dot3 x x)))) by (apply Rmult_le_compat_l; lra). unfold c. apply Rabs_le. lra. }
  destruct (symm_blocks P S) as (T1 & T2 & T3 & _). split.
  - intros v. set (G := subm (b11 P) (scalem p id3)). replace (sub3 (mv (b11 P) v) (scale3 p v)) with (mv G v) by (unfold G; rewrite mv_subm, mv_scalem, mv_id3; reflexivity). apply op_bound; [lra|]. intros a b.
    assert (Q : forall w, dot6 (mk6 w zero3) (mv6 P (mk6 w zero3)) - fm3 p q r w zero3 = dot3 w (mv G w)). { intros w. unfold dot6, mv6, fm3, G. cbn [u1 u2]. rewrite !mv_zero3, !add3_0_r, mv_subm, mv_scalem, mv_id3. generalize (mv (b11 P) w) (mv (b21 P) w). intros. vunfoldg. cbn [x3 y3 z3]. rnumg. ring. }
    assert (D1 := D (add3 a b) zero3). assert (D2 := D (sub3 a b) zero3). rewrite Q in D1, D2. assert (SG : dot3 a (mv G b) = dot3 b (mv G a)). { rewrite <- (dot_comm3 (mv G b) a), dot_tr. unfold G. rewrite tr3_subm, tr3_scalem, P_farr.tr3_id, T1. reflexivity. }
    assert (PL : 4 * dot3 b (mv G a) = dot3 (add3 a b) (mv G (add3 a b)) - dot3 (sub3 a b) (mv G (sub3 a b))). { rewrite mv_add3, mv_sub3. replace (4 * dot3 b (mv G a)) with (2 * dot3 b (mv G a) + 2 * dot3 a (mv G b)) by (rewrite SG; ring). generalize (mv G a) (mv G b). clear. vring. }
    replace (dot3 (add3 a b) (add3 a b) + dot3 zero3 zero3) with (dot3 a a + 2 * dot3 a b + dot3 b b) in D1 by vring. replace (dot3 (sub3 a b) (sub3 a b) + dot3 zero3 zero3) with (dot3 a a - 2 * dot3 a b + dot3 b b) in D2 by vring.
    apply Rabs_le. revert D1 D2. unfold Rabs. destruct (Rcase_abs _); destruct (Rcase_abs _); intros; lra.
  - intros v. set (G := subm (b21 P) (scalem q id3)). replace (sub3 (mv (b21 P) v) (scale3 q v)) with (mv G v) by (unfold G; rewrite mv_subm, mv_scalem, mv_id3; reflexivity). apply op_bound; [lra|]. intros a b.
    assert (D1 := D a b). assert (D2 := D a (scale3 (-1) b)).
    assert (PL : 4 * dot3 b (mv G a) = (dot6 (mk6 a b) (mv6 P (mk6 a b)) - fm3 p q r a b) - (dot6 (mk6 a (scale3 (-1) b)) (mv6 P (mk6 a (scale3 (-1) b))) - fm3 p q r a (scale3 (-1) b))).
    { unfold dot6, mv6, fm3, G. cbn [u1 u2]. rewrite !mv_scale3, mv_subm, mv_scalem, mv_id3. assert (X : dot3 a (mv (b12 P) b) = dot3 b (mv (b21 P) a)) by (rewrite <- (dot_comm3 (mv (b12 P) b) a), dot_tr, T3; reflexivity).
      replace (dot3 a (add3 (mv (b11 P) a) (mv (b12 P) b))) with (dot3 a (mv (b11 P) a) + dot3 a (mv (b12 P) b)) by (generalize (mv (b11 P) a) (mv (b12 P) b); clear; vring). replace (dot3 a (add3 (mv (b11 P) a) (scale3 (-1) (mv (b12 P) b)))) with (dot3 a (mv (b11 P) a) - dot3 a (mv (b12 P) b)) by (generalize (mv (b11 P) a) (mv (b12 P) b); clear; vring). rewrite X. generalize (mv (b21 P) a) (mv (b11 P) a) (mv (b22 P) b). clear. vring. }
    replace (dot3 (scale3 (-1) b) (scale3 (-1) b)) with (dot3 b b) in D2 by vring. apply Rabs_le. revert D1 D2. unfold Rabs. destruct (Rcase_abs _); destruct (Rcase_abs _); intros; lra.
Qed.
(** ** the gains *)
Lemma gains_near eta P p q r : 0 < eta <= 1 -> psd p q r -> 0 < p -> between eta P p q r -> let v := SENSOR_SIGMA ^ 2 in let '(K1, K2) := af_gain P in
  forall y, norm3 (sub3 (mv K1 y) (scale3 (p / (p + v)) y)) <= 2 * (eta * sz p q r) / v * norm3 y /\ norm3 (sub3 (mv K2 y) (scale3 (q / (p + v)) y)) <= (sz p q r / v + 1) * (2 * (eta * sz p q r) / v) * norm3 y.
Proof.
  intros ET PS P0 B v. assert (V := R_pos). fold v in V. assert (SZ : 0 < sz p q r). { unfold sz. assert (X := Rle_abs p). assert (Y := Rabs_pos q). assert (Z := Rabs_pos r). lra. }
  destruct (blocks eta P p q r (proj1 ET) B SZ) as [B1 B2]. destruct (between_cov _ _ _ _ _ (proj2 ET) PS B) as [SY PD]. unfold af_gain, af_R. fold v. cbv zeta. intros y. destruct (innovation_pd v P V SY PD) as (SS & PM & D). set (S := addm (scalem v id3) (b11 P)) in *. cbv zeta in D.
  set (c := 2 * (eta * sz p q r)) in *. assert (C0 : 0 < c) by (unfold c; assert (0 < eta * sz p q r) by (apply Rmult_lt_0_compat; lra); lra). set (s := mv (inv3 S) y). assert (SV : mv S s = y) by (apply mv_inv3; lra). rewrite !mv_mm. fold s.
  assert (SY2 : add3 (scale3 v s) (mv (b11 P) s) = y) by (rewrite <- SV; unfold S; rewrite mv_addm, mv_scalem, mv_id3; reflexivity). assert (NS : norm3 s <= norm3 y / v).
  { assert (X := psd_block1 P PD s). assert (Y := ndot s y). rewrite <- SY2 in Y at 1. replace (dot3 s (add3 (scale3 v s) (mv (b11 P) s))) with (v * dot3 s s + dot3 s (mv (b11 P) s)) in Y by (generalize (mv (b11 P) s); vring). assert (Z := Rle_abs (v * dot3 s s + dot3 s (mv (b11 P) s))). rewrite <- n3sq in Z, Y. assert (N := n3pos s). assert (NY := n3pos y).
    destruct (Rle_lt_or_eq_dec 0 _ N) as [NP|NZ]; [|rewrite <- NZ; apply Rmult_le_pos; [lra|left; apply Rinv_0_lt_compat, V]]. apply Rmult_le_reg_l with (v * norm3 s); [apply Rmult_lt_0_compat; assumption|]. replace (v * norm3 s * (norm3 y / v)) with (norm3 s * norm3 y) by (field; lra). rewrite Rmult_assoc. rewrite n3sq in *. lra. }
  assert (EB : norm3 (sub3 (mv (b11 P) s) (scale3 p s)) <= c / v * norm3 y). { eapply Rle_trans; [apply B1|]. replace (c / v * norm3 y) with (c * (norm3 y / v)) by (field; lra). apply Rmult_le_compat_l; lra. }
  assert (FB : norm3 (sub3 (mv (b21 P) s) (scale3 q s)) <= c / v * norm3 y). { eapply Rle_trans; [apply B2|]. replace (c / v * norm3 y) with (c * (norm3 y / v)) by (field; lra). apply Rmult_le_compat_l; lra. }
  set (E := sub3 (mv (b11 P) s) (scale3 p s)) in *. set (F := sub3 (mv (b21 P) s) (scale3 q s)) in *. assert (YE : y = add3 (scale3 (p + v) s) E) by (rewrite <- SY2; unfold E; generalize (mv (b11 P) s); vring). assert (RN : 0 <= c / v * norm3 y) by (eapply Rle_trans; [apply n3pos|exact EB]).
  split.
  - replace (sub3 (mv (b11 P) s) (scale3 (p / (p + v)) y)) with (scale3 (v / (p + v)) E). 2:{ replace (mv (b11 P) s) with (add3 E (scale3 p s)) by (unfold E; generalize (mv (b11 P) s); vring). rewrite YE. clearbody E s. clear - P0 V. destruct E as [ea eb ec], s as [sa sb sc]. vunfoldg. cbn [x3 y3 z3]. rnumg. f_equal; field; lra. }
    rewrite nscale, Rabs_pos_eq by (apply Rmult_le_pos; [lra|left; apply Rinv_0_lt_compat; lra]). apply Rle_trans with (1 * (c / v * norm3 y)); [|lra]. apply Rmult_le_compat; [apply Rmult_le_pos; [lra|left; apply Rinv_0_lt_compat; lra]|apply n3pos| |exact EB]. apply Rmult_le_reg_r with (p + v); [lra|]. replace (v / (p + v) * (p + v)) with v by (field; lra). lra.
  - replace (sub3 (mv (b21 P) s) (scale3 (q / (p + v)) y)) with (add3 F (scale3 (- (q / (p + v))) E)). 2:{ replace (mv (b21 P) s) with (add3 F (scale3 q s)) by (unfold F; generalize (mv (b21 P) s); vring). rewrite YE. clearbody E F s. clear - P0 V. destruct E as [ea eb ec], F as [fa0 fb fc0], s as [sa sb sc]. vunfoldg. cbn [x3 y3 z3]. rnumg. f_equal; field; lra. }
    eapply Rle_trans; [apply nadd|]. rewrite nscale, Rabs_Ropp. assert (QB : Rabs (q / (p + v)) <= sz p q r / v). { unfold Rdiv. rewrite Rabs_mult, (Rabs_pos_eq (/ (p + v))) by (left; apply Rinv_0_lt_compat; lra). apply Rmult_le_compat; [apply Rabs_pos|left; apply Rinv_0_lt_compat; lra| |apply Rinv_le_contravar; lra]. unfold sz. assert (X := Rabs_pos p). assert (Y := Rabs_pos q). assert (Z := Rabs_pos r). lra. }
    assert (Rabs (q / (p + v)) * norm3 E <= sz p q r / v * (c / v * norm3 y)) by (apply Rmult_le_compat; [apply Rabs_pos|apply n3pos|exact QB|exact EB]). lra.
Qed.
