(** * C95: the stability analysis with a delay in the loop *)
From Coq Require Import Reals List Lra Psatz Lia.
From Verif Require Import Num Vec Mat6 M_quaternion M_struct M_sim M_lqr M_margins S_rot S_lqr P_delay Props_axis.
Import ListNotations.
Local Open Scope R_scope.

(** ** polynomials *)
Lemma pair_eq (a b c d : R) : a = c -> b = d -> (a, b) = (c, d). Proof. intros -> ->. reflexivity. Qed.
Definition evr (p : list R) (s : R * R) : R * R := fold_right (fun c acc => cadd (cmul acc s) (c, 0)) (0, 0) p.
Lemma ceval_rev p s : ceval (rev p) s = evr p s. Proof. unfold ceval, evr. rewrite <- fold_left_rev_right, rev_involutive. reflexivity. Qed.
Lemma evr_add p q s : evr (padd p q) s = cadd (evr p s) (evr q s).
Proof.
  revert q. induction p as [|a p IH]; intros q; [cbn [padd]; change (evr [] s) with (0, 0); destruct (evr q s); unfold cadd; cbn [fst snd]; apply pair_eq; ring|].
  destruct q as [|b q]; cbn [padd]; [change (evr [] s) with (0, 0); destruct (evr (a :: p) s); unfold cadd; cbn [fst snd]; apply pair_eq; ring|].
  cbn [evr fold_right]. fold (evr (padd p q) s) (evr p s) (evr q s). rewrite IH. destruct (evr p s), (evr q s), s. unfold cadd, cmul. cbn [fst snd]. apply pair_eq; ring.
Qed.
Lemma evr_scale a q s : evr (map (Rmult a) q) s = cmul (a, 0) (evr q s).
Proof. induction q as [|b q IH]; [cbn; unfold cmul; cbn; apply pair_eq; ring|]. cbn [map evr fold_right]. fold (evr (map (Rmult a) q) s) (evr q s). rewrite IH. destruct (evr q s), s. unfold cadd, cmul. cbn [fst snd]. apply pair_eq; ring. Qed.
Lemma evr_conv p q s : evr (conv p q) s = cmul (evr p s) (evr q s).
Proof.
  induction p as [|a p IH]; [cbn; unfold cmul; cbn; apply pair_eq; ring|]. cbn [conv]. rewrite evr_add, evr_scale. cbn [evr fold_right]. fold (evr (conv p q) s) (evr p s). rewrite IH. destruct (evr p s), (evr q s), s. unfold cadd, cmul. cbn [fst snd]. apply pair_eq; ring.
Qed.
Lemma ceval_mul p q s : ceval (pmul p q) s = cmul (ceval p s) (ceval q s).
Proof. unfold pmul. rewrite ceval_rev, evr_conv, <- !ceval_rev, !rev_involutive. reflexivity. Qed.

(** ** the approximation of the delay *)
Lemma pade_4 T : T <> 0 -> pade T 4 = ([1; - (20 / T); 180 / T ^ 2; - (840 / T ^ 3); 1680 / T ^ 4], [1; 20 / T; 180 / T ^ 2; 840 / T ^ 3; 1680 / T ^ 4]).
Proof.
  intros NT. unfold pade. cbn [pade_from rev app hd map Nat.sub Nat.mul Nat.add]. cbn [INR]. f_equal; (repeat match goal with |- (_ :: _) = (_ :: _) => apply f_equal2 end); try reflexivity; field; exact NT.
Qed.
Lemma pade_eval T w : 0 < T -> ceval (fst (pade T 4)) (0, w) = (pa (T * w) / T ^ 4, - (pb (T * w) / T ^ 4)) /\ ceval (snd (pade T 4)) (0, w) = (pa (T * w) / T ^ 4, pb (T * w) / T ^ 4).
Proof.
  intros HT. rewrite pade_4 by lra. unfold ceval, cadd, cmul, pa, pb. cbn [fst snd fold_left]. split; apply pair_eq; field; lra.
Qed.
(** the denominator has no zero on the imaginary axis, so that the response is the one below *)
Lemma pade_response T w L : 0 < T -> response (fst (pade T 4)) (snd (pade T 4)) w L <-> L = (cos (lag (T * w)), - sin (lag (T * w))).
Proof.
  intros HT. unfold response. destruct (pade_eval T w HT) as [-> ->]. set (x := T * w). destruct (lag_angle x) as [C S']. assert (P := pm_ge x). assert (E := pm_eq x). assert (T4 : 0 < T ^ 4) by (apply pow_lt, HT). clearbody x. set (q := T ^ 4) in *. clearbody q.
  set (c := cos (lag x)) in *. set (s := sin (lag x)) in *. destruct L as [re im]. unfold cmul. cbn [fst snd]. split.
  - intros H. injection H as H1 H2. assert (G1 : pa x * re - pb x * im = pa x) by (apply (Rmult_eq_reg_r (/ q)); [unfold Rdiv in H1, H2; lra|apply Rinv_neq_0_compat; lra]). assert (G2 : pa x * im + pb x * re = - pb x) by (apply (Rmult_eq_reg_r (/ q)); [unfold Rdiv in H1, H2; lra|apply Rinv_neq_0_compat; lra]).
    apply pair_eq; apply (Rmult_eq_reg_r (pm x)); try lra.
    + rewrite C, <- E. replace (re * (pa x * pa x + pb x * pb x)) with (pa x * (pa x * re - pb x * im) + pb x * (pa x * im + pb x * re)) by ring. rewrite G1, G2. ring.
    + replace (- s * pm x) with (- (s * pm x)) by ring. rewrite S', <- E. replace (im * (pa x * pa x + pb x * pb x)) with (pa x * (pa x * im + pb x * re) - pb x * (pa x * re - pb x * im)) by ring. rewrite G1, G2. ring.
  - intros H. injection H as -> ->. assert (C2 : c = (pa x * pa x - pb x * pb x) / pm x) by (rewrite <- C; field; lra). assert (S2 : s = 2 * pa x * pb x / pm x) by (rewrite <- S'; field; lra). rewrite C2, S2, <- E in *. apply pair_eq; field; lra.
Qed.

(** ** the loop with the delay *)
Lemma tf_none d num : (d = None \/ exists x, d = Some x /\ x <= 0) -> axis_tf d num = (num, [1; 0; 0]).
Proof. intros [->|(x & -> & X)]; [reflexivity|]. unfold axis_tf. destruct (Rltb_spec 0 x); [lra|reflexivity]. Qed.
Lemma tf_some T num : 0 < T -> axis_tf (Some T) num = (pmul num (fst (pade T 4)), pmul [1; 0; 0] (snd (pade T 4))).
Proof. intros HT. unfold axis_tf. destruct (Rltb_spec 0 T); [|lra]. destruct (pade T 4). reflexivity. Qed.
(** gain and phase of the loop: minus g (cos psi, sin psi) *)
Definition psi (T a b w : R) : R := atan (a * w / b) - lag (T * w).
Definition gn (a b w : R) : R := sqrt (a ^ 2 * w ^ 2 + b ^ 2) / w ^ 2.
Lemma atan_parts a b w : 0 < b -> 0 < w -> gn a b w * cos (atan (a * w / b)) = b / w ^ 2 /\ gn a b w * sin (atan (a * w / b)) = a / w.
Proof.
  intros Hb Hw. assert (B2 : 0 < b ^ 2) by (apply pow_lt, Hb). assert (W2 : 0 < w ^ 2) by (apply pow_lt, Hw). assert (A2 : 0 <= a ^ 2 * w ^ 2) by (rewrite <- Rpow_mult_distr; apply pow2_ge_0).
  set (r := sqrt (a ^ 2 * w ^ 2 + b ^ 2)). assert (R0 : 0 < r) by (apply sqrt_lt_R0; lra).
  assert (Q : sqrt (1 + (a * w / b)²) = r / b). { replace (1 + (a * w / b)²) with ((a ^ 2 * w ^ 2 + b ^ 2) / b ^ 2) by (unfold Rsqr; field; lra). rewrite sqrt_div_alt by exact B2. fold r. f_equal. replace (b ^ 2) with (b * b) by ring. apply sqrt_square. lra. }
  unfold gn. fold r. rewrite cos_atan, sin_atan, Q. split; field; lra.
Qed.
Lemma prod_resp (d e r0 rd L : R * R) : (fst d * fst d + snd d * snd d) * (fst e * fst e + snd e * snd e) <> 0 -> cmul (cmul d e) L = cmul (cmul d r0) (cmul e rd) <-> L = cmul r0 rd.
Proof.
  destruct d as [d1 d2], e as [d3 d4], r0 as [a b], rd as [c d], L as [x y]. unfold cmul. cbn [fst snd]. intros NZ. set (p := d1 * d3 - d2 * d4). set (q := d1 * d4 + d2 * d3). assert (N : p * p + q * q <> 0) by (intros Z; apply NZ; rewrite <- Z; unfold p, q; ring). split.
  - intros H. injection H as H1 H2. set (u := a * c - b * d). set (v := a * d + b * c). assert (G1 : p * x - q * y = p * u - q * v) by (rewrite H1; unfold p, q, u, v; ring). assert (G2 : p * y + q * x = p * v + q * u) by (rewrite H2; unfold p, q, u, v; ring).
    clearbody p q u v. apply pair_eq; apply (Rmult_eq_reg_l (p * p + q * q)); try exact N; [transitivity (p * (p * x - q * y) + q * (p * y + q * x))|transitivity (p * (p * y + q * x) - q * (p * x - q * y))]; try ring; rewrite G1, G2; ring.
  - intros H. injection H as -> ->. unfold p, q. apply pair_eq; ring.
Qed.
Lemma loop_response T a b w L : 0 < T -> 0 < b -> 0 < w -> let tf := axis_tf (Some T) [a; b] in
  response (fst tf) (snd tf) w L <-> L = (- (gn a b w * cos (psi T a b w)), - (gn a b w * sin (psi T a b w))).
Proof.
  intros HT Hb Hw tf. unfold tf. rewrite tf_some by exact HT. cbn [fst snd]. assert (W2 : 0 < w ^ 2) by (apply pow_lt, Hw).
  assert (R0 : response [a; b] [1; 0; 0] w (- (b / w ^ 2), - (a / w))) by (apply resp_iff; [exact Hw|split; reflexivity]). unfold response in R0.
  assert (RD := proj2 (pade_response T w _ HT) eq_refl). unfold response in RD.
  assert (PR : cmul (- (b / w ^ 2), - (a / w)) (cos (lag (T * w)), - sin (lag (T * w))) = (- (gn a b w * cos (psi T a b w)), - (gn a b w * sin (psi T a b w)))).
  { destruct (atan_parts a b w Hb Hw) as [C S']. unfold psi. rewrite cos_minus, sin_minus. unfold cmul. cbn [fst snd]. rewrite <- C, <- S'. apply pair_eq; ring. }
  unfold response. rewrite !ceval_mul, <- R0, <- RD, <- PR.
  destruct (pade_eval T w HT) as [_ ->]. assert (T4 : 0 < T ^ 4) by (apply pow_lt, HT). assert (P := pm_ge (T * w)). assert (E := pm_eq (T * w)).
  assert (DE : ceval [1; 0; 0] (0, w) = (- w ^ 2, 0)) by (unfold ceval, cadd, cmul; cbn [fold_left fst snd]; apply pair_eq; ring). rewrite DE. apply prod_resp. cbn [fst snd].
  replace ((- w ^ 2 * - w ^ 2 + 0 * 0) * (pa (T * w) / T ^ 4 * (pa (T * w) / T ^ 4) + pb (T * w) / T ^ 4 * (pb (T * w) / T ^ 4))) with (w ^ 2 * w ^ 2 * (pm (T * w) / (T ^ 4 * T ^ 4))) by (rewrite <- E; field; lra).
  apply Rgt_not_eq. apply Rmult_lt_0_compat; [apply Rmult_lt_0_compat; assumption|]. apply Rdiv_lt_0_compat; [lra|apply Rmult_lt_0_compat; assumption].
Qed.
Lemma gn_pos a b w : 0 < b -> 0 < w -> 0 < gn a b w.
Proof. intros Hb Hw. unfold gn. apply Rdiv_lt_0_compat; [|apply pow_lt, Hw]. apply sqrt_lt_R0. assert (0 < b ^ 2) by (apply pow_lt, Hb). assert (0 <= a ^ 2 * w ^ 2) by (rewrite <- Rpow_mult_distr; apply pow2_ge_0). lra. Qed.
Lemma gn_sq a b w : 0 < w -> gn a b w * gn a b w = b ^ 2 / w ^ 4 + a ^ 2 / w ^ 2.
Proof. intros Hw. unfold gn. set (y := a ^ 2 * w ^ 2 + b ^ 2). assert (Y : sqrt y * sqrt y = y). { apply sqrt_sqrt. unfold y. rewrite <- Rpow_mult_distr. assert (A := pow2_ge_0 (a * w)). assert (B := pow2_ge_0 b). lra. } replace (sqrt y / w ^ 2 * (sqrt y / w ^ 2)) with (sqrt y * sqrt y / (w ^ 2 * w ^ 2)) by (field; lra). rewrite Y. unfold y. field. lra. Qed.
Lemma gn_decr a b v w : 0 < b -> 0 < v -> v < w -> gn a b w < gn a b v.
Proof.
  intros Hb Hv VW. assert (P := gn_pos a b v Hb Hv). assert (Q := gn_pos a b w Hb ltac:(lra)). assert (B2 : 0 < b ^ 2) by (apply pow_lt, Hb). assert (A2 := pow2_ge_0 a).
  assert (V2 : 0 < v ^ 2) by (apply pow_lt, Hv). assert (V4 : 0 < v ^ 4) by (apply pow_lt, Hv). assert (X2 : v ^ 2 < w ^ 2) by nra. assert (X4 : v ^ 4 < w ^ 4) by (replace (v ^ 4) with (v ^ 2 * v ^ 2) by ring; replace (w ^ 4) with (w ^ 2 * w ^ 2) by ring; nra).
  assert (I2 : / w ^ 2 <= / v ^ 2) by (apply Rinv_le_contravar; lra). assert (I4 : / w ^ 4 < / v ^ 4) by (apply Rinv_lt_contravar; [apply Rmult_lt_0_compat; lra|exact X4]).
  assert (L : gn a b w * gn a b w < gn a b v * gn a b v). { rewrite !gn_sq by lra. unfold Rdiv. assert (b ^ 2 * / w ^ 4 < b ^ 2 * / v ^ 4) by (apply Rmult_lt_compat_l; assumption). assert (a ^ 2 * / w ^ 2 <= a ^ 2 * / v ^ 2) by (apply Rmult_le_compat_l; assumption). lra. }
  apply Rnot_le_lt. intros G. assert (gn a b v * gn a b v <= gn a b w * gn a b w) by (apply Rmult_le_compat; lra). lra.
Qed.
Lemma cross_gn T a b w : 0 < T -> 0 < b -> let tf := axis_tf (Some T) [a; b] in gain_crossover (fst tf) (snd tf) w <-> 0 < w /\ gn a b w = 1.
Proof.
  intros HT Hb tf. unfold gain_crossover. split; intros (Hw & H); (split; [exact Hw|]); assert (P := gn_pos a b w Hb Hw); assert (SC := sin2_cos2 (psi T a b w)); unfold Rsqr in SC.
  - destruct H as (L & HR & HL). apply (loop_response T a b w L HT Hb Hw) in HR. subst L. cbn [fst snd] in HL. assert (E : gn a b w * gn a b w = 1) by (rewrite <- HL; replace (- (gn a b w * cos (psi T a b w)) * - (gn a b w * cos (psi T a b w)) + - (gn a b w * sin (psi T a b w)) * - (gn a b w * sin (psi T a b w))) with (gn a b w * gn a b w * (sin (psi T a b w) * sin (psi T a b w) + cos (psi T a b w) * cos (psi T a b w))) by ring; rewrite SC; ring). nra.
  - eexists. split; [apply (loop_response T a b w _ HT Hb Hw); reflexivity|]. cbn [fst snd]. rewrite H. lra.
Qed.
Lemma cross0_gn a b w : 0 < b -> gain_crossover [a; b] [1; 0; 0] w <-> 0 < w /\ gn a b w = 1.
Proof.
  intros Hb. unfold gain_crossover. split; intros (Hw & H); (split; [exact Hw|]); assert (P := gn_pos a b w Hb Hw); assert (G := gn_sq a b w Hw).
  - destruct H as ([re im] & HR & HL). apply resp_iff in HR; [|exact Hw]. destruct HR as [-> ->]. cbn [fst snd] in HL. assert (E : gn a b w * gn a b w = 1) by (rewrite G, <- HL; field; lra). nra.
  - exists (- (b / w ^ 2), - (a / w)). split; [apply resp_iff; [exact Hw|split; reflexivity]|]. cbn [fst snd]. rewrite H in G. transitivity (b ^ 2 / w ^ 4 + a ^ 2 / w ^ 2); [field; lra|lra].
Qed.

Lemma der_pow3 c : derivable_pt_lim (fun x => x - x ^ 3 / 3) c (1 - c ^ 2).
Proof. replace (1 - c ^ 2) with (1 - (INR 3 * c ^ 2) * / 3) by (cbn [INR]; field). apply derivable_pt_lim_minus; [apply derivable_pt_lim_id|]. apply (derivable_pt_lim_ext (fun x => / 3 * x ^ 3)); [intros x; field|]. rewrite (Rmult_comm _ (/ 3)). apply (derivable_pt_lim_scal (fun x => x ^ 3)). apply (derivable_pt_lim_pow c 3). Qed.
Lemma der_pow5 c : derivable_pt_lim (fun x => x - x ^ 3 / 3 + x ^ 5 / 5) c (1 - c ^ 2 + c ^ 4).
Proof. apply derivable_pt_lim_plus; [apply der_pow3|]. replace (c ^ 4) with (/ 5 * (INR 5 * c ^ 4)) by (cbn [INR]; field). apply (derivable_pt_lim_ext (fun x => / 5 * x ^ 5)); [intros x; field|]. apply (derivable_pt_lim_scal (fun x => x ^ 5)). apply (derivable_pt_lim_pow c 5). Qed.
Lemma der_atan c : derivable_pt_lim atan c (/ (1 + c ^ 2)).
Proof. apply derivable_pt_lim_atan. Qed.
Lemma atan_lower y : 0 <= y -> y - y ^ 3 / 3 <= atan y.
Proof.
  intros Y. destruct (Req_dec y 0) as [->|N]; [rewrite atan_0; lra|]. destruct (MVT_cor2 (fun x => atan x - (x - x ^ 3 / 3)) (fun x => / (1 + x ^ 2) - (1 - x ^ 2)) 0 y ltac:(lra)) as (c & E & C).
  - intros c _. apply derivable_pt_lim_minus; [apply der_atan|apply der_pow3].
  - rewrite atan_0 in E. assert (K : 0 <= / (1 + c ^ 2) - (1 - c ^ 2)). { assert (P : 0 < 1 + c ^ 2) by (assert (Q := pow2_ge_0 c); lra). replace (/ (1 + c ^ 2) - (1 - c ^ 2)) with (c ^ 2 * c ^ 2 / (1 + c ^ 2)) by (field; lra). apply Rmult_le_pos; [|left; apply Rinv_0_lt_compat, P]. assert (Q := pow2_ge_0 c). nra. }
    assert (0 <= (/ (1 + c ^ 2) - (1 - c ^ 2)) * (y - 0)) by (apply Rmult_le_pos; lra). lra.
Qed.
Lemma atan_upper y : 0 <= y -> atan y <= y - y ^ 3 / 3 + y ^ 5 / 5.
Proof.
  intros Y. destruct (Req_dec y 0) as [->|N]; [rewrite atan_0; lra|]. destruct (MVT_cor2 (fun x => x - x ^ 3 / 3 + x ^ 5 / 5 - atan x) (fun x => 1 - x ^ 2 + x ^ 4 - / (1 + x ^ 2)) 0 y ltac:(lra)) as (c & E & C).
  - intros c _. apply derivable_pt_lim_minus; [apply der_pow5|apply der_atan].
  - rewrite atan_0 in E. assert (K : 0 <= 1 - c ^ 2 + c ^ 4 - / (1 + c ^ 2)). { assert (Q := pow2_ge_0 c). assert (P : 0 < 1 + c ^ 2) by lra. replace (1 - c ^ 2 + c ^ 4 - / (1 + c ^ 2)) with (c ^ 2 * (c ^ 2 * c ^ 2) / (1 + c ^ 2)) by (field; lra). apply Rmult_le_pos; [|left; apply Rinv_0_lt_compat, P]. apply Rmult_le_pos; [exact Q|nra]. }
    assert (0 <= (1 - c ^ 2 + c ^ 4 - / (1 + c ^ 2)) * (y - 0)) by (apply Rmult_le_pos; lra). lra.
Qed.
Lemma der_lin k c : derivable_pt_lim (fun w => k * w) c k.
Proof. assert (H := derivable_pt_lim_scal (fun w => w) k c 1 (derivable_pt_lim_id c)). rewrite Rmult_1_r in H. exact H. Qed.
Lemma psi_cont T a b : continuity (psi T a b).
Proof.
  intros w. unfold psi. apply derivable_continuous_pt. exists (/ (1 + (a * w / b) ^ 2) * (a / b) - rate (T * w) * T).
  apply derivable_pt_lim_minus.
  - apply (derivable_pt_lim_comp (fun w => a * w / b) atan); [|apply der_atan]. apply (derivable_pt_lim_ext (fun w => a / b * w)); [intros x; unfold Rdiv; ring|]. apply der_lin.
  - apply (derivable_pt_lim_comp (fun w => T * w) lag); [|apply lag_deriv]. apply der_lin.
Qed.
(** the first place where a continuous function that starts positive is no longer positive *)
Lemma first_zero (f : R -> R) l u : continuity f -> 0 < l -> l < u -> (forall w, 0 < w <= l -> 0 < f w) -> f u < 0 -> exists z, l < z < u /\ f z = 0 /\ forall w, 0 < w < z -> 0 < f w.
Proof.
  intros CF L LU PL NU. set (E := fun w => 0 < w <= u /\ forall v, 0 < v <= w -> 0 < f v).
  destruct (completeness E) as (z & UB & LB); [exists u; intros w (W & _); lra|exists l; split; [lra|exact PL]|].
  assert (LZ : l <= z) by (apply UB; split; [lra|exact PL]). assert (ZU : z <= u) by (apply LB; intros w (W & _); lra).
  assert (BEF : forall w, 0 < w < z -> 0 < f w).
  { intros w W. destruct (Rlt_or_le 0 (f w)) as [G|G]; [exact G|]. exfalso. assert (z <= w); [|lra]. apply LB. intros e (E1 & E2). destruct (Rle_or_lt e w) as [H|H]; [exact H|]. specialize (E2 w ltac:(lra)). lra. }
  assert (FZ : f z = 0).
  { destruct (Rtotal_order (f z) 0) as [G|[G|G]]; [|exact G|]; exfalso.
    - destruct (CF z (- f z / 2) ltac:(lra)) as (d & D0 & HD). set (w := z - Rmin (d / 2) (z / 2)). assert (M1 := Rmin_l (d / 2) (z / 2)). assert (M2 := Rmin_r (d / 2) (z / 2)). assert (M3 : 0 < Rmin (d / 2) (z / 2)) by (apply Rmin_pos; lra).
      specialize (HD w). assert (dist R_met (f w) (f z) < - f z / 2). { apply HD. split; [split; [exact I|unfold w; lra]|]. unfold dist. cbn. unfold R_dist, w. replace (z - Rmin (d / 2) (z / 2) - z) with (- Rmin (d / 2) (z / 2)) by ring. rewrite Rabs_Ropp, Rabs_pos_eq; lra. }
      assert (0 < f w) by (apply BEF; unfold w; lra). unfold dist in *. cbn in *. unfold R_dist in *. apply Rabs_def2 in H. lra.
    - destruct (CF z (f z / 2) ltac:(lra)) as (d & D0 & HD). destruct (Req_dec z u) as [->|NU']; [lra|]. set (w := z + Rmin (d / 2) (u - z)). assert (M1 := Rmin_l (d / 2) (u - z)). assert (M2 := Rmin_r (d / 2) (u - z)). assert (M3 : 0 < Rmin (d / 2) (u - z)) by (apply Rmin_pos; lra).
      assert (w <= z); [|unfold w in *; lra]. apply UB. split; [unfold w; lra|]. intros v V. destruct (Rlt_or_le v z) as [VZ|VZ]; [apply BEF; lra|]. destruct (Req_dec v z) as [->|NV]; [lra|].
      assert (dist R_met (f v) (f z) < f z / 2). { apply HD. split; [split; [exact I|lra]|]. unfold dist. cbn. unfold R_dist. rewrite Rabs_pos_eq by lra. unfold w in V. lra. }
      unfold dist in *. cbn in *. unfold R_dist in *. apply Rabs_def2 in H. lra. }
  exists z. split; [|split; [exact FZ|exact BEF]]. split; [|destruct (Req_dec z u) as [->|]; lra]. destruct (Req_dec z l) as [->|]; [|lra]. specialize (PL l ltac:(lra)). lra.
Qed.
Lemma psi_first T a b : 0 < T -> 0 < a -> 0 < b -> T < a / b -> exists wp, 0 < wp < 21 / 10 / T /\ psi T a b wp = 0 /\ forall w, 0 < w < wp -> 0 < psi T a b w < PI / 2.
Proof.
  intros HT Ha Hb TA. set (k := a / b) in *. assert (K0 : 0 < k) by lra. set (e := (k - T) / k ^ 3). assert (K3 : 0 < k ^ 3) by (apply pow_lt, K0). assert (E0 : 0 < e) by (apply Rdiv_lt_0_compat; lra).
  assert (U0 : 0 < 21 / 10 / T) by (apply Rdiv_lt_0_compat; lra). set (l := Rmin (Rmin 1 e) (21 / 10 / T / 2)). assert (L0 : 0 < l) by (unfold l; apply Rmin_pos; [apply Rmin_pos; lra|lra]).
  assert (L1 : l <= 1) by (eapply Rle_trans; [apply Rmin_l|apply Rmin_l]). assert (L2 : l <= e) by (eapply Rle_trans; [apply Rmin_l|apply Rmin_r]). assert (L3 : l <= 21 / 10 / T / 2) by apply Rmin_r. clearbody l.
  assert (AY : forall w, a * w / b = k * w) by (intros w; unfold k; field; lra).
  destruct (first_zero (psi T a b) l (21 / 10 / T)) as (wp & W1 & W2 & W3); [apply psi_cont|exact L0|lra| | |].
  - intros w W. unfold psi. rewrite AY. assert (A := atan_lower (k * w) ltac:(apply Rmult_le_pos; lra)). destruct (lag_bounds (T * w)) as [_ B]; [apply Rmult_le_pos; lra|].
    assert (WW : w * w <= e). { apply Rle_trans with (1 * e); [apply Rmult_le_compat; lra|lra]. } assert (KW : k ^ 3 * (w * w) <= k - T). { replace (k - T) with (k ^ 3 * e) by (unfold e; field; lra). apply Rmult_le_compat_l; lra. }
    replace ((k * w) ^ 3) with (k ^ 3 * (w * w) * w) in A by ring. assert (k ^ 3 * (w * w) * w <= (k - T) * w) by (apply Rmult_le_compat_r; lra). assert (0 < (k - T) * w) by (apply Rmult_lt_0_compat; lra). lra.
  - unfold psi. replace (T * (21 / 10 / T)) with (21 / 10) by (field; lra). destruct (lag_bounds (21 / 10)) as [B _]; [lra|]. assert (A := proj2 (atan_bound (a * (21 / 10 / T) / b))). assert (PI4 := PI_4). lra.
  - exists wp. split; [lra|]. split; [exact W2|]. intros w W. split; [apply W3, W|]. unfold psi. assert (A := proj2 (atan_bound (a * w / b))). assert (B : 0 < lag (T * w)). { rewrite <- lag_0 at 1. apply lag_incr. apply Rmult_lt_0_compat; lra. } lra.
Qed.
Lemma psi_low T a b : 0 < T -> 0 < a -> 0 < b -> a / b <= T -> forall w, 0 < w -> T * w < 1 -> - (PI / 2) < psi T a b w < 0.
Proof.
  intros HT Ha Hb TA w W Y1. set (y := a * w / b) in *. assert (Y0 : 0 < y) by (apply Rdiv_lt_0_compat; [apply Rmult_lt_0_compat; lra|lra]).
  assert (YT : y <= T * w). { unfold y. replace (a * w / b) with (a / b * w) by (field; lra). apply Rmult_le_compat_r; lra. }
  assert (LL : lag y <= lag (T * w)). { destruct (Req_dec y (T * w)) as [->|N]; [lra|]. left. apply lag_incr. lra. }
  assert (A := atan_upper y ltac:(lra)). destruct (lag_bounds y) as [B _]; [lra|]. unfold psi. fold y.
  assert (Y3 : 0 < y ^ 3) by (apply pow_lt, Y0). assert (Y5 : y ^ 5 <= y ^ 3). { replace (y ^ 5) with (y ^ 3 * (y * y)) by ring. rewrite <- (Rmult_1_r (y ^ 3)) at 2. apply Rmult_le_compat_l; [lra|]. nra. }
  assert (Y9 : y ^ 9 <= y ^ 3). { replace (y ^ 9) with (y ^ 3 * y ^ 6) by ring. rewrite <- (Rmult_1_r (y ^ 3)) at 2. apply Rmult_le_compat_l; [lra|]. rewrite <- (pow1 6). apply pow_incr. lra. }
  assert (B2 := proj2 (lag_bounds (T * w) ltac:(lra))). assert (AP : 0 < atan y) by (rewrite <- atan_0; apply atan_increasing, Y0). assert (P := PI2_3_2). unfold PI2 in P. lra.
Qed.

Lemma sin_zero_small x : 0 < x < PI / 2 -> 0 < sin x /\ 0 < cos x.
Proof. intros X. assert (P := PI_RGT_0). split; [apply sin_gt_0; lra|apply cos_gt_0; lra]. Qed.
Lemma same_angle x y : cos x = cos y -> sin x = sin y -> exists k : Z, x = y + 2 * IZR k * PI.
Proof.
  intros C S'. assert (P := PI_RGT_0). assert (Z : sin ((x - y) / 2) = 0). { assert (C2 : cos (x - y) = 1) by (rewrite cos_minus, C, S'; assert (T := sin2_cos2 y); unfold Rsqr in T; lra). replace (x - y) with (2 * ((x - y) / 2)) in C2 by field. rewrite cos_2a_sin in C2. set (s := sin ((x - y) / 2)) in *. assert (s * s = 0) by lra. nra. }
  destruct (sin_eq_0_0 _ Z) as (k & K). exists k. lra.
Qed.
(** ** C95: the delay's phase lag, and the margins of the loop with it *)
(** The approximation passes every frequency with gain one and lags by lag (T w): a phase that grows with the frequency, never more
    than the delay's own T w, and less by at most (T w)^9 / 25401600.  So for the loop (a s + b) / s^2 with the delay T:
    - the gain crossovers are those of the loop without it, and the phase margin there is less by the lag (up to whole turns);
    - if T < a / b there is a first phase crossover wp, before 2.1 / T; no pole of the closed loop is on the imaginary axis at any
      loop gain below gm, its gain margin, and two are, at +-j wp, at the gain gm; gm > 1 exactly when the gain crossover comes
      before wp, and then the phase margin is between 0 and 90 degrees;
    - if T >= a / b the phase is beyond -180 degrees at all frequencies up to 1 / T. *)
Definition pade_phase (lag : R -> R) : Prop :=
  continuity lag /\ lag 0 = 0 /\ (forall x y, x < y -> lag x < lag y) /\ (forall x, 0 <= x -> x - x ^ 9 / 25401600 <= lag x <= x) /\
  forall T w L, 0 < T -> response (fst (pade T 4)) (snd (pade T 4)) w L <-> L = (cos (lag (T * w)), - sin (lag (T * w))).
Definition delayed (T a b : R) : list R * list R := (pmul [a; b] (fst (pade T 4)), pmul [1; 0; 0] (snd (pade T 4))).
(** a closed-loop pole at s with the loop gain k *)
Definition pole (k : R) (tf : list R * list R) (s : R * R) : Prop := cadd (ceval (snd tf) s) (cmul (k, 0) (ceval (fst tf) s)) = (0, 0).

Lemma delayed_tf T a b : 0 < T -> delayed T a b = axis_tf (Some T) [a; b]. Proof. intros HT. rewrite tf_some by exact HT. reflexivity. Qed.
Lemma denom_nz T a b w : 0 < T -> w <> 0 -> let d := ceval (snd (delayed T a b)) (0, w) in fst d * fst d + snd d * snd d <> 0.
Proof.
  intros HT NW. cbn [delayed snd]. rewrite ceval_mul. destruct (pade_eval T w HT) as [_ ->]. assert (T4 : 0 < T ^ 4) by (apply pow_lt, HT). assert (P := pm_ge (T * w)). assert (E := pm_eq (T * w)).
  assert (DE : ceval [1; 0; 0] (0, w) = (- w ^ 2, 0)) by (unfold ceval, cadd, cmul; cbn [fold_left fst snd]; apply pair_eq; ring). rewrite DE. unfold cmul. cbn [fst snd]. assert (W2 : 0 < w ^ 2) by (replace (w ^ 2) with (w * w) by ring; nra).
  match goal with |- ?e <> 0 => replace e with (w ^ 2 * w ^ 2 * (pm (T * w) / (T ^ 4 * T ^ 4))) by (rewrite <- E; field; lra) end.
  apply Rgt_not_eq. apply Rmult_lt_0_compat; [apply Rmult_lt_0_compat; assumption|]. apply Rdiv_lt_0_compat; [lra|apply Rmult_lt_0_compat; assumption].
Qed.
(** poles on the imaginary axis: the response there is -1/k *)
Lemma pole_iff k num den w L : let d := ceval den (0, w) in fst d * fst d + snd d * snd d <> 0 -> response num den w L -> (pole k (num, den) (0, w) <-> k * fst L = - 1 /\ k * snd L = 0).
Proof.
  unfold response, pole. cbn [fst snd]. intros NZ <-. destruct (ceval den (0, w)) as [p q], L as [x y]. unfold cmul, cadd. cbn [fst snd] in *. split.
  - intros H. injection H as H1 H2. set (u := 1 + k * x). set (v := k * y). assert (G1 : p * u - q * v = 0) by (unfold u, v; lra). assert (G2 : p * v + q * u = 0) by (unfold u, v; lra).
    assert (U : u = 0). { apply (Rmult_eq_reg_l (p * p + q * q)); [|exact NZ]. transitivity (p * (p * u - q * v) + q * (p * v + q * u)); [ring|rewrite G1, G2; ring]. }
    assert (V : v = 0). { apply (Rmult_eq_reg_l (p * p + q * q)); [|exact NZ]. transitivity (p * (p * v + q * u) - q * (p * u - q * v)); [ring|rewrite G1, G2; ring]. } unfold u in U. split; [lra|exact V].
  - intros [H1 H2]. apply pair_eq; [transitivity (p * (1 + k * x) - q * (k * y)); [ring|]|transitivity (p * (k * y) + q * (1 + k * x)); [ring|]]; rewrite H1, H2; ring.
Qed.
Lemma ceval_conj p x y u v : ceval p (x, y) = (u, v) -> ceval p (x, - y) = (u, - v).
Proof.
  rewrite <- (rev_involutive p), !ceval_rev. revert u v. induction (rev p) as [|c l IH]; intros u v; [cbn; intros H; injection H as <- <-; f_equal; ring|]. cbn [evr fold_right]. fold (evr l (x, y)) (evr l (x, - y)). destruct (evr l (x, y)) as [u' v']. rewrite (IH u' v' eq_refl).
  unfold cadd, cmul. cbn [fst snd]. intros H. injection H as <- <-. apply pair_eq; ring.
Qed.
Lemma pole_conj k num den w : pole k (num, den) (0, w) -> pole k (num, den) (0, - w).
Proof.
  unfold pole. cbn [fst snd]. destruct (ceval num (0, w)) as [a b] eqn:EN, (ceval den (0, w)) as [c d] eqn:ED. rewrite (ceval_conj _ _ _ _ _ EN), (ceval_conj _ _ _ _ _ ED). unfold cadd, cmul. cbn [fst snd]. intros H. injection H as H1 H2. apply pair_eq; lra.
Qed.

Theorem C95_margins : exists lag, pade_phase lag /\ forall T a b, 0 < T -> 0 < a -> 0 < b -> let tf := delayed T a b in
  (forall w, gain_crossover (fst tf) (snd tf) w <-> gain_crossover [a; b] [1; 0; 0] w) /\
  (forall w phi, gain_crossover (fst tf) (snd tf) w -> (phase_margin (fst tf) (snd tf) w phi <-> - PI < phi <= PI /\ exists k : Z, phi = atan (a * w / b) - lag (T * w) + 2 * IZR k * PI)) /\
  (T < a / b -> exists wp gm, 0 < wp < 2.1 / T /\ 0 < gm /\ phase_crossover (fst tf) (snd tf) wp /\ (forall w, phase_crossover (fst tf) (snd tf) w -> wp <= w) /\
     (forall k w, 0 < k < gm -> ~ pole k tf (0, w)) /\ pole gm tf (0, wp) /\ pole gm tf (0, - wp) /\
     (forall wc, gain_crossover (fst tf) (snd tf) wc -> (1 < gm <-> wc < wp) /\ (1 < gm -> exists phi, phase_margin (fst tf) (snd tf) wc phi /\ 0 < phi < PI / 2))) /\
  (a / b <= T -> forall w L, 0 < w -> w < 1 / T -> response (fst tf) (snd tf) w L -> fst L < 0 /\ 0 < snd L).
Proof.
  exists lag. split.
  { split; [intros x; apply derivable_continuous_pt; exists (rate x); apply lag_deriv|]. split; [exact lag_0|]. split; [exact lag_incr|]. split; [exact lag_bounds|]. exact pade_response. }
  intros T a b HT Ha Hb tf. assert (PP := PI_RGT_0).
  assert (GC : forall w, gain_crossover (fst tf) (snd tf) w <-> 0 < w /\ gn a b w = 1) by (intros w; unfold tf; rewrite delayed_tf by exact HT; exact (cross_gn T a b w HT Hb)).
  assert (RS : forall w L, 0 < w -> response (fst tf) (snd tf) w L <-> L = (- (gn a b w * cos (psi T a b w)), - (gn a b w * sin (psi T a b w)))) by (intros w L W; unfold tf; rewrite delayed_tf by exact HT; exact (loop_response T a b w L HT Hb W)).
  assert (PM : forall w phi, gain_crossover (fst tf) (snd tf) w -> (phase_margin (fst tf) (snd tf) w phi <-> - PI < phi <= PI /\ exists k : Z, phi = psi T a b w + 2 * IZR k * PI)).
  { intros w phi G. apply GC in G. destruct G as [W G]. unfold phase_margin. rewrite (RS w _ W), G. split.
    - intros [R' H]. split; [exact R'|]. assert (H1 := f_equal fst H). assert (H2 := f_equal snd H). cbn [fst snd] in H1, H2. apply same_angle; lra.
    - intros [R' (k & K)]. split; [exact R'|]. assert (CK : cos phi = cos (psi T a b w) /\ sin phi = sin (psi T a b w)). { rewrite K. destruct (Z_le_gt_dec 0 k) as [KP|KN].
        - replace (IZR k) with (INR (Z.to_nat k)) by (rewrite INR_IZR_INZ, Z2Nat.id by exact KP; reflexivity). split; [apply cos_period|apply sin_period].
        - assert (E : psi T a b w = psi T a b w + 2 * IZR k * PI + 2 * INR (Z.to_nat (- k)) * PI) by (rewrite INR_IZR_INZ, Z2Nat.id by lia; rewrite opp_IZR; ring). rewrite E at 2 4. split; symmetry; [apply cos_period|apply sin_period]. }
      destruct CK as [-> ->]. apply pair_eq; ring. }
  split; [intros w; rewrite GC; symmetry; apply cross0_gn, Hb|]. split; [exact PM|].
  assert (PC : forall w, phase_crossover (fst tf) (snd tf) w <-> 0 < w /\ sin (psi T a b w) = 0 /\ 0 < cos (psi T a b w)).
  { intros w. unfold phase_crossover. split; intros (W & H); (split; [exact W|]); assert (GP := gn_pos a b w Hb W).
    - destruct H as (L & HR & H1 & H2). apply (RS w L W) in HR. subst L. cbn [fst snd] in H1, H2. split; [apply (Rmult_eq_reg_l (gn a b w)); lra|]. apply (Rmult_lt_reg_l (gn a b w)); lra.
    - eexists. split; [apply RS; [exact W|reflexivity]|]. cbn [fst snd]. destruct H as [-> H]. split; [ring|]. assert (0 < gn a b w * cos (psi T a b w)) by (apply Rmult_lt_0_compat; assumption). lra. }
  split.
  - intros TA. destruct (psi_first T a b HT Ha Hb TA) as (wp & WP & Z & BEF). assert (GP := gn_pos a b wp Hb (proj1 WP)). exists wp, (/ gn a b wp). assert (G0 : 0 < / gn a b wp) by (apply Rinv_0_lt_compat, GP).
    assert (FIRST : forall w, phase_crossover (fst tf) (snd tf) w -> wp <= w). { intros w P. apply PC in P. destruct P as (W & S' & _). apply Rnot_lt_le. intros L. destruct (sin_zero_small _ (BEF w (conj W L))) as [S2 _]. lra. }
    assert (RP : response (fst tf) (snd tf) wp (- gn a b wp, 0)) by (apply RS; [lra|]; rewrite Z, cos_0, sin_0; apply pair_eq; ring).
    assert (POLE : pole (/ gn a b wp) tf (0, wp)). { destruct tf as [num den] eqn:ET. apply (pole_iff _ num den wp (- gn a b wp, 0)); [|exact RP|cbn [fst snd]; split; [field; lra|ring]]. assert (N := denom_nz T a b wp HT ltac:(lra)). unfold tf in ET. rewrite ET in N. exact N. }
    split; [lra|]. split; [exact G0|]. split; [apply PC; rewrite Z, cos_0, sin_0; lra|]. split; [exact FIRST|]. split; [|split; [exact POLE|split]].
    + assert (POS : forall k w, 0 < k < / gn a b wp -> 0 < w -> ~ pole k tf (0, w)).
      { intros k w K W P. assert (GW := gn_pos a b w Hb W). assert (RW := proj2 (RS w _ W) eq_refl). assert (N := denom_nz T a b w HT ltac:(lra)). fold tf in N. destruct tf as [num den] eqn:ET. cbn [fst snd] in *. apply (pole_iff k num den w _ N RW) in P. cbn [fst snd] in P. destruct P as [P1 P2].
        assert (C0 : k * gn a b w * cos (psi T a b w) = 1) by lra. assert (S0 : sin (psi T a b w) = 0) by (apply (Rmult_eq_reg_l (k * gn a b w)); [lra|apply Rgt_not_eq, Rmult_lt_0_compat; lra]).
        assert (CP : 0 < cos (psi T a b w)) by (apply (Rmult_lt_reg_l (k * gn a b w)); [apply Rmult_lt_0_compat; lra|lra]).
        assert (C1 : cos (psi T a b w) = 1). { assert (T2 := sin2_cos2 (psi T a b w)). unfold Rsqr in T2. rewrite S0 in T2. nra. }
        assert (WL : wp <= w) by (apply FIRST, PC; split; [exact W|split; assumption]). assert (GL : gn a b w <= gn a b wp). { destruct (Req_dec wp w) as [->|NE]; [lra|]. left. apply gn_decr; lra. }
        rewrite C1, Rmult_1_r in C0. assert (k * gn a b w < 1); [|lra]. apply Rle_lt_trans with (k * gn a b wp); [apply Rmult_le_compat_l; lra|]. apply Rlt_le_trans with (/ gn a b wp * gn a b wp); [apply Rmult_lt_compat_r; lra|]. right. field. lra. }
      intros k w K P. destruct (Rtotal_order w 0) as [W|[->|W]]; [|revert P; clear - K HT Ha Hb; unfold tf, delayed, pole; cbn [fst snd]; rewrite !ceval_mul; destruct (pade_eval T 0 HT) as [-> ->]; rewrite Rmult_0_r|exact (POS k w K W P)].
      * apply (POS k (- w) K); [lra|]. assert (Q := pole_conj k (fst tf) (snd tf) w). destruct tf as [num den]. apply Q, P.
      * assert (T4 : 0 < T ^ 4) by (apply pow_lt, HT). unfold ceval, pa, pb, cadd, cmul. cbn [fold_left fst snd]. intros H. assert (H1 := f_equal fst H). cbn [fst] in H1. assert (E : 1680 / T ^ 4 * (k * b) = 0) by (rewrite <- H1; field; lra). assert (0 < 1680 / T ^ 4 * (k * b)) by (apply Rmult_lt_0_compat; [apply Rdiv_lt_0_compat; lra|apply Rmult_lt_0_compat; lra]). lra.
    + destruct tf as [num den]. apply pole_conj, POLE.
    + intros wc G. assert (G' := G). apply GC in G'. destruct G' as [WC GE]. assert (EQ : 1 < / gn a b wp <-> wc < wp). { split; intros H.
        - apply Rnot_le_lt. intros L. assert (1 <= gn a b wp). { rewrite <- GE. destruct (Req_dec wp wc) as [->|NE]; [lra|]. left. apply gn_decr; lra. } assert (/ gn a b wp <= / 1) by (apply Rinv_le_contravar; lra). rewrite Rinv_1 in *. lra.
        - assert (gn a b wp < 1) by (rewrite <- GE; apply gn_decr; lra). rewrite <- Rinv_1 at 1. apply Rinv_lt_contravar; [apply Rmult_lt_0_compat; lra|assumption]. }
      split; [exact EQ|]. intros H. apply EQ in H. specialize (BEF wc (conj WC H)). exists (psi T a b wc). split; [|exact BEF]. apply PM; [exact G|]. split; [lra|]. exists 0%Z. ring.
  - intros TA w L W WT HR. apply (RS w L W) in HR. subst L. cbn [fst snd]. assert (GP := gn_pos a b w Hb W). assert (TW : T * w < 1). { replace 1 with (T * (1 / T)) by (field; lra). apply Rmult_lt_compat_l; assumption. }
    destruct (psi_low T a b HT Ha Hb TA w W TW) as [L1 L2]. assert (C : 0 < cos (psi T a b w)) by (apply cos_gt_0; lra). assert (S' : sin (psi T a b w) < 0) by (apply sin_lt_0_var; lra).
    assert (0 < gn a b w * cos (psi T a b w)) by (apply Rmult_lt_0_compat; assumption). assert (0 < gn a b w * (- sin (psi T a b w))) by (apply Rmult_lt_0_compat; lra). lra.
Qed.
Print Assumptions C95_margins.

(** ** C95: what axis_margins hands to the library *)
Theorem C95_axes : forall A (margin : list R -> list R -> A) delay_s J K, det3 J <> 0 -> exists l, axis_margins margin delay_s J K = Ok l /\ length l = 3%nat /\
  forall i pick, nth_error [(fun m : m3 => x3 (row1 m)); (fun m => y3 (row2 m)); (fun m => z3 (row3 m))] i = Some pick ->
  exists e, nth_error l i = Some e /\ ax_kq (fst e) = pick (k1 K) /\ ax_kw (fst e) = pick (k2 K) /\ ax_ji (fst e) = pick (inv3 J) /\
  let a := pick (inv3 J) * pick (k2 K) in let b := pick (inv3 J) * pick (k1 K) / 2 in
  (forall T, delay_s = Some T -> 0 < T -> snd e = margin (fst (delayed T a b)) (snd (delayed T a b))) /\
  ((delay_s = None \/ exists T, delay_s = Some T /\ T <= 0) -> snd e = margin [a; b] [1; 0; 0]).
Proof.
  intros A margin delay_s J K DJ. unfold axis_margins. destruct (Reqb_spec (det3 J) 0) as [Z|_]; [contradiction|]. eexists. split; [reflexivity|]. split; [reflexivity|]. intros i pick HI.
  assert (E : forall pick : m3 -> R, exists e, (let l := axis_entry (inv3 J) (k1 K) (k2 K) pick in let '(num, den) := axis_tf delay_s (ax_num l) in (l, margin num den)) = e /\ ax_kq (fst e) = pick (k1 K) /\ ax_kw (fst e) = pick (k2 K) /\ ax_ji (fst e) = pick (inv3 J) /\
    let a := pick (inv3 J) * pick (k2 K) in let b := pick (inv3 J) * pick (k1 K) / 2 in
    (forall T, delay_s = Some T -> 0 < T -> snd e = margin (fst (delayed T a b)) (snd (delayed T a b))) /\ ((delay_s = None \/ exists T, delay_s = Some T /\ T <= 0) -> snd e = margin [a; b] [1; 0; 0])).
  { clear. intros pick. cbv zeta. cbn [axis_entry ax_num]. replace (0.5 * pick (inv3 J) * pick (k1 K)) with (pick (inv3 J) * pick (k1 K) / 2) by lra. destruct (axis_tf delay_s _) as [num den] eqn:ET. eexists. split; [reflexivity|]. cbn [fst snd axis_entry ax_kq ax_kw ax_ji]. split; [reflexivity|]. split; [reflexivity|]. split; [reflexivity|]. split.
    - intros T -> HT. rewrite <- delayed_tf in ET by exact HT. rewrite ET. reflexivity.
    - intros N. rewrite tf_none in ET by exact N. injection ET as <- <-. reflexivity. }
  destruct i as [|[|[|i]]]; cbn [nth_error map] in HI |- *; [| | |destruct i; discriminate]; injection HI as <-;
  match goal with |- context [axis_entry _ _ _ ?p] => destruct (E p) as (e & EE & H) end; exists e; (split; [f_equal; exact EE|exact H]).
Qed.
Print Assumptions C95_axes.
(** ** C95: the gain of the design, with the delay of half a sample that the docstring suggests: every axis is in the case T < a / b *)
Theorem C95_half_sample : forall dare jx jy jz Ts max_error max_rate K, solver_ok dare (diag3 jx jy jz) Ts max_error max_rate -> 0 < jx -> 0 < jy -> 0 < jz -> 0 < Ts -> max_error <> 0 -> max_rate <> 0 ->
  get_gain_matrix dare (diag3 jx jy jz) Ts max_error max_rate = Ok K ->
  forall pick : m3 -> R, In pick [(fun m : m3 => x3 (row1 m)); (fun m => y3 (row2 m)); (fun m => z3 (row3 m))] ->
  let a := pick (inv3 (diag3 jx jy jz)) * pick (k2 K) in let b := pick (inv3 (diag3 jx jy jz)) * pick (k1 K) / 2 in
  0 < a /\ 0 < b /\ Ts / 2 < a / b.
Proof.
  intros dare jx jy jz Ts e w K HD Hx Hy Hz HT NE NW HK pick HP. set (J := diag3 jx jy jz : m3) in *. assert (DJ : det3 J <> 0) by (unfold J; rewrite diag_det; apply Rgt_not_eq; repeat apply Rmult_lt_0_compat; assumption).
  assert (EI : inv3 J = diag3 (/ jx) (/ jy) (/ jz)) by (unfold J; apply diag_inv; lra).
  assert (PX := C88_principal_axes dare J Ts e w K ex jx HD DJ HT NE NW HK). assert (PY := C88_principal_axes dare J Ts e w K ey jy HD DJ HT NE NW HK). assert (PZ := C88_principal_axes dare J Ts e w K ez jz HD DJ HT NE NW HK).
  destruct PX as (qx' & wx & QX & WX & QX0 & WX0 & GX); [unfold ex; vring|unfold J, ex; vring|unfold J, ex; vring|exact Hx|].
  destruct PY as (qy' & wy & QY & WY & QY0 & WY0 & GY); [unfold ey; vring|unfold J, ey; vring|unfold J, ey; vring|exact Hy|].
  destruct PZ as (qz' & wz & QZ & WZ & QZ0 & WZ0 & GZ); [unfold ez; vring|unfold J, ez; vring|unfold J, ez; vring|exact Hz|].
  destruct K as [Kq Kw]. cbn [k1 k2] in *. assert (EQ := diag_of Kq _ _ _ QX QY QZ). assert (EW := diag_of Kw _ _ _ WX WY WZ). subst Kq Kw. rewrite EI.
  assert (G : forall j q k, 0 < j -> 0 < q -> 0 < k -> Ts / 4 * q < k -> 0 < / j * k /\ 0 < / j * q / 2 /\ Ts / 2 < / j * k / (/ j * q / 2)).
  { intros j q k Hj Hq Hk0 Hk. assert (IJ : 0 < / j) by (apply Rinv_0_lt_compat, Hj). split; [apply Rmult_lt_0_compat; assumption|]. assert (0 < / j * q) by (apply Rmult_lt_0_compat; assumption). split; [lra|].
    replace (/ j * k / (/ j * q / 2)) with (2 * k / q) by (field; lra). apply (Rmult_lt_reg_r q); [exact Hq|]. replace (2 * k / q * q) with (2 * k) by (field; lra). lra. }
  destruct HP as [<-|[<-|[<-|[]]]]; unfold diag3; cbn [row1 row2 row3 x3 y3 z3]; apply G; assumption.
Qed.
Print Assumptions C95_half_sample.
(** the hypotheses can be met: C88's unit inertia; a loop with a = 2, b = 1 and a delay of half a second or of three seconds *)
Example C95_ex : 0 < 0.5 < 2 / 1 /\ 2 / 1 <= 3 /\ pade 0.5 4 = ([1; -40; 720; -6720; 26880], [1; 40; 720; 6720; 26880]).
Proof. split; [lra|]. split; [lra|]. rewrite pade_4 by lra. f_equal; (repeat match goal with |- (_ :: _) = (_ :: _) => apply f_equal2 end); try reflexivity; lra. Qed.
