(** * Reaction wheels, inertia and walls *)
From Coq Require Import Reals ZArith List Bool Lra Psatz Lia.
From Verif Require Import Num Vec M_vector M_struct S_rot P_quat P_sat.
Import ListNotations.
Local Open Scope R_scope.

(** ** 3x3 matrices *)
Definition symm (m : m3) : Prop := tr3 m = m.
Definition pdm (m : m3) : Prop := forall x : v3, x <> zero3 -> 0 < dot3 x (mv m x).
Lemma mv_inv3 (m : m3) v : det3 m <> 0 -> mv m (mv (inv3 m) v) = v.
Proof.
  destruct m as [[a b c] [d e f] [g h i]], v as [x y z]. intros H. unfold inv3. set (k := det3 _) in *.
  assert (K : k = a * (e*i - f*h) + b * (f*g - d*i) + c * (d*h - e*g)) by (unfold k, det3, dot3, cross3; cbn; rnumg; ring).
  clearbody k. vunfold; rnum. apply mk3_c; (apply (Rmult_eq_reg_r k); [|exact H]); field_simplify; try exact H; rewrite ?K; field; exact H.
Qed.
Lemma inv3_mv (m : m3) v : det3 m <> 0 -> mv (inv3 m) (mv m v) = v.
Proof.
  destruct m as [[a b c] [d e f] [g h i]], v as [x y z]. intros H. unfold inv3. set (k := det3 _) in *.
  assert (K : k = a * (e*i - f*h) + b * (f*g - d*i) + c * (d*h - e*g)) by (unfold k, det3, dot3, cross3; cbn; rnumg; ring).
  clearbody k. vunfold; rnum. apply mk3_c; (apply (Rmult_eq_reg_r k); [|exact H]); field_simplify; try exact H; rewrite ?K; field; exact H.
Qed.
Lemma pd_det (m : m3) : symm m -> pdm m -> 0 < det3 m.
Proof.
  destruct m as [[a b c] [d e f] [g h i]]. unfold symm, pdm, tr3. cbn [row1 row2 row3 x3 y3 z3]. intros S P. injection S; intros; subst d g h.
  assert (P1 := P (mk3 1 0 0)). assert (P2 := P (mk3 (- b) a 0)). assert (P3 := P (mk3 (b*f - c*e) (b*c - a*f) (a*e - b*b))).
  vunfold; rnum.
  assert (A : 0 < a). { assert (K : mk3 1 0 0 <> mk3 0 0 0 :> v3) by (intros E; injection E; lra). specialize (P1 K). lra. }
  assert (D : 0 < a * e - b * b).
  { assert (K : mk3 (- b) a 0 <> mk3 0 0 0 :> v3) by (intros E; injection E; lra). specialize (P2 K).
    assert (0 < a * (a * e - b * b)) by lra. nra. }
  assert (K : mk3 (b*f - c*e) (b*c - a*f) (a*e - b*b) <> mk3 0 0 0 :> v3) by (intros E; injection E; lra).
  specialize (P3 K). set (dd := a * e - b * b) in *.
  assert (E : 0 < dd * (a * (e * i - f * f) + b * (f * c - b * i) + c * (b * f - e * c))) by (unfold dd in *; lra).
  apply (Rmult_lt_reg_l dd); [exact D|]. rewrite Rmult_0_r. exact E.
Qed.

(** ** sums *)
Lemma dot_sum3 y l : dot3 y (sum3 l) = fold_right (fun v s => dot3 y v + s) 0 l.
Proof. induction l as [|v l IH]; cbn [sum3 fold_right]; [vring|]. fold (sum3 l). rewrite <- IH. generalize (sum3 l). vring. Qed.
Lemma mv_summ x l : mv (summ l) x = sum3 (map (fun m => mv m x) l).
Proof. induction l as [|m l IH]; cbn [summ map sum3 fold_right]; [vring|]. fold (summ l). fold (sum3 (map (fun m => mv m x) l)). rewrite <- IH. generalize (summ l). vring. Qed.
Lemma scale_sum3 k l : scale3 k (sum3 l) = sum3 (map (scale3 k) l).
Proof. induction l as [|m l IH]; cbn [map sum3 fold_right]; [vring|]. fold (sum3 l). fold (sum3 (map (scale3 k) l)). rewrite <- IH. generalize (sum3 l). vring. Qed.
Lemma summ_symm l : Forall symm l -> symm (summ l).
Proof.
  induction 1 as [|m l H _ IH]; cbn [summ fold_right]; [unfold symm; vring|]. fold (summ l). unfold symm in *.
  transitivity (addm (tr3 m) (tr3 (summ l))); [generalize (summ l); vring|]. rewrite H, IH. reflexivity.
Qed.
Lemma outer_symm v : symm (outer3 v v). Proof. unfold symm. vring. Qed.
Lemma scalem_symm k m : symm m -> symm (scalem k m).
Proof. unfold symm. intros H. transitivity (scalem k (tr3 m)); [vring|]. rewrite H. reflexivity. Qed.
Lemma addm_symm a b : symm a -> symm b -> symm (addm a b).
Proof. unfold symm. intros H K. transitivity (addm (tr3 a) (tr3 b)); [vring|]. rewrite H, K. reflexivity. Qed.
Lemma subm_symm a b : symm a -> symm b -> symm (subm a b).
Proof. unfold symm. intros H K. transitivity (subm (tr3 a) (tr3 b)); [vring|]. rewrite H, K. reflexivity. Qed.

(** ** wheel torques *)
(** the torque produced by wheel torques tau: sum of tau_i a_i *)
Definition wheel_sum (s : RWS) (tau : list R) : v3 := sum3 (zip_with (fun w t => scale3 t (w_axis w)) (rw_wheels s) tau).
Definition sqsum (l : list R) : R := fold_right (fun x s => x * x + s) 0 l.
Lemma zip_with_length {A B C} (f : A -> B -> C) l r : length l = length r -> length (zip_with f l r) = length l.
Proof. revert r; induction l as [|a l IH]; intros [|b r] H; try discriminate; [reflexivity|]. cbn. rewrite IH; [reflexivity|]. injection H; auto. Qed.
Lemma torque_of_accel s tau : Forall (fun w => w_par w <> 0) (rw_wheels s) -> length tau = length (rw_wheels s) ->
  rw_torque s (zip_with w_acceleration (rw_wheels s) tau) = wheel_sum s tau.
Proof.
  unfold rw_torque, wheel_sum. generalize (rw_wheels s) as ws. intros ws H. revert tau.
  induction H as [|w ws Hw _ IH]; intros [|t tau] HL; try discriminate; [reflexivity|]. injection HL as HL.
  cbn [zip_with sum3 fold_right]. f_equal; [|exact (IH tau HL)].
  unfold w_torque, w_acceleration. destruct w as [[x y z] p o]. cbn [w_axis w_par] in *. vunfold; rnum. apply mk3_c; field; exact Hw.
Qed.
Lemma distribute_sum s y : wheel_sum s (map (fun w => dot3 (w_axis w) y) (rw_wheels s)) = mv (rw_gram s) y.
Proof.
  unfold wheel_sum, rw_gram. rewrite mv_summ, map_map. generalize (rw_wheels s). intros ws. induction ws as [|w ws IH]; [reflexivity|].
  cbn [map zip_with sum3 fold_right]. f_equal; [|exact IH]. generalize (w_axis w). vring.
Qed.
Lemma distribute_exact s T : det3 (rw_gram s) <> 0 -> wheel_sum s (rw_distribute s T) = T.
Proof. intros H. unfold rw_distribute. cbv zeta. rewrite distribute_sum. apply mv_inv3, H. Qed.
Lemma inner_dist s y tau : length tau = length (rw_wheels s) ->
  fold_right Rplus 0 (zip_with Rmult (map (fun w => dot3 (w_axis w) y) (rw_wheels s)) tau) = dot3 y (wheel_sum s tau).
Proof.
  unfold wheel_sum. generalize (rw_wheels s). intros ws. revert tau. induction ws as [|w ws IH]; intros [|t tau] HL; try discriminate.
  - cbn. vring.
  - injection HL as HL. cbn [map zip_with sum3 fold_right]. rewrite (IH tau HL). fold (sum3 (zip_with (fun w t => scale3 t (w_axis w)) ws tau)).
    generalize (sum3 (zip_with (fun w t => scale3 t (w_axis w)) ws tau)) (w_axis w). vring.
Qed.
Lemma sqsum_diff a b : length a = length b ->
  sqsum b - sqsum a = fold_right (fun x s => x * x + s) 0 (zip_with Rminus b a) + 2 * (fold_right Rplus 0 (zip_with Rmult a b) - sqsum a).
Proof.
  revert b; induction a as [|x a IH]; intros [|y b] HL; try discriminate; [cbn; ring|]. injection HL as HL.
  cbn [sqsum zip_with fold_right]. fold (sqsum a) (sqsum b). assert (K := IH b HL). lra.
Qed.
Lemma sqsum_self a : fold_right Rplus 0 (zip_with Rmult a a) = sqsum a.
Proof. induction a as [|x a IH]; [reflexivity|]. cbn [zip_with fold_right sqsum]. rewrite IH. reflexivity. Qed.
Lemma sqsum_nonneg a : 0 <= sqsum a.
Proof. induction a as [|x a IH]; cbn [sqsum fold_right]; [lra|]. fold (sqsum a). nra. Qed.
Lemma sqsum_zero_eq a b : length a = length b -> sqsum (zip_with Rminus b a) = 0 -> a = b.
Proof.
  revert b; induction a as [|x a IH]; intros [|y b] HL H; try discriminate; [reflexivity|]. injection HL as HL.
  cbn [zip_with sqsum fold_right] in H. fold (sqsum (zip_with Rminus b a)) in H. assert (N := sqsum_nonneg (zip_with Rminus b a)).
  assert (y - x = 0) by nra. f_equal; [lra|]. apply IH; [exact HL|nra].
Qed.
Lemma distribute_least s T tau : det3 (rw_gram s) <> 0 -> length tau = length (rw_wheels s) -> wheel_sum s tau = T ->
  sqsum (rw_distribute s T) <= sqsum tau /\ (sqsum tau = sqsum (rw_distribute s T) -> tau = rw_distribute s T).
Proof.
  intros H HL HT. set (a := rw_distribute s T). assert (LA : length a = length tau) by (unfold a, rw_distribute; rewrite map_length; symmetry; exact HL).
  assert (D := sqsum_diff a tau LA).
  assert (I1 : fold_right Rplus 0 (zip_with Rmult a tau) = sqsum a).
  { rewrite <- sqsum_self. unfold a at 1 2, rw_distribute. cbv zeta. rewrite inner_dist by exact HL. rewrite HT.
    rewrite inner_dist by (unfold a, rw_distribute; rewrite map_length; reflexivity). unfold a. rewrite distribute_exact by exact H. reflexivity. }
  rewrite I1 in D. fold (sqsum (zip_with Rminus tau a)) in D. assert (N := sqsum_nonneg (zip_with Rminus tau a)).
  split; [lra|]. intros E. symmetry. apply sqsum_zero_eq; [exact LA|lra].
Qed.
Lemma wheel_sum_scale s k tau : wheel_sum s (map (fun x => k * x) tau) = scale3 k (wheel_sum s tau).
Proof.
  unfold wheel_sum. generalize (rw_wheels s). intros ws. revert tau. induction ws as [|w ws IH]; intros [|t tau]; cbn [map zip_with sum3 fold_right]; try vring.
  fold (sum3 (zip_with (fun w t => scale3 t (w_axis w)) ws tau)). unfold sum3 in IH at 1. rewrite IH. fold (sum3 (zip_with (fun w t => scale3 t (w_axis w)) ws tau)).
  generalize (sum3 (zip_with (fun w t => scale3 t (w_axis w)) ws tau)) (w_axis w). vring.
Qed.
(** Moore-Penrose: with P y = (a_i . G^-1 y), A P A = A, P A P = P, A P and P A symmetric *)
Lemma pinv_conditions s : det3 (rw_gram s) <> 0 ->
  let A := wheel_sum s in let P := rw_distribute s in
  (forall tau, A (P (A tau)) = A tau) /\ (forall y, P (A (P y)) = P y) /\ (forall y z, dot3 y (A (P z)) = dot3 (A (P y)) z) /\
  (forall tau sg, length tau = length (rw_wheels s) -> length sg = length (rw_wheels s) ->
     fold_right Rplus 0 (zip_with Rmult (P (A tau)) sg) = fold_right Rplus 0 (zip_with Rmult (P (A sg)) tau)).
Proof.
  intros H A P. assert (AP : forall y, A (P y) = y) by (intros; apply distribute_exact, H).
  split; [intros; apply AP|]. split; [intros; rewrite AP; reflexivity|]. split; [intros; rewrite !AP; reflexivity|].
  intros tau sg L1 L2. unfold P, rw_distribute. cbv zeta. rewrite !inner_dist by assumption. fold A.
  assert (SY : symm (inv3 (rw_gram s))).
  { assert (S : symm (rw_gram s)) by (apply summ_symm; rewrite Forall_map; apply Forall_forall; intros; apply outer_symm).
    unfold symm in *. revert S. generalize (rw_gram s). intros [[a b c] [d e f] [g h i]]. unfold tr3. cbn [row1 row2 row3 x3 y3 z3]. intros S. injection S; intros; subst d g h.
    unfold inv3, div3. set (k := det3 _). generalize k. intros k'. unfold tr3, cross3. cbn [row1 row2 row3 x3 y3 z3]. rnumg. unfold Rdiv. apply mkm_c; apply mk3_c; ring. }
  unfold symm in SY. revert SY. generalize (inv3 (rw_gram s)) (A tau) (A sg). intros m u v SY. rewrite <- SY at 1. generalize m u v. vring.
Qed.

(** ** inertia *)
Lemma w_par_symm w : symm (w_par_moment w). Proof. apply scalem_symm, outer_symm. Qed.
Lemma w_orth_symm w : symm (w_orth_moment w). Proof. apply scalem_symm, subm_symm; [unfold symm; vring|apply outer_symm]. Qed.
Lemma quad_sum x l : dot3 x (mv (summ l) x) = fold_right (fun m s => dot3 x (mv m x) + s) 0 l.
Proof. rewrite mv_summ, dot_sum3. induction l as [|m l IH]; [reflexivity|]. cbn [map fold_right]. rewrite IH. reflexivity. Qed.
Lemma quad_sum_nonneg {A} (f : A -> m3) x l : Forall (fun w => 0 <= dot3 x (mv (f w) x)) l -> 0 <= dot3 x (mv (summ (map f l)) x).
Proof. intros H. rewrite quad_sum. induction H as [|w l Hw _ IH]; cbn [map fold_right]; lra. Qed.
Definition good_wheel (w : Wheel) : Prop := unit3 (w_axis w) /\ 0 <= w_par w /\ 0 <= w_orth w.
Lemma par_quad w x : dot3 x (mv (w_par_moment w) x) = w_par w * (dot3 (w_axis w) x) ^ 2.
Proof. unfold w_par_moment. generalize (w_axis w) (w_par w). vring. Qed.
Lemma orth_quad w x : dot3 x (mv (w_orth_moment w) x) = w_orth w * (dot3 x x - (dot3 (w_axis w) x) ^ 2).
Proof. unfold w_orth_moment. generalize (w_axis w) (w_orth w). vring. Qed.
Lemma par_nonneg w x : good_wheel w -> 0 <= dot3 x (mv (w_par_moment w) x).
Proof. intros (U & P & O). rewrite par_quad. apply Rmult_le_pos; [exact P|apply pow2_ge_0]. Qed.
Lemma orth_nonneg w x : good_wheel w -> 0 <= dot3 x (mv (w_orth_moment w) x).
Proof.
  intros (U & P & O). rewrite orth_quad. apply Rmult_le_pos; [exact O|]. assert (C := cauchy3 (w_axis w) x). rewrite U in C.
  assert (N := dot3_nonneg (cross3 (w_axis w) x)). simpl. lra.
Qed.
Definition good_sat (s : Satellite) : Prop :=
  0 < x3 (s_principal s) /\ 0 < y3 (s_principal s) /\ 0 < z3 (s_principal s) /\ Forall good_wheel (rw_wheels (s_rw s)).
Lemma rw_par_symm s : symm (rw_parallel s). Proof. apply summ_symm. rewrite Forall_map. apply Forall_forall. intros; apply w_par_symm. Qed.
Lemma rw_orth_symm s : symm (rw_orthogonal s). Proof. apply summ_symm. rewrite Forall_map. apply Forall_forall. intros; apply w_orth_symm. Qed.
Lemma diag_symm a b c : symm (diag3 a b c). Proof. unfold symm. vring. Qed.
Lemma reduced_symm s : symm (s_reduced_moment s).
Proof.
  unfold s_reduced_moment. assert (B := addm_symm _ _ (diag_symm (x3 (s_principal s)) (y3 (s_principal s)) (z3 (s_principal s))) (rw_orth_symm (s_rw s))).
  destruct (s_reduced s); [|exact B]. apply addm_symm; [exact B|]. unfold symm, product_matrix. generalize (s_products s). vring.
Qed.
Lemma total_symm s : symm (s_total_moment s). Proof. apply addm_symm; [apply reduced_symm|apply rw_par_symm]. Qed.
Lemma quad_addm x a b : dot3 x (mv (addm a b) x) = dot3 x (mv a x) + dot3 x (mv b x). Proof. vring. Qed.
Lemma diag_pd a b c : 0 < a -> 0 < b -> 0 < c -> pdm (diag3 a b c).
Proof.
  intros Ha Hb Hc [x y z] H. vunfold; rnum. assert (0 <= a * (x * x)) by (apply Rmult_le_pos; nra). assert (0 <= b * (y * y)) by (apply Rmult_le_pos; nra). assert (0 <= c * (z * z)) by (apply Rmult_le_pos; nra).
  destruct (Req_dec x 0) as [->|X]. 2:{ assert (0 < a * (x * x)) by (apply Rmult_lt_0_compat; nra). lra. }
  destruct (Req_dec y 0) as [->|Y]. 2:{ assert (0 < b * (y * y)) by (apply Rmult_lt_0_compat; nra). lra. }
  destruct (Req_dec z 0) as [->|Z]. 2:{ assert (0 < c * (z * z)) by (apply Rmult_lt_0_compat; nra). lra. }
  exfalso; apply H; reflexivity.
Qed.
Lemma reduced_pd s : good_sat s -> s_reduced s = false -> pdm (s_reduced_moment s).
Proof.
  intros (P1 & P2 & P3 & W) E x Hx. unfold s_reduced_moment. rewrite E, quad_addm.
  assert (A := diag_pd _ _ _ P1 P2 P3 x Hx). assert (B : 0 <= dot3 x (mv (rw_orthogonal (s_rw s)) x)).
  { apply quad_sum_nonneg. eapply Forall_impl; [|exact W]. intros w Hw. apply orth_nonneg, Hw. }
  lra.
Qed.
Lemma total_pd s : good_sat s -> s_reduced s = false -> pdm (s_total_moment s).
Proof.
  intros G E x Hx. unfold s_total_moment. rewrite quad_addm. assert (A := reduced_pd s G E x Hx).
  assert (B : 0 <= dot3 x (mv (s_wheel_moment s) x)).
  { apply quad_sum_nonneg. destruct G as (_ & _ & _ & W). eapply Forall_impl; [|exact W]. intros w Hw. apply par_nonneg, Hw. }
  lra.
Qed.

(** ** pyramid *)
Lemma pyr_axes inc az par orth : map w_axis (pyramid inc az par orth) =
  [mk3 (sin inc * cos az) (sin inc * sin az) (cos inc); mk3 (- (sin inc * sin az)) (sin inc * cos az) (cos inc);
   mk3 (- (sin inc * cos az)) (- (sin inc * sin az)) (cos inc); mk3 (sin inc * sin az) (- (sin inc * cos az)) (cos inc)].
Proof.
  unfold pyramid, pyramid_axis. cbn [map w_axis].
  assert (E0 : az + INR 0 * PI / 2 = az) by (cbn; lra). assert (E1 : az + INR 1 * PI / 2 = az + PI / 2) by (cbn; lra).
  assert (E2 : az + INR 2 * PI / 2 = az + PI) by (cbn; lra). assert (E3 : az + INR 3 * PI / 2 = (az + PI / 2) + PI) by (cbn; lra).
  rewrite E0, E1, E2, E3, !neg_cos, !neg_sin. 
  assert (S : sin (az + PI / 2) = cos az) by (rewrite sin_plus, cos_PI2, sin_PI2; ring).
  assert (C : cos (az + PI / 2) = - sin az) by (rewrite cos_plus, cos_PI2, sin_PI2; ring).
  rewrite S, C. repeat (f_equal; try ring).
Qed.
Lemma pyr_gram inc az par orth maxT lim : rw_gram (mkRWS (pyramid inc az par orth) maxT lim) = diag3 (2 * (sin inc)^2) (2 * (sin inc)^2) (4 * (cos inc)^2).
Proof.
  unfold rw_gram. cbn [rw_wheels]. rewrite <- (map_map w_axis (fun a => outer3 a a)), pyr_axes.
  assert (E := sc1 az). assert (E' : cos az ^ 2 = 1 - sin az ^ 2) by lra. cbn [map summ fold_right]. vunfold; rnum. 
  replace (cos az ^2) with (cos az * cos az) in E' by ring. 
  vsplit; ring_simplify; try ring; replace (cos az ^ 2) with (1 - sin az ^ 2) by lra; ring.
Qed.
Lemma pyr_span inc az par orth maxT lim : 0 < inc < PI / 2 -> det3 (rw_gram (mkRWS (pyramid inc az par orth) maxT lim)) <> 0.
Proof.
  intros [H1 H2]. rewrite pyr_gram. assert (S : 0 < sin inc) by (apply sin_gt_0; lra). assert (C : 0 < cos inc) by (apply cos_gt_0; lra).
  assert (0 < sin inc ^ 2) by (apply pow_lt; exact S). assert (0 < cos inc ^ 2) by (apply pow_lt; exact C).
  vunfold; rnum. apply Rgt_not_eq. set (a := sin inc ^ 2) in *. set (b := cos inc ^ 2) in *.
  assert (0 < a * a * b) by (apply Rmult_lt_0_compat; [apply Rmult_lt_0_compat|]; assumption). lra.
Qed.
Lemma pyr_null inc az par orth maxT lim a b c d : 0 < inc < PI / 2 -> par <> 0 ->
  rw_momentum (mkRWS (pyramid inc az par orth) maxT lim) [a; b; c; d] = zero3 <-> exists k, [a; b; c; d] = [- k; k; - k; k].
Proof.
  intros [H1 H2] Hp. assert (S : 0 < sin inc) by (apply sin_gt_0; lra). assert (C : 0 < cos inc) by (apply cos_gt_0; lra).
  assert (X := pyr_axes inc az par orth). unfold rw_momentum. cbn [rw_wheels]. unfold pyramid in *. cbn [map w_axis zip_with] in *.
  assert (LI : forall (a b c d a' b' c' d' : v3), [a; b; c; d] = [a'; b'; c'; d'] -> a = a' /\ b = b' /\ c = c' /\ d = d') by (intros * Q; repeat split; congruence).
  apply LI in X. destruct X as (A0 & A1 & A2 & A3).
  unfold w_momentum. cbn [w_axis w_par]. rewrite A0, A1, A2, A3. clear A0 A1 A2 A3.
  assert (T := sc1 az). set (sa := sin az) in *. set (ca := cos az) in *. set (si := sin inc) in *. set (ci := cos inc) in *. clearbody sa ca si ci.
  cbn [sum3 fold_right]. vunfold; rnum. split.
  - intros E. injection E; intros E3 E2 E1.
    assert (F3 : par * (ci * (a + b + c + d)) = 0) by (rewrite <- E3; ring). 
    assert (F1 : par * (si * ((a - c) * ca - (b - d) * sa)) = 0) by (rewrite <- E1; ring).
    assert (F2 : par * (si * ((a - c) * sa + (b - d) * ca)) = 0) by (rewrite <- E2; ring).
    assert (G : forall k x, k <> 0 -> par * (k * x) = 0 -> x = 0).
    { intros k x Hk HH. apply Rmult_integral in HH. destruct HH as [HH|HH]; [contradiction|]. apply Rmult_integral in HH. destruct HH; [contradiction|assumption]. }
    apply G in F3; [|lra]. apply G in F1; [|lra]. apply G in F2; [|lra].
    assert (Q : (a - c) * (sa ^ 2 + ca ^ 2) = 0). { transitivity (ca * ((a - c) * ca - (b - d) * sa) + sa * ((a - c) * sa + (b - d) * ca)); [ring|rewrite F1, F2; ring]. }
    assert (Q' : (b - d) * (sa ^ 2 + ca ^ 2) = 0). { transitivity (ca * ((a - c) * sa + (b - d) * ca) - sa * ((a - c) * ca - (b - d) * sa)); [ring|rewrite F1, F2; ring]. }
    rewrite T in Q, Q'. exists b. repeat (f_equal; try lra).
  - intros (k & E). injection E; intros; subst. apply mk3_c; ring.
Qed.

(** ** walls *)
Lemma pymax0_eq x : pymax0 x = Rmax 0 x.
Proof. unfold pymax0. destruct (Rltb_spec 0 x); [rewrite Rmax_right|rewrite Rmax_left]; lra. Qed.
Lemma area_nonneg w v : 0 <= wl_area w -> 0 <= projected_area w v.
Proof. intros. unfold projected_area. rewrite pymax0_eq. apply Rmult_le_pos; [apply Rmax_l|assumption]. Qed.
Lemma area_away w v : dot3 (wl_normal w) v <= 0 -> projected_area w v = 0.
Proof. intros. unfold projected_area. rewrite pymax0_eq, Rmax_left by assumption. ring. Qed.
Lemma area_toward w v : 0 <= dot3 (wl_normal w) v -> projected_area w v = dot3 (wl_normal w) v * wl_area w.
Proof. intros. unfold projected_area. rewrite pymax0_eq, Rmax_right by assumption. reflexivity. Qed.
Lemma drag_eq w p v : drag_force w p v = (scale3 (p * projected_area w v) v, scale3 (projected_area w v) (cross3 (wl_centroid w) (scale3 (p * projected_area w v) v))).
Proof. unfold drag_force, center_of_pressure. f_equal. generalize (projected_area w v) (wl_centroid w). vring. Qed.
Lemma srp_eq w p s : srp_force w p s = let F := scale3 (- p * projected_area w s) (add3 (scale3 (2 * (1 - wl_abs w) * dot3 (wl_normal w) s) (wl_normal w)) (scale3 (wl_abs w) s)) in
  (F, scale3 (projected_area w s) (cross3 (wl_centroid w) F)).
Proof. unfold srp_force, center_of_pressure, wl_refl. cbv zeta. f_equal. generalize (scale3 (- p * projected_area w s) (add3 (scale3 (2 * (1 - wl_abs w) * dot3 (wl_normal w) s) (wl_normal w)) (scale3 (wl_abs w) s))) (projected_area w s) (wl_centroid w). vring. Qed.
Lemma srp_pushes w p s : 0 <= p -> 0 <= wl_area w -> 0 <= wl_abs w <= 1 -> unit3 s ->
  dot3 (fst (srp_force w p s)) s <= 0.
Proof.
  intros Hp HA [H1 H2] U. rewrite srp_eq. cbn [fst].
  apply (Rle_trans _ (- (p * projected_area w s * (2 * (1 - wl_abs w) * (dot3 (wl_normal w) s)^2 + wl_abs w * dot3 s s)))).
  { apply Req_le. generalize (projected_area w s). intros A. generalize (wl_normal w) (wl_abs w). vring. }
  rewrite U. assert (0 <= projected_area w s) by (apply area_nonneg, HA).
  assert (0 <= 2 * (1 - wl_abs w) * dot3 (wl_normal w) s ^ 2 + wl_abs w * 1). { assert (0 <= dot3 (wl_normal w) s ^ 2) by apply pow2_ge_0. nra. }
  assert (0 <= p * projected_area w s) by (apply Rmult_le_pos; assumption).
  assert (0 <= p * projected_area w s * (2 * (1 - wl_abs w) * dot3 (wl_normal w) s ^ 2 + wl_abs w * 1)) by (apply Rmult_le_pos; assumption). lra.
Qed.
(** ** the box *)
Lemma pymax_pair x : pymax0 x + pymax0 (- x) = Rabs x /\ pymax0 x - pymax0 (- x) = x /\ pymax0 x * pymax0 x - pymax0 (- x) * pymax0 (- x) = Rabs x * x.
Proof. rewrite !pymax0_eq. unfold Rmax, Rabs. destruct (Rcase_abs x); repeat destruct (Rle_dec _ _); repeat split; nra. Qed.
Lemma box_dot s v : map (fun w => projected_area w v) (s_walls s) =
  [pymax0 (x3 v) * (s_width s * s_height s); pymax0 (- x3 v) * (s_width s * s_height s);
   pymax0 (y3 v) * (s_length s * s_height s); pymax0 (- y3 v) * (s_length s * s_height s);
   pymax0 (z3 v) * (s_width s * s_length s); pymax0 (- z3 v) * (s_width s * s_length s)].
Proof.
  unfold s_walls. cbn [map]. unfold projected_area, wl_area. cbn [wl_normal wl_len wl_wid]. destruct v as [x y z].
  unfold dot3. cbn [x3 y3 z3]. rnumg.
  replace (1 * x + 0 * y + 0 * z) with x by ring. replace (-1 * x + 0 * y + 0 * z) with (- x) by ring.
  replace (0 * x + 1 * y + 0 * z) with y by ring. replace (0 * x + -1 * y + 0 * z) with (- y) by ring.
  replace (0 * x + 0 * y + 1 * z) with z by ring. replace (0 * x + 0 * y + -1 * z) with (- z) by ring. reflexivity.
Qed.
Lemma fold_map {A} (f : A -> R) l : fold_right (fun w a => f w + a) 0 l = fold_right Rplus 0 (map f l).
Proof. induction l; cbn; [reflexivity|]. rewrite IHl. reflexivity. Qed.
Lemma box_area s v : total_area s v = Rabs (x3 v) * (s_width s * s_height s) + Rabs (y3 v) * (s_length s * s_height s) + Rabs (z3 v) * (s_width s * s_length s).
Proof.
  unfold total_area. rewrite fold_map, box_dot. cbn [fold_right].
  rewrite <- (proj1 (pymax_pair (x3 v))), <- (proj1 (pymax_pair (y3 v))), <- (proj1 (pymax_pair (z3 v))). ring.
Qed.
Lemma box_drag_force s p v : fst (total_drag s p v) = scale3 (p * total_area s v) v.
Proof.
  unfold total_drag, total_area. cbn [fst]. generalize (s_walls s). intros l. induction l as [|w l IH]; cbn [map sum3 fold_right]; [vring|].
  unfold sum3 in IH. rewrite IH, drag_eq. cbn [fst]. generalize (fold_right (fun w a => projected_area w v + a) 0 l) (projected_area w v). vring.
Qed.
Lemma box_cop s v : sum3 (map (fun w : Wall => snd (center_of_pressure w v)) (s_walls s)) = scale3 (s_length s * s_width s * s_height s / 2) v.
Proof.
  assert (D := box_dot s v). unfold s_walls in *. cbn [map] in *. injection D; intros D6 D5 D4 D3 D2 D1.
  unfold center_of_pressure. cbn [snd]. rewrite D1, D2, D3, D4, D5, D6. unfold wl_centroid. cbn [wl_dist wl_normal].
  destruct (pymax_pair (x3 v)) as (_ & X & _). destruct (pymax_pair (y3 v)) as (_ & Y & _). destruct (pymax_pair (z3 v)) as (_ & Z & _).
  cbn [sum3 fold_right]. destruct v as [x y z]. cbn [x3 y3 z3] in *. vunfold; rnum. apply mk3_c.
  - transitivity (s_length s * s_width s * s_height s / 2 * (pymax0 x - pymax0 (- x))); [field|rewrite X; reflexivity].
  - transitivity (s_length s * s_width s * s_height s / 2 * (pymax0 y - pymax0 (- y))); [field|rewrite Y; reflexivity].
  - transitivity (s_length s * s_width s * s_height s / 2 * (pymax0 z - pymax0 (- z))); [field|rewrite Z; reflexivity].
Qed.
Lemma box_drag_torque s p v : snd (total_drag s p v) =
  let k := p * (s_length s * s_width s * s_height s / 2) in
  cross3 (scale3 k (mk3 (s_width s * s_height s * Rabs (x3 v) * x3 v) (s_length s * s_height s * Rabs (y3 v) * y3 v) (s_width s * s_length s * Rabs (z3 v) * z3 v))) v.
Proof.
  unfold total_drag. cbn [snd]. assert (D := box_dot s v). unfold s_walls in *. cbn [map] in *. injection D; intros D6 D5 D4 D3 D2 D1.
  rewrite !drag_eq. cbn [snd]. rewrite D1, D2, D3, D4, D5, D6. unfold wl_centroid. cbn [wl_dist wl_normal].
  destruct (pymax_pair (x3 v)) as (_ & _ & X). destruct (pymax_pair (y3 v)) as (_ & _ & Y). destruct (pymax_pair (z3 v)) as (_ & _ & Z).
  assert (AX : forall k, k * Rabs (x3 v) * x3 v = k * (pymax0 (x3 v) * pymax0 (x3 v) - pymax0 (- x3 v) * pymax0 (- x3 v))) by (intros; rewrite X; ring).
  assert (AY : forall k, k * Rabs (y3 v) * y3 v = k * (pymax0 (y3 v) * pymax0 (y3 v) - pymax0 (- y3 v) * pymax0 (- y3 v))) by (intros; rewrite Y; ring).
  assert (AZ : forall k, k * Rabs (z3 v) * z3 v = k * (pymax0 (z3 v) * pymax0 (z3 v) - pymax0 (- z3 v) * pymax0 (- z3 v))) by (intros; rewrite Z; ring).
  cbv zeta. rewrite AX, AY, AZ. clear. destruct v as [x y z]. cbn [x3 y3 z3].
  generalize (pymax0 x) (pymax0 (- x)) (pymax0 y) (pymax0 (- y)) (pymax0 z) (pymax0 (- z)). intros.
  cbn [sum3 fold_right]. vunfold; rnum. apply mk3_c; field.
Qed.
Lemma cop_eq s v : area_and_cop s v = (total_area s v, div3 (scale3 (s_length s * s_width s * s_height s / 2) v) (total_area s v)).
Proof. unfold area_and_cop. rewrite box_cop. reflexivity. Qed.
