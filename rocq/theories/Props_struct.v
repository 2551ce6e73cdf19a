(** * Properties of configuration/structure.py: C24-C30 *)
From Coq Require Import Reals ZArith List Bool Lra Psatz Lia.
From Verif Require Import Num Flt Vec M_vector M_struct S_rot P_quat P_sat P_struct P_wheel.
Import ListNotations.
Local Open Scope R_scope.

(** ** C24: currents and moments *)
(** [actuate] is the scalar law [mt_moment] along the axis; getCurrent inverts it to one part in a million, both ways *)
Theorem C24_roundtrip : forall t (axis : v3) (i m : R),
  mt_actuate t axis i = scale3 (mt_moment t i) axis /\
  ((t = Rod -> Rabs i <= 59 / 55) -> Rabs (getCurrent t (mt_moment t i) - i) <= Rabs i / 1000000) /\
  ((t = Rod -> Rabs m <= 3481 / 2750) -> Rabs (mt_moment t (getCurrent t m) - m) <= Rabs m / 1000000).
Proof.
  intros t axis i m. split; [apply actuate_moment|]. split; intros H.
  - apply roundtrip. destruct t; cbn; auto.
  - apply roundtrip_m. destruct t; cbn; auto.
Qed.
Print Assumptions C24_roundtrip.
Theorem C24_odd_increasing : forall t (i j : R),
  mt_moment t (- i) = - mt_moment t i /\ getCurrent t (- i) = - getCurrent t i /\
  ((t = Rod -> Rabs i <= 59 / 55 /\ Rabs j <= 59 / 55) -> (i < j <-> mt_moment t i < mt_moment t j)).
Proof.
  intros t i j. split; [apply moment_opp|]. split; [apply current_opp|]. intros H.
  assert (U : usable_current t i /\ usable_current t j) by (destruct t; cbn; auto). destruct U as [U V].
  split; intros L.
  - apply moment_mono; assumption.
  - destruct (Rtotal_order i j) as [K|[K|K]]; [exact K|subst; lra|]. assert (M := moment_mono t j i V U K). lra.
Qed.
Print Assumptions C24_odd_increasing.
(** beyond 59/55 A the rod's moment falls again and the inverse folds back *)
Theorem C24_rod_fold_refuted : forall i, 59 / 55 <= i -> i < 118 / 55 ->
  getCurrent Rod (mt_moment Rod i) = 0.999999 * (118 / 55 - i) /\
  (forall j, i < j -> mt_moment Rod j < mt_moment Rod i).
Proof.
  intros i H1 H2. split; [apply rod_fold; assumption|]. intros j Hj. rewrite !rod_pos by lra. nra.
Qed.
Print Assumptions C24_rod_fold_refuted.
(** in binary64 the inverse is NaN for every larger moment *)
Theorem C24_rod_nan_refuted : forall m : b64, fin m = true -> 3482 / 2750 <= Rabs (fR m) -> getCurrent Rod m = Flocq.IEEE754.BinarySingleNaN.B754_nan.
Proof. exact getCurrent_rod_nan. Qed.
Print Assumptions C24_rod_nan_refuted.
Example C24_ex : Rabs (-1) <= 59 / 55 /\ Rabs (6 / 5) <= 3481 / 2750 /\ fin (fofZ 2) = true /\ 3482 / 2750 <= Rabs (fR (fofZ 2)).
Proof.
  destruct (fofZ_R 2) as [E F]; [lia|]. rewrite E, F. repeat split; try reflexivity; apply Rabs_le || idtac; try lra.
  rewrite Rabs_pos_eq; lra.
Qed.

(** ** C25: distribute *)
Definition good_torquer (t : Torquer R) : Prop := unit3 (t_axis t) /\ 0 < t_maxA t /\ (t_type t = Rod -> t_maxA t <= 59 / 55).
Lemma good_max t : good_torquer t -> max_m t = mt_moment (t_type t) (t_maxA t) /\ 0 < max_m t /\ usable_current (t_type t) (t_maxA t) /\ usable_moment (t_type t) (max_m t).
Proof.
  intros (U & P & Q). assert (UC : usable_current (t_type t) (t_maxA t)). { destruct (t_type t); cbn; auto. rewrite Rabs_pos_eq by lra. apply Q; reflexivity. }
  assert (MP := moment_pos _ _ P UC). rewrite (max_m_R t U), Rabs_pos_eq by lra. split; [reflexivity|]. split; [exact MP|]. split; [exact UC|].
  destruct (t_type t); [exact I| |exact I]. unfold usable_moment, usable_current in *. rewrite Rabs_pos_eq in UC by lra. rewrite Rabs_pos_eq by lra. rewrite rod_pos by lra. nra.
Qed.
Lemma usable_current_of t m : 0 <= m -> usable_moment t m -> 0 <= getCurrent t m /\ usable_current t (getCurrent t m).
Proof.
  intros H U. destruct t; [unfold getCurrent; rnumg; split; [lra|exact I]| |unfold getCurrent; rnumg; split; [lra|exact I]].
  destruct H as [H|<-]. 2:{ rewrite current_0. cbn. rewrite Rabs_R0. split; lra. }
  cbn in U. rewrite Rabs_pos_eq in U by lra.
  assert (S0 : 0 <= 3481 - 2750 * m) by lra. rewrite (rod_current_pos m (sqrt (3481 - 2750 * m)) H (sqrt_pos _) (sqrt_sqrt _ S0)).
  assert (K : sqrt (3481 - 2750 * m) <= 59). { rewrite <- (sqrt_square 59) by lra. apply sqrt_le_1_alt. lra. }
  assert (N := sqrt_pos (3481 - 2750 * m)). cbn. rewrite Rabs_pos_eq by lra. split; lra.
Qed.
(** Non-negative commands: one factor s in (0,1]; every torquer's moment is s times its command to one part in a million, no
    torquer is above its maximum current or moment; s = 1 exactly when the command is feasible; otherwise one torquer's scaled
    command is at its maximum. *)
Theorem C25_positive : forall ts (m : list R), ts <> [] -> length ts = length m -> Forall good_torquer ts -> Forall (fun x => 0 <= x) m ->
  exists s c, 0 < s <= 1 /\ distribute ts m = Ok c /\ length c = length ts /\
    (forall k t x i, nth_error ts k = Some t -> nth_error m k = Some x -> nth_error c k = Some i ->
       0 <= i <= t_maxA t /\ 0 <= mt_moment (t_type t) i <= max_m t /\ Rabs (mt_moment (t_type t) i - s * x) <= s * x / 1000000) /\
    ((forall t x, In (t, x) (combine ts m) -> x <= max_m t) <-> s = 1) /\
    (s < 1 -> exists t x, In (t, x) (combine ts m) /\ s * x = max_m t).
Proof.
  intros ts m Hne HL HT HM.
  assert (HP : Forall (fun t => 0 < max_m t) ts) by (eapply Forall_impl; [|exact HT]; intros t G; exact (proj1 (proj2 (good_max t G)))).
  destruct (distribute_nonneg ts m Hne HL HP HM) as (s & Hs & E & B & F & X).
  exists s, (zip_with (fun (t : Torquer R) x => getCurrent (t_type t) x) ts (scaled s m)).
  assert (HL' : length ts = length (scaled s m)) by (unfold scaled; rewrite map_length; exact HL).
  split; [exact Hs|]. split; [rewrite E; apply currents_ok, HL'|]. split; [apply zip_with_length, HL'|]. split; [|split; [exact F|]].
  2:{ intros L. destruct (X L) as (t & x & I1 & I2). exists t, x. split; [exact I1|lra]. }
  intros k t x i Ht Hx Hi.
  assert (In (t, x) (combine ts m)). { clear -Ht Hx. revert k m Ht Hx. induction ts as [|t' ts IH]; intros [|k] [|x' m] Ht Hx; try discriminate; cbn in *; [left; congruence|right; eauto]. }
  assert (Ei : i = getCurrent (t_type t) (x * s)). { clear -Ht Hx Hi. revert k m Ht Hx Hi. induction ts as [|t' ts IH]; intros [|k] [|x' m] Ht Hx Hi; try discriminate; cbn in *; [congruence|eauto]. }
  assert (G : good_torquer t) by (rewrite Forall_forall in HT; apply HT; exact (nth_error_In _ _ Ht)).
  destruct (good_max t G) as (M1 & M2 & M3 & M4). destruct (B t x H) as [B1 B2].
  assert (U : usable_moment (t_type t) (x * s)). { destruct (t_type t); cbn in *; auto. rewrite Rabs_pos_eq in * by lra. lra. }
  destruct (usable_current_of (t_type t) (x * s) B1 U) as [C1 C2]. assert (R := roundtrip_m_nonneg (t_type t) (x * s) B1 U). rewrite <- Ei in *.
  assert (Q : 0 <= mt_moment (t_type t) i). { destruct C1 as [C1|C1]; [left; apply moment_pos; assumption|]. rewrite <- C1. rewrite moment_0. lra. }
  split; [|split].
  - split; [exact C1|]. destruct (Rle_lt_dec i (t_maxA t)) as [K|K]; [exact K|]. assert (MM := moment_mono _ _ _ M3 C2 K). lra.
  - lra.
  - rewrite Rabs_left1; lra.
Qed.
Print Assumptions C25_positive.
(** Any negative component: the whole command is multiplied by a negative number; the torquers that had negative commands are
    driven to their maximum or beyond, the others backwards. *)
Theorem C25_negative_refuted : forall ts (m : list R), ts <> [] -> length ts = length m -> Forall (fun t => 0 < max_m t) ts -> Exists (fun x => x < 0) m ->
  exists s, s < 0 /\ distribute ts m = Ok (zip_with (fun (t : Torquer R) x => getCurrent (t_type t) (s * x)) ts m) /\
    (forall t x, In (t, x) (combine ts m) -> x < 0 -> max_m t <= s * x) /\
    (forall t x, In (t, x) (combine ts m) -> 0 < x -> s * x < 0).
Proof.
  intros ts m Hne HL HP HM. destruct (distribute_negative ts m Hne HL HP HM) as (s & Hs & E & A & B). exists s.
  split; [exact Hs|]. split; [|split; intros t x Hi Hx; [specialize (A t x Hi Hx)|specialize (B t x Hi Hx)]; lra].
  rewrite E, currents_ok by (unfold scaled; rewrite map_length; exact HL). f_equal. clear. revert m.
  induction ts as [|t ts IH]; intros [|x m]; cbn; try reflexivity. f_equal; [f_equal; ring|apply IH].
Qed.
Print Assumptions C25_negative_refuted.
(** the limits are exceeded by a feasible command: a 1 A square torquer asked for -0.1584 and one asked for 1.584 gets -15.84 *)
Theorem C25_limit_refuted : exists (ts : list (Torquer R)) m c, Forall good_torquer ts /\
  (forall t x, In (t, x) (combine ts m) -> Rabs x <= max_m t) /\ distribute ts m = Ok c /\
  exists t i, In (t, i) (combine ts c) /\ 9 * t_maxA t < Rabs i.
Proof.
  set (t1 := mkT Square (mk3 1 0 0) 1 : Torquer R). set (t2 := mkT Square (mk3 0 1 0) 1 : Torquer R).
  assert (G : Forall good_torquer [t1; t2]).
  { assert (G1 : good_torquer t1) by (split; [unfold unit3, t1, dot3; cbn [t_axis x3 y3 z3]; rnumg; lra|split; [unfold t1; cbn [t_maxA]; lra|discriminate]]).
    assert (G2 : good_torquer t2) by (split; [unfold unit3, t2, dot3; cbn [t_axis x3 y3 z3]; rnumg; lra|split; [unfold t2; cbn [t_maxA]; lra|discriminate]]).
    exact (Forall_cons _ G1 (Forall_cons _ G2 (Forall_nil _))). }
  assert (X : max_m t1 = 1.584 /\ max_m t2 = 1.584).
  { inversion G as [|? ? G1 G']. inversion G' as [|? ? G2 ?]. rewrite (proj1 (good_max _ G1)), (proj1 (good_max _ G2)). unfold mt_moment, t1, t2; cbn; rnumg. lra. }
  destruct X as [X1 X2].
  assert (EX : Exists (fun x => x < 0) [-0.1584; 1.584]) by (constructor; lra).
  assert (POS : Forall (fun t => 0 < max_m t) [t1; t2]) by (apply Forall_cons; [lra|apply Forall_cons; [lra|apply Forall_nil]]).
  destruct (C25_negative_refuted [t1; t2] [-0.1584; 1.584] ltac:(discriminate) eq_refl POS EX) as (s & Hs & E & A & B).
  exists [t1; t2], [-0.1584; 1.584]. eexists. split; [exact G|]. split.
  { intros t x [Q|[Q|[]]]; injection Q as <- <-; rewrite ?X1, ?X2; [rewrite Rabs_left|rewrite Rabs_pos_eq]; lra. }
  split; [exact E|]. exists t2, (getCurrent Square (s * 1.584)). split; [right; left; reflexivity|].
  assert (K := A t1 (-0.1584) (or_introl eq_refl) ltac:(lra)). rewrite X1 in K. unfold getCurrent; cbn [t_maxA t2]; rnumg. rewrite Rabs_left; lra.
Qed.
Print Assumptions C25_limit_refuted.
(** binary64: a command with a negative zero gives a NaN current *)
Theorem C25_negzero_refuted : forall (ts : list (Torquer b64)) m, Forall (fun t => fin (max_m t) = true /\ 0 < fR (max_m t)) ts ->
  Forall (fun x => Flocq.IEEE754.BinarySingleNaN.is_nan x = false) m -> length ts = length m -> In (fzero true) m ->
  exists r, distribute_f ts m = Ok r /\ In Flocq.IEEE754.BinarySingleNaN.B754_nan r.
Proof. exact distribute_negzero_any. Qed.
Print Assumptions C25_negzero_refuted.
Example C25_ex : Forall good_torquer [mkT Square (mk3 1 0 0) 1; mkT Rod (mk3 0 (3/5) (4/5)) (1/2); mkT LinearRod (mk3 0 0 1) 2] /\ Forall (fun x => 0 <= x) [1; 0; 4].
Proof.
  split; [|repeat (apply Forall_cons; [lra|]); apply Forall_nil].
  apply Forall_cons; [|apply Forall_cons; [|apply Forall_cons; [|apply Forall_nil]]];
    (split; [unfold unit3, dot3; cbn [t_axis x3 y3 z3]; rnumg; lra|split; [cbn [t_maxA]; lra|cbn [t_type t_maxA]; try discriminate; lra]]).
Qed.
Example C25_ex_f : (let t := mkT Rod (mk3 (fofZ 1) (fzero false) (fzero false)) (fofZ 1) in fin (max_m t) && fltb (fzero false) (max_m t)) = true.
Proof. vm_compute. reflexivity. Qed.

(** ** C26: wheel allocation *)
(** the torque that wheel torques tau put on the body: sum of tau_i a_i *)
Fixpoint wheel_torque (ws : list Wheel) (tau : list R) : v3 :=
  match ws, tau with w :: ws, t :: tau => add3 (scale3 t (w_axis w)) (wheel_torque ws tau) | _, _ => mk3 0 0 0 end.
Fixpoint norm2l (l : list R) : R := match l with [] => 0 | x :: l => x ^ 2 + norm2l l end.
Lemma wheel_torque_sum s tau : wheel_torque (rw_wheels s) tau = wheel_sum s tau.
Proof. unfold wheel_sum. generalize (rw_wheels s). intros ws. revert tau. induction ws as [|w ws IH]; intros [|t tau]; try reflexivity. cbn [wheel_torque zip_with sum3 fold_right]. rewrite IH. reflexivity. Qed.
Lemma norm2l_sq l : norm2l l = sqsum l.
Proof. induction l; [reflexivity|]. cbn [norm2l sqsum fold_right]. rewrite IHl. unfold sqsum. ring. Qed.
Theorem C26_exact : forall s T, rw_limited s = false -> det3 (rw_gram s) <> 0 -> Forall (fun w => w_par w <> 0) (rw_wheels s) ->
  exists a, rw_accelerations s T = Ok a /\ length a = length (rw_wheels s) /\ rw_torque s a = T.
Proof.
  intros s T HL HD HP. exists (zip_with w_acceleration (rw_wheels s) (rw_distribute s T)).
  assert (L : length (rw_distribute s T) = length (rw_wheels s)) by (unfold rw_distribute; apply map_length).
  split; [unfold rw_accelerations; rewrite HL; reflexivity|]. split; [apply zip_with_length; symmetry; exact L|].
  rewrite torque_of_accel by assumption. apply distribute_exact, HD.
Qed.
Print Assumptions C26_exact.
(** the allocation is the least-norm one among all wheel torques that give T, and the only one with that norm *)
Theorem C26_least_norm : forall s T tau, det3 (rw_gram s) <> 0 -> length tau = length (rw_wheels s) -> wheel_torque (rw_wheels s) tau = T ->
  wheel_torque (rw_wheels s) (rw_distribute s T) = T /\ norm2l (rw_distribute s T) <= norm2l tau /\
  (norm2l tau = norm2l (rw_distribute s T) -> tau = rw_distribute s T).
Proof.
  intros s T tau HD HL HT. rewrite wheel_torque_sum in *. rewrite !norm2l_sq. split; [apply distribute_exact, HD|]. apply distribute_least; assumption.
Qed.
Print Assumptions C26_least_norm.
(** limited: no wheel torque above max_T; the body torque is k T with 0 < k <= 1, and k = 1 unless some wheel is at its limit *)
Theorem C26_limited : forall s T, rw_limited s = true -> 0 < rw_maxT s -> det3 (rw_gram s) <> 0 -> Forall (fun w => w_par w <> 0) (rw_wheels s) ->
  exists a k, rw_accelerations s T = Ok a /\ length a = length (rw_wheels s) /\ 0 < k <= 1 /\ rw_torque s a = scale3 k T /\
  (forall w x, In (w, x) (combine (rw_wheels s) a) -> Rabs (w_par w * x) <= rw_maxT s) /\
  (k < 1 -> exists w x, In (w, x) (combine (rw_wheels s) a) /\ Rabs (w_par w * x) = rw_maxT s).
Proof.
  intros s T HL HM HD HP. set (tau := rw_distribute s T).
  assert (L : length tau = length (rw_wheels s)) by (unfold tau, rw_distribute; apply map_length).
  assert (NE : tau <> []). { intros E. rewrite E in L. destruct (rw_wheels s) eqn:W; [|discriminate]. apply HD. unfold rw_gram. rewrite W. cbn [map summ fold_right]. vunfold; rnum. ring. }
  destruct (saturation_ok tau (rw_maxT s) NE ltac:(lra)) as (y & EY & B & k & Hk & Ky & KU & KX).
  assert (Q : exists k, 0 < k <= 1 /\ y = map (fun x => k * x) tau /\ (k < 1 -> exists yi, In yi y /\ Rabs yi = rw_maxT s)).
  { destruct (Forall_Exists_dec (fun x => Rabs x <= rw_maxT s) (fun x => Rle_dec _ _) tau) as [F|F].
    - rewrite Forall_forall in F. exists 1. split; [lra|]. split; [rewrite (KU F); symmetry; apply map_id_ext; intros; ring|lra].
    - apply Exists_exists in F. destruct F as (x & I1 & I2). destruct (KX (ex_intro _ x (conj I1 (Rnot_le_lt _ _ I2)))) as (yi & Y1 & Y2).
      exists k. split; [|split; [exact Ky|intros _; exists yi; auto]]. destruct (proj1 Hk) as [P|P]; [lra|]. exfalso. rewrite Ky, <- P in Y1. apply in_map_iff in Y1. destruct Y1 as (z & Z & _). rewrite <- Z, Rmult_0_l, Rabs_R0 in Y2. lra. }
  clear k Hk Ky KU KX. destruct Q as (k & Hk & Ky & KX).
  assert (LY : length y = length (rw_wheels s)) by (rewrite Ky, map_length; exact L).
  assert (IN : forall w x, In (w, x) (combine (rw_wheels s) (zip_with w_acceleration (rw_wheels s) y)) -> In (w_par w * x) y).
  { clear -HP LY. revert y LY HP. generalize (rw_wheels s). intros ws. induction ws as [|w' ws IH]; intros [|t y] LY HP w x H; try discriminate; [destruct H|].
    inversion HP as [|? ? P1 P2]; subst. destruct H as [H|H]; [injection H as <- <-; left; unfold w_acceleration; field; exact P1|right; apply IH; auto]. }
  assert (IN' : forall t, In t y -> exists w x, In (w, x) (combine (rw_wheels s) (zip_with w_acceleration (rw_wheels s) y)) /\ w_par w * x = t).
  { clear -HP LY. revert y LY HP. generalize (rw_wheels s). intros ws. induction ws as [|w' ws IH]; intros [|t' y] LY HP t H; try discriminate; [destruct H|].
    inversion HP as [|? ? P1 P2]; subst. destruct H as [<-|H].
    - exists w', (w_acceleration w' t'). split; [left; reflexivity|unfold w_acceleration; field; exact P1].
    - destruct (IH y ltac:(injection LY; auto) P2 t H) as (w & x & I1 & I2). exists w, x. split; [right; exact I1|exact I2]. }
  exists (zip_with w_acceleration (rw_wheels s) y), k.
  split; [unfold rw_accelerations; rewrite HL; fold tau; cbv zeta; rewrite EY; reflexivity|].
  split; [apply zip_with_length; symmetry; exact LY|]. split; [exact Hk|]. split.
  { rewrite torque_of_accel by assumption. rewrite Ky, wheel_sum_scale. f_equal. apply distribute_exact, HD. }
  split; [intros w x H; apply B, IN, H|]. intros K. destruct (KX K) as (yi & Y1 & Y2). destruct (IN' yi Y1) as (w & x & I1 & I2). exists w, x. rewrite I2. auto.
Qed.
Print Assumptions C26_limited.
(** the model's pseudo-inverse satisfies the Moore-Penrose conditions, the contract of numpy.linalg.pinv *)
Theorem C26_pinv_contract : forall s, det3 (rw_gram s) <> 0 ->
  let A := wheel_torque (rw_wheels s) in let P := rw_distribute s in
  let ip := fix ip (a b : list R) := match a, b with x :: a, y :: b => x * y + ip a b | _, _ => 0 end in
  (forall tau, A (P (A tau)) = A tau) /\ (forall y, P (A (P y)) = P y) /\ (forall y z, dot3 y (A (P z)) = dot3 (A (P y)) z) /\
  (forall tau sg, length tau = length (rw_wheels s) -> length sg = length (rw_wheels s) -> ip (P (A tau)) sg = ip (P (A sg)) tau).
Proof.
  intros s H A P ip. assert (EI : forall a b, ip a b = fold_right Rplus 0 (zip_with Rmult a b)).
  { induction a as [|x a IH]; intros [|y b]; try reflexivity. cbn. rewrite <- IH. reflexivity. }
  destruct (pinv_conditions s H) as (A1 & A2 & A3 & A4).
  assert (EA : forall t, A t = wheel_sum s t) by (intros; apply wheel_torque_sum).
  split; [|split; [|split]]; intros; rewrite ?EI, ?EA; auto.
Qed.
Print Assumptions C26_pinv_contract.
Definition wheel4 := pyramid (PI / 3) (PI / 4) (1/10) (1/20).
Example C26_ex : let s := mkRWS wheel4 1 true in det3 (rw_gram s) <> 0 /\ Forall (fun w => w_par w <> 0) (rw_wheels s) /\ 0 < rw_maxT s /\
  make_rws wheel4 1 true = Ok s.
Proof.
  cbv zeta. assert (P := PI_RGT_0). assert (D : det3 (rw_gram (mkRWS wheel4 1 true)) <> 0) by (apply pyr_span; lra).
  split; [exact D|]. split; [repeat constructor; cbn; lra|]. split; [cbn; lra|].
  unfold make_rws. destruct (Reqb_spec (det3 (rw_parallel (mkRWS wheel4 1 true))) 0) as [E|E]; [exfalso|reflexivity]. apply D.
  revert E. unfold rw_parallel, rw_gram, wheel4, pyramid. cbn [rw_wheels map]. unfold w_par_moment. cbn [w_par w_axis].
  generalize (pyramid_axis (PI / 3) (PI / 4) 0) (pyramid_axis (PI / 3) (PI / 4) 1) (pyramid_axis (PI / 3) (PI / 4) 2) (pyramid_axis (PI / 3) (PI / 4) 3).
  intros a b c d E. replace (summ _) with (scalem (1/10) (summ [outer3 a a; outer3 b b; outer3 c c; outer3 d d])) in E by (cbn [summ fold_right]; vring).
  revert E. generalize (summ [outer3 a a; outer3 b b; outer3 c c; outer3 d d]). intros m E.
  assert (S : det3 (scalem (1 / 10) m) = (1/10)^3 * det3 m) by (generalize (1/10); vring). rewrite S in E. lra.
Qed.

(** ** C27: the pyramid *)
Theorem C27_pyramid : forall inc az par orth maxT lim, 0 < inc < PI / 2 -> par <> 0 ->
  let s := mkRWS (pyramid inc az par orth) maxT lim in
  det3 (rw_gram s) <> 0 /\
  (forall y : v3, exists tau, length tau = 4%nat /\ wheel_torque (rw_wheels s) tau = y) /\
  (forall vel, length vel = 4%nat -> (rw_momentum s vel = mk3 0 0 0 <-> exists k, vel = [- k; k; - k; k])).
Proof.
  intros inc az par orth maxT lim Hi Hp s. assert (D : det3 (rw_gram s) <> 0) by (apply pyr_span; exact Hi). split; [exact D|]. split.
  - intros y. exists (rw_distribute s y). split; [reflexivity|]. rewrite wheel_torque_sum. apply distribute_exact, D.
  - intros vel HL. destruct vel as [|a [|b [|c [|d [|? ?]]]]]; try discriminate. exact (pyr_null inc az par orth maxT lim a b c d Hi Hp).
Qed.
Print Assumptions C27_pyramid.
(** the axes of the pyramid are unit vectors at angle [inc] from z *)
Theorem C27_axes : forall inc az par orth w, In w (pyramid inc az par orth) -> dot3 (w_axis w) (w_axis w) = 1 /\ z3 (w_axis w) = cos inc.
Proof.
  intros inc az par orth w H. unfold pyramid in H. apply in_map_iff in H. destruct H as (k & <- & _). cbn [w_axis]. unfold pyramid_axis. split; [|reflexivity].
  generalize (az + INR k * PI / 2). intros a. assert (A := sc1 a). assert (B := sc1 inc). unfold dot3; cbn [x3 y3 z3]; rnumg.
  transitivity (sin inc ^ 2 * (sin a ^ 2 + cos a ^ 2) + cos inc ^ 2); [ring|]. rewrite A. lra.
Qed.
Print Assumptions C27_axes.
Example C27_ex : 0 < PI / 3 < PI / 2 /\ (1/10 : R) <> 0. Proof. assert (P := PI_RGT_0). lra. Qed.

(** ** C28: inertia *)
Definition quad (m : m3) (x : v3) : R := dot3 x (mv m x).
Theorem C28_symmetric : forall s, tr3 (s_reduced_moment s) = s_reduced_moment s /\ tr3 (s_total_moment s) = s_total_moment s.
Proof. intros s. split; [apply reduced_symm|apply total_symm]. Qed.
Print Assumptions C28_symmetric.
(** positive definite, hence invertible, so that construction does not raise, and the stored inverses are inverses *)
Theorem C28_positive_definite : forall s, s_reduced s = false ->
  0 < x3 (s_principal s) -> 0 < y3 (s_principal s) -> 0 < z3 (s_principal s) ->
  Forall (fun w => unit3 (w_axis w) /\ 0 <= w_par w /\ 0 <= w_orth w) (rw_wheels (s_rw s)) ->
  (forall x, x <> mk3 0 0 0 -> 0 < quad (s_reduced_moment s) x <= quad (s_total_moment s) x) /\
  make_sat_ok s = true /\ (forall v, mv (s_total_moment s) (mv (s_inv_tot s) v) = v /\ mv (s_inv_tot s) (mv (s_total_moment s) v) = v).
Proof.
  intros s E P1 P2 P3 W. assert (G : good_sat s) by (repeat split; assumption).
  assert (D1 := pd_det _ (reduced_symm s) (reduced_pd s G E)). assert (D2 := pd_det _ (total_symm s) (total_pd s G E)).
  split; [|split].
  - intros x Hx. split; [exact (reduced_pd s G E x Hx)|]. unfold quad. unfold s_total_moment. rewrite quad_addm.
    assert (0 <= dot3 x (mv (s_wheel_moment s) x)); [|lra]. apply quad_sum_nonneg. eapply Forall_impl; [|exact W]. intros w Hw. apply par_nonneg, Hw.
  - unfold make_sat_ok. destruct (Reqb_spec (det3 (s_reduced_moment s)) 0); [lra|]. destruct (Reqb_spec (det3 (s_total_moment s)) 0); [lra|]. reflexivity.
  - intros v. unfold s_inv_tot. split; [apply mv_inv3|apply inv3_mv]; lra.
Qed.
Print Assumptions C28_positive_definite.
(** as quadratic forms: the wheels' transverse inertia is in the reduced moment, the spin inertia only in the total, and the
    products of inertia enter exactly when reduced=True *)
Theorem C28_composition : forall s x,
  quad (s_total_moment s) x = quad (s_reduced_moment s) x + fold_right (fun w a => w_par w * (dot3 (w_axis w) x) ^ 2 + a) 0 (rw_wheels (s_rw s)) /\
  quad (s_reduced_moment s) x =
    x3 (s_principal s) * x3 x ^ 2 + y3 (s_principal s) * y3 x ^ 2 + z3 (s_principal s) * z3 x ^ 2
    + fold_right (fun w a => w_orth w * (dot3 x x - (dot3 (w_axis w) x) ^ 2) + a) 0 (rw_wheels (s_rw s))
    + (if s_reduced s then 2 * (x3 (s_products s) * (x3 x * y3 x) + y3 (s_products s) * (x3 x * z3 x) + z3 (s_products s) * (y3 x * z3 x)) else 0).
Proof.
  intros s x. unfold quad. split.
  - unfold s_total_moment. rewrite quad_addm. f_equal. unfold s_wheel_moment, rw_parallel. rewrite quad_sum. generalize (rw_wheels (s_rw s)). intros l.
    induction l as [|w l IH]; [reflexivity|]. cbn [map fold_right]. rewrite IH, par_quad. reflexivity.
  - unfold s_reduced_moment. assert (O : dot3 x (mv (rw_orthogonal (s_rw s)) x) = fold_right (fun w a => w_orth w * (dot3 x x - (dot3 (w_axis w) x) ^ 2) + a) 0 (rw_wheels (s_rw s))).
    { unfold rw_orthogonal. rewrite quad_sum. generalize (rw_wheels (s_rw s)). intros l. induction l as [|w l IH]; [reflexivity|]. cbn [map fold_right]. rewrite IH, orth_quad. reflexivity. }
    rewrite <- O. destruct (s_reduced s); rewrite ?quad_addm; generalize (dot3 x (mv (rw_orthogonal (s_rw s)) x)); intros k.
    + generalize (s_principal s) (s_products s). intros p q. unfold product_matrix. destruct x, p, q. vunfold; rnum. ring.
    + generalize (s_principal s). intros p. destruct x, p. vunfold; rnum. ring.
Qed.
Print Assumptions C28_composition.
(** with reduced=True the products can destroy positive definiteness *)
Theorem C28_products_refuted : exists s, s_reduced s = true /\ s_principal s = mk3 1 1 1 /\ rw_wheels (s_rw s) = [] /\ make_sat_ok s = true /\ quad (s_total_moment s) (mk3 1 (-1) 0) < 0.
Proof.
  exists (mkSat 1 1 1 0 2 10 (mkRWS [] 1 false) (mk3 1 1 1) (mk3 2 0 0) true). split; [reflexivity|]. split; [reflexivity|]. split; [reflexivity|]. split.
  - unfold make_sat_ok, s_total_moment, s_wheel_moment, s_reduced_moment, rw_parallel, rw_orthogonal, product_matrix. cbn [s_rw rw_wheels map summ fold_right s_reduced s_principal s_products x3 y3 z3].
    vunfold; rnum. destruct (Reqb_spec ((1+0+0) * ((1+0+0)*(1+0+0) - (0+0+0)*(0+0+0))) 0); repeat (match goal with |- context [Reqb ?a 0] => destruct (Reqb_spec a 0); [exfalso; lra|] end); try reflexivity; exfalso; lra.
  - rewrite (proj1 (C28_composition _ _)), (proj2 (C28_composition _ _)). cbn. rnumg. lra.
Qed.
Print Assumptions C28_products_refuted.
Example C28_ex : let s := mkSat (1/10) (1/10) (3/10) (1/2) 2 3 (mkRWS wheel4 1 true) (mk3 1 2 3) (mk3 0 0 0) false in
  s_reduced s = false /\ 0 < x3 (s_principal s) /\ Forall (fun w => unit3 (w_axis w) /\ 0 <= w_par w /\ 0 <= w_orth w) (rw_wheels (s_rw s)).
Proof.
  cbv zeta. split; [reflexivity|]. split; [cbn; lra|]. cbn [s_rw rw_wheels]. apply Forall_forall. intros w H. split; [exact (proj1 (C27_axes _ _ _ _ w H))|].
  unfold wheel4, pyramid in H. apply in_map_iff in H. destruct H as (k & <- & _). cbn. lra.
Qed.

(** ** C29: walls *)
Theorem C29_area : forall w v, 0 <= wl_area w ->
  0 <= projected_area w v /\ (dot3 (wl_normal w) v <= 0 -> projected_area w v = 0) /\
  (0 <= dot3 (wl_normal w) v -> projected_area w v = wl_len w * wl_wid w * dot3 (wl_normal w) v).
Proof.
  intros w v H. split; [apply area_nonneg, H|]. split; [apply area_away|]. intros K. rewrite area_toward by exact K. unfold wl_area. ring.
Qed.
Print Assumptions C29_area.
(** forces: drag is along the flow direction with the sign of the pressure handed over (negative in dynamics.py:215), solar
    pressure never pushes toward the sun; both vanish on walls facing away *)
Theorem C29_forces : forall w p v, 0 <= wl_area w -> 0 <= p ->
  fst (drag_force w (- p) v) = scale3 (- (p * projected_area w v)) v /\
  dot3 (fst (drag_force w (- p) v)) v <= 0 /\
  (0 <= wl_abs w <= 1 -> unit3 v -> dot3 (fst (srp_force w p v)) v <= 0) /\
  (dot3 (wl_normal w) v <= 0 -> fst (drag_force w p v) = mk3 0 0 0 /\ fst (srp_force w p v) = mk3 0 0 0 /\ snd (drag_force w p v) = mk3 0 0 0 /\ snd (srp_force w p v) = mk3 0 0 0).
Proof.
  intros w p v HA Hp. assert (A0 := area_nonneg w v HA). split; [|split; [|split]].
  - rewrite drag_eq. cbn [fst]. f_equal. ring.
  - rewrite drag_eq. cbn [fst]. assert (0 <= p * projected_area w v) by (apply Rmult_le_pos; assumption). assert (N := dot3_nonneg v).
    replace (dot3 _ _) with (- (p * projected_area w v * dot3 v v)) by (generalize (projected_area w v); vring).
    assert (0 <= p * projected_area w v * dot3 v v) by (apply Rmult_le_pos; assumption). lra.
  - intros. apply srp_pushes; assumption.
  - intros K. rewrite drag_eq, srp_eq. cbv zeta. cbn [fst snd]. rewrite (area_away w v K). generalize (wl_centroid w) (wl_normal w) (wl_abs w). clear. intros.
    split; [vring|]. split; [vring|]. split; vring.
Qed.
Print Assumptions C29_forces.
(** the torques are not centroid x F but the projected area (m^2) times it *)
Theorem C29_torque_refuted : forall w p v,
  snd (drag_force w p v) = scale3 (projected_area w v) (cross3 (scale3 (wl_dist w) (wl_normal w)) (fst (drag_force w p v))) /\
  snd (srp_force w p v) = scale3 (projected_area w v) (cross3 (scale3 (wl_dist w) (wl_normal w)) (fst (srp_force w p v))).
Proof. intros. rewrite drag_eq, srp_eq. split; reflexivity. Qed.
Print Assumptions C29_torque_refuted.
(** closed form of the solar force on a lit wall *)
Theorem C29_srp_formula : forall w p v, 0 <= dot3 (wl_normal w) v ->
  fst (srp_force w p v) = scale3 (- (p * (wl_len w * wl_wid w) * dot3 (wl_normal w) v))
     (add3 (scale3 (2 * (1 - wl_abs w) * dot3 (wl_normal w) v) (wl_normal w)) (scale3 (wl_abs w) v)).
Proof. intros w p v H. rewrite srp_eq. cbn [fst]. rewrite area_toward by exact H. f_equal. unfold wl_area. ring. Qed.
Print Assumptions C29_srp_formula.
Example C29_ex : let w := mkWall (1/2) (mk3 1 0 0) 2 3 (1/2) in projected_area w (mk3 (3/5) 0 (4/5)) = 18 / 5 /\
  snd (drag_force w (-1) (mk3 (3/5) 0 (4/5))) <> cross3 (wl_centroid w) (fst (drag_force w (-1) (mk3 (3/5) 0 (4/5)))).
Proof.
  cbv zeta. assert (A : projected_area (mkWall (1/2) (mk3 1 0 0) 2 3 (1/2)) (mk3 (3/5) 0 (4/5)) = 18 / 5).
  { rewrite area_toward; unfold wl_area, dot3; cbn [wl_normal wl_len wl_wid x3 y3 z3]; rnumg; lra. }
  split; [exact A|]. rewrite drag_eq. cbn [fst snd]. rewrite A. unfold wl_centroid. cbn [wl_dist wl_normal]. vunfold; rnum. intros E. injection E. lra.
Qed.

(** ** C30: the box *)
Theorem C30_area : forall s v, total_area s v =
  Rabs (x3 v) * (s_width s * s_height s) + Rabs (y3 v) * (s_length s * s_height s) + Rabs (z3 v) * (s_width s * s_length s).
Proof. exact box_area. Qed.
Print Assumptions C30_area.
Theorem C30_drag : forall s p v, fst (total_drag s p v) =
  scale3 (p * (Rabs (x3 v) * (s_width s * s_height s) + Rabs (y3 v) * (s_length s * s_height s) + Rabs (z3 v) * (s_width s * s_length s))) v.
Proof. intros. rewrite box_drag_force, box_area. reflexivity. Qed.
Print Assumptions C30_drag.
(** the centre of pressure lies inside the box on the half-line facing the flow, so that a drag force there would have no
    torque about the centre *)
Theorem C30_cop : forall s v, 0 < s_length s -> 0 < s_width s -> 0 < s_height s -> v <> mk3 0 0 0 ->
  let '(A, c) := area_and_cop s v in
  0 < A /\ (exists k, 0 < k /\ c = scale3 k v) /\ cross3 c v = mk3 0 0 0 /\
  Rabs (x3 c) <= s_length s / 2 /\ Rabs (y3 c) <= s_width s / 2 /\ Rabs (z3 c) <= s_height s / 2.
Proof.
  intros s v L W H N. rewrite cop_eq. assert (E := box_area s v). destruct v as [x y z]. cbn [x3 y3 z3] in *. set (A := total_area s _) in *.
  set (a := s_length s) in *. set (b := s_width s) in *. set (c := s_height s) in *. clearbody A a b c.
  assert (X := Rabs_pos x). assert (Y := Rabs_pos y). assert (Z := Rabs_pos z).
  assert (BC : 0 < b * c) by nra. assert (AC : 0 < a * c) by nra. assert (AB : 0 < b * a) by nra.
  assert (X' : 0 <= Rabs x * (b * c)) by nra. assert (Y' : 0 <= Rabs y * (a * c)) by nra. assert (Z' : 0 <= Rabs z * (b * a)) by nra.
  assert (PA : 0 < A).
  { destruct (Req_dec x 0) as [->|Qx]. 2:{ assert (Q := Rabs_pos_lt x Qx). assert (0 < Rabs x * (b * c)) by nra. lra. }
    destruct (Req_dec y 0) as [->|Qy]. 2:{ assert (Q := Rabs_pos_lt y Qy). assert (0 < Rabs y * (a * c)) by nra. lra. }
    destruct (Req_dec z 0) as [->|Qz]. 2:{ assert (Q := Rabs_pos_lt z Qz). assert (0 < Rabs z * (b * a)) by nra. lra. }
    exfalso; apply N; reflexivity. }
  assert (V0 : 0 < a * b * c / 2) by nra. assert (IA : 0 < / A) by (apply Rinv_0_lt_compat, PA).
  assert (K : forall t u, 0 <= u -> Rabs t * (a * b * c) <= A * u -> Rabs (a * b * c / 2 * t / A) <= u / 2).
  { intros t u Hu Q. replace (a * b * c / 2 * t / A) with (a * b * c / 2 * / A * t) by (field; lra).
    rewrite Rabs_mult, (Rabs_pos_eq (a * b * c / 2 * / A)) by (apply Rmult_le_pos; lra).
    apply (Rmult_le_reg_r A); [exact PA|]. replace (a * b * c / 2 * / A * Rabs t * A) with (Rabs t * (a * b * c) / 2) by (field; lra). lra. }
  split; [exact PA|]. split; [|split].
  - exists (a * b * c / 2 / A). split; [unfold Rdiv at 1; nra|]. vunfold; rnum. apply mk3_c; field; lra.
  - vunfold; rnum. apply mk3_c; field; lra.
  - unfold div3, scale3. cbn [x3 y3 z3]. rnumg. split; [|split]; apply K; nra.
Qed.
Print Assumptions C30_cop.
(** ... but the torque the code adds up, sum A_i^2 (c_i x p v), is not zero in general *)
Theorem C30_torque_refuted : forall s p v,
  snd (total_drag s p v) = scale3 (p * (s_length s * s_width s * s_height s / 2)) (cross3
     (mk3 (s_width s * s_height s * (Rabs (x3 v) * x3 v)) (s_length s * s_height s * (Rabs (y3 v) * y3 v)) (s_width s * s_length s * (Rabs (z3 v) * z3 v))) v).
Proof. intros. rewrite box_drag_torque. cbv zeta. generalize (s_length s) (s_width s) (s_height s) (Rabs (x3 v)) (Rabs (y3 v)) (Rabs (z3 v)). destruct v. intros. vunfold; rnum. apply mk3_c; field. Qed.
Print Assumptions C30_torque_refuted.
Example C30_torque_ex : let s := mkSat 1 1 3 (1/2) 2 3 (mkRWS wheel4 1 true) (mk3 1 2 3) (mk3 0 0 0) false in
  snd (total_drag s (-1) (mk3 (3/5) 0 (4/5))) <> mk3 0 0 0.
Proof. cbv zeta. rewrite C30_torque_refuted. cbn [s_length s_width s_height x3 y3 z3]. rewrite !(Rabs_pos_eq (3/5)), !(Rabs_pos_eq (4/5)) by lra. vunfold; rnum. intros E. injection E. lra. Qed.
(** a cube is the exception for flows along a face normal or a diagonal: the general condition is that the torque above vanishes *)
Theorem C30_torque_cube_axis : forall s p k, snd (total_drag s p (mk3 k 0 0)) = mk3 0 0 0.
Proof. intros. rewrite C30_torque_refuted. cbn [x3 y3 z3]. generalize (s_length s) (s_width s) (s_height s) (Rabs k) (Rabs 0). intros. vunfold; rnum. apply mk3_c; ring. Qed.
Print Assumptions C30_torque_cube_axis.
