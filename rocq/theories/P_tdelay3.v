(** * Lemmas: with more delay than the margin allows, a mode grows *)
From Coq Require Import Reals Ranalysis5 Lra Psatz.
From Verif Require Import S_tdelay P_tdelay P_tdelay2.
Local Open Scope R_scope.

Lemma cplus (f g : R -> R) x : continuity_pt f x -> continuity_pt g x -> continuity_pt (fun v => f v + g v) x. Proof. exact (continuity_pt_plus f g x). Qed.
Lemma cminus (f g : R -> R) x : continuity_pt f x -> continuity_pt g x -> continuity_pt (fun v => f v - g v) x. Proof. exact (continuity_pt_minus f g x). Qed.
Lemma cmult (f g : R -> R) x : continuity_pt f x -> continuity_pt g x -> continuity_pt (fun v => f v * g v) x. Proof. exact (continuity_pt_mult f g x). Qed.
Lemma cdiv (f g : R -> R) x : continuity_pt f x -> continuity_pt g x -> g x <> 0 -> continuity_pt (fun v => f v / g v) x. Proof. exact (continuity_pt_div f g x). Qed.
Lemma cconst (k x : R) : continuity_pt (fun _ => k) x. Proof. apply continuity_pt_const. intros u v. reflexivity. Qed.
Lemma cid (x : R) : continuity_pt (fun v => v) x. Proof. apply derivable_continuous_pt, derivable_pt_id. Qed.
Lemma catan (f : R -> R) x : continuity_pt f x -> continuity_pt (fun v => atan (f v)) x.
Proof. intros H. apply (continuity_pt_comp f atan); [exact H|]. apply derivable_continuous_pt, derivable_pt_atan. Qed.
Lemma cexp (f : R -> R) x : continuity_pt f x -> continuity_pt (fun v => exp (f v)) x.
Proof. intros H. apply (continuity_pt_comp f exp); [exact H|]. apply derivable_continuous_pt, derivable_pt_exp. Qed.
(** a continuous function keeps its sign nearby *)
Lemma near_pos (f : R -> R) x : continuity_pt f x -> 0 < f x -> exists d, 0 < d /\ forall v, Rabs (v - x) < d -> 0 < f v.
Proof.
  intros C P. destruct (C (f x) P) as (d & D0 & D). exists d. split; [exact D0|]. intros v V. destruct (Req_dec v x) as [->|N]; [exact P|].
  specialize (D v (conj (conj I (fun E => N (eq_sym E))) V)). cbn in D. unfold R_dist in D. apply Rabs_def2 in D. lra.
Qed.
Section Grow.
Variables T a b : R.
Hypotheses (HT : 0 < T) (Ha : 0 < a) (Hb : 0 < b).
Definition arc (e y : R) : R := atan (a * y / (a * (e * y) + b)).
Definition excess (e y : R) : R := T * y - arc e y - 2 * atan e.
Lemma den_pos e y : 0 < e -> 0 <= y -> 0 < a * (e * y) + b.
Proof. intros E Y. assert (0 <= a * (e * y)) by (apply Rmult_le_pos; [lra|apply Rmult_le_pos; lra]). lra. Qed.
Lemma arc_ratio e y z : 0 < e -> 0 < y -> y <= z -> arc e z * y <= arc e y * z.
Proof.
  intros E Y YZ. unfold arc. assert (D1 := den_pos e y E ltac:(lra)). assert (D2 := den_pos e z E ltac:(lra)). set (D := a * (e * y) + b) in *. set (D' := a * (e * z) + b) in *.
  assert (DD : D <= D') by (unfold D, D'; assert (a * (e * y) <= a * (e * z)) by (apply Rmult_le_compat_l; [lra|apply Rmult_le_compat_l; lra]); lra). assert (AY : 0 < a * y) by (apply Rmult_lt_0_compat; assumption).
  assert (Q1 : 0 < a * y / D) by (apply Rdiv_lt_0_compat; assumption).
  assert (Q2 : a * y / D <= a * z / D'). { apply (Rmult_le_reg_r (D * D')); [apply Rmult_lt_0_compat; assumption|]. replace (a * y / D * (D * D')) with (a * y * D') by (field; lra). replace (a * z / D' * (D * D')) with (a * z * D) by (field; lra). unfold D, D'. assert (a * b * y <= a * b * z) by (apply Rmult_le_compat_l; [apply Rmult_le_pos; lra|exact YZ]). lra. }
  assert (R' := atan_ratio _ _ Q1 Q2). set (u := atan (a * z / D')) in *. set (v := atan (a * y / D)) in *. assert (V0 : 0 <= v) by (apply atan_nonneg; lra). clearbody u v D D'.
  assert (R2 : u * y * D' <= v * z * D). { apply (Rmult_le_compat_r (D * D' / a)) in R'; [|left; apply Rdiv_lt_0_compat; [apply Rmult_lt_0_compat; assumption|exact Ha]]. replace (u * (a * y / D) * (D * D' / a)) with (u * y * D') in R' by (field; lra). replace (v * (a * z / D') * (D * D' / a)) with (v * z * D) in R' by (field; lra). exact R'. }
  apply (Rmult_le_reg_r D'); [exact D2|]. apply Rle_trans with (v * z * D); [exact R2|]. apply Rmult_le_compat_l; [apply Rmult_le_pos; lra|exact DD].
Qed.
Lemma atan_pos' e : 0 < e -> 0 < atan e. Proof. intros E. rewrite <- atan_0. apply atan_increasing, E. Qed.
Lemma excess_0 e : 0 < e -> excess e 0 < 0.
Proof. intros E. unfold excess, arc. rewrite !Rmult_0_r. replace (0 / (0 + b)) with 0 by (field; lra). rewrite atan_0. assert (H := atan_pos' e E). lra. Qed.
Lemma above e y z : 0 < e -> 0 < y -> excess e y = 0 -> y < z -> 0 < excess e z.
Proof.
  intros E Y Z L. assert (R' := arc_ratio e y z E Y ltac:(lra)). assert (P := atan_pos' e E). unfold excess in *. apply (Rmult_lt_reg_l y); [exact Y|]. rewrite Rmult_0_r. assert (T * y * z = (arc e y + 2 * atan e) * z) by (f_equal; lra). assert (0 < 2 * atan e * (z - y)) by (apply Rmult_lt_0_compat; lra). lra.
Qed.
Lemma below e y z : 0 < e -> 0 < y -> excess e y = 0 -> 0 <= z -> z < y -> excess e z < 0.
Proof.
  intros E Y Z Z0 L. destruct (Req_dec z 0) as [->|N]; [apply excess_0, E|]. assert (R' := arc_ratio e z y E ltac:(lra) ltac:(lra)). assert (P := atan_pos' e E). unfold excess in *. apply (Rmult_lt_reg_l y); [exact Y|]. rewrite Rmult_0_r. assert (T * y * z = (arc e y + 2 * atan e) * z) by (f_equal; lra). assert (0 < 2 * atan e * (y - z)) by (apply Rmult_lt_0_compat; lra). lra.
Qed.
Lemma excess_y e y : 0 < e -> 0 <= y -> continuity_pt (excess e) y.
Proof.
  intros E Y. unfold excess, arc. apply cminus; [apply cminus; [apply cmult; [apply cconst|apply cid]|]|apply cconst]. apply catan. apply cdiv; [apply cmult; [apply cconst|apply cid]| |apply Rgt_not_eq, (den_pos e y E Y)].
  apply cplus; [|apply cconst]. apply cmult; [apply cconst|]. apply cmult; [apply cconst|apply cid].
Qed.
Lemma excess_v v y : 0 <= y -> continuity_pt (fun v => excess (exp v) y) v.
Proof.
  intros Y. unfold excess, arc. apply cminus; [apply cminus; [apply cconst|]|]. 
  - apply catan. apply cdiv; [apply cconst| |apply Rgt_not_eq, (den_pos (exp v) y (exp_pos v) Y)]. apply cplus; [|apply cconst]. apply cmult; [apply cconst|]. apply cmult; [apply cexp, cid|apply cconst].
  - apply cmult; [apply cconst|]. apply catan, cexp, cid.
Qed.
Definition top : R := 3 * PI / (2 * T).
Lemma top_pos : 0 < top. Proof. unfold top. assert (P := PI_RGT_0). apply Rdiv_lt_0_compat; lra. Qed.
Lemma excess_top e : 0 < excess e top.
Proof. unfold excess. replace (T * top) with (3 * PI / 2) by (unfold top; field; lra). unfold arc. destruct (atan_bound (a * top / (a * (e * top) + b))). destruct (atan_bound e). lra. Qed.
Definition sol (v : R) : R := proj1_sig (IVT_interv (excess (exp v)) 0 top (fun y H => excess_y (exp v) y (exp_pos v) (proj1 H)) top_pos (excess_0 _ (exp_pos v)) (excess_top _)).
Lemma sol_spec v : 0 < sol v /\ excess (exp v) (sol v) = 0.
Proof.
  unfold sol. match goal with |- context [proj1_sig ?p] => destruct p as [z [[Z0 Z1] E]] end. cbn [proj1_sig]. split; [|exact E]. destruct (Req_dec z 0) as [->|N]; [|lra]. assert (H := excess_0 _ (exp_pos v)). lra.
Qed.
Lemma sol_lt v y : 0 <= y -> 0 < excess (exp v) y -> sol v < y.
Proof.
  intros Y H. destruct (sol_spec v) as [S0 S1]. apply Rnot_le_lt. intros L. destruct (Req_dec y (sol v)) as [E|N]; [rewrite E in H; lra|]. assert (B := below _ _ y (exp_pos v) S0 S1 Y ltac:(lra)). lra.
Qed.
Lemma sol_gt v y : 0 <= y -> excess (exp v) y < 0 -> y < sol v.
Proof.
  intros Y H. destruct (sol_spec v) as [S0 S1]. apply Rnot_le_lt. intros L. destruct (Req_dec y (sol v)) as [E|N]; [rewrite E in H; lra|]. assert (B := above _ _ y (exp_pos v) S0 S1 ltac:(lra)). lra.
Qed.
Lemma sol_cont v : continuity_pt sol v.
Proof.
  intros eps He. destruct (sol_spec v) as [S0 S1]. set (y := sol v) in *. set (h := Rmin (eps / 2) (y / 2)). assert (H0 : 0 < h) by (apply Rmin_pos; lra). assert (H1 : h <= eps / 2) by apply Rmin_l. assert (H2 : h <= y / 2) by apply Rmin_r.
  assert (U := above _ _ (y + h) (exp_pos v) S0 S1 ltac:(lra)). assert (L := below _ _ (y - h) (exp_pos v) S0 S1 ltac:(lra) ltac:(lra)).
  destruct (near_pos (fun v => excess (exp v) (y + h)) v (excess_v v (y + h) ltac:(lra)) U) as (d1 & D1 & N1).
  destruct (near_pos (fun v => - excess (exp v) (y - h)) v (continuity_pt_opp _ _ (excess_v v (y - h) ltac:(lra))) ltac:(lra)) as (d2 & D2 & N2).
  exists (Rmin d1 d2). split; [apply Rmin_pos; assumption|]. intros u [_ D]. cbn in D. unfold R_dist in D. assert (M1 := Rmin_l d1 d2). assert (M2 := Rmin_r d1 d2). specialize (N1 u ltac:(lra)). specialize (N2 u ltac:(lra)). cbv beta in N1, N2.
  assert (A1 := sol_lt u (y + h) ltac:(lra) N1). assert (A2 := sol_gt u (y - h) ltac:(lra) ltac:(lra)). cbn. unfold R_dist. apply Rabs_def1; fold y; lra.
Qed.
(** the gain along the curve of right phase *)
Definition gap (e y : R) : R := let x := e * y in (x * x + y * y) ^ 2 * exp (2 * (x * T)) - (a ^ 2 * (x * x + y * y) + 2 * a * b * x + b ^ 2).
Lemma gap_cont : continuity (fun v => gap (exp v) (sol v)).
Proof.
  intros v. unfold gap. assert (CX : continuity_pt (fun v => exp v * sol v) v) by (apply cmult; [apply cexp, cid|apply sol_cont]). assert (CN : continuity_pt (fun v => exp v * sol v * (exp v * sol v) + sol v * sol v) v) by (apply cplus; apply cmult; assumption || apply sol_cont).
  apply cminus; [apply cmult|apply cplus; [apply cplus|apply cconst]].
  - cbn [pow]. apply cmult; [exact CN|]. apply cmult; [exact CN|apply cconst].
  - apply cexp. apply cmult; [apply cconst|]. apply cmult; [exact CX|apply cconst].
  - apply cmult; [apply cconst|exact CN].
  - apply cmult; [apply cconst|exact CX].
Qed.
Lemma gap_root v : gap (exp v) (sol v) = 0 -> root T a b (exp v * sol v) (sol v).
Proof.
  intros G. destruct (sol_spec v) as [Y0 P]. set (y := sol v) in *. set (e := exp v) in *. assert (E0 : 0 < e) by apply exp_pos. clearbody y e. unfold gap, excess, arc in *. set (x := e * y) in *. assert (X0 : 0 < x) by (apply Rmult_lt_0_compat; assumption).
  assert (XE : x / y = e) by (unfold x; field; lra). apply root_parts; try assumption; try lra. cbv zeta. rewrite XE. replace (y * T - atan (a * y / (a * x + b))) with (2 * atan e) by lra.
  assert (K : exp (- (x * T)) * sqrt ((a * x + b) * (a * x + b) + a * y * (a * y)) = x * x + y * y).
  { replace ((a * x + b) * (a * x + b) + a * y * (a * y)) with (((x * x + y * y) * exp (x * T)) * ((x * x + y * y) * exp (x * T))).
    - rewrite sqrt_square; [|apply Rmult_le_pos; [assert (0 < x * x) by (apply Rmult_lt_0_compat; assumption); assert (0 < y * y) by (apply Rmult_lt_0_compat; assumption); lra|left; apply exp_pos]].
      replace (exp (- (x * T)) * ((x * x + y * y) * exp (x * T))) with ((x * x + y * y) * (exp (- (x * T)) * exp (x * T))) by ring. rewrite <- exp_plus, Rplus_opp_l, exp_0. ring.
    - replace (2 * (x * T)) with (x * T + x * T) in G by ring. rewrite exp_plus in G. lra. }
  rewrite K. split; reflexivity.
Qed.
Lemma gap_low w : 0 < w -> w ^ 4 = a ^ 2 * w ^ 2 + b ^ 2 -> atan (a * w / b) < T * w -> exists v, gap (exp v) (sol v) < 0.
Proof.
  intros Hw W4 M. destruct (near_pos (fun y => T * y - atan (a * y / b)) w) as (d & D0 & D).
  { apply cminus; [apply cmult; [apply cconst|apply cid]|]. apply catan. apply cdiv; [apply cmult; [apply cconst|apply cid]|apply cconst|lra]. }
  { lra. }
  set (y1 := w - Rmin (d / 2) (w / 2)). assert (RM : 0 < Rmin (d / 2) (w / 2)) by (apply Rmin_pos; lra). assert (R1 := Rmin_l (d / 2) (w / 2)). assert (R2 := Rmin_r (d / 2) (w / 2)).
  assert (Y1 : 0 < y1 < w) by (unfold y1; lra). specialize (D y1 ltac:(apply Rabs_def1; unfold y1; lra)). cbv beta in D. clearbody y1. clear d D0 RM R1 R2.
  set (s := (y1 / w) ^ 2). assert (YW : 0 < y1 / w) by (apply Rdiv_lt_0_compat; lra). assert (S0 : 0 < s) by (apply pow_lt, YW).
  assert (S1 : s < 1). { assert (y1 / w < 1) by (apply (Rmult_lt_reg_r w); [exact Hw|]; replace (y1 / w * w) with y1 by (field; lra); lra). unfold s. cbn [pow]. rewrite Rmult_1_r. apply Rle_lt_trans with (y1 / w * 1); [apply Rmult_le_compat_l; lra|lra]. }
  destruct (near_pos (fun e => 1 - (1 + e * e) ^ 2 * exp (2 * (e * y1 * T)) * s) 0) as (d & D0 & K).
  { apply cminus; [apply cconst|]. apply cmult; [|apply cconst]. apply cmult.
    - cbn [pow]. assert (C1 : continuity_pt (fun e => 1 + e * e) 0) by (apply cplus; [apply cconst|apply cmult; apply cid]). apply cmult; [exact C1|]. apply cmult; [exact C1|apply cconst].
    - apply cexp. apply cmult; [apply cconst|]. apply cmult; [|apply cconst]. apply cmult; [apply cid|apply cconst]. }
  { replace (2 * (0 * y1 * T)) with 0 by ring. rewrite exp_0. replace ((1 + 0 * 0) ^ 2 * 1 * s) with s by ring. lra. }
  set (de := T * y1 - atan (a * y1 / b)) in *. set (e := Rmin (d / 2) (de / 4)). assert (E0 : 0 < e) by (apply Rmin_pos; lra). assert (E1 : e <= d / 2) by apply Rmin_l. assert (E2 : e <= de / 4) by apply Rmin_r.
  specialize (K e ltac:(apply Rabs_def1; lra)). cbv beta in K. clearbody e. exists (ln e). assert (SL := sol_lt (ln e) y1). destruct (sol_spec (ln e)) as [Y0 _]. rewrite exp_ln in * by exact E0.
  assert (YL : sol (ln e) < y1).
  { apply SL; [lra|]. unfold excess, arc. assert (atan (a * y1 / (a * (e * y1) + b)) <= atan (a * y1 / b)). { apply atan_mono. unfold Rdiv. apply Rmult_le_compat_l; [apply Rmult_le_pos; lra|]. apply Rinv_le_contravar; [exact Hb|]. assert (0 <= a * (e * y1)) by (apply Rmult_le_pos; [lra|apply Rmult_le_pos; lra]). lra. }
    assert (atan e <= e). { destruct (MVT_cor2 atan (fun x => / (1 + x ^ 2)) 0 e E0) as (c & E & C); [intros c _; apply derivable_pt_lim_atan|]. rewrite atan_0 in E. assert (/ (1 + c ^ 2) <= / 1) by (apply Rinv_le_contravar; [lra|assert (Q := pow2_ge_0 c); lra]). rewrite Rinv_1 in *. assert (/ (1 + c ^ 2) * (e - 0) <= 1 * (e - 0)) by (apply Rmult_le_compat_r; lra). lra. }
    unfold de in E2. lra. }
  set (y := sol (ln e)) in *. clearbody y. clear SL D E1 E2. unfold gap. cbv zeta. set (k := (1 + e * e) ^ 2) in *. set (t := y * y).
  assert (XB : exp (2 * (e * y * T)) <= exp (2 * (e * y1 * T))). { destruct (Req_dec (e * y * T) (e * y1 * T)) as [->|N]; [lra|]. left. apply exp_increasing. assert (e * y * T <= e * y1 * T) by (apply Rmult_le_compat_r; [lra|apply Rmult_le_compat_l; lra]). lra. }
  assert (T0 : 0 < t) by (apply Rmult_lt_0_compat; assumption). assert (TS : t <= s * w ^ 2). { unfold s, t. replace ((y1 / w) ^ 2 * w ^ 2) with (y1 * y1) by (field; lra). apply Rmult_le_compat; lra. }
  assert (W2 : 0 < w ^ 2) by (apply pow_lt, Hw). assert (B2 : 0 < b ^ 2) by (apply pow_lt, Hb). assert (A2 : 0 < a ^ 2) by (apply pow_lt, Ha).
  assert (T2 : t * t <= s * (a ^ 2 * t + b ^ 2)).
  { assert (T1 : t <= w ^ 2) by (assert (s * w ^ 2 <= 1 * w ^ 2) by (apply Rmult_le_compat_r; lra); lra). assert (G1 : t * t <= t * (s * w ^ 2)) by (apply Rmult_le_compat_l; lra).
    assert (G2 : t * w ^ 2 <= a ^ 2 * t + b ^ 2). { apply (Rmult_le_reg_r (w ^ 2)); [exact W2|]. replace (t * w ^ 2 * w ^ 2) with (t * w ^ 4) by ring. rewrite W4. assert (t * b ^ 2 <= w ^ 2 * b ^ 2) by (apply Rmult_le_compat_r; lra). lra. }
    assert (s * (t * w ^ 2) <= s * (a ^ 2 * t + b ^ 2)) by (apply Rmult_le_compat_l; lra). lra. }
  assert (K0 : 0 < k) by (apply pow_lt; assert (0 < e * e) by (apply Rmult_lt_0_compat; assumption); lra).
  assert (Z0 : 0 < a ^ 2 * t + b ^ 2) by (assert (0 < a ^ 2 * t) by (apply Rmult_lt_0_compat; assumption); lra).
  assert (Z1 : k * (t * t) * exp (2 * (e * y * T)) <= k * (s * (a ^ 2 * t + b ^ 2)) * exp (2 * (e * y1 * T))). { apply Rmult_le_compat; [apply Rmult_le_pos; [lra|apply Rmult_le_pos; lra]|left; apply exp_pos| |exact XB]. apply Rmult_le_compat_l; lra. }
  assert (Z2 : k * (s * (a ^ 2 * t + b ^ 2)) * exp (2 * (e * y1 * T)) < a ^ 2 * t + b ^ 2). { replace (k * (s * (a ^ 2 * t + b ^ 2)) * exp (2 * (e * y1 * T))) with (k * exp (2 * (e * y1 * T)) * s * (a ^ 2 * t + b ^ 2)) by ring. assert (k * exp (2 * (e * y1 * T)) * s * (a ^ 2 * t + b ^ 2) < 1 * (a ^ 2 * t + b ^ 2)) by (apply Rmult_lt_compat_r; lra). lra. }
  replace (e * y * (e * y)) with (e * e * t) by (unfold t; ring). fold t. assert (0 < a ^ 2 * (e * e * t)) by (apply Rmult_lt_0_compat; [exact A2|apply Rmult_lt_0_compat; [apply Rmult_lt_0_compat|]; assumption]). assert (0 < 2 * a * b * (e * y)) by (repeat apply Rmult_lt_0_compat; lra). replace ((e * e * t + t) ^ 2) with (k * (t * t)) by (unfold k; ring). lra.
Qed.
Lemma gap_high v0 : exists v, v0 < v /\ 0 < gap (exp v) (sol v).
Proof.
  assert (P := PI_RGT_0). set (y2 := PI / (2 * T)). assert (Y2 : 0 < y2) by (apply Rdiv_lt_0_compat; lra). set (m := Rmax 1 ((1 + a + b) / y2)). assert (M1 : 1 <= m) by apply Rmax_l. assert (M2 : (1 + a + b) / y2 <= m) by apply Rmax_r.
  set (v := Rmax (v0 + 1) (ln m)). assert (V1 : v0 + 1 <= v) by apply Rmax_l. assert (V2 : ln m <= v) by apply Rmax_r. exists v. split; [lra|].
  assert (E1 : m <= exp v). { rewrite <- (exp_ln m) by lra. destruct (Req_dec (ln m) v) as [->|N]; [lra|]. left. apply exp_increasing. lra. }
  destruct (sol_spec v) as [Y0 S1]. set (y := sol v) in *. set (e := exp v) in *. clearbody y e. clear v V1 V2. 
  assert (YL : y2 <= y). { unfold excess in S1. assert (A0 : 0 <= arc e y) by (unfold arc; apply atan_nonneg; left; apply Rdiv_lt_0_compat; [apply Rmult_lt_0_compat; assumption|apply den_pos; lra]). assert (A1 : PI / 4 <= atan e) by (rewrite <- atan_1; apply atan_mono; lra).
    unfold y2. apply (Rmult_le_reg_r T); [exact HT|]. replace (PI / (2 * T) * T) with (PI / 2) by (field; lra). lra. }
  unfold gap. set (x := e * y). assert (XL : 1 + a + b <= x). { unfold x. apply Rle_trans with ((1 + a + b) / y2 * y2); [right; field; lra|]. apply Rmult_le_compat; try lra. left. apply Rdiv_lt_0_compat; lra. }
  clearbody x. assert (X0 : 0 < x) by lra. assert (XX : x <= x * x) by (replace x with (x * 1) at 1 by ring; apply Rmult_le_compat_l; lra). assert (YY : 0 < y * y) by (apply Rmult_lt_0_compat; assumption). set (n := x * x + y * y). assert (N0 : x * x <= n) by (unfold n; lra). clearbody n.
  assert (EX : 1 <= exp (2 * (x * T))). { assert (0 < x * T) by (apply Rmult_lt_0_compat; assumption). assert (Q := exp_ineq1_le (2 * (x * T))). lra. }
  assert (N2 : 0 <= n * n) by (apply Rmult_le_pos; lra). assert (G1 : n * n * 1 <= n * n * exp (2 * (x * T))) by (apply Rmult_le_compat_l; assumption).
  assert (G2 : (1 + a + b) * (1 + a + b) * n <= n * n). { apply Rmult_le_compat_r; [lra|]. apply Rle_trans with (x * x); [apply Rmult_le_compat; lra|exact N0]. }
  assert (AB : 0 < a * b) by (apply Rmult_lt_0_compat; assumption). assert (G3 : 2 * (a * b) * x <= 2 * (a * b) * n) by (apply Rmult_le_compat_l; lra). assert (B2 : 0 < b * b) by (apply Rmult_lt_0_compat; assumption). assert (G4 : b * b * 1 <= b * b * n) by (apply Rmult_le_compat_l; lra).
  assert (0 < (1 + 2 * a + 2 * b) * n) by (apply Rmult_lt_0_compat; lra). cbn [pow]. lra.
Qed.
Lemma growing_root w : 0 < w -> w ^ 4 = a ^ 2 * w ^ 2 + b ^ 2 -> atan (a * w / b) < T * w -> exists x y, 0 < x /\ 0 < y /\ root T a b x y.
Proof.
  intros Hw W4 M. destruct (gap_low w Hw W4 M) as (v1 & L). destruct (gap_high v1) as (v2 & V & H). destruct (IVT (fun v => gap (exp v) (sol v)) v1 v2 gap_cont V L H) as (v & _ & Z).
  destruct (sol_spec v) as [Y0 _]. exists (exp v * sol v), (sol v). split; [apply Rmult_lt_0_compat; [apply exp_pos|exact Y0]|]. split; [exact Y0|]. apply gap_root, Z.
Qed.
End Grow.
