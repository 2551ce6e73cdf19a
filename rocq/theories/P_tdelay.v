(** * Lemmas: the modes of an axis with a true delay *)
From Coq Require Import Reals Lra Psatz.
From Verif Require Import S_tdelay.
Local Open Scope R_scope.

(** ** the waves *)
Lemma lin_der k u : derivable_pt_lim (fun u => k * u) u k.
Proof. assert (D := derivable_pt_lim_scal id k u 1 (derivable_pt_lim_id u)). rewrite Rmult_1_r in D. exact D. Qed.
Lemma wave_der x y c d t : derivable_pt_lim (wave x y c d) t (wave x y (x * c + y * d) (x * d - y * c) t).
Proof.
  unfold wave. assert (L := lin_der).
  assert (DE : derivable_pt_lim (fun t => exp (x * t)) t (exp (x * t) * x)) by (apply (derivable_pt_lim_comp (fun t => x * t) exp); [apply L|apply derivable_pt_lim_exp]).
  assert (DC : derivable_pt_lim (fun t => cos (y * t)) t (- sin (y * t) * y)) by (apply (derivable_pt_lim_comp (fun t => y * t) cos); [apply L|apply derivable_pt_lim_cos]).
  assert (DS : derivable_pt_lim (fun t => sin (y * t)) t (cos (y * t) * y)) by (apply (derivable_pt_lim_comp (fun t => y * t) sin); [apply L|apply derivable_pt_lim_sin]).
  assert (D := derivable_pt_lim_mult _ _ t _ _ DE (derivable_pt_lim_plus _ _ t _ _ (derivable_pt_lim_scal _ c t _ DC) (derivable_pt_lim_scal _ d t _ DS))).
  unfold mult_fct, plus_fct, mult_real_fct in D. match type of D with derivable_pt_lim _ _ ?l => replace (exp (x * t) * ((x * c + y * d) * cos (y * t) + (x * d - y * c) * sin (y * t))) with l by ring end. exact D.
Qed.
(** s = x + i y is a root of s^2 + (a s + b) exp (- s T) *)
Definition root (T a b x y : R) : Prop :=
  x * x - y * y + exp (- (x * T)) * ((a * x + b) * cos (y * T) + a * y * sin (y * T)) = 0 /\
  2 * x * y + exp (- (x * T)) * (a * y * cos (y * T) - (a * x + b) * sin (y * T)) = 0.
Lemma late_wave T x y c d t : wave x y c d (t - T) = exp (- (x * T)) * (exp (x * t) * ((c * cos (y * T) - d * sin (y * T)) * cos (y * t) + (c * sin (y * T) + d * cos (y * T)) * sin (y * t))).
Proof.
  unfold wave. replace (x * (t - T)) with (- (x * T) + x * t) by ring. replace (y * (t - T)) with (y * t - y * T) by ring. rewrite exp_plus, cos_minus, sin_minus. ring.
Qed.
Lemma root_motion T a b x y : root T a b x y -> forall c d, late_motion T a b (wave x y c d).
Proof.
  intros [H1 H2] c d. eexists. eexists. split; [intros t; apply wave_der|]. split; [intros t; apply wave_der|]. intros t. rewrite !(late_wave T). unfold wave.
  set (E := exp (- (x * T))) in *. set (X := exp (x * t)). set (C := cos (y * T)) in *. set (S' := sin (y * T)) in *. set (p := cos (y * t)). set (q := sin (y * t)). clearbody E X C S' p q.
  match goal with |- ?l = ?r => apply (Rplus_eq_reg_r (- r)); rewrite Rplus_opp_r end.
  replace 0 with (X * ((x * x - y * y + E * ((a * x + b) * C + a * y * S')) * (c * p + d * q) + (2 * x * y + E * (a * y * C - (a * x + b) * S')) * (d * p - c * q))) by (rewrite H1, H2; ring). ring.
Qed.
Lemma motion_root T a b x y c d : late_motion T a b (wave x y c d) -> (exists t, wave x y c d t <> 0) -> y <> 0 -> root T a b x y.
Proof.
  intros (z' & z'' & D1 & D2 & E) (t0 & NZ) NY.
  assert (Z1 : forall t, z' t = wave x y (x * c + y * d) (x * d - y * c) t) by (intros t; apply (uniqueness_limite (wave x y c d) t); [apply D1|apply wave_der]).
  assert (Z2 : forall t, z'' t = wave x y (x * (x * c + y * d) + y * (x * d - y * c)) (x * (x * d - y * c) - y * (x * c + y * d)) t).
  { intros t. apply (uniqueness_limite (wave x y (x * c + y * d) (x * d - y * c)) t); [|apply wave_der]. intros e He. destruct (D2 t e He) as (dl & Hd). exists dl. intros h Hh Hs. rewrite <- !Z1. exact (Hd h Hh Hs). }
  assert (F : forall t, x * c * 0 + wave x y (x * (x * c + y * d) + y * (x * d - y * c)) (x * (x * d - y * c) - y * (x * c + y * d)) t = - (a * wave x y (x * c + y * d) (x * d - y * c) (t - T) + b * wave x y c d (t - T))) by (intros t; rewrite <- Z2, E, Z1; ring).
  assert (F0 := F 0). assert (F1 := F (PI / (2 * y))). rewrite !(late_wave T) in F0, F1. unfold wave in F0, F1. replace (y * (PI / (2 * y))) with (PI / 2) in F1 by (field; exact NY). rewrite cos_PI2, sin_PI2 in F1. rewrite !Rmult_0_r, cos_0, sin_0, exp_0 in F0.
  assert (XP := exp_pos (x * (PI / (2 * y)))). set (X := exp (x * (PI / (2 * y)))) in *. unfold root. set (E' := exp (- (x * T))) in *. set (C := cos (y * T)) in *. set (S' := sin (y * T)) in *. clearbody X E' C S'.
  set (A := x * x - y * y + E' * ((a * x + b) * C + a * y * S')). set (B := 2 * x * y + E' * (a * y * C - (a * x + b) * S')).
  assert (G0 : A * c + B * d = 0) by (unfold A, B; lra). assert (G1 : A * d - B * c = 0). { apply (Rmult_eq_reg_l X); [|lra]. unfold A, B. lra. }
  assert (N : 0 < c * c + d * d). { assert (Q1 := Rle_0_sqr c). assert (Q2 := Rle_0_sqr d). unfold Rsqr in *. destruct (Req_dec c 0) as [->|Nc]; [destruct (Req_dec d 0) as [->|Nd]; [exfalso; apply NZ; unfold wave; ring|]|]; [assert (0 < d * d) by (apply Rsqr_pos_lt; exact Nd); lra|assert (0 < c * c) by (apply Rsqr_pos_lt; exact Nc); lra]. }
  split; apply (Rmult_eq_reg_r (c * c + d * d)); try lra.
  - replace (A * (c * c + d * d)) with ((A * c + B * d) * c + (A * d - B * c) * d) by ring. rewrite G0, G1. ring.
  - replace (B * (c * c + d * d)) with ((A * c + B * d) * d - (A * d - B * c) * c) by ring. rewrite G0, G1. ring.
Qed.
Lemma motion_real T a b x c d : late_motion T a b (wave x 0 c d) -> (exists t, wave x 0 c d t <> 0) -> x * x + exp (- (x * T)) * (a * x + b) = 0.
Proof.
  intros (z' & z'' & D1 & D2 & E) (t0 & NZ).
  assert (Z1 : forall t, z' t = wave x 0 (x * c + 0 * d) (x * d - 0 * c) t) by (intros t; apply (uniqueness_limite (wave x 0 c d) t); [apply D1|apply wave_der]).
  assert (Z2 : forall t, z'' t = wave x 0 (x * (x * c + 0 * d) + 0 * (x * d - 0 * c)) (x * (x * d - 0 * c) - 0 * (x * c + 0 * d)) t).
  { intros t. apply (uniqueness_limite (wave x 0 (x * c + 0 * d) (x * d - 0 * c)) t); [|apply wave_der]. intros e He. destruct (D2 t e He) as (dl & Hd). exists dl. intros h Hh Hs. rewrite <- !Z1. exact (Hd h Hh Hs). }
  assert (F : 0 + z'' 0 = - (a * z' (0 - T) + b * wave x 0 c d (0 - T))) by (rewrite E; ring). rewrite Z1, Z2, !(late_wave T) in F. unfold wave in F, NZ. rewrite !Rmult_0_l, !Rmult_0_r, cos_0, sin_0, exp_0 in F.
  rewrite Rmult_0_l, cos_0, sin_0 in NZ. apply (Rmult_eq_reg_r c); [lra|]. intros ->. apply NZ. ring.
Qed.
Lemma root_conj T a b x y : root T a b x y -> root T a b x (- y).
Proof. intros [H1 H2]. unfold root. replace (- y * T) with (- (y * T)) by ring. rewrite cos_neg, sin_neg. split; lra. Qed.

(** ** the arc tangent *)
Lemma atan_low t : 0 <= t -> t / (1 + t ^ 2) <= atan t.
Proof.
  intros Ht. destruct (Req_dec t 0) as [->|N]; [rewrite atan_0; lra|]. destruct (MVT_cor2 atan (fun x => / (1 + x ^ 2)) 0 t ltac:(lra)) as (c & E & C); [intros c _; apply derivable_pt_lim_atan|]. rewrite atan_0 in E.
  assert (P : 0 < 1 + c ^ 2) by (assert (Q := pow2_ge_0 c); lra). assert (/ (1 + t ^ 2) <= / (1 + c ^ 2)) by (apply Rinv_le_contravar; [exact P|nra]). unfold Rdiv. rewrite Rmult_comm. assert (/ (1 + t ^ 2) * t <= / (1 + c ^ 2) * t) by (apply Rmult_le_compat_r; lra). lra.
Qed.
Lemma atan_ratio t u : 0 < t -> t <= u -> atan u * t <= atan t * u.
Proof.
  intros Ht TU. destruct (Req_dec t u) as [->|N]; [lra|]. destruct (MVT_cor2 (fun z => atan t * z - atan z * t) (fun z => atan t - / (1 + z ^ 2) * t) t u ltac:(lra)) as (c & E & C).
  - intros c _. apply derivable_pt_lim_minus.
    + apply lin_der.
    + apply (derivable_pt_lim_ext (fun z => t * atan z)); [intros; ring|]. rewrite Rmult_comm. apply (derivable_pt_lim_scal atan), derivable_pt_lim_atan.
  - assert (L := atan_low t ltac:(lra)). assert (P : 0 < 1 + t ^ 2) by (assert (Q := pow2_ge_0 t); lra). assert (/ (1 + c ^ 2) <= / (1 + t ^ 2)) by (apply Rinv_le_contravar; [exact P|nra]).
    assert (/ (1 + c ^ 2) * t <= / (1 + t ^ 2) * t) by (apply Rmult_le_compat_r; lra). unfold Rdiv in L. assert (0 <= (atan t - / (1 + c ^ 2) * t) * (u - t)) by (apply Rmult_le_pos; lra). lra.
Qed.
Lemma atan_nonneg t : 0 <= t -> 0 <= atan t. Proof. intros [H| <-]; [rewrite <- atan_0; left; apply atan_increasing, H|rewrite atan_0; lra]. Qed.
Lemma atan_mono t u : t <= u -> atan t <= atan u. Proof. intros [H| ->]; [left; apply atan_increasing, H|lra]. Qed.
(** atan p - atan q <= atan r when p - q <= r (1 + p q) *)
Lemma atan_sub p q r : 0 <= q -> q <= p -> 0 <= r -> p - q <= r * (1 + p * q) -> atan p <= atan q + atan r.
Proof.
  intros Hq QP Hr H. apply Rnot_lt_le. intros L. assert (P1 := atan_bound p). assert (Q0 := atan_nonneg q Hq). assert (R0 := atan_nonneg r Hr).
  assert (PQ : 0 < 1 + p * q) by (assert (0 <= p * q) by (apply Rmult_le_pos; lra); lra).
  assert (CP : 0 < cos (atan p)) by (apply cos_gt_0; lra). assert (CQ : 0 < cos (atan q)) by (apply cos_gt_0; destruct (atan_bound q); lra).
  assert (T : tan (atan p - atan q) = (p - q) / (1 + p * q)).
  { assert (CD : 0 < cos (atan p - atan q)) by (apply cos_gt_0; lra). unfold tan. assert (SP : sin (atan p) = p * cos (atan p)) by (rewrite <- (tan_atan p) at 2; unfold tan; field; lra). assert (SQ : sin (atan q) = q * cos (atan q)) by (rewrite <- (tan_atan q) at 2; unfold tan; field; lra).
    rewrite sin_minus, cos_minus, SP, SQ. set (u := cos (atan p)) in *. set (v := cos (atan q)) in *. replace (u * v + p * u * (q * v)) with (u * v * (1 + p * q)) by ring. field. repeat split; lra. }
  assert (LT : r < tan (atan p - atan q)) by (rewrite <- (tan_atan r); apply tan_increasing; lra). rewrite T in LT. apply (Rmult_lt_compat_r (1 + p * q)) in LT; [|exact PQ]. replace ((p - q) / (1 + p * q) * (1 + p * q)) with (p - q) in LT by (field; lra). lra.
Qed.
(** ** polar forms *)
Lemma polar p q : 0 < p -> p = sqrt (p * p + q * q) * cos (atan (q / p)) /\ q = sqrt (p * p + q * q) * sin (atan (q / p)).
Proof.
  intros Hp. assert (PP : 0 < p * p) by nra. assert (QQ := Rle_0_sqr q). unfold Rsqr in QQ. set (r := sqrt (p * p + q * q)). assert (R0 : 0 < r) by (apply sqrt_lt_R0; lra).
  assert (Q : sqrt (1 + (q / p)²) = r / p). { replace (1 + (q / p)²) with ((p * p + q * q) / (p * p)) by (unfold Rsqr; field; lra). rewrite sqrt_div_alt by exact PP. fold r. rewrite sqrt_square by lra. reflexivity. }
  rewrite cos_atan, sin_atan, Q. split; field; lra.
Qed.
Definition psi (a b x y : R) : R := atan (a * y / (a * x + b)) + 2 * atan (x / y).
(** a root in the closed right half plane: gain and phase *)
Lemma root_parts T a b x y : 0 < a -> 0 < b -> 0 <= x -> 0 < y ->
  root T a b x y <-> (let E := exp (- (x * T)) in let r := sqrt ((a * x + b) * (a * x + b) + a * y * (a * y)) in
    (x * x + y * y) * cos (2 * atan (x / y)) = E * r * cos (y * T - atan (a * y / (a * x + b))) /\
    (x * x + y * y) * sin (2 * atan (x / y)) = E * r * sin (y * T - atan (a * y / (a * x + b)))).
Proof.
  intros Ha Hb Hx Hy. assert (K0 : 0 < a * x + b) by (assert (0 <= a * x) by (apply Rmult_le_pos; lra); lra). cbv zeta. destruct (polar (a * x + b) (a * y) K0) as [PK PL]. destruct (polar y x Hy) as [PY PX].
  set (r := sqrt ((a * x + b) * (a * x + b) + a * y * (a * y))) in *. set (f := atan (a * y / (a * x + b))) in *. set (al := atan (x / y)) in *. set (E := exp (- (x * T))).
  assert (R2 : sqrt (y * y + x * x) * sqrt (y * y + x * x) = x * x + y * y) by (rewrite sqrt_sqrt; [ring|nra]).
  assert (Q1 : (x * x + y * y) * cos (2 * al) = y * y - x * x). { rewrite <- R2, cos_2a. set (rho := sqrt (y * y + x * x)) in *. replace (rho * rho * (cos al * cos al - sin al * sin al)) with ((rho * cos al) * (rho * cos al) - (rho * sin al) * (rho * sin al)) by ring. rewrite <- PY, <- PX. ring. }
  assert (Q2 : (x * x + y * y) * sin (2 * al) = 2 * x * y). { rewrite <- R2, sin_2a. set (rho := sqrt (y * y + x * x)) in *. replace (rho * rho * (2 * sin al * cos al)) with (2 * (rho * sin al) * (rho * cos al)) by ring. rewrite <- PY, <- PX. ring. }
  assert (Q3 : r * cos (y * T - f) = (a * x + b) * cos (y * T) + a * y * sin (y * T)) by (rewrite cos_minus, PK, PL at 1; ring).
  assert (Q4 : r * sin (y * T - f) = (a * x + b) * sin (y * T) - a * y * cos (y * T)) by (rewrite sin_minus, PK, PL at 1; ring).
  rewrite Q1, Q2, !Rmult_assoc, Q3, Q4. unfold root. fold E. split; intros [H1 H2]; split; lra.
Qed.
