(** * Environment lemmas *)
From Coq Require Import Reals ZArith List Bool Lra Psatz Lia.
From Coquelicot Require Import Coquelicot.
From Verif Require Import Num Flt Vec M_vector M_quaternion M_jday M_frame M_env S_rot S_env P_quat P_frame P_sat P_struct.
Local Open Scope R_scope.

(** ** gradients *)
(** the potential as a polynomial in w = 1/r and z *)
Definition zpoly (mu re j2 j3 j4 w z : R) : R :=
  mu * w * (1 - j2 * (re * w) ^ 2 * legendre2 (z * w) - j3 * (re * w) ^ 3 * legendre3 (z * w) - j4 * (re * w) ^ 4 * legendre4 (z * w)).
Lemma zonal_poly mu re j2 j3 j4 p : zonal mu re j2 j3 j4 p = zpoly mu re j2 j3 j4 (/ sqrt (x3 p ^ 2 + y3 p ^ 2 + z3 p ^ 2)) (z3 p).
Proof. reflexivity. Qed.
(** derivatives of the polynomial *)
Definition zdw mu re j2 j3 j4 w z : R :=
  mu * (1 - j2 * re ^ 2 * (15 * z ^ 2 * w ^ 4 - 3 * w ^ 2) / 2 - j3 * re ^ 3 * (35 * z ^ 3 * w ^ 6 - 15 * z * w ^ 4) / 2
        - j4 * re ^ 4 * (315 * z ^ 4 * w ^ 8 - 210 * z ^ 2 * w ^ 6 + 15 * w ^ 4) / 8).
Definition zdz mu re j2 j3 j4 w z : R :=
  mu * (- j2 * re ^ 2 * (6 * z * w ^ 5) / 2 - j3 * re ^ 3 * (15 * z ^ 2 * w ^ 7 - 3 * w ^ 5) / 2
        - j4 * re ^ 4 * (140 * z ^ 3 * w ^ 9 - 60 * z * w ^ 7) / 8).
Lemma zpoly_chain mu re j2 j3 j4 (w z : R -> R) t w' z' : is_derive w t w' -> is_derive z t z' ->
  is_derive (fun u => zpoly mu re j2 j3 j4 (w u) (z u)) t (zdw mu re j2 j3 j4 (w t) (z t) * w' + zdz mu re j2 j3 j4 (w t) (z t) * z').
Proof.
  intros Hw Hz. unfold zpoly, legendre2, legendre3, legendre4. auto_derive.
  - repeat split; try (exists w'; exact Hw); try (exists z'; exact Hz).
  - replace (Derive (fun x : R => w x) t) with w' by (symmetry; apply is_derive_unique; exact Hw).
    replace (Derive (fun x : R => z x) t) with z' by (symmetry; apply is_derive_unique; exact Hz).
    unfold zdw, zdz. generalize (w t) (z t). intros. field.
Qed.
Lemma inv_sqrt_derive (f : R -> R) t f' : 0 < f t -> is_derive f t f' -> is_derive (fun u => / sqrt (f u)) t (- (f' / 2) * (/ sqrt (f t)) ^ 3).
Proof.
  intros Hp Hf. assert (S := sqrt_lt_R0 _ Hp). auto_derive.
  - repeat split; try (exists f'; exact Hf); try exact Hp. apply Rgt_not_eq; exact S.
  - replace (Derive (fun x : R => f x) t) with f' by (symmetry; apply is_derive_unique; exact Hf).
    field. lra.
Qed.
Lemma zonal_gradient mu re j2 j3 j4 p : p <> zero3 ->
  let w := / norm3 p in
  let k := - zdw mu re j2 j3 j4 w (z3 p) * w ^ 3 in
  gradient (zonal mu re j2 j3 j4) p (mk3 (k * x3 p) (k * y3 p) (k * z3 p + zdz mu re j2 j3 j4 w (z3 p))).
Proof.
  intros Hp w k.
  assert (N : 0 < x3 p ^ 2 + y3 p ^ 2 + z3 p ^ 2).
  { assert (H := dot3_nonneg p). destruct H as [H|H]; [|symmetry in H; apply dot3_zero in H; contradiction]. destruct p. vunfold; rnum. lra. }
  assert (W : w = / sqrt (x3 p ^ 2 + y3 p ^ 2 + z3 p ^ 2)). { unfold w, norm3. rnumg. f_equal. f_equal. destruct p. vunfold; rnum. ring. }
  destruct p as [x y z]. cbn [x3 y3 z3] in *. unfold gradient. cbn [x3 y3 z3].
  split; [|split]; apply is_derive_Reals.
  - assert (C := zpoly_chain mu re j2 j3 j4 (fun u => / sqrt (u ^ 2 + y ^ 2 + z ^ 2)) (fun _ => z) x (- (2 * x / 2) * (/ sqrt (x ^ 2 + y ^ 2 + z ^ 2)) ^ 3) 0).
    cbn beta in C. rewrite <- W in C. replace (k * x) with (zdw mu re j2 j3 j4 w z * (- (2 * x / 2) * w ^ 3) + zdz mu re j2 j3 j4 w z * 0) by (unfold k; field). apply C.
    + rewrite W. apply (inv_sqrt_derive (fun u => u ^ 2 + y ^ 2 + z ^ 2)); [exact N|]. auto_derive; [exact I|ring].
    + apply (is_derive_const z).
  - assert (C := zpoly_chain mu re j2 j3 j4 (fun u => / sqrt (x ^ 2 + u ^ 2 + z ^ 2)) (fun _ => z) y (- (2 * y / 2) * (/ sqrt (x ^ 2 + y ^ 2 + z ^ 2)) ^ 3) 0).
    cbn beta in C. rewrite <- W in C. replace (k * y) with (zdw mu re j2 j3 j4 w z * (- (2 * y / 2) * w ^ 3) + zdz mu re j2 j3 j4 w z * 0) by (unfold k; field). apply C.
    + rewrite W. apply (inv_sqrt_derive (fun u => x ^ 2 + u ^ 2 + z ^ 2)); [exact N|]. auto_derive; [exact I|ring].
    + apply (is_derive_const z).
  - assert (C := zpoly_chain mu re j2 j3 j4 (fun u => / sqrt (x ^ 2 + y ^ 2 + u ^ 2)) (fun u => u) z (- (2 * z / 2) * (/ sqrt (x ^ 2 + y ^ 2 + z ^ 2)) ^ 3) 1).
    cbn beta in C. rewrite <- W in C. replace (k * z + zdz mu re j2 j3 j4 w z) with (zdw mu re j2 j3 j4 w z * (- (2 * z / 2) * w ^ 3) + zdz mu re j2 j3 j4 w z * 1) by (unfold k; field). apply C.
    + rewrite W. apply (inv_sqrt_derive (fun u => x ^ 2 + y ^ 2 + u ^ 2)); [exact N|]. auto_derive; [exact I|ring].
    + apply (is_derive_id z).
Qed.
Lemma gradient_unique U p g h : gradient U p g -> gradient U p h -> g = h.
Proof.
  intros (A & B & C) (A' & B' & C'). destruct g as [a b c], h as [a' b' c']. cbn [x3 y3 z3] in *. f_equal; eapply uniqueness_limite; eassumption.
Qed.
(** the wrong part of hi_fi_gravity: twice the J3 and J4 terms in x and y *)
Definition j34_factor (p : v3) : R :=
  let w := / norm3 p in let s := z3 p * w in
  2 * MU * w ^ 3 * (1 / 2 * J3 * (EARTH_RAD * w) ^ 3 * (5 * (7 * s ^ 3 - 3 * s)) + 5 / 8 * J4 * (EARTH_RAD * w) ^ 4 * (3 - 42 * s ^ 2 + 63 * s ^ 4)).
Lemma hi_fi_eq p : p <> zero3 ->
  gradient (zonal MU EARTH_RAD J2 J3 J4) p (add3 (gravity_accel true p (norm3 p)) (scale3 (j34_factor p) (mk3 (x3 p) (y3 p) 0))).
Proof.
  intros Hp. assert (G := zonal_gradient MU EARTH_RAD J2 J3 J4 p Hp). cbv zeta in G.
  replace (add3 _ _) with (mk3 (- zdw MU EARTH_RAD J2 J3 J4 (/ norm3 p) (z3 p) * (/ norm3 p) ^ 3 * x3 p)
    (- zdw MU EARTH_RAD J2 J3 J4 (/ norm3 p) (z3 p) * (/ norm3 p) ^ 3 * y3 p)
    (- zdw MU EARTH_RAD J2 J3 J4 (/ norm3 p) (z3 p) * (/ norm3 p) ^ 3 * z3 p + zdz MU EARTH_RAD J2 J3 J4 (/ norm3 p) (z3 p))); [exact G|].
  clear G. unfold gravity_accel, hi_fi_gravity, j34_factor. cbv zeta. generalize MU EARTH_RAD J2 J3 J4. intros mu re j2 j3 j4.
  assert (N := norm3_gt0 p Hp). set (r := norm3 p) in *. assert (H : r <> 0) by lra. clearbody r. clear N Hp. unfold zdw, zdz.
  destruct p as [x y z]. vunfold; rnum. apply mk3_c; field; exact H.
Qed.
Lemma lo_fi_eq p : p <> zero3 -> gradient (zonal MU 1 0 0 0) p (gravity_accel false p (norm3 p)).
Proof.
  intros Hp. assert (G := zonal_gradient MU 1 0 0 0 p Hp). cbv zeta in G.
  replace (gravity_accel false p (norm3 p)) with (mk3 (- zdw MU 1 0 0 0 (/ norm3 p) (z3 p) * (/ norm3 p) ^ 3 * x3 p)
    (- zdw MU 1 0 0 0 (/ norm3 p) (z3 p) * (/ norm3 p) ^ 3 * y3 p)
    (- zdw MU 1 0 0 0 (/ norm3 p) (z3 p) * (/ norm3 p) ^ 3 * z3 p + zdz MU 1 0 0 0 (/ norm3 p) (z3 p))); [exact G|].
  clear G. unfold gravity_accel. cbv zeta. generalize MU. intros mu.
  assert (N := norm3_gt0 p Hp). set (r := norm3 p) in *. assert (H : r <> 0) by lra. clearbody r. clear N Hp. unfold zdw, zdz.
  destruct p as [x y z]. vunfold; rnum. apply mk3_c; field; exact H.
Qed.

(** ** the dipole *)
Lemma field_norm (m r : v3) (len : R) : 0 < len -> dot3 r r = len ^ 2 ->
  let b := div3 (sub3 (scale3 (3 * dot3 m r) r) (scale3 (len ^ 2) m)) (len ^ 5) in
  dot3 b b * len ^ 6 = dot3 m m + 3 * (dot3 m r / len) ^ 2.
Proof.
  intros Hl Hr b. assert (E : dot3 b b = (3 * (dot3 m r)^2 * len ^ 2 + len ^ 4 * dot3 m m) / len ^ 10).
  { transitivity ((9 * (dot3 m r)^2 * dot3 r r - 6 * len ^ 2 * (dot3 m r) ^ 2 + len ^ 4 * dot3 m m) / len ^ 10); [|rewrite Hr; field; lra].
    unfold b. clear b Hr. destruct m, r. vunfold; rnum. field; lra. }
  rewrite E. field. lra.
Qed.
Lemma ecef_rows th : let m := ecef_matrix th in (forall v, mv (tr3 m) (mv m v) = v) /\ (forall v, mv m (mv (tr3 m) v) = v) /\
  (forall v w, dot3 (mv m v) (mv m w) = dot3 v w) /\ (forall v w, dot3 (mv (tr3 m) v) (mv (tr3 m) w) = dot3 v w).
Proof.
  cbv zeta. unfold ecef_matrix. cbv zeta. assert (T := sc1 th). set (C := cos th) in *. set (S := sin th) in *. clearbody C S.
  assert (Q : S * S = 1 - C * C) by lra.
  split; [|split; [|split]]; [intros [x y z]|intros [x y z]|intros [x y z] [a b c]|intros [x y z] [a b c]]; vunfold; rnum; try apply mk3_c;
   ring_simplify; replace (S ^ 2) with (1 - C * C) by lra; ring.
Qed.

(** ** density *)
Lemma exp_sq_lo b t : 0 <= b -> b <= exp t -> b * b <= exp (2 * t).
Proof. intros. replace (2 * t) with (t + t) by ring. rewrite exp_plus. apply Rmult_le_compat; assumption. Qed.
Lemma exp_sq_hi b t : exp t <= b -> exp (2 * t) <= b * b.
Proof. intros. replace (2 * t) with (t + t) by ring. rewrite exp_plus. assert (E := exp_pos t). apply Rmult_le_compat; lra. Qed.
Fixpoint sqn (n : nat) (b : R) : R := match n with O => b | S n => let c := sqn n b in c * c end.
Lemma exp_lo n : forall t, 0 <= 1 + t -> sqn n (1 + t) <= exp (2 ^ n * t).
Proof.
  induction n as [|n IH]; intros t H; cbn [sqn pow].
  - rewrite Rmult_1_l. apply exp_ineq1_le.
  - rewrite Rmult_assoc. apply exp_sq_lo; [|apply IH, H]. clear IH. induction n; cbn [sqn]; [exact H|]. apply Rle_0_sqr.
Qed.
Lemma exp_hi n : forall t, t < 1 -> exp (2 ^ n * t) <= sqn n (/ (1 - t)).
Proof.
  induction n as [|n IH]; intros t H; cbn [sqn pow].
  - rewrite Rmult_1_l. replace (exp t) with (/ exp (- t)) by (rewrite exp_Ropp, Rinv_inv; reflexivity). apply Rinv_le_contravar; [lra|]. assert (E := exp_ineq1_le (- t)). lra.
  - rewrite Rmult_assoc. apply exp_sq_hi, IH, H.
Qed.
Lemma exp_bounds n (a b t lo hi : R) : a = 2 ^ n * t -> -1 <= t -> t < 1 -> lo <= sqn n (1 + t) -> sqn n (/ (1 - t)) <= hi -> lo <= exp a <= hi.
Proof. intros -> H1 H2 H3 H4. assert (L := exp_lo n t ltac:(lra)). assert (H := exp_hi n t H2). lra. Qed.
Definition band (rho h0 H h : R) : R := rho * exp ((h0 - h) / H).
Lemma band_dec rho h0 H h h' : 0 < rho -> 0 < H -> h < h' -> band rho h0 H h' < band rho h0 H h.
Proof.
  intros R0 H0 L. unfold band. apply Rmult_lt_compat_l; [exact R0|]. apply exp_increasing. unfold Rdiv. apply Rmult_lt_compat_r; [apply Rinv_0_lt_compat; exact H0|lra].
Qed.
Lemma band_pos rho h0 H h : 0 < rho -> 0 < band rho h0 H h.
Proof. intros. apply Rmult_lt_0_compat; [assumption|apply exp_pos]. Qed.
Definition b1 := band (7.248 * (1 / 10 ^ 11)) 250000 46900.
Definition b2 := band (2.418 * (1 / 10 ^ 11)) 300000 52500.
Definition b3 := band (9.158 * (1 / 10 ^ 12)) 350000 56400.
Definition b4 := band (3.727 * (1 / 10 ^ 12)) 400000 59400.
Definition b5 := band (1.585 * (1 / 10 ^ 12)) 400000 62200.
Lemma atmo_bands h : atmo_density h =
  if Rleb 250000 h && Rltb h 300000 then Ok (b1 h) else if Rleb 300000 h && Rltb h 350000 then Ok (b2 h)
  else if Rleb 350000 h && Rltb h 400000 then Ok (b3 h) else if Rleb 400000 h && Rltb h 450000 then Ok (b4 h)
  else if Rleb 450000 h && Rltb h 500000 then Ok (b5 h) else Raise UnboundLocalError.
Proof. reflexivity. Qed.
Lemma e1 : 0.342 <= exp ((250000 - 300000) / 46900) <= 0.347.
Proof. apply (exp_bounds 7 _ 0 ((250000 - 300000) / 46900 / 128)); cbn [sqn pow]; lra. Qed.
Lemma e2' : 0.384 <= exp ((300000 - 350000) / 52500) <= 0.388.
Proof. apply (exp_bounds 7 _ 0 ((300000 - 350000) / 52500 / 128)); cbn [sqn pow]; lra. Qed.
Lemma e3' : 0.410 <= exp ((350000 - 400000) / 56400) <= 0.414.
Proof. apply (exp_bounds 7 _ 0 ((350000 - 400000) / 56400 / 128)); cbn [sqn pow]; lra. Qed.
Lemma e4' : 0.429 <= exp ((400000 - 450000) / 59400) <= 0.433.
Proof. apply (exp_bounds 7 _ 0 ((400000 - 450000) / 59400 / 128)); cbn [sqn pow]; lra. Qed.
Lemma e5' : 0.446 <= exp ((400000 - 450000) / 62200) <= 0.449.
Proof. apply (exp_bounds 7 _ 0 ((400000 - 450000) / 62200 / 128)); cbn [sqn pow]; lra. Qed.

(** ** shadow *)
From Flocq Require Import Core BinarySingleNaN Plus_error.
Lemma fsqrt_neg (a : b64) : fin a = true -> fR a < 0 -> fsqrt a = B754_nan.
Proof.
  intros F H. destruct a as [s|s| |s mm e B]; try discriminate F; [cbn in H; lra|]. destruct s; [reflexivity|]. exfalso.
  assert (0 <= fR (B754_finite false mm e B)) by (unfold fR, B2R; apply F2R_ge_0; cbn; lia). lra.
Qed.
Lemma fsub_neg (a b : b64) : fin a = true -> fin b = true -> 0 <= fR a -> fR a < fR b -> fin (fsub a b) = true /\ fR (fsub a b) < 0.
Proof.
  intros Fa Fb H0 H. assert (C := Bminus_correct 53 1024 b64_prec b64_emax mode_NE a b Fa Fb).
  change (B2R a) with (fR a) in C. change (B2R b) with (fR b) in C. change (round_mode mode_NE) with ZnearestE in C.
  assert (UB : Rabs (rnd (fR a - fR b)) <= fR b).
  { apply abs_round_le_generic; [apply fexp_valid|auto with typeclass_instances|apply fmt_R|]. rewrite Rabs_left; lra. }
  assert (FB := fin_bound b). rewrite (Rabs_pos_eq (fR b)) in FB by lra. rewrite Rlt_bool_true in C by lra. destruct C as (C1 & C2 & _).
  split; [exact C2|]. unfold fR, fsub. rewrite C1.
  assert (LE : rnd (fR a - fR b) <= 0). { replace 0 with (rnd 0) by apply round_0, valid_rnd_N. apply round_le; [apply fexp_valid|apply valid_rnd_N|lra]. }
  destruct LE as [LE|LE]; [exact LE|]. exfalso.
  assert (N : rnd (fR a + - fR b) <> 0).
  { apply round_plus_neq_0; [apply fexp_valid| |apply valid_rnd_N|apply fmt_R|apply generic_format_opp, fmt_R|lra]. typeclasses eauto. }
  apply N. exact LE.
Qed.
Lemma shadow_inside (xe xx rr : b64) : fin xx = true -> fin rr = true -> 0 <= fR xx -> fR xx < fR rr -> shadow_test xe xx rr = false.
Proof.
  intros. unfold shadow_test. change (@nsub b64 FNum) with fsub. change (@nsqrt b64 FNum) with fsqrt. change (@nopp b64 FNum) with fopp. change (@nltb b64 FNum) with fltb.
  destruct (fsub_neg xx rr) as [F G]; try assumption. rewrite (fsqrt_neg _ F G). destruct xe as [[]|[]| |[]]; reflexivity.
Qed.
