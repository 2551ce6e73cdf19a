(** * Lemmas for property C124: point_and_stare with the satellite it turns *)
From Coq Require Import Reals ZArith List Bool Lra Lia Psatz.
From Verif Require Import Num Vec M_vector M_quaternion M_jday M_struct M_dyn M_ctrl S_rot S_dyn S_ctrl.
From Verif Require Import P_quat P_struct P_wheel P_dyn P_dyn2 P_obs P_ctrl P_ctrl2 P_ctrl3 P_ctrl4 P_ctrl5 P_conv P_ode P_tot3 P_orb3 P_posf P_detum P_samp P_samp2 Props_ctrl2 Props_conv Props_samp Props_dist.
Import ListNotations.
Local Open Scope R_scope.

(** cosine of half the angle between two unit vectors, and the vector part of the shortest rotation from one to the other *)
Definition hcos (b D : v3) : R := sqrt ((1 + dot3 b D) / 2).
Definition haxis (b D : v3) : v3 := scale3 (/ (2 * hcos b D)) (cross3 b D).

Lemma hcos_facts (b D : v3) : unit3 b -> unit3 D -> 0 <= hcos b D <= 1 /\ hcos b D * hcos b D = (1 + dot3 b D) / 2.
Proof.
  intros B U. assert (Rg := unit_dot_range b D B U). assert (S : hcos b D * hcos b D = (1 + dot3 b D) / 2) by (apply sqrt_sqrt; lra). split; [|exact S].
  split; [apply sqrt_pos|]. unfold hcos. apply (Rle_trans _ (sqrt 1)); [apply sqrt_le_1_alt; lra|rewrite sqrt_1; lra].
Qed.
Lemma haxis_sq (b D : v3) : unit3 b -> unit3 D -> 0 < hcos b D -> dot3 (haxis b D) (haxis b D) = 1 - hcos b D * hcos b D /\ cross3 b D = scale3 (2 * hcos b D) (haxis b D).
Proof.
  intros B U P. destruct (hcos_facts b D B U) as (_ & S). assert (K := P_quat.cauchy3 b D). rewrite B, U in K. split.
  - unfold haxis. transitivity (/ (2 * hcos b D) * / (2 * hcos b D) * dot3 (cross3 b D) (cross3 b D)); [generalize (cross3 b D) (/ (2 * hcos b D)); clear; intros [p q r] k; vunfoldg; cbn [x3 y3 z3]; rnumg; ring|].
    replace (dot3 (cross3 b D) (cross3 b D)) with (1 - dot3 b D ^ 2) by lra. replace (dot3 b D) with (2 * (hcos b D * hcos b D) - 1) by lra. field. lra.
  - unfold haxis. generalize (cross3 b D). intros [p q r]. vunfoldg; cbn [x3 y3 z3]; rnumg. apply mk3_c; field; lra.
Qed.
(** what R_axis_angle and axisangle_to_quat make of it *)
Lemma acquired (b D : v3) : unit3 b -> unit3 D -> 0 < hcos b D -> axisangle_to_quat (fst (R_axis_angle b D)) (snd (R_axis_angle b D)) = mkq (hcos b D) (x3 (haxis b D)) (y3 (haxis b D)) (z3 (haxis b D)).
Proof.
  intros B U P. assert (Rg := unit_dot_range b D B U). destruct (hcos_facts b D B U) as (_ & S). destruct (haxis_sq b D B U P) as (HS & HC). unfold R_axis_angle. cbn [fst snd]. rewrite npclip_in by exact Rg.
  set (th := acos (dot3 b D)). assert (TB := acos_bound (dot3 b D)). fold th in TB. assert (CT : cos th = dot3 b D) by (apply cos_acos, Rg). assert (PI0 := PI_RGT_0).
  assert (C0 : 0 <= cos (th / 2)) by (apply cos_ge_0; lra). assert (S0 : 0 <= sin (th / 2)) by (apply sin_ge_0; lra).
  assert (CC : cos (th / 2) * cos (th / 2) = hcos b D * hcos b D). { rewrite S, <- CT. replace th with (2 * (th / 2)) at 3 by field. rewrite cos_2a_cos. field. }
  assert (CE : cos (th / 2) = hcos b D) by nra. assert (SC := sin2_cos2 (th / 2)). unfold Rsqr in SC. rewrite CE in SC.
  unfold axisangle_to_quat. rewrite CE. cbv zeta. assert (XE : scale3 (sin (th / 2)) (normalize3 (cross3 b D)) = haxis b D); [|rewrite XE; reflexivity].
  assert (SN : sin (th / 2) = norm3 (haxis b D)). { unfold norm3. rnumg. rewrite HS. replace (1 - hcos b D * hcos b D) with (sin (th / 2) * sin (th / 2)) by lra. symmetry. apply sqrt_square, S0. }
  assert (NC : norm3 (cross3 b D) = 2 * hcos b D * norm3 (haxis b D)) by (rewrite HC, norm3_scal, Rabs_right; [reflexivity|lra]).
  destruct (Req_dec (norm3 (haxis b D)) 0) as [Z|Z].
  - assert (HZ : haxis b D = zero3) by (apply dot3_zero; rewrite <- P_quat.norm3_sq, Z; ring). rewrite SN, Z, HZ. generalize (normalize3 (cross3 b D)). clear. intros [p q r]. unfold zero3. vunfoldg; cbn [x3 y3 z3]; rnumg. apply mk3_c; ring.
  - assert (NZ : cross3 b D <> zero3). { intros E. rewrite E in NC. assert (Z0 : norm3 (zero3 (T:=R)) = 0) by (unfold norm3; replace (dot3 (zero3 (T:=R)) zero3) with 0 by vring; apply sqrt_0). rewrite Z0 in NC. symmetry in NC. apply Rmult_integral in NC. destruct NC; [lra|contradiction]. }
    rewrite (normalize3_nz _ NZ). rewrite NC, SN. rewrite HC at 1. generalize dependent (norm3 (haxis b D)). generalize (haxis b D). intros [p q r] n. intros. vunfoldg; cbn [x3 y3 z3]; rnumg. apply mk3_c; field; split; [assumption|lra|assumption|lra|assumption|lra].
Qed.
Lemma dcont f t : (exists l, derivable_pt_lim f t l) -> continuity_pt f t. Proof. intros (l & H). apply derivable_continuous_pt. exists l. exact H. Qed.
(** how they change while the direction turns at rate -u in the body *)
Lemma d_cosang (b : v3) D u t : deriv3 D t (cross3 (D t) u) -> derivable_pt_lim (fun s => dot3 b (D s)) t (dot3 u (cross3 b (D t))).
Proof.
  intros H. eapply d_eq; [exact (d_dot3 (fun _ => b) D t _ _ (d3_const b t) H)|]. cbv beta. unfold zero3. generalize (D t). clear. destruct b as [b1 b2 b3], u as [u1 u2 u3]. intros [p q r]. vunfoldg; cbn [x3 y3 z3]; rnumg; ring.
Qed.
Lemma c_hcos (b : v3) D u t : deriv3 D t (cross3 (D t) u) -> unit3 b -> unit3 (D t) -> continuity_pt (fun s => hcos b (D s)) t.
Proof.
  intros H B U. assert (Rg := unit_dot_range b (D t) B U). unfold hcos. apply (continuity_pt_comp (fun s => (1 + dot3 b (D s)) / 2) sqrt); [|apply continuity_pt_sqrt; lra].
  apply dcont. eexists. unfold Rdiv. apply d_mult; [apply d_plus; [apply d_const|apply (d_cosang b D u t H)]|apply d_const].
Qed.
Lemma d_hcos (b : v3) D u t : deriv3 D t (cross3 (D t) u) -> unit3 b -> unit3 (D t) -> 0 < hcos b (D t) -> derivable_pt_lim (fun s => hcos b (D s)) t (dot3 u (haxis b (D t)) / 2).
Proof.
  intros H B U P. destruct (hcos_facts b (D t) B U) as (_ & S). destruct (haxis_sq b (D t) B U P) as (_ & HC). unfold hcos at 1.
  eapply d_eq. { apply (derivable_pt_lim_comp (fun s => (1 + dot3 b (D s)) / 2) sqrt); [unfold Rdiv; apply d_mult; [apply d_plus; [apply d_const|apply (d_cosang b D u t H)]|apply d_const]|]. apply derivable_pt_lim_sqrt. assert (0 < hcos b (D t) * hcos b (D t)) by (apply Rmult_lt_0_compat; exact P). lra. }
  cbv beta. fold (hcos b (D t)). rewrite HC. transitivity (/ (2 * hcos b (D t)) * (2 * hcos b (D t) * dot3 u (haxis b (D t)) / 2)); [|field; lra]. f_equal. generalize (haxis b (D t)) (hcos b (D t)). clear. destruct u as [u1 u2 u3]. intros [p q r] k. vunfoldg; cbn [x3 y3 z3]; rnumg. field.
Qed.
Definition haxis' (b D u : v3) : v3 := sub3 (scale3 (/ (2 * hcos b D)) (cross3 b (cross3 D u))) (scale3 (dot3 u (haxis b D) / (2 * hcos b D)) (haxis b D)).
Lemma d_haxis (b : v3) D u t : deriv3 D t (cross3 (D t) u) -> unit3 b -> unit3 (D t) -> 0 < hcos b (D t) -> deriv3 (fun s => haxis b (D s)) t (haxis' b (D t) u).
Proof.
  intros H B U P. destruct (haxis_sq b (D t) B U P) as (_ & HC). assert (DC := d_hcos b D u t H B U P).
  assert (DI : derivable_pt_lim (fun s => / (2 * hcos b (D s))) t (- (dot3 u (haxis b (D t))) / ((2 * hcos b (D t)) * (2 * hcos b (D t))))).
  { eapply d_eq; [apply (derivable_pt_lim_comp (fun s => 2 * hcos b (D s)) Rinv); [apply d_scal; exact DC|]|].
    - apply Coquelicot.Derive.is_derive_Reals. apply Coquelicot.Derive.is_derive_inv; [apply Coquelicot.Derive.is_derive_Reals; apply d_id|lra].
    - cbv beta. field. lra. }
  eapply d3_eq; [apply (d3_scale (fun s => / (2 * hcos b (D s))) (fun s => cross3 b (D s)) t _ _ DI (P_exist3.d3_cross (fun _ => b) D t _ _ (d3_const b t) H))|]. cbv beta.
  unfold haxis'. rewrite HC. revert P. clear. generalize (hcos b (D t)) (haxis b (D t)) (cross3 (D t) u) (D t). intros k X [l m n] [d1 d2 d3] P. generalize (dot3 u X). destruct X as [p q r]. intros f. destruct b as [b1 b2 b3]. unfold zero3. vunfoldg; cbn [x3 y3 z3]; rnumg. apply mk3_c; field; lra.
Qed.
Lemma haxis'_size (b D u : v3) kap : unit3 b -> unit3 D -> 0 < kap <= hcos b D -> norm3 (haxis' b D u) <= / kap * norm3 u.
Proof.
  intros B U (K & P). assert (P0 : 0 < hcos b D) by lra. destruct (haxis_sq b D B U P0) as (HS & _). set (h := hcos b D) in *. assert (N0 := norm3_pos u).
  assert (NB : norm3 b = 1) by (unfold norm3; rewrite B; apply sqrt_1). assert (ND : norm3 D = 1) by (unfold norm3; rewrite U; apply sqrt_1).
  assert (NX : norm3 (haxis b D) <= 1) by (apply P_exist3.norm3_le_sq; [lra|]; assert (0 < h * h) by (apply Rmult_lt_0_compat; exact P0); lra). assert (NX0 := norm3_pos (haxis b D)).
  assert (I2 : 0 < / (2 * h)) by (apply Rinv_0_lt_compat; lra). unfold haxis'. fold h. eapply Rle_trans; [apply sub_norm|]. rewrite !norm3_scal, (Rabs_right (/ (2 * h))) by lra.
  assert (X1 : norm3 (cross3 b (cross3 D u)) <= norm3 u). { eapply Rle_trans; [apply cross_norm|]. assert (X := cross_norm D u). rewrite NB, ND in *. lra. }
  assert (X2 : Rabs (dot3 u (haxis b D) / (2 * h)) <= / (2 * h) * norm3 u). { unfold Rdiv. rewrite Rabs_mult, (Rabs_right (/ (2 * h))), Rmult_comm by lra. apply Rmult_le_compat_l; [lra|]. eapply Rle_trans; [apply dot_norm|]. assert (norm3 u * norm3 (haxis b D) <= norm3 u * 1) by (apply Rmult_le_compat_l; lra). lra. }
  assert (X3 : / (2 * h) * norm3 (cross3 b (cross3 D u)) <= / (2 * h) * norm3 u) by (apply Rmult_le_compat_l; lra).
  assert (X4 : Rabs (dot3 u (haxis b D) / (2 * h)) * norm3 (haxis b D) <= / (2 * h) * norm3 u * 1) by (apply Rmult_le_compat; try assumption; apply Rabs_pos).
  assert (X5 : / h <= / kap) by (apply Rinv_le_contravar; lra). assert (X6 : / h * norm3 u <= / kap * norm3 u) by (apply Rmult_le_compat_r; lra). replace (/ (2 * h)) with (/ h / 2) in X3, X4 |- * by (field; lra). lra.
Qed.
Definition sp_P (al ga e : R) : R := al + e * ga + e.
Definition sp_Q (ga e kk : R) : R := ga + 1 + e * kk + e.
Definition sp_M (al ga e kk : R) : R := sp_P al ga e * sp_P al ga e / (e * al) + sp_Q ga e kk * sp_Q ga e kk / ga.
Lemma young c p x d : 0 < c -> d * p * x <= c * (x * x) / 4 + p * p / c * (d * d).
Proof.
  intros C. apply (Rmult_le_reg_l c); [exact C|]. replace (c * (c * (x * x) / 4 + p * p / c * (d * d))) with (c * x / 2 * (c * x / 2) + p * d * (p * d)) by (field; lra).
  assert (Z := Rle_0_sqr (c * x / 2 - p * d)). unfold Rsqr in Z. lra.
Qed.
Lemma stare_scalar al ga e kk x n d : 0 < al -> 0 < ga -> 0 < e -> e * kk <= ga / 4 -> e * ga <= al / 4 -> 0 <= n -> 0 <= x ->
  al * (d * x) + n * d - ga * (n * n) + ga * (n * d) + e * (kk * ((n + d) * n) + x * d + ga * (x * n + x * d) + n * d) - e * (al * (x * x)) <=
  - (ga / 4) * (n * n) - e * al / 2 * (x * x) + sp_M al ga e kk * (d * d).
Proof.
  intros A G EP H1 H2 N X. assert (EA : 0 < e * al) by (apply Rmult_lt_0_compat; assumption).
  assert (Y1 := young (e * al) (sp_P al ga e) x d EA). assert (Y2 := young ga (sp_Q ga e kk) n d G). unfold sp_M. rewrite Rmult_plus_distr_r.
  assert (NN : 0 <= n * n) by (apply Rmult_le_pos; assumption). assert (Z1 : e * kk * (n * n) <= ga / 4 * (n * n)) by (apply Rmult_le_compat_r; assumption).
  assert (Z2 : e * ga * (x * n) <= e * al / 4 * (x * x) + ga / 4 * (n * n)).
  { assert (Y := young al ga x n A). assert (Y' : e * (n * ga * x) <= e * (al * (x * x) / 4 + ga * ga / al * (n * n))) by (apply Rmult_le_compat_l; lra).
    assert (Z : e * ga * (ga / al) * (n * n) <= ga / 4 * (n * n)). { apply Rmult_le_compat_r; [exact NN|]. apply (Rle_trans _ (al / 4 * (ga / al))); [apply Rmult_le_compat_r; [apply Rlt_le, Rdiv_lt_0_compat; assumption|exact H2]|right; field; lra]. }
    replace (e * (ga * ga / al * (n * n))) with (e * ga * (ga / al) * (n * n)) in Y' by (field; lra). replace (e * (al * (x * x) / 4 + ga * ga / al * (n * n))) with (e * al / 4 * (x * x) + e * ga * (ga / al) * (n * n)) in Y' by (field; lra). lra. }
  replace (d * sp_P al ga e * x) with (al * (d * x) + e * ga * (x * d) + e * (x * d)) in Y1 by (unfold sp_P; ring). replace (d * sp_Q ga e kk * n) with (ga * (n * d) + n * d + e * kk * (d * n) + e * (n * d)) in Y2 by (unfold sp_Q; ring).
  replace (e * (kk * ((n + d) * n) + x * d + ga * (x * n + x * d) + n * d)) with (e * kk * (n * n) + e * kk * (d * n) + e * (x * d) + e * ga * (x * n) + e * ga * (x * d) + e * (n * d)) by ring. lra.
Qed.
Lemma dotb (a b : v3) A B : norm3 a <= A -> norm3 b <= B -> - (A * B) <= dot3 a b <= A * B.
Proof. intros HA HB. assert (X := dot_norm a b). assert (norm3 a * norm3 b <= A * B) by (apply Rmult_le_compat; try apply norm3_pos; assumption). apply rabs_b in X. lra. Qed.
Lemma stare_point al ga e kk d (X w OM WC pp X' : v3) : 0 < al -> 0 < ga -> 0 < e -> 0 <= kk -> e * kk <= ga / 4 -> e * ga <= al / 4 -> 0 <= d -> norm3 X <= 1 -> norm3 OM <= d -> norm3 WC <= d -> norm3 pp <= d -> norm3 X' <= kk * norm3 (sub3 w OM) ->
  let ac := add3 pp (sub3 (sub3 (scale3 al X) (scale3 ga (sub3 w WC))) (cross3 w WC)) in
  - al * dot3 (sub3 w OM) X + dot3 w ac - e * (dot3 X' w + dot3 X ac) <= - (ga / 4) * dot3 w w - e * al / 2 * dot3 X X + sp_M al ga e kk * (d * d).
Proof.
  intros A G EP KK H1 H2 Hd NX NO NW NP NX' ac. set (n := norm3 w). set (x := norm3 X). assert (N0 := norm3_pos w). assert (X0 := norm3_pos X). fold n in N0. fold x in X0, NX.
  assert (NN : dot3 w w = n * n) by (symmetry; apply P_quat.norm3_sq). assert (XX : dot3 X X = x * x) by (symmetry; apply P_quat.norm3_sq).
  assert (Q := stare_scalar al ga e kk x n d A G EP H1 H2 N0 X0). rewrite NN, XX.
  assert (EQ : - al * dot3 (sub3 w OM) X + dot3 w ac - e * (dot3 X' w + dot3 X ac) =
    al * dot3 OM X + dot3 w pp - ga * dot3 w w + ga * dot3 w WC + e * (- dot3 X' w - dot3 X pp + ga * (dot3 X w - dot3 X WC) + dot3 X (cross3 w WC)) - e * (al * dot3 X X)).
  { unfold ac. clear. destruct X as [p q r], w as [w1 w2 w3], OM as [o1 o2 o3], WC as [c1 c2 c3], pp as [p1 p2 p3], X' as [d1 d2 d3]. vunfoldg; cbn [x3 y3 z3]; rnumg; ring. }
  rewrite EQ, NN, XX. assert (B1 := dotb OM X d x NO ltac:(unfold x; lra)). assert (B2 := dotb w pp n d ltac:(unfold n; lra) NP). assert (B3 := dotb w WC n d ltac:(unfold n; lra) NW).
  assert (S0 : norm3 (sub3 w OM) <= n + d) by (eapply Rle_trans; [apply sub_norm|]; unfold n; lra). assert (S1 : kk * norm3 (sub3 w OM) <= kk * (n + d)) by (apply Rmult_le_compat_l; assumption).
  assert (B4 := dotb X' w (kk * (n + d)) n ltac:(lra) ltac:(unfold n; lra)). assert (B5 := dotb X pp x d ltac:(unfold x; lra) NP). assert (B6 := dotb X w x n ltac:(unfold x; lra) ltac:(unfold n; lra)). assert (B7 := dotb X WC x d ltac:(unfold x; lra) NW).
  assert (CW : norm3 (cross3 w WC) <= n * d). { eapply Rle_trans; [apply cross_norm|]. apply Rmult_le_compat; try apply norm3_pos; [unfold n; lra|exact NW]. } assert (ND : 0 <= n * d) by (apply Rmult_le_pos; lra).
  assert (B8 := dotb X (cross3 w WC) 1 (n * d) NX CW).
  assert (T1 : al * dot3 OM X <= al * (d * x)) by (apply Rmult_le_compat_l; lra). assert (T2 : ga * dot3 w WC <= ga * (n * d)) by (apply Rmult_le_compat_l; lra). assert (T3 : ga * (dot3 X w - dot3 X WC) <= ga * (x * n + x * d)) by (apply Rmult_le_compat_l; lra).
  assert (T4 : e * (- dot3 X' w - dot3 X pp + ga * (dot3 X w - dot3 X WC) + dot3 X (cross3 w WC)) <= e * (kk * ((n + d) * n) + x * d + ga * (x * n + x * d) + n * d)) by (apply Rmult_le_compat_l; lra). lra.
Qed.
Definition sv (al : R) (b D w : v3) : R := 2 * al * (1 - hcos b D) + dot3 w w / 2.
Definition sw (al e : R) (b D w : v3) : R := sv al b D w - e * dot3 (haxis b D) w.
Lemma sv_facts al (b D w : v3) : 0 < al -> unit3 b -> unit3 D -> 0 < hcos b D -> let X := haxis b D in
  0 <= dot3 w w <= 2 * sv al b D w /\ dot3 X X <= 1 /\ al * dot3 X X <= sv al b D w <= 2 * al * dot3 X X + dot3 w w / 2 /\ 0 <= sv al b D w.
Proof.
  intros A B U P X. destruct (hcos_facts b D B U) as (H & _). destruct (haxis_sq b D B U P) as (HS & _). fold X in HS. assert (N := dot3_nonneg w). assert (NX := dot3_nonneg X). unfold sv. set (h := hcos b D) in *. assert (Y : 0 <= al * (1 - h)) by (apply Rmult_le_pos; lra).
  assert (Z1 : dot3 X X <= 2 * (1 - h)) by nra. assert (Z2 : 1 - h <= dot3 X X) by nra. assert (Z3 : al * dot3 X X <= al * (2 * (1 - h))) by (apply Rmult_le_compat_l; lra). assert (Z4 : al * (1 - h) <= al * dot3 X X) by (apply Rmult_le_compat_l; lra). repeat split; try lra. assert (0 <= h * h) by (apply Rmult_le_pos; lra). lra.
Qed.
Lemma sw_near al e (b D w : v3) : 0 < al -> 0 < e -> unit3 b -> unit3 D -> 0 < hcos b D -> Rabs (sw al e b D w - sv al b D w) <= e * (/ (2 * al) + 1) * sv al b D w.
Proof.
  intros A EP B U P. destruct (sv_facts al b D w A B U P) as (F1 & F2 & F3 & F4). unfold sw. replace (sv al b D w - e * dot3 (haxis b D) w - sv al b D w) with (- (e * dot3 (haxis b D) w)) by ring. rewrite Rabs_Ropp, Rabs_mult, (Rabs_right e) by lra. rewrite Rmult_assoc. apply Rmult_le_compat_l; [lra|].
  eapply Rle_trans; [apply dot_norm|]. set (x := norm3 (haxis b D)). set (n := norm3 w). assert (XX : x * x = dot3 (haxis b D) (haxis b D)) by apply P_quat.norm3_sq. assert (NN : n * n = dot3 w w) by apply P_quat.norm3_sq. assert (Z := Rle_0_sqr (x - n)). unfold Rsqr in Z.
  assert (Y : dot3 (haxis b D) (haxis b D) <= / al * sv al b D w). { apply (Rmult_le_reg_l al); [exact A|]. replace (al * (/ al * sv al b D w)) with (sv al b D w) by (field; lra). lra. }
  replace (/ (2 * al)) with (/ al / 2) by (field; lra). lra.
Qed.
Lemma stare_core al ga E : 0 < al -> 0 < ga -> 0 <= E < 2 * al -> exists lam d0 K, 0 < lam /\ 0 < d0 /\ 0 < K /\
  forall d a (b : v3) (D w OM WC pp ac : R -> v3), 0 <= d <= d0 -> a < 0 -> unit3 b -> (forall t, a < t -> unit3 (D t)) -> (forall t, a < t -> deriv3 D t (cross3 (D t) (sub3 (w t) (OM t)))) -> (forall t, a < t -> deriv3 w t (ac t)) ->
  (forall t, 0 <= t -> 0 < hcos b (D t) -> ac t = add3 (pp t) (sub3 (sub3 (scale3 al (haxis b (D t))) (scale3 ga (sub3 (w t) (WC t)))) (cross3 (w t) (WC t)))) ->
  (forall t, 0 <= t -> norm3 (OM t) <= d /\ norm3 (WC t) <= d /\ norm3 (pp t) <= d) -> sv al b (D 0) (w 0) <= E ->
  forall t, 0 <= t -> 0 < hcos b (D t) /\ sv al b (D t) (w t) <= 3 * sv al b (D 0) (w 0) * exp (- lam * t) + K * (d * d).
Proof.
  intros A G HE. set (B := (E + 2 * al) / 2). assert (B0 : 0 < B) by (unfold B; lra). assert (BE : E < B < 2 * al) by (unfold B; lra). set (kap := 1 - B / (2 * al)).
  assert (KP : 0 < kap) by (unfold kap; assert (B / (2 * al) < 1) by (apply (Rmult_lt_reg_r (2 * al)); [lra|]; replace (B / (2 * al) * (2 * al)) with B by (field; lra); lra); lra).
  set (kq := / (2 * al) + 1). assert (KQ : 0 < kq) by (unfold kq; assert (0 < / (2 * al)) by (apply Rinv_0_lt_compat; lra); lra). set (kk := / kap). assert (KK : 0 < kk) by (apply Rinv_0_lt_compat, KP).
  assert (TH0 : 0 < Rmin (1 / 2) ((B - E) / (4 * B))) by (apply Rmin_pos; [lra|apply Rdiv_lt_0_compat; lra]).
  set (e := Rmin (Rmin (ga / 4 * kap) (al / (4 * ga))) (Rmin (1 / 2) ((B - E) / (4 * B)) / kq)).
  assert (E0 : 0 < e). { apply Rmin_pos; [apply Rmin_pos; [apply Rmult_lt_0_compat; lra|apply Rdiv_lt_0_compat; lra]|apply Rdiv_lt_0_compat; assumption]. }
  assert (E1 : e * kk <= ga / 4). { apply (Rle_trans _ (ga / 4 * kap * kk)); [apply Rmult_le_compat_r; [lra|]; eapply Rle_trans; [apply Rmin_l|apply Rmin_l]|]. right. unfold kk. field. lra. }
  assert (E2 : e * ga <= al / 4). { apply (Rle_trans _ (al / (4 * ga) * ga)); [apply Rmult_le_compat_r; [lra|]; eapply Rle_trans; [apply Rmin_l|apply Rmin_r]|]. right. field. lra. }
  assert (TH : e * kq <= Rmin (1 / 2) ((B - E) / (4 * B))). { apply (Rle_trans _ (Rmin (1 / 2) ((B - E) / (4 * B)) / kq * kq)); [apply Rmult_le_compat_r; [lra|apply Rmin_r]|]. right. field. lra. }
  assert (TH1 := Rle_trans _ _ _ TH (Rmin_l _ _)). assert (TH2 := Rle_trans _ _ _ TH (Rmin_r _ _)). set (th := e * kq) in *. assert (TP : 0 < th) by (apply Rmult_lt_0_compat; assumption).
  assert (TB : E * (1 + 4 * th) < B).
  { assert (T3 : 4 * th <= (B - E) / B) by (replace ((B - E) / B) with (4 * ((B - E) / (4 * B))) by (field; lra); lra). apply (Rle_lt_trans _ (E * (1 + (B - E) / B))); [apply Rmult_le_compat_l; lra|].
    apply (Rmult_lt_reg_r B); [exact B0|]. replace (E * (1 + (B - E) / B) * B) with (E * (2 * B - E)) by (field; lra). assert (0 < (B - E) * (B - E)) by (apply Rmult_lt_0_compat; lra). lra. }
  set (l := Rmin (ga / 3) (e / 6)). assert (L0 : 0 < l) by (apply Rmin_pos; lra). assert (L1 : l <= ga / 3) by apply Rmin_l. assert (L2 : l <= e / 6) by apply Rmin_r.
  set (M := sp_M al ga e kk). assert (M0 : 0 < M).
  { unfold M, sp_M. assert (0 < e * kk) by (apply Rmult_lt_0_compat; assumption). assert (0 < e * ga) by (apply Rmult_lt_0_compat; assumption). assert (0 < sp_P al ga e) by (unfold sp_P; lra). assert (0 < sp_Q ga e kk) by (unfold sp_Q; lra). apply Rplus_lt_0_compat; apply Rdiv_lt_0_compat; try assumption; apply Rmult_lt_0_compat; assumption. }
  set (d0 := Rmin 1 (l * B / (4 * M))). assert (Dp : 0 < d0) by (apply Rmin_pos; [lra|apply Rdiv_lt_0_compat; [apply Rmult_lt_0_compat; assumption|lra]]).
  exists l, d0, (2 * (M / l)). assert (ML : 0 < M / l) by (apply Rdiv_lt_0_compat; assumption). split; [exact L0|]. split; [exact Dp|]. split; [lra|].
  intros d a b D w OM WC pp ac Hd HA UB UD DD DW AC SM HV.
  set (V := fun t => sv al b (D t) (w t)). set (W := fun t => sw al e b (D t) (w t)). set (h := fun t => hcos b (D t)).
  assert (CV : forall t, a < t -> continuity_pt V t).
  { intros t Ht. apply (continuity_pt_plus (fun u => 2 * al * (1 - h u)) (fun u => dot3 (w u) (w u) / 2)).
    - apply (continuity_pt_mult (fun _ => 2 * al) (fun u => 1 - h u)); [apply continuity_pt_const; intros ? ?; reflexivity|]. apply (continuity_pt_minus (fun _ => 1) h); [apply continuity_pt_const; intros ? ?; reflexivity|]. apply (c_hcos b D _ t (DD t Ht) UB (UD t Ht)).
    - apply dcont. eexists. unfold Rdiv. apply d_mult; [apply d_dot3; apply DW, Ht|apply d_const]. }
  assert (HP : forall t, a < t -> V t <= B -> kap <= h t). { intros t Ht L. assert (N := dot3_nonneg (w t)). change (V t) with (2 * al * (1 - h t) + dot3 (w t) (w t) / 2) in L. apply (Rmult_le_reg_l (2 * al)); [lra|]. unfold kap. replace (2 * al * (1 - B / (2 * al))) with (2 * al - B) by (field; lra). lra. }
  assert (DV : forall t, a < t -> 0 < h t -> derivable_pt_lim V t (- al * dot3 (sub3 (w t) (OM t)) (haxis b (D t)) + dot3 (w t) (ac t))).
  { intros t Ht P. eapply d_eq. { apply (d_plus (fun u => 2 * al * (1 - h u)) (fun u => dot3 (w u) (w u) / 2)); [apply d_scal, d_minus; [apply d_const|exact (d_hcos b D _ t (DD t Ht) UB (UD t Ht) P)]|unfold Rdiv; apply d_mult; [apply d_dot3; apply DW, Ht|apply d_const]]. }
    cbv beta. rewrite (dot_comm3 (ac t) (w t)). field. }
  assert (DWW : forall t, a < t -> 0 < h t -> derivable_pt_lim W t (- al * dot3 (sub3 (w t) (OM t)) (haxis b (D t)) + dot3 (w t) (ac t) - e * (dot3 (haxis' b (D t) (sub3 (w t) (OM t))) (w t) + dot3 (haxis b (D t)) (ac t)))).
  { intros t Ht P. apply (d_minus V (fun u => e * dot3 (haxis b (D u)) (w u))); [apply DV; assumption|]. apply d_scal. exact (d_dot3 (fun u => haxis b (D u)) w t _ _ (d_haxis b D _ t (DD t Ht) UB (UD t Ht) P) (DW t Ht)). }
  set (q := M / l * (d * d)). assert (Q0 : 0 <= q) by (apply Rmult_le_pos; [lra|apply Rmult_le_pos; lra]).
  assert (QB : 2 * q < B).
  { assert (D1 : d <= 1) by (eapply Rle_trans; [apply Hd|apply Rmin_l]). assert (D2 : d <= l * B / (4 * M)) by (eapply Rle_trans; [apply Hd|apply Rmin_r]). assert (DDd : d * d <= 1 * (l * B / (4 * M))) by (apply Rmult_le_compat; lra).
    assert (Z : q <= M / l * (l * B / (4 * M))) by (apply Rmult_le_compat_l; lra). replace (M / l * (l * B / (4 * M))) with (B / 4) in Z by (field; lra). lra. }
  assert (NEAR : forall t, a < t -> 0 < h t -> (1 - th) * V t <= W t <= (1 + th) * V t /\ 0 <= V t). { intros t Ht P. assert (X := sw_near al e b (D t) (w t) A E0 UB (UD t Ht) P). fold kq in X. fold th in X. apply rabs_b in X. destruct (sv_facts al b (D t) (w t) A UB (UD t Ht) P) as (_ & _ & _ & X4). unfold V, W. lra. }
  assert (DROP : forall t, 0 <= t -> V t <= B -> - al * dot3 (sub3 (w t) (OM t)) (haxis b (D t)) + dot3 (w t) (ac t) - e * (dot3 (haxis' b (D t) (sub3 (w t) (OM t))) (w t) + dot3 (haxis b (D t)) (ac t)) <= - l * (W t - q)).
  { intros t Ht HB. assert (At : a < t) by lra. assert (HK := HP t At HB). assert (P : 0 < h t) by lra. destruct (sv_facts al b (D t) (w t) A UB (UD t At) P) as (F1 & F2 & F3 & F4). destruct (SM t Ht) as (S1 & S2 & S3).
    rewrite (AC t Ht P). eapply Rle_trans; [apply (stare_point al ga e kk d); try assumption; try lra|].
    - apply P_exist3.norm3_le_sq; lra.
    - apply haxis'_size; [exact UB|apply UD, At|split; [exact KP|exact HK]].
    - fold M. destruct (NEAR t At P) as (N1 & N2). assert (TV : th * V t <= 1 / 2 * V t) by (apply Rmult_le_compat_r; lra). assert (WV : W t <= 3 / 2 * V t) by lra. fold (V t) in F3, F4. set (n2 := dot3 (w t) (w t)) in *. set (x2 := dot3 (haxis b (D t)) (haxis b (D t))) in *.
      assert (LW : l * W t <= l * (3 * al * x2 + 3 / 4 * n2)) by (apply Rmult_le_compat_l; lra). assert (Y2 : 0 <= x2) by apply dot3_nonneg. assert (Y1 : l * n2 <= ga / 3 * n2) by (apply Rmult_le_compat_r; lra).
      assert (Y3 : 0 <= al * x2) by (apply Rmult_le_pos; lra). assert (Y4 : l * (al * x2) <= e / 6 * (al * x2)) by (apply Rmult_le_compat_r; assumption). assert (LQ : l * q = M * (d * d)) by (unfold q; field; lra). lra. }
  assert (LOW : forall t, 0 <= t -> (forall u, 0 <= u <= t -> V u <= B) -> W t - q <= (W 0 - q) * exp (- l * t)).
  { intros t Ht HX. assert (HH : forall u, 0 <= u <= t -> 0 < h u) by (intros u Hu; assert (Z := HP u ltac:(lra) (HX u Hu)); lra).
    apply (Props_dist.pull W (fun t => - al * dot3 (sub3 (w t) (OM t)) (haxis b (D t)) + dot3 (w t) (ac t) - e * (dot3 (haxis' b (D t) (sub3 (w t) (OM t))) (w t) + dot3 (haxis b (D t)) (ac t))) l q t Ht).
    - intros u Hu. apply DWW; [lra|apply HH; lra].
    - intros u Hu. apply dcont. eexists. apply DWW; [lra|apply HH; lra].
    - intros u Hu. apply DROP; [lra|apply HX; lra]. }
  fold (V 0) in HV. assert (H0 : 0 < h 0) by (assert (Z := HP 0 HA ltac:(lra)); lra). destruct (NEAR 0 HA H0) as (N0 & V00). assert (TV : th * V 0 <= 1 / 2 * V 0) by (apply Rmult_le_compat_r; lra).
  assert (BELOW : forall t, 0 <= t -> (forall u, 0 <= u <= t -> V u <= B) -> V t < B).
  { intros t Ht HX. assert (LL := LOW t Ht HX). assert (At : a < t) by lra. assert (P : 0 < h t) by (assert (Z := HP t At (HX t ltac:(lra))); lra). destruct (NEAR t At P) as (NT & VT). assert (TT : th * V t <= 1 / 2 * V t) by (apply Rmult_le_compat_r; lra).
    assert (X := exp_pos (- l * t)). assert (X1 : exp (- l * t) <= 1). { rewrite <- exp_0. assert (Z : - l * t <= 0) by (assert (0 <= l * t) by (apply Rmult_le_pos; lra); lra). destruct Z as [Z|Z]; [left; apply exp_increasing, Z|rewrite Z; lra]. }
    set (ex := exp (- l * t)) in *. destruct (Rle_dec (W 0) q) as [C|C].
    - assert ((W 0 - q) * ex <= 0 * ex) by (apply Rmult_le_compat_r; lra). lra.
    - assert (WW : W t <= W 0) by (assert ((W 0 - q) * ex <= (W 0 - q) * 1) by (apply Rmult_le_compat_l; lra); lra). assert (P2 : (1 - th) * V t <= (1 + th) * V 0) by lra.
      assert (P3 : V t <= (1 + 4 * th) * V 0). { apply (Rmult_le_reg_l (1 - th)); [lra|]. assert ((1 + th) * V 0 <= (1 - th) * (1 + 4 * th) * V 0) by (apply Rmult_le_compat_r; [exact V00|nra]). lra. }
      assert (P4 : (1 + 4 * th) * V 0 <= (1 + 4 * th) * E) by (apply Rmult_le_compat_l; lra). lra. }
  assert (STAY : forall t, 0 <= t -> V t < B).
  { intros t Ht. destruct (Rlt_dec (V t) B) as [|NX]; [assumption|]. exfalso.
    destruct (first_time V B t) as (t1 & H1 & H2 & H3).
    - intros u Hu. apply CV. lra.
    - exact Ht.
    - lra.
    - lra.
    - assert (T0 : 0 < t1). { destruct (Req_dec t1 0) as [Z|Z]; [rewrite Z in H2; lra|lra]. }
      assert (V1 : V t1 <= B). { destruct (Rle_dec (V t1) B) as [|NB]; [assumption|]. exfalso. destruct (CV t1 ltac:(lra) (V t1 - B) ltac:(lra)) as (dl & DL & CT). set (u := Rmax 0 (t1 - dl / 2)). assert (U1 : 0 <= u) by apply Rmax_l. assert (U2 : t1 - dl / 2 <= u) by apply Rmax_r. assert (U3 : u < t1) by (apply Rmax_lub_lt; lra).
        assert (Z := H3 u ltac:(lra)). assert (Q1 := CT u). cbn [dist R_met] in Q1. unfold R_dist in Q1. assert (Q2 : Rabs (V u - V t1) < V t1 - B). { apply Q1. split; [split; [exact I|lra]|]. rewrite Rabs_left by lra. lra. } apply Rabs_def2 in Q2. lra. }
      assert (Z := BELOW t1 ltac:(lra)). assert (V t1 < B); [|lra]. apply Z. intros u Hu. destruct (Req_dec u t1) as [->|NU]; [exact V1|]. left. apply H3. lra. }
  intros t Ht. assert (At : a < t) by lra. assert (P : 0 < h t) by (assert (Z := HP t At (Rlt_le _ _ (STAY t Ht))); lra). split; [exact P|].
  assert (LL := LOW t Ht ltac:(intros u Hu; left; apply STAY; lra)). destruct (NEAR t At P) as (NT & VT). assert (TT : th * V t <= 1 / 2 * V t) by (apply Rmult_le_compat_r; lra).
  assert (X := exp_pos (- l * t)). set (ex := exp (- l * t)) in *. fold (V t). fold (V 0).
  replace (2 * (M / l) * (d * d)) with (2 * q) by (unfold q; ring). assert (W 0 * ex <= 3 / 2 * V 0 * ex) by (apply Rmult_le_compat_r; lra). assert (0 <= q * ex) by (apply Rmult_le_pos; lra). lra.
Qed.
