(** * Fields that keep changing direction; the limit of the damped momentum *)
From Coq Require Import Reals ZArith List Bool Arith Lra Psatz Lia.
From Coquelicot Require Import Coquelicot.
From Verif Require Import Num Vec M_vector M_quaternion M_struct M_dyn M_ctrl S_rot S_dyn P_quat P_dyn P_ctrl2 P_detum.
Import ListNotations.
Local Open Scope R_scope.

(** the mean squared sine between the field and any fixed direction stays above a bound, on every window of length T *)
Definition turning (B : R -> v3) (T c : R) : Prop :=
  forall t v, 0 <= t -> unit3 v -> c <= RInt (fun s => dot3 (cross3 v (B s)) (cross3 v (B s)) / dot3 (B s) (B s)) t (t + T).

Lemma exists_unit : unit3 (mk3 1 0 0). Proof. unfold unit3. vunfoldg. cbn [x3 y3 z3]. rnumg. ring. Qed.
Lemma turning_le B T c : cont3 B -> (forall t, B t <> zero3) -> 0 < T -> turning B T c -> c <= T.
Proof.
  intros C N Tp TU. assert (X := TU 0 (mk3 1 0 0) ltac:(lra) exists_unit). change (fun s => dot3 _ _ / dot3 (B s) (B s)) with (fun s => across (mk3 1 0 0) (B s)) in X.
  set (f := fun s => across (mk3 1 0 0) (B s)) in *. assert (CF : forall s, continuous f s) by (apply across_cont; assumption).
  assert (Y := le_of_deriv (fun u => RInt f 0 u - 1 * u) (fun u => f u - 1 * 1) 0 (0 + T) ltac:(lra) (fun u _ => d_minus _ _ u _ _ (d_prim f 0 u CF) (d_lin _ _ _ 1 (d_id u)))). cbv beta in Y.
  assert (Z : forall u, 0 <= u <= 0 + T -> f u - 1 * 1 <= 0).
  { intros u _. unfold f. assert (A := across_le (mk3 1 0 0) (B u) (N u)). assert (U := exists_unit). unfold unit3 in U. lra. }
  specialize (Y Z). assert (P : RInt f 0 0 = 0) by exact (RInt_point 0 f). lra.
Qed.
Lemma across_zero (b : v3) : across zero3 b = 0.
Proof. unfold across. replace (dot3 (cross3 zero3 b) (cross3 zero3 b)) with 0; [unfold Rdiv; ring|]. destruct b as [p q r]. vunfoldg. cbn [x3 y3 z3]. rnumg. ring. Qed.
Lemma turning_any B T c t v : cont3 B -> (forall t, B t <> zero3) -> turning B T c -> 0 <= t -> c * dot3 v v <= RInt (fun s => across v (B s)) t (t + T).
Proof.
  intros C N TU Ht. destruct (Req_dec (dot3 v v) 0) as [E|E].
  - assert (V : v = zero3) by (apply dot3_zero, E). subst v. rewrite E.
    rewrite (RInt_ext _ (fun _ => 0)).
    + rewrite RInt_const. change (scal (t + T - t) 0) with ((t + T - t) * 0). lra.
    + intros s _. apply across_zero.
  - assert (P : 0 < dot3 v v) by (assert (Q := dot3_nonneg v); lra). set (n := sqrt (dot3 v v)). assert (np : 0 < n) by (apply sqrt_lt_R0, P). assert (nn : n * n = dot3 v v) by (apply sqrt_sqrt; lra).
    assert (U : unit3 (scale3 (/ n) v)).
    { unfold unit3. transitivity (/ n * / n * dot3 v v); [destruct v as [a b d]; vunfoldg; cbn [x3 y3 z3]; rnumg; ring|]. rewrite <- nn. field. lra. }
    assert (X := TU t _ Ht U). change (fun s => dot3 (cross3 (scale3 (/ n) v) (B s)) _ / dot3 (B s) (B s)) with (fun s => across (scale3 (/ n) v) (B s)) in X.
    assert (EX : ex_RInt (fun s => across (scale3 (/ n) v) (B s)) t (t + T)) by (apply (ex_RInt_continuous (V := R_CompleteNormedModule)); intros z _; apply across_cont; assumption).
    assert (S : RInt (fun s => n * n * across (scale3 (/ n) v) (B s)) t (t + T) = n * n * RInt (fun s => across (scale3 (/ n) v) (B s)) t (t + T)) by exact (RInt_scal (fun s => across (scale3 (/ n) v) (B s)) t (t + T) (n * n) EX).
    rewrite (RInt_ext (fun s => across v (B s)) (fun s => n * n * across (scale3 (/ n) v) (B s))).
    + rewrite S. rewrite <- nn. rewrite (Rmult_comm c). apply Rmult_le_compat_l; [nra|exact X].
    + intros s _. rewrite across_scale. enough (E2 : forall x : R, x = n * n * (/ n * / n * x)) by apply E2. intros x. field. lra.
Qed.

Section Limit.
Variables (H B : R -> v3) (k T c : R).
Hypothesis kp : 0 < k.
Hypothesis Tp : 0 < T.
Hypothesis cp : 0 < c.
Hypothesis NB : forall t, B t <> zero3.
Hypothesis CB : cont3 B.
Hypothesis TU : turning B T c.
Hypothesis DH : forall t, 0 <= t -> deriv3 H t (scale3 (- k) (rej (B t) (H t))).
Let rho := 1 - c * k / (1 + k * k * (T * T)).
Lemma rho_range : 0 < rho < 1.
Proof.
  assert (L := turning_le B T c CB NB Tp TU). unfold rho. assert (P : 0 < 1 + k * k * (T * T)) by (assert (0 < k * k) by nra; assert (0 < T * T) by nra; nra).
  assert (Q : 0 < c * k / (1 + k * k * (T * T))) by (apply Rdiv_lt_0_compat; nra). assert (Z : c * k < 1 + k * k * (T * T)).
  { assert (c * k <= T * k) by nra. assert (S := Rle_0_sqr (1 - k * T)). unfold Rsqr in S. assert (0 < k * T) by nra. nra. }
  assert (W : c * k / (1 + k * k * (T * T)) < 1). { apply Rmult_lt_reg_r with (1 + k * k * (T * T)); [exact P|]. unfold Rdiv. rewrite Rmult_assoc, Rinv_l by lra. lra. }
  lra.
Qed.
Lemma steps n : dot3 (H (INR n * T)) (H (INR n * T)) <= rho ^ n * dot3 (H 0) (H 0).
Proof.
  induction n as [|n IH]; [cbn [INR pow]; rewrite Rmult_0_l; lra|]. rewrite S_INR. replace ((INR n + 1) * T) with (INR n * T + T) by ring.
  assert (P := pos_INR n). assert (Z : 0 <= INR n * T) by nra. assert (X := window H B k kp NB CB DH (INR n * T) T c Z Tp (turning_any B T c (INR n * T) (H (INR n * T)) CB NB TU Z)). cbv beta in X. fold rho in X.
  assert (R := rho_range). cbn [pow]. eapply Rle_trans; [exact X|]. rewrite Rmult_assoc. apply Rmult_le_compat_l; lra.
Qed.
Lemma V_lim : is_lim (fun t => dot3 (H t) (H t)) p_infty 0.
Proof.
  apply is_lim_spec. intros [e ep]. cbn [pos]. assert (R := rho_range). set (V0 := dot3 (H 0) (H 0)). assert (V0p : 0 <= V0) by apply dot3_nonneg.
  destruct (pow_lt_1_zero rho ltac:(rewrite Rabs_pos_eq; lra) (e / (V0 + 1)) ltac:(apply Rdiv_lt_0_compat; lra)) as (n & Hn). specialize (Hn n (le_n n)).
  exists (INR n * T). intros t Ht. assert (P := pos_INR n). assert (Z : 0 <= INR n * T) by nra. assert (X := V_dec H B k kp NB DH (INR n * T) t Z ltac:(lra)). cbv beta in X. assert (Y := steps n).
  rewrite Rabs_pos_eq in Hn by (apply pow_le; lra). rewrite Rminus_0_r, Rabs_pos_eq by apply dot3_nonneg.
  assert (W : rho ^ n * V0 < e).
  { apply Rle_lt_trans with (e / (V0 + 1) * V0); [apply Rmult_le_compat_r; lra|]. replace (e / (V0 + 1) * V0) with (e - e / (V0 + 1)) by (field; lra). assert (0 < e / (V0 + 1)) by (apply Rdiv_lt_0_compat; lra). lra. }
  fold V0 in Y. lra.
Qed.
End Limit.

(** ** periodic fields *)
Lemma prod_le1 (x y z : R) : x * x + y * y + z * z = 1 -> Rabs x <= 1 /\ Rabs y <= 1 /\ Rabs z <= 1.
Proof.
  intros E. assert (A := Rle_0_sqr x). assert (B := Rle_0_sqr y). assert (C := Rle_0_sqr z). unfold Rsqr in *.
  repeat split; apply Rsqr_incr_0_var; try lra; unfold Rsqr; rewrite <- Rabs_mult, Rabs_pos_eq; lra.
Qed.
Lemma prod2 (x y m e : R) : Rabs x <= 1 -> Rabs y <= 1 -> Rabs m <= e -> Rabs (x * y * m) <= e.
Proof. intros X Y M. rewrite !Rabs_mult. assert (P := Rabs_pos x). assert (Q := Rabs_pos y). assert (R := Rabs_pos m). assert (Rabs x * Rabs y <= 1) by nra. assert (0 <= Rabs x * Rabs y) by nra. nra. Qed.
(** the squared sine with every unit direction is continuous in time, uniformly in the direction *)
Lemma near_dir B t0 e : cont3 B -> (forall t, B t <> zero3) -> 0 < e -> exists d, 0 < d /\ forall s v, Rabs (s - t0) < d -> unit3 v -> across v (B t0) - e <= across v (B s).
Proof.
  intros C N ep. assert (e9 : 0 < e / 9) by lra.
  set (m := fun (f g : R -> R) s => f s * g s * / dot3 (B s) (B s)).
  set (X := fun s => x3 (B s)). set (Y := fun s => y3 (B s)). set (Z := fun s => z3 (B s)). destruct (C t0) as (CX & CY & CZ).
  assert (D : continuous (fun s => / dot3 (B s) (B s)) t0).
  { apply c_inv; [|assert (P := dpos _ (N t0)); lra]. apply (continuous_ext (fun s => x3 (B s) * x3 (B s) + y3 (B s) * y3 (B s) + z3 (B s) * z3 (B s))). - intros s. unfold dot3. rnumg. reflexivity. - repeat apply c_plus; apply c_mult; assumption. }
  assert (K : forall f g, continuous f t0 -> continuous g t0 -> exists d, 0 < d /\ forall s, Rabs (s - t0) < d -> Rabs (m f g s - m f g t0) < e / 9).
  { intros f g F G. assert (Q : continuous (m f g) t0) by (unfold m; apply c_mult; [apply c_mult; assumption|exact D]).
    assert (L := proj1 (continuity_pt_filterlim (m f g) t0)). clear L. apply continuity_pt_filterlim in Q. destruct (Q (e / 9) e9) as (a & ap & Ha).
    exists a. split; [exact ap|]. intros s Hs. destruct (Req_dec s t0) as [->|ne]; [rewrite Rminus_diag_eq, Rabs_R0 by reflexivity; exact e9|].
    specialize (Ha s). unfold dist in Ha. cbn in Ha. unfold R_dist in Ha. apply Ha. split; [split; [exact I|]|exact Hs]. intros E; apply ne; symmetry; exact E. }
  destruct (K X X CX CX) as (d1 & p1 & H1). destruct (K Y Y CY CY) as (d2 & p2 & H2). destruct (K Z Z CZ CZ) as (d3 & p3 & H3).
  destruct (K X Y CX CY) as (d4 & p4 & H4). destruct (K X Z CX CZ) as (d5 & p5 & H5). destruct (K Y Z CY CZ) as (d6 & p6 & H6).
  exists (Rmin d1 (Rmin d2 (Rmin d3 (Rmin d4 (Rmin d5 d6))))). split; [repeat apply Rmin_glb_lt; assumption|].
  intros s v Hs U.
  assert (q1 : Rabs (s - t0) < d1) by (eapply Rlt_le_trans; [exact Hs|apply Rmin_l]).
  assert (r1 : Rabs (s - t0) < Rmin d2 (Rmin d3 (Rmin d4 (Rmin d5 d6)))) by (eapply Rlt_le_trans; [exact Hs|apply Rmin_r]).
  assert (q2 : Rabs (s - t0) < d2) by (eapply Rlt_le_trans; [exact r1|apply Rmin_l]).
  assert (r2' : Rabs (s - t0) < Rmin d3 (Rmin d4 (Rmin d5 d6))) by (eapply Rlt_le_trans; [exact r1|apply Rmin_r]).
  assert (q3 : Rabs (s - t0) < d3) by (eapply Rlt_le_trans; [exact r2'|apply Rmin_l]).
  assert (r3 : Rabs (s - t0) < Rmin d4 (Rmin d5 d6)) by (eapply Rlt_le_trans; [exact r2'|apply Rmin_r]).
  assert (q4 : Rabs (s - t0) < d4) by (eapply Rlt_le_trans; [exact r3|apply Rmin_l]).
  assert (r4 : Rabs (s - t0) < Rmin d5 d6) by (eapply Rlt_le_trans; [exact r3|apply Rmin_r]).
  assert (q5 : Rabs (s - t0) < d5) by (eapply Rlt_le_trans; [exact r4|apply Rmin_l]).
  assert (q6 : Rabs (s - t0) < d6) by (eapply Rlt_le_trans; [exact r4|apply Rmin_r]).
  specialize (H1 s q1). specialize (H2 s q2). specialize (H3 s q3). specialize (H4 s q4). specialize (H5 s q5). specialize (H6 s q6).
  assert (F : forall u, across v (B u) = dot3 v v - (x3 v * x3 v * m X X u + y3 v * y3 v * m Y Y u + z3 v * z3 v * m Z Z u + 2 * (x3 v * y3 v * m X Y u) + 2 * (x3 v * z3 v * m X Z u) + 2 * (y3 v * z3 v * m Y Z u))).
  { intros u. assert (P := dpos _ (N u)). rewrite across_raw by lra. unfold m, X, Y, Z, Rdiv. generalize (/ dot3 (B u) (B u)). intros i. destruct (B u) as [a b d], v as [v1 v2 v3']. vunfoldg. cbn [x3 y3 z3]. rnumg. ring. }
  rewrite !F. unfold unit3 in U. assert (U' : x3 v * x3 v + y3 v * y3 v + z3 v * z3 v = 1) by (rewrite <- U; unfold dot3; rnumg; reflexivity).
  destruct (prod_le1 _ _ _ U') as (A1 & A2 & A3).
  assert (W : forall a b f g, Rabs a <= 1 -> Rabs b <= 1 -> Rabs (m f g s - m f g t0) < e / 9 -> a * b * m f g s <= a * b * m f g t0 + e / 9).
  { intros a b f g Ha Hb Hm. assert (Q := prod2 a b _ _ Ha Hb (Rlt_le _ _ Hm)). apply Rabs_le_between in Q. lra. }
  assert (W1 := W _ _ X X A1 A1 H1). assert (W2 := W _ _ Y Y A2 A2 H2). assert (W3 := W _ _ Z Z A3 A3 H3).
  assert (W4 := W _ _ X Y A1 A2 H4). assert (W5 := W _ _ X Z A1 A3 H5). assert (W6 := W _ _ Y Z A2 A3 H6). lra.
Qed.
(** no unit vector is close to both of two directions that differ *)
Lemma two_dirs (p q : v3) : cross3 p q <> zero3 -> p <> zero3 -> q <> zero3 -> exists c, 0 < c /\ forall v, unit3 v -> c <= across v p \/ c <= across v q.
Proof.
  intros X Np Nq. assert (Pp := dpos p Np). assert (Pq := dpos q Nq). assert (Px := dpos _ X).
  set (g := dot3 p q). set (G := g * g / (dot3 p p * dot3 q q)).
  assert (L : dot3 (cross3 p q) (cross3 p q) = dot3 p p * dot3 q q - g * g) by (unfold g; destruct p as [a b c], q as [d e f]; vunfoldg; cbn [x3 y3 z3]; rnumg; ring).
  assert (PP : 0 < dot3 p p * dot3 q q) by (apply Rmult_lt_0_compat; assumption).
  assert (G0 : 0 <= G) by (unfold G; apply Rmult_le_pos; [apply Rle_0_sqr|left; apply Rinv_0_lt_compat, PP]).
  assert (G1 : G < 1). { unfold G. apply Rmult_lt_reg_r with (dot3 p p * dot3 q q); [exact PP|]. unfold Rdiv. rewrite Rmult_assoc, Rinv_l by lra. lra. }
  exists ((1 - G) / 4). split; [lra|]. intros v U.
  destruct (Rle_lt_dec ((1 - G) / 4) (across v p)) as [l|l]; [left; exact l|right].
  destruct (Rle_lt_dec ((1 - G) / 4) (across v q)) as [l'|l']; [exact l'|exfalso].
  rewrite across_raw in l, l' by lra. unfold unit3 in U. rewrite U in l, l'.
  set (x := dot3 v p) in *. set (y := dot3 v q) in *.
  (* Gram determinant *)
  assert (D : 0 <= dot3 p p * dot3 q q + 2 * x * y * g - x * x * dot3 q q - y * y * dot3 p p - g * g).
  { replace (dot3 p p * dot3 q q + 2 * x * y * g - x * x * dot3 q q - y * y * dot3 p p - g * g) with (dot3 v (cross3 p q) * dot3 v (cross3 p q)); [apply Rle_0_sqr|].
    transitivity (dot3 v v * (dot3 p p * dot3 q q) + 2 * x * y * g - x * x * dot3 q q - y * y * dot3 p p - dot3 v v * (g * g)); [|rewrite U; ring].
    unfold x, y, g. clear. destruct p as [a b c], q as [d e f], v as [v1 v2 v3']. vunfoldg. cbn [x3 y3 z3]. rnumg. ring. }
  set (a := x * x / dot3 p p) in *. set (b := y * y / dot3 q q) in *. set (w := x * y * g / (dot3 p p * dot3 q q)).
  assert (D' : 0 <= 1 + 2 * w - a - b - G).
  { replace (1 + 2 * w - a - b - G) with ((dot3 p p * dot3 q q + 2 * x * y * g - x * x * dot3 q q - y * y * dot3 p p - g * g) / (dot3 p p * dot3 q q)) by (unfold w, a, b, G; field; lra).
    apply Rmult_le_pos; [exact D|left; apply Rinv_0_lt_compat, PP]. }
  assert (W : w * w = a * b * G) by (unfold w, a, b, G; field; lra).
  assert (A0 : 0 <= a) by (unfold a; apply Rmult_le_pos; [apply Rle_0_sqr|left; apply Rinv_0_lt_compat, Pp]).
  assert (B0 : 0 <= b) by (unfold b; apply Rmult_le_pos; [apply Rle_0_sqr|left; apply Rinv_0_lt_compat, Pq]).
  set (r := sqrt G). assert (rr : r * r = G) by (apply sqrt_sqrt, G0). assert (r0 : 0 <= r) by apply sqrt_pos. assert (r1 : r < 1) by nra.
  assert (WL : w <= r * ((a + b) / 2)).
  { apply Rsqr_incr_0_var; [|apply Rmult_le_pos; lra]. unfold Rsqr. rewrite W. replace (r * ((a + b) / 2) * (r * ((a + b) / 2))) with (G * ((a + b) * (a + b) / 4)) by (rewrite <- rr; field).
    rewrite (Rmult_comm (a * b)). apply Rmult_le_compat_l; [exact G0|]. assert (S := Rle_0_sqr (a - b)). unfold Rsqr in S. lra. }
  assert (AB : (a + b) * (1 - r) <= (1 + r) * (1 - r)) by nra.
  apply Rmult_le_reg_r in AB; [|lra]. nra.
Qed.
(** a periodic field that takes two different directions keeps turning *)
Lemma RInt_shift_in B v t T t1 m P d c : cont3 B -> (forall t, B t <> zero3) -> (forall s, B (s + P) = B s) -> (forall s, Rabs (s - t1) < d -> c <= across v (B s)) -> 0 < d ->
  t <= t1 + IZR m * P - d / 2 -> t1 + IZR m * P + d / 2 <= t + T -> c * d <= RInt (fun s => across v (B s)) t (t + T).
Proof.
  intros C N PB K dp L1 L2.
  assert (PN : forall n s, B (s + INR n * P) = B s) by (induction n as [|n IH]; intros s; [cbn [INR]; f_equal; lra|rewrite S_INR, <- (IH s), <- (PB (s + INR n * P)); f_equal; ring]).
  assert (PZ : forall s, B (s + IZR m * P) = B s).
  { intros s. destruct (Z_le_gt_dec 0 m) as [l|l].
    - rewrite <- (Z2Nat.id m l), <- INR_IZR_INZ. apply PN.
    - assert (E : IZR m = - INR (Z.to_nat (- m))) by (rewrite INR_IZR_INZ, Z2Nat.id by lia; rewrite opp_IZR; lra). rewrite E. rewrite <- (PN (Z.to_nat (- m)) (s + _)). f_equal. ring. }
  replace (c * d) with (c * ((t1 + IZR m * P + d / 2) - (t1 + IZR m * P - d / 2))) by field.
  apply RInt_sub; [apply across_cont; assumption|intros s; apply across_pos, N|exact L1|lra|exact L2|].
  intros s Hs.
  assert (X := K (s - IZR m * P)). replace (B s) with (B (s - IZR m * P)) by (rewrite <- (PZ (s - IZR m * P)); f_equal; ring). apply X. apply Rabs_def1; lra.
Qed.
Lemma periodic_turning B P t1 t2 : cont3 B -> (forall t, B t <> zero3) -> 0 < P -> (forall s, B (s + P) = B s) -> cross3 (B t1) (B t2) <> zero3 -> exists T c, 0 < T /\ 0 < c /\ turning B T c.
Proof.
  intros C N Pp PB X. destruct (two_dirs _ _ X (N t1) (N t2)) as (c & cp & K).
  destruct (near_dir B t1 (c / 2) C N ltac:(lra)) as (d1 & p1 & H1). destruct (near_dir B t2 (c / 2) C N ltac:(lra)) as (d2 & p2 & H2).
  set (d := Rmin d1 d2). assert (dp : 0 < d) by (apply Rmin_glb_lt; assumption). assert (D1 : d <= d1) by apply Rmin_l. assert (D2 : d <= d2) by apply Rmin_r.
  exists (P + Rabs (t1 - t2) + d), (c / 2 * d). assert (A := Rabs_pos (t1 - t2)). split; [lra|]. split; [nra|].
  intros t v Ht U. change (fun s => dot3 _ _ / dot3 (B s) (B s)) with (fun s => across v (B s)).
  set (lo := Rmin t1 t2 - d / 2). set (m := up ((t - lo) / P)). destruct (archimed ((t - lo) / P)) as (U1 & U2). fold m in U1, U2.
  assert (E : (t - lo) / P * P = t - lo) by (field; lra).
  assert (V1 : t <= lo + IZR m * P) by nra. assert (V2 : lo + IZR m * P <= t + P) by nra.
  assert (M1 : Rmin t1 t2 <= t1) by apply Rmin_l. assert (M2 : Rmin t1 t2 <= t2) by apply Rmin_r.
  assert (M3 : t1 - Rmin t1 t2 <= Rabs (t1 - t2) /\ t2 - Rmin t1 t2 <= Rabs (t1 - t2)).
  { unfold Rmin, Rabs. destruct (Rle_dec t1 t2), (Rcase_abs (t1 - t2)); lra. }
  destruct (K v U) as [Q|Q].
  - apply (RInt_shift_in B v t _ t1 m P d (c / 2) C N PB); try (unfold lo in *; lra).
    intros s Hs. assert (Y := H1 s v ltac:(lra) U). lra.
  - apply (RInt_shift_in B v t _ t2 m P d (c / 2) C N PB); try (unfold lo in *; lra).
    intros s Hs. assert (Y := H2 s v ltac:(lra) U). lra.
Qed.
