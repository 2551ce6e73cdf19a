(** * Lemmas: local error of a Runge-Kutta step of the two-body field *)
From Coq Require Import Reals Lra Psatz List.
From Verif Require Import Num Vec M_vector M_env S_rot S_dyn P_rk P_rk3 P_rk4 P_tot2 P_tot3 P_orb1 P_orb2.
Local Open Scope R_scope.

(** the acceleration of a point mass *)
Definition kep (p : v3) : v3 := scale3 (- (MU / norm3 p ^ 3)) p.
Definition comb (a b : R) (p v : v3) : v3 := add3 (scale3 a p) (scale3 b v).
Definition par (p v : v3) : Par := mkPar (MU / norm3 p ^ 3) (dot3 p v / norm3 p ^ 2) (dot3 v v / norm3 p ^ 2).

Lemma comb_dot a b p v : dot3 (comb a b p v) (comb a b p v) = a ^ 2 * dot3 p p + 2 * a * b * dot3 p v + b ^ 2 * dot3 v v.
Proof. destruct p as [x y z], v as [x' y' z']. unfold comb. vunfoldg. rnumg. ring. Qed.
Lemma norm3_comb a b p v : 0 < norm3 p -> norm3 (comb (1 + a) b p v) = norm3 p * sqrt (1 + eps (par p v) a b).
Proof.
  intros H. destruct (norm3_sq p) as [_ E]. unfold norm3 at 1. rnumg. rewrite comb_dot, <- E.
  assert (X : dot3 p v = norm3 p * norm3 p * pu (par p v)) by (unfold par; cbn [pu]; field; lra). assert (Y : dot3 v v = norm3 p * norm3 p * pw (par p v)) by (unfold par; cbn [pw]; field; lra). rewrite X, Y.
  replace ((1 + a) ^ 2 * (norm3 p * norm3 p) + 2 * (1 + a) * b * (norm3 p * norm3 p * pu (par p v)) + b ^ 2 * (norm3 p * norm3 p * pw (par p v))) with ((norm3 p * norm3 p) * (1 + eps (par p v) a b)) by (unfold eps; ring).
  rewrite sqrt_mult_alt by nra. rewrite sqrt_square by lra. reflexivity.
Qed.
Lemma eps_pos a b p v : 0 < norm3 p -> 0 <= 1 + eps (par p v) a b.
Proof.
  intros H. destruct (norm3_sq (comb (1 + a) b p v)) as [_ E]. rewrite comb_dot in E. destruct (norm3_sq p) as [_ E'].
  assert (X : dot3 p v = norm3 p * norm3 p * pu (par p v)) by (unfold par; cbn [pu]; field; lra). assert (Y : dot3 v v = norm3 p * norm3 p * pw (par p v)) by (unfold par; cbn [pw]; field; lra). rewrite X, Y, <- E' in E.
  assert (Z : norm3 (comb (1 + a) b p v) * norm3 (comb (1 + a) b p v) = (norm3 p * norm3 p) * (1 + eps (par p v) a b)) by (rewrite E; unfold eps; ring).
  assert (0 <= norm3 (comb (1 + a) b p v) * norm3 (comb (1 + a) b p v)) by nra. assert (0 < norm3 p * norm3 p) by nra. nra.
Qed.
Lemma scale_comb k a b p v : scale3 k (comb a b p v) = comb (k * a) (k * b) p v.
Proof. destruct p as [x y z], v as [x' y' z']. unfold comb. vunfoldg. rnumg. apply mk3_c; ring. Qed.
Lemma norm3_0 (v : v3) : norm3 v = 0 -> v = mk3 0 0 0.
Proof.
  intros H. destruct (norm3_sq v) as [_ E]. rewrite H in E. destruct v as [x y z]. revert E. unfold dot3. cbn [x3 y3 z3]. rnumg. intros E.
  assert (A := Rle_0_sqr x). assert (B := Rle_0_sqr y). assert (C := Rle_0_sqr z). apply mk3_c; apply Rsqr_0_uniq; unfold Rsqr in *; lra.
Qed.
Lemma scale_zero k : scale3 k (mk3 0 0 0) = mk3 0 0 0.
Proof. vunfoldg. rnumg. apply mk3_c; ring. Qed.
Lemma kep_comb a b p v : 0 < norm3 p -> kep (comb (1 + a) b p v) = comb (- sg (par p v) a b * (1 + a)) (- sg (par p v) a b * b) p v.
Proof.
  intros H. rewrite <- scale_comb. assert (N := norm3_comb a b p v H). assert (P := eps_pos a b p v H). unfold kep.
  destruct (Req_dec (1 + eps (par p v) a b) 0) as [Z|Z].
  - rewrite Z, sqrt_0, Rmult_0_r in N. rewrite (norm3_0 _ N), !scale_zero. reflexivity.
  - f_equal. rewrite N. unfold sg, cub. change (ps (par p v)) with (MU / norm3 p ^ 3). set (e := 1 + eps (par p v) a b) in *. assert (Q : sqrt e * sqrt e = e) by (apply sqrt_sqrt; lra). assert (0 < sqrt e) by (apply sqrt_lt_R0; lra).
    replace ((norm3 p * sqrt e) ^ 3) with (norm3 p ^ 3 * (e * sqrt e)) by (rewrite <- Q at 1; ring). field. split; [lra|]. split; lra.
Qed.

(** ** the field is Lipschitz away from the centre *)
Lemma n1_sub_sym a b : n1 (sub3 a b) = n1 (sub3 b a).
Proof. replace (sub3 a b) with (scale3 (-1) (sub3 b a)) by (destruct a as [x y z], b as [x' y' z']; vunfoldg; rnumg; apply mk3_c; ring). rewrite n1_scale, Rabs_left by lra. ring. Qed.
Lemma n1_sub_tri a b c : n1 (sub3 a c) <= n1 (sub3 a b) + n1 (sub3 b c).
Proof. replace (sub3 a c) with (add3 (sub3 a b) (sub3 b c)) by (destruct a as [x y z], b as [x' y' z'], c as [u v w]; vunfoldg; rnumg; apply mk3_c; ring). apply n1_add. Qed.
Lemma norm3_gap a b : Rabs (norm3 a - norm3 b) <= n1 (sub3 a b).
Proof.
  assert (A := norm3_move b (sub3 a b)). replace (add3 b (sub3 a b)) with a in A by (destruct a as [x y z], b as [x' y' z']; vunfoldg; rnumg; apply mk3_c; ring). apply Rabs_le. lra.
Qed.
Lemma kep_split (x y : v3) k l : sub3 (scale3 (- k) x) (scale3 (- l) y) = add3 (scale3 (- k) (sub3 x y)) (scale3 (- (k - l)) y).
Proof. destruct x as [a b c], y as [a' b' c']. vunfoldg. rnumg. apply mk3_c; ring. Qed.
Lemma MU_pos : 0 < MU.
Proof. unfold MU, G_NEWTON, EARTH_MASS. rnumg. lra. Qed.
Definition lipc (rho : R) : R := 10 * MU / rho ^ 3.
Lemma kep_lip rho x y : 0 < rho -> rho <= norm3 x -> rho <= norm3 y -> n1 (sub3 (kep x) (kep y)) <= lipc rho * n1 (sub3 x y).
Proof.
  intros Hr Hx Hy. assert (MP := MU_pos). unfold kep. rewrite kep_split. eapply Rle_trans; [apply n1_add|]. rewrite !n1_scale, !Rabs_Ropp. assert (N := n1_norm3 y). assert (G := norm3_gap x y).
  set (d := n1 (sub3 x y)) in *. set (a := norm3 x) in *. set (b := norm3 y) in *. assert (D0 : 0 <= d) by (apply n1_pos).
  set (i := / a). set (j := / b). set (c := / rho). assert (I : 0 < i <= c) by (split; [apply Rinv_0_lt_compat; lra|apply Rinv_le_contravar; lra]). assert (J : 0 < j <= c) by (split; [apply Rinv_0_lt_compat; lra|apply Rinv_le_contravar; lra]).
  assert (C0 : 0 < c) by lra. assert (I3 : 0 < i ^ 3 <= c ^ 3) by (split; [apply pow_lt; lra|apply pow_incr; lra]).
  replace (MU / a ^ 3) with (MU * i ^ 3) by (unfold i; field; lra). replace (MU / b ^ 3) with (MU * j ^ 3) by (unfold j; field; lra). replace (lipc rho) with (10 * MU * c ^ 3) by (unfold lipc, c; field; lra).
  assert (T1 : Rabs (MU * i ^ 3) * d <= MU * c ^ 3 * d). { rewrite Rabs_pos_eq by nra. apply Rmult_le_compat_r; [exact D0|]. apply Rmult_le_compat_l; lra. }
  assert (T2 : Rabs (MU * i ^ 3 - MU * j ^ 3) * n1 y <= 9 * MU * c ^ 3 * d).
  { apply Rle_trans with (Rabs (MU * i ^ 3 - MU * j ^ 3) * (3 * b)); [apply Rmult_le_compat_l; [apply Rabs_pos|exact N]|].
    replace (Rabs (MU * i ^ 3 - MU * j ^ 3) * (3 * b)) with (Rabs (3 * MU * (i * (i ^ 2 + i * j + j ^ 2)) * (a - b))).
    2:{ rewrite <- (Rabs_pos_eq (3 * b)) by lra. rewrite <- Rabs_mult. rewrite <- Rabs_Ropp. f_equal. unfold i, j. field. lra. }
    rewrite Rabs_mult. assert (Z : 0 <= i * (i ^ 2 + i * j + j ^ 2) <= c * (c ^ 2 + c * c + c ^ 2)).
    { assert (0 <= i ^ 2 <= c ^ 2) by (split; [apply pow_le; lra|apply pow_incr; lra]). assert (0 <= j ^ 2 <= c ^ 2) by (split; [apply pow_le; lra|apply pow_incr; lra]). assert (0 <= i * j <= c * c) by (split; [nra|apply Rmult_le_compat; lra]).
      split; [apply Rmult_le_pos; lra|apply Rmult_le_compat; lra]. }
    rewrite Rabs_pos_eq by (apply Rmult_le_pos; lra). replace (9 * MU * c ^ 3 * d) with (3 * MU * (c * (c ^ 2 + c * c + c ^ 2)) * d) by ring.
    apply Rmult_le_compat; [apply Rmult_le_pos; lra|apply Rabs_pos| |exact G]. apply Rmult_le_compat_l; lra. }
  lra.
Qed.
Definition kepc (rho : R) : R := 3 * MU / rho ^ 2.
Lemma kep_le rho x : 0 < rho -> rho <= norm3 x -> n1 (kep x) <= kepc rho.
Proof.
  intros Hr Hx. assert (MP := MU_pos). unfold kep. rewrite n1_scale, Rabs_Ropp. assert (N := n1_norm3 x). set (a := norm3 x) in *. assert (I : / a <= / rho) by (apply Rinv_le_contravar; lra). assert (0 < / a) by (apply Rinv_0_lt_compat; lra).
  rewrite Rabs_pos_eq. 2:{ apply Rlt_le, Rdiv_lt_0_compat; [lra|apply pow_lt; lra]. }
  apply Rle_trans with (MU / a ^ 3 * (3 * a)). { apply Rmult_le_compat_l; [apply Rlt_le, Rdiv_lt_0_compat; [lra|apply pow_lt; lra]|exact N]. }
  replace (MU / a ^ 3 * (3 * a)) with (3 * MU * (/ a) ^ 2) by (field; lra). unfold kepc. replace (3 * MU / rho ^ 2) with (3 * MU * (/ rho) ^ 2) by (field; lra).
  apply Rmult_le_compat_l; [lra|]. apply pow_incr. lra.
Qed.

(** ** one exact step *)
Definition k2 (p v : v3) (h : R) : v3 := kep (add3 p (scale3 (h / 2) v)).
Definition k3 (p v : v3) (h : R) : v3 := kep (add3 p (scale3 (h / 2) (add3 v (scale3 (h / 2) (kep p))))).
Definition k4 (p v : v3) (h : R) : v3 := kep (add3 p (scale3 h (add3 v (scale3 (h / 2) (k2 p v h))))).
Definition newp (h : R) (p v k1 k2 k3 : v3) : v3 := add3 p (add3 (scale3 h v) (scale3 (h * h / 6) (add3 k1 (add3 k2 k3)))).
Definition newv (h : R) (v k1 k2 k3 k4 : v3) : v3 := add3 v (scale3 (h / 6) (add3 (add3 k1 (scale3 2 k2)) (add3 (scale3 2 k3) k4))).
Definition step_p (p v : v3) (h : R) : v3 := newp h p v (kep p) (k2 p v h) (k3 p v h).
Definition step_v (p v : v3) (h : R) : v3 := newv h v (kep p) (k2 p v h) (k3 p v h) (k4 p v h).
Lemma kep_self p v : kep p = comb (a1 (par p v)) 0 p v.
Proof. unfold kep, comb, a1, par. cbn [ps]. set (k := MU / norm3 p ^ 3). destruct p as [x y z], v as [x' y' z']. vunfoldg. rnumg. apply mk3_c; ring. Qed.
Lemma comb_1 p v c : add3 p (scale3 c v) = comb (1 + 0) c p v.
Proof. destruct p as [x y z], v as [x' y' z']. unfold comb. vunfoldg. rnumg. apply mk3_c; ring. Qed.
Lemma comb_2 p v c d a b : add3 p (scale3 c (add3 v (scale3 d (comb a b p v)))) = comb (1 + c * (d * a)) (c * (1 + d * b)) p v.
Proof. destruct p as [x y z], v as [x' y' z']. unfold comb. vunfoldg. rnumg. apply mk3_c; ring. Qed.
Lemma k2_comb p v h : 0 < norm3 p -> k2 p v h = comb (a2 (par p v) h) (b2 (par p v) h) p v.
Proof. intros H. unfold k2. rewrite comb_1, kep_comb by exact H. unfold a2, b2. f_equal. ring. Qed.
Lemma k3_comb p v h : 0 < norm3 p -> k3 p v h = comb (a3 (par p v) h) (b3 (par p v) h) p v.
Proof. intros H. unfold k3. rewrite (kep_self p v), comb_2, kep_comb by exact H. replace (h / 2 * (1 + h / 2 * 0)) with (h / 2) by ring. reflexivity. Qed.
Lemma k4_comb p v h : 0 < norm3 p -> k4 p v h = comb (a4 (par p v) h) (b4 (par p v) h) p v.
Proof. intros H. unfold k4. rewrite k2_comb, comb_2, kep_comb by exact H. reflexivity. Qed.
Lemma newp_comb h p v x1 y1 x2 y2 x3 y3 : newp h p v (comb x1 y1 p v) (comb x2 y2 p v) (comb x3 y3 p v) = comb (1 + h * ((h * x1 + h * x2 + h * x3) / 6)) (h * ((6 + h * y1 + h * y2 + h * y3) / 6)) p v.
Proof. destruct p as [x y z], v as [x' y' z']. unfold newp, comb. vunfoldg. rnumg. apply mk3_c; field. Qed.
Lemma newv_comb h p v x1 y1 x2 y2 x3 y3 x4 y4 : newv h v (comb x1 y1 p v) (comb x2 y2 p v) (comb x3 y3 p v) (comb x4 y4 p v) =
  comb (h * ((x1 + 2 * x2 + 2 * x3 + x4) / 6)) (1 + h * ((y1 + 2 * y2 + 2 * y3 + y4) / 6)) p v.
Proof. destruct p as [x y z], v as [x' y' z']. unfold newv, comb. vunfoldg. rnumg. apply mk3_c; field. Qed.
Lemma n1_comb_sub a b a' b' p v k : Rabs (a - a') <= k -> Rabs (b - b') <= k -> n1 (sub3 (comb a b p v) (comb a' b' p v)) <= k * (n1 p + n1 v).
Proof.
  intros A B. replace (sub3 (comb a b p v) (comb a' b' p v)) with (add3 (scale3 (a - a') p) (scale3 (b - b') v)) by (destruct p as [x y z], v as [x' y' z']; unfold comb; vunfoldg; rnumg; apply mk3_c; ring).
  eapply Rle_trans; [apply n1_add|]. rewrite !n1_scale. assert (P := n1_pos p). assert (Q := n1_pos v). nra.
Qed.

(** ** the Taylor polynomial of the motion *)
Definition ff' (t : Par) (h : R) : R := 2 * f2 t * h + 3 * f3 t * h ^ 2 + 4 * f4 t * h ^ 3 + 5 * f5 t * h ^ 4.
Definition gg' (t : Par) (h : R) : R := 1 + 3 * g3 t * h ^ 2 + 4 * g4 t * h ^ 3 + 5 * g5 t * h ^ 4.
Definition ff'' (t : Par) (h : R) : R := 2 * f2 t + 6 * f3 t * h + 12 * f4 t * h ^ 2 + 20 * f5 t * h ^ 3.
Definition gg'' (t : Par) (h : R) : R := 6 * g3 t * h + 12 * g4 t * h ^ 2 + 20 * g5 t * h ^ 3.
Definition tp (p v : v3) (h : R) : v3 := comb (ff (par p v) h) (gg (par p v) h) p v.
Definition tv (p v : v3) (h : R) : v3 := comb (ff' (par p v) h) (gg' (par p v) h) p v.
Definition ta (p v : v3) (h : R) : v3 := comb (ff'' (par p v) h) (gg'' (par p v) h) p v.

Definition region (rho M : R) (p v : v3) : Prop := rho <= norm3 p /\ norm3 p <= M /\ norm3 v <= M.
Lemma dot_norm a b : Rabs (dot3 a b) <= norm3 a * norm3 b.
Proof.
  apply Rabs_le. assert (A := cauchy3 a b). assert (B := cauchy3 (scale3 (-1) a) b). split; [|exact A].
  replace (dot3 (scale3 (-1) a) b) with (- dot3 a b) in B by (destruct a as [x y z], b as [x' y' z']; vunfoldg; rnumg; ring).
  replace (norm3 (scale3 (-1) a)) with (norm3 a) in B; [lra|]. unfold norm3. f_equal. destruct a as [x y z]; vunfoldg; rnumg; ring.
Qed.
Definition boxc (rho M : R) : R := MU / rho ^ 3 + M / rho + (M / rho) ^ 2.
Lemma region_box rho M p v : 0 < rho -> region rho M p v -> box (boxc rho M) (par p v) /\ 0 < norm3 p /\ n1 p + n1 v <= 6 * M.
Proof.
  intros Hr (A & B & C). assert (MP := MU_pos). assert (V0 := proj1 (norm3_sq v)). assert (N := n1_norm3 p). assert (N' := n1_norm3 v). split; [|split; lra].
  assert (D := dot_norm p v). assert (E := proj2 (norm3_sq v)). set (a := norm3 p) in *. set (b := norm3 v) in *. set (c := / rho). set (i := / a).
  assert (I : 0 < i <= c) by (split; [apply Rinv_0_lt_compat; lra|apply Rinv_le_contravar; lra]).
  assert (S1 : 0 <= MU / a ^ 3 <= MU / rho ^ 3). { replace (MU / a ^ 3) with (MU * i ^ 3) by (unfold i; field; lra). replace (MU / rho ^ 3) with (MU * c ^ 3) by (unfold c; field; lra). assert (0 <= i ^ 3 <= c ^ 3) by (split; [apply pow_le; lra|apply pow_incr; lra]). split; [nra|apply Rmult_le_compat_l; lra]. }
  assert (S2 : 0 <= b * i <= M / rho). { replace (M / rho) with (M * c) by reflexivity. split; [apply Rmult_le_pos; lra|apply Rmult_le_compat; lra]. }
  assert (S3 : 0 <= (b * i) ^ 2 <= (M / rho) ^ 2) by (split; [apply pow_le; lra|apply pow_incr; lra]).
  unfold box, par, boxc. cbn [ps pu pw]. fold a. split; [|split].
  - rewrite Rabs_pos_eq; lra.
  - apply Rle_trans with (b * i); [|lra]. unfold Rdiv. rewrite Rabs_mult. rewrite (Rabs_pos_eq (/ a ^ 2)) by (apply Rlt_le, Rinv_0_lt_compat, pow_lt; lra).
    apply Rle_trans with (a * b * / a ^ 2); [apply Rmult_le_compat_r; [apply Rlt_le, Rinv_0_lt_compat, pow_lt; lra|exact D]|]. right. unfold i. field. lra.
  - rewrite <- E. replace (b * b / a ^ 2) with ((b * i) ^ 2) by (unfold i; field; lra). rewrite Rabs_pos_eq; lra.
Qed.
Lemma boxc_pos rho M : 0 < rho -> 0 <= M -> 0 <= boxc rho M.
Proof. intros A B. assert (MP := MU_pos). unfold boxc. assert (0 <= M / rho) by (apply Rmult_le_pos; [lra|apply Rlt_le, Rinv_0_lt_compat; lra]). assert (0 < MU / rho ^ 3) by (apply Rdiv_lt_0_compat; [lra|apply pow_lt; lra]). assert (0 <= (M / rho) ^ 2) by (apply pow_le; lra). lra. Qed.

Lemma jet_use {T} (D : T -> Prop) F a b c d : jet D F a b c d -> exists K r, 0 <= K /\ 0 < r <= 1 /\ forall t h, D t -> 0 <= h <= r -> Rabs (F t h - (a t + b t * h + c t * h ^ 2 + d t * h ^ 3)) <= K * h ^ 4.
Proof. intros (_ & _ & _ & _ & H). exact H. Qed.
Lemma jets4 {T} (D : T -> Prop) (P1 P2 P3 P4 : T -> R -> R) :
  (exists K r, 0 <= K /\ 0 < r <= 1 /\ forall t h, D t -> 0 <= h <= r -> Rabs (P1 t h) <= K * h ^ 4) -> (exists K r, 0 <= K /\ 0 < r <= 1 /\ forall t h, D t -> 0 <= h <= r -> Rabs (P2 t h) <= K * h ^ 4) ->
  (exists K r, 0 <= K /\ 0 < r <= 1 /\ forall t h, D t -> 0 <= h <= r -> Rabs (P3 t h) <= K * h ^ 4) -> (exists K r, 0 <= K /\ 0 < r <= 1 /\ forall t h, D t -> 0 <= h <= r -> Rabs (P4 t h) <= K * h ^ 4) ->
  exists K r, 0 <= K /\ 0 < r <= 1 /\ forall t h, D t -> 0 <= h <= r -> Rabs (P1 t h) <= K * h ^ 4 /\ Rabs (P2 t h) <= K * h ^ 4 /\ Rabs (P3 t h) <= K * h ^ 4 /\ Rabs (P4 t h) <= K * h ^ 4.
Proof.
  intros (K1 & r1 & A1 & B1 & C1) (K2 & r2 & A2 & B2 & C2) (K3 & r3 & A3 & B3 & C3) (K4 & r4 & A4 & B4 & C4).
  exists (K1 + K2 + K3 + K4), (Rmin (Rmin r1 r2) (Rmin r3 r4)). split; [lra|]. assert (X1 := Rmin_l (Rmin r1 r2) (Rmin r3 r4)). assert (X2 := Rmin_r (Rmin r1 r2) (Rmin r3 r4)). assert (Y1 := Rmin_l r1 r2). assert (Y2 := Rmin_r r1 r2). assert (Y3 := Rmin_l r3 r4). assert (Y4 := Rmin_r r3 r4).
  split. { split; [repeat apply Rmin_pos; lra|lra]. }
  intros t h Ht Hh. assert (H4 : 0 <= h ^ 4) by (apply pow_le; lra). specialize (C1 t h Ht ltac:(lra)). specialize (C2 t h Ht ltac:(lra)). specialize (C3 t h Ht ltac:(lra)). specialize (C4 t h Ht ltac:(lra)).
  assert (0 <= K1 * h ^ 4) by (apply Rmult_le_pos; lra). assert (0 <= K2 * h ^ 4) by (apply Rmult_le_pos; lra). assert (0 <= K3 * h ^ 4) by (apply Rmult_le_pos; lra). assert (0 <= K4 * h ^ 4) by (apply Rmult_le_pos; lra). repeat split; lra.
Qed.
Lemma step_taylor rho M : 0 < rho -> 0 <= M -> exists C r, 0 <= C /\ 0 < r <= 1 /\ forall p v h, region rho M p v -> 0 <= h <= r ->
  n1 (sub3 (step_p p v h) (tp p v h)) <= C * h ^ 5 /\ n1 (sub3 (step_v p v h) (tv p v h)) <= C * h ^ 5.
Proof.
  intros Hr HM. set (K := boxc rho M). assert (HK : 0 <= K) by (apply boxc_pos; lra).
  destruct (jets4 (box K) _ _ _ _ (jet_use _ _ _ _ _ _ (pos_a K HK)) (jet_use _ _ _ _ _ _ (pos_b K HK)) (jet_use _ _ _ _ _ _ (vel_a K HK)) (jet_use _ _ _ _ _ _ (vel_b K HK))) as (C & r & HC & Hr' & H).
  destruct (bd_f5 K HK) as (F5 & HF5 & BF5). destruct (bd_g5 K HK) as (G5 & HG5 & BG5).
  exists ((C + F5 + G5) * (6 * M)), r. split; [nra|]. split; [exact Hr'|]. intros p v h RG Hh. destruct (region_box rho M p v Hr RG) as (BX & NP & N6). fold K in BX.
  destruct (H _ h BX Hh) as (H1 & H2 & H3 & H4). specialize (BF5 _ BX). specialize (BG5 _ BX). set (t := par p v) in *.
  assert (h5 : 0 <= h ^ 5) by (apply pow_le; lra). assert (h1 : Rabs h <= h) by (rewrite Rabs_pos_eq; lra). assert (h5' : Rabs (h ^ 5) <= h ^ 5) by (rewrite Rabs_pos_eq; lra).
  assert (Z : (C + F5 + G5) * h ^ 5 * (n1 p + n1 v) <= (C + F5 + G5) * (6 * M) * h ^ 5). { replace ((C + F5 + G5) * (6 * M) * h ^ 5) with ((C + F5 + G5) * h ^ 5 * (6 * M)) by ring. apply Rmult_le_compat_l; [apply Rmult_le_pos; lra|exact N6]. }
  assert (A1 : Rabs (f5 t * h ^ 5) <= F5 * h ^ 5) by (apply abs_mul_le; assumption). assert (A2 : Rabs (g5 t * h ^ 5) <= G5 * h ^ 5) by (apply abs_mul_le; assumption).
  assert (E0 : 0 <= F5 * h ^ 5) by (apply Rmult_le_pos; lra). assert (E1 : 0 <= G5 * h ^ 5) by (apply Rmult_le_pos; lra). assert (E2 : 0 <= C * h ^ 5) by (apply Rmult_le_pos; lra).
  assert (HH : forall x, Rabs x <= C * h ^ 4 -> Rabs (h * x) <= C * h ^ 5). { intros x Hx. eapply Rle_trans; [apply abs_mul_le; [exact h1|exact Hx]|]. right. ring. }
  apply HH in H1. apply HH in H2. apply HH in H3. apply HH in H4.
  unfold step_p, step_v, tp, tv. rewrite k2_comb, k3_comb, k4_comb, (kep_self p v), newp_comb, newv_comb by exact NP. fold t. split.
  - eapply Rle_trans; [apply (n1_comb_sub _ _ _ _ _ _ ((C + F5 + G5) * h ^ 5))|exact Z].
    + unfold ff. match goal with |- Rabs ?e <= _ => replace e with (h * ((h * a1 t + h * a2 t h + h * a3 t h) / 6 - (0 + f2 t * h + f3 t * h ^ 2 + f4 t * h ^ 3)) + - (f5 t * h ^ 5)) by ring end.
      eapply Rle_trans; [apply abs_add_le; [exact H1|rewrite Rabs_Ropp; exact A1]|]. lra.
    + unfold gg. match goal with |- Rabs ?e <= _ => replace e with (h * ((6 + h * b2 t h + h * b3 t h) / 6 - (1 + 0 * h + g3 t * h ^ 2 + g4 t * h ^ 3)) + - (g5 t * h ^ 5)) by field end.
      eapply Rle_trans; [apply abs_add_le; [exact H2|rewrite Rabs_Ropp; exact A2]|]. lra.
  - eapply Rle_trans; [apply (n1_comb_sub _ _ _ _ _ _ ((C + F5 + G5) * h ^ 5))|exact Z].
    + unfold ff'. match goal with |- Rabs ?e <= _ => replace e with (h * ((a1 t + 2 * a2 t h + 2 * a3 t h + a4 t h) / 6 - (2 * f2 t + 3 * f3 t * h + 4 * f4 t * h ^ 2 + 5 * f5 t * h ^ 3))) by ring end. lra.
    + unfold gg'. match goal with |- Rabs ?e <= _ => replace e with (h * ((2 * b2 t h + 2 * b3 t h + b4 t h) / 6 - (0 + 3 * g3 t * h + 4 * g4 t * h ^ 2 + 5 * g5 t * h ^ 3))) by field end. lra.
Qed.
Lemma taylor_defect rho M : 0 < rho -> 0 <= M -> exists C r, 0 <= C /\ 0 < r <= 1 /\ forall p v h, region rho M p v -> 0 <= h <= r -> n1 (sub3 (kep (tp p v h)) (ta p v h)) <= C * h ^ 4.
Proof.
  intros Hr HM. set (K := boxc rho M). assert (HK : 0 <= K) by (apply boxc_pos; lra).
  destruct (jets4 (box K) _ _ _ _ (jet_use _ _ _ _ _ _ (acc_f K HK)) (jet_use _ _ _ _ _ _ (acc_g K HK)) (jet_use _ _ _ _ _ _ (acc_f K HK)) (jet_use _ _ _ _ _ _ (acc_g K HK))) as (C & r & HC & Hr' & H).
  exists (C * (6 * M)), r. split; [nra|]. split; [exact Hr'|]. intros p v h RG Hh. destruct (region_box rho M p v Hr RG) as (BX & NP & N6). fold K in BX.
  destruct (H _ h BX Hh) as (H1 & H2 & _ & _). set (t := par p v) in *. unfold tp, ta. fold t. replace (ff t h) with (1 + (ff t h - 1)) by ring. unfold t at 1 2. rewrite kep_comb by exact NP. fold t.
  replace (1 + (ff t h - 1)) with (ff t h) by ring.
  assert (h4 : 0 <= h ^ 4) by (apply pow_le; lra). apply Rle_trans with (C * h ^ 4 * (n1 p + n1 v)). 2:{ replace (C * (6 * M) * h ^ 4) with (C * h ^ 4 * (6 * M)) by ring. apply Rmult_le_compat_l; [apply Rmult_le_pos; lra|exact N6]. }
  apply n1_comb_sub; [unfold ff''; eapply Rle_trans; [|exact H1]|unfold gg''; eapply Rle_trans; [|exact H2]]; right; f_equal; ring.
Qed.
