(** * Symmetric 4x4 matrices, Newton's iteration on their characteristic polynomial *)
From Coq Require Import Reals ZArith List Bool Lra Psatz.
From Verif Require Import Num Vec M_vector M_quaternion M_att S_rot P_quat P_triad P_flae.
Import ListNotations.
Local Open Scope R_scope.

(** ** minors of positive (semi)definite forms *)
Definition form3 (a b c e f h x y z : R) : R := a * x * x + e * y * y + h * z * z + 2 * b * x * y + 2 * c * x * z + 2 * f * y * z.
Definition form4 (a b c d e f g h i j x y z w : R) : R := form3 a b c e f h x y z + j * w * w + 2 * d * x * w + 2 * g * y * w + 2 * i * z * w.
Definition min2 (a b e : R) : R := a * e - b * b.
Definition min3 (a b c e f h : R) : R := a * (e * h - f * f) - b * (b * h - f * c) + c * (b * f - e * c).
Definition min4 (a b c d e f g h i j : R) : R :=
  j * min3 a b c e f h - d * (d * (e * h - f * f) - b * (g * h - f * i) + c * (g * f - e * i))
  - g * (a * (g * h - f * i) - d * (b * h - f * c) + c * (b * i - g * c)) - i * (a * (e * i - g * f) - b * (b * i - g * c) + d * (b * f - e * c)).
Lemma det4_sym a b c d e f g h i j : det4 (mkm4 (mkq a b c d) (mkq b e f g) (mkq c f h i) (mkq d g i j)) = min4 a b c d e f g h i j.
Proof. m4unfold. unfold min4, min3. vunfoldg. rnumg. ring. Qed.
Lemma pd3 a b c e f h : (forall x y z, ~ (x = 0 /\ y = 0 /\ z = 0) -> 0 < form3 a b c e f h x y z) -> 0 < a /\ 0 < min2 a b e /\ 0 < min3 a b c e f h.
Proof.
  intros H. assert (A : 0 < a). { assert (P := H 1 0 0 ltac:(intros (? & _ & _); lra)). unfold form3 in P. lra. }
  assert (B : 0 < min2 a b e).
  { assert (P := H (- b) a 0 ltac:(intros (_ & ? & _); lra)). replace (form3 a b c e f h (- b) a 0) with (a * min2 a b e) in P by (unfold form3, min2; ring).
    apply (Rmult_lt_reg_l a); [exact A|lra]. }
  split; [exact A|]. split; [exact B|].
  assert (P := H (b * f - c * e) (b * c - a * f) (min2 a b e) ltac:(intros (_ & _ & ?); lra)).
  replace (form3 a b c e f h (b * f - c * e) (b * c - a * f) (min2 a b e)) with (min2 a b e * min3 a b c e f h) in P by (unfold form3, min3, min2; ring).
  apply (Rmult_lt_reg_l (min2 a b e)); [exact B|lra].
Qed.
Lemma pd4 a b c d e f g h i j : (forall x y z w, ~ (x = 0 /\ y = 0 /\ z = 0 /\ w = 0) -> 0 < form4 a b c d e f g h i j x y z w) -> 0 < min4 a b c d e f g h i j.
Proof.
  intros H. assert (M : 0 < min3 a b c e f h).
  { apply pd3. intros x y z N. assert (P := H x y z 0 ltac:(tauto)). unfold form4 in P. lra. }
  set (m := min3 a b c e f h) in *.
  set (x1 := - (d * (e * h - f * f) - b * (g * h - f * i) + c * (g * f - e * i))).
  set (x2 := - (a * (g * h - f * i) - d * (b * h - f * c) + c * (b * i - g * c))).
  set (x3 := - (a * (e * i - g * f) - b * (b * i - g * c) + d * (b * f - e * c))).
  assert (P := H x1 x2 x3 m ltac:(intros (_ & _ & _ & ?); lra)).
  replace (form4 a b c d e f g h i j x1 x2 x3 m) with (m * min4 a b c d e f g h i j) in P by (unfold form4, form3, min4, x1, x2, x3, m, min3; ring).
  apply (Rmult_lt_reg_l m); [exact M|lra].
Qed.
(** a polynomial positive to the right of zero is not negative at zero *)
Lemma right_limit c0 c1 c2 c3 c4 : (forall t, 0 < t -> 0 < c0 + c1 * t + c2 * t ^ 2 + c3 * t ^ 3 + c4 * t ^ 4) -> 0 <= c0.
Proof.
  intros H. destruct (Rle_lt_dec 0 c0) as [L|L]; [exact L|exfalso].
  set (K := Rabs c1 + Rabs c2 + Rabs c3 + Rabs c4 + 1). assert (K1 : 1 <= K). { unfold K. assert (A := Rabs_pos c1). assert (B := Rabs_pos c2). assert (C := Rabs_pos c3). assert (D := Rabs_pos c4). lra. }
  set (t := Rmin 1 (- c0 / K)). assert (T0 : 0 < t). { unfold t. apply Rmin_glb_lt; [lra|]. apply Rdiv_lt_0_compat; lra. }
  assert (T1 : t <= 1) by apply Rmin_l. assert (T2 : K * t <= - c0). { apply Rle_trans with (K * (- c0 / K)); [apply Rmult_le_compat_l; [lra|apply Rmin_r]|]. right. field. lra. }
  assert (P := H t T0). assert (Q : forall c n, (1 <= n)%nat -> c * t ^ n <= Rabs c * t).
  { intros c n Hn. destruct n as [|n]; [inversion Hn|]. cbn [pow]. assert (0 <= t ^ n <= 1). { split; [apply pow_le; lra|]. assert (Z := pow_incr t 1 n ltac:(lra)). rewrite pow1 in Z. exact Z. }
    assert (A := Rle_abs c). assert (B := Rabs_pos c). apply Rle_trans with (Rabs c * (t * t ^ n)); [apply Rmult_le_compat_r; [apply Rmult_le_pos; lra|exact A]|]. apply Rmult_le_compat_l; [exact B|]. nra. }
  assert (Q1 := Q c1 1%nat ltac:(auto)). assert (Q2 := Q c2 2%nat ltac:(auto)). assert (Q3 := Q c3 3%nat ltac:(auto)). assert (Q4' := Q c4 4%nat ltac:(auto)). rewrite pow_1 in Q1. unfold K in T2. lra.
Qed.
Lemma psd3 a b c e f h : (forall x y z, 0 <= form3 a b c e f h x y z) -> 0 <= a /\ 0 <= min2 a b e /\ 0 <= min3 a b c e f h.
Proof.
  intros H. assert (P : forall t, 0 < t -> 0 < a + t /\ 0 < min2 (a + t) b (e + t) /\ 0 < min3 (a + t) b c (e + t) f (h + t)).
  { intros t T. apply pd3. intros x y z N. assert (Q := H x y z). assert (S : 0 < x * x + y * y + z * z).
    { destruct (Req_dec x 0) as [->|X]; [|nra]. destruct (Req_dec y 0) as [->|Y]; [|nra]. destruct (Req_dec z 0) as [->|Z]; [|nra]. exfalso; tauto. }
    replace (form3 (a + t) b c (e + t) f (h + t) x y z) with (form3 a b c e f h x y z + t * (x * x + y * y + z * z)) by (unfold form3; ring). nra. }
  split; [|split].
  - apply (right_limit a 1 0 0 0). intros t T. assert (Q := proj1 (P t T)). lra.
  - apply (right_limit _ (a + e) 1 0 0). intros t T. assert (Q := proj1 (proj2 (P t T))). unfold min2 in *. lra.
  - apply (right_limit _ (min2 a b e + min2 a c h + min2 e f h) (a + e + h) 1 0). intros t T. assert (Q := proj2 (proj2 (P t T))).
    replace (min3 (a + t) b c (e + t) f (h + t)) with (min3 a b c e f h + (min2 a b e + min2 a c h + min2 e f h) * t + (a + e + h) * t ^ 2 + 1 * t ^ 3 + 0 * t ^ 4) in Q by (unfold min3, min2; ring). exact Q.
Qed.
(** sums of the principal minors *)
Definition sum1 (a e h j : R) : R := a + e + h + j.
Definition sum2 (a b c d e f g h i j : R) : R := min2 a b e + min2 a c h + min2 a d j + min2 e f h + min2 e g j + min2 h i j.
Definition sum3 (a b c d e f g h i j : R) : R := min3 a b c e f h + min3 a b d e g j + min3 a c d h i j + min3 e f g h i j.
Lemma min4_shift a b c d e f g h i j t : min4 (a + t) b c d (e + t) f g (h + t) i (j + t) =
  min4 a b c d e f g h i j + sum3 a b c d e f g h i j * t + sum2 a b c d e f g h i j * t ^ 2 + sum1 a e h j * t ^ 3 + 1 * t ^ 4.
Proof. unfold min4, sum3, sum2, sum1, min3, min2. ring. Qed.
Lemma norm_pos x y z w : ~ (x = 0 /\ y = 0 /\ z = 0 /\ w = 0) -> 0 < x * x + y * y + z * z + w * w.
Proof.
  intros N. destruct (Req_dec x 0) as [->|X]; [|nra]. destruct (Req_dec y 0) as [->|Y]; [|nra]. destruct (Req_dec z 0) as [->|Z]; [|nra]. destruct (Req_dec w 0) as [->|W]; [|nra]. exfalso; tauto.
Qed.
Lemma psd4 a b c d e f g h i j : (forall x y z w, 0 <= form4 a b c d e f g h i j x y z w) ->
  0 <= sum1 a e h j /\ 0 <= sum2 a b c d e f g h i j /\ 0 <= sum3 a b c d e f g h i j /\ 0 <= min4 a b c d e f g h i j.
Proof.
  intros H.
  assert (A : 0 <= a /\ 0 <= min2 a b e /\ 0 <= min3 a b c e f h). { apply psd3. intros x y z. assert (P := H x y z 0). unfold form4 in P. lra. }
  assert (B : 0 <= a /\ 0 <= min2 a d j /\ 0 <= min3 a d b j g e). { apply psd3. intros x y z. assert (P := H x z 0 y). unfold form4, form3 in P. unfold form3. lra. }
  assert (C : 0 <= h /\ 0 <= min2 h c a /\ 0 <= min3 h c i a d j). { apply psd3. intros x y z. assert (P := H y 0 x z). unfold form4, form3 in P. unfold form3. lra. }
  assert (D : 0 <= j /\ 0 <= min2 j i h /\ 0 <= min3 j i g h f e). { apply psd3. intros x y z. assert (P := H 0 z y x). unfold form4, form3 in P. unfold form3. lra. }
  assert (E : 0 <= e /\ 0 <= min2 e f h /\ 0 <= min3 e f g h i j). { apply psd3. intros x y z. assert (P := H 0 x y z). unfold form4, form3 in P. unfold form3. lra. }
  assert (F : 0 <= e /\ 0 <= min2 e g j /\ 0 <= min3 e g f j i h). { apply psd3. intros x y z. assert (P := H 0 x z y). unfold form4, form3 in P. unfold form3. lra. }
  split; [unfold sum1; lra|]. split; [unfold sum2, min2 in *; lra|]. split; [unfold sum3, min3 in *; lra|].
  apply (right_limit _ (sum3 a b c d e f g h i j) (sum2 a b c d e f g h i j) (sum1 a e h j) 1). intros t T. rewrite <- min4_shift. apply pd4. intros x y z w N.
  replace (form4 (a + t) b c d (e + t) f g (h + t) i (j + t) x y z w) with (form4 a b c d e f g h i j x y z w + t * (x * x + y * y + z * z + w * w)) by (unfold form4, form3; ring).
  assert (P := H x y z w). assert (Q := norm_pos _ _ _ _ N). nra.
Qed.
(** a matrix that annihilates the unit vector v and is at least m on the rest *)
Lemma kernel_min3 a b c d e f g h i j x y z w : w <> 0 -> x * x + y * y + z * z + w * w = 1 ->
  a * x + b * y + c * z + d * w = 0 -> b * x + e * y + f * z + g * w = 0 -> c * x + f * y + h * z + i * w = 0 -> d * x + g * y + i * z + j * w = 0 ->
  min3 a b c e f h = sum3 a b c d e f g h i j * w ^ 2 /\ forall m, min4 (a + m * x * x) (b + m * x * y) (c + m * x * z) (d + m * x * w) (e + m * y * y) (f + m * y * z) (g + m * y * w) (h + m * z * z) (i + m * z * w) (j + m * w * w) = m * sum3 a b c d e f g h i j.
Proof.
  intros Hw U E1 E2 E3 E4.
  assert (D1 : d = - (a * x + b * y + c * z) / w) by (field_simplify_eq; [lra|exact Hw]).
  assert (G1 : g = - (b * x + e * y + f * z) / w) by (field_simplify_eq; [lra|exact Hw]).
  assert (I1 : i = - (c * x + f * y + h * z) / w) by (field_simplify_eq; [lra|exact Hw]).
  assert (J1 : j = (a * x * x + e * y * y + h * z * z + 2 * b * x * y + 2 * c * x * z + 2 * f * y * z) / w ^ 2).
  { assert (j = - (d * x + g * y + i * z) / w) as -> by (field_simplify_eq; [lra|exact Hw]). rewrite D1, G1, I1. field. exact Hw. }
  assert (S3 : sum3 a b c d e f g h i j * w ^ 2 = min3 a b c e f h * (x * x + y * y + z * z + w * w)).
  { rewrite D1, G1, I1, J1. unfold sum3, min3. field. exact Hw. }
  rewrite U, Rmult_1_r in S3. split; [symmetry; exact S3|]. intros m.
  assert (DT : min4 (a + m * x * x) (b + m * x * y) (c + m * x * z) (d + m * x * w) (e + m * y * y) (f + m * y * z) (g + m * y * w) (h + m * z * z) (i + m * z * w) (j + m * w * w) * w ^ 2 = m * min3 a b c e f h * (x * x + y * y + z * z + w * w) ^ 2).
  { rewrite D1, G1, I1, J1. unfold min4, min3. field. exact Hw. }
  rewrite U, <- S3 in DT. apply (Rmult_eq_reg_r (w ^ 2)); [rewrite DT; ring|apply pow_nonzero, Hw].
Qed.
Lemma gap_sum3 a b c d e f g h i j x y z w m : 0 < m -> w <> 0 -> x * x + y * y + z * z + w * w = 1 ->
  a * x + b * y + c * z + d * w = 0 -> b * x + e * y + f * z + g * w = 0 -> c * x + f * y + h * z + i * w = 0 -> d * x + g * y + i * z + j * w = 0 ->
  (forall p q r s, m * (p * p + q * q + r * r + s * s - (x * p + y * q + z * r + w * s) ^ 2) <= form4 a b c d e f g h i j p q r s) -> m ^ 3 <= sum3 a b c d e f g h i j.
Proof.
  intros Hm Hw U E1 E2 E3 E4 H. destruct (kernel_min3 a b c d e f g h i j x y z w Hw U E1 E2 E3 E4) as [_ DT]. specialize (DT m).
  destruct (psd4 (a + m * x * x - m) (b + m * x * y) (c + m * x * z) (d + m * x * w) (e + m * y * y - m) (f + m * y * z) (g + m * y * w) (h + m * z * z - m) (i + m * z * w) (j + m * w * w - m)) as (P1 & P2 & P3 & P4).
  { intros p q r s. assert (Q := H p q r s). unfold form4, form3 in *. lra. }
  assert (M := min4_shift (a + m * x * x - m) (b + m * x * y) (c + m * x * z) (d + m * x * w) (e + m * y * y - m) (f + m * y * z) (g + m * y * w) (h + m * z * z - m) (i + m * z * w) (j + m * w * w - m) m).
  replace (a + m * x * x - m + m) with (a + m * x * x) in M by ring. replace (e + m * y * y - m + m) with (e + m * y * y) in M by ring. replace (h + m * z * z - m + m) with (h + m * z * z) in M by ring. replace (j + m * w * w - m + m) with (j + m * w * w) in M by ring.
  rewrite M in DT.
  set (s1 := sum1 _ _ _ _) in *. set (s2 := sum2 _ _ _ _ _ _ _ _ _ _) in *. set (s3 := sum3 (a + m * x * x - m) _ _ _ _ _ _ _ _ _) in *. set (s4 := min4 _ _ _ _ _ _ _ _ _ _) in *. set (s := sum3 a b c d e f g h i j) in *.
  clearbody s1 s2 s3 s4 s. assert (0 <= s3 * m) by (apply Rmult_le_pos; lra). assert (0 <= s2 * m ^ 2) by (apply Rmult_le_pos; [lra|apply pow_le; lra]). assert (0 <= s1 * m ^ 3) by (apply Rmult_le_pos; [lra|apply pow_le; lra]).
  apply (Rmult_le_reg_l m); [exact Hm|]. replace (m * m ^ 3) with (m ^ 4) by ring. lra.
Qed.

(** ** the entries of W *)
Definition SM (a b c d e f g h i j : R) : m4 := mkm4 (mkq a b c d) (mkq b e f g) (mkq c f h i) (mkq d g i j).
Lemma W_entries (Hx Hy Hz : v3) : exists a b c d e f g h i j, flae_W Hx Hy Hz = SM a b c d e f g h i j /\
  forall L, sum1 (L - a) (L - e) (L - h) (L - j) = 4 * L /\ sum2 (L - a) (- b) (- c) (- d) (L - e) (- f) (- g) (L - h) (- i) (L - j) = 6 * L ^ 2 + tau1 Hx Hy Hz /\
  sum3 (L - a) (- b) (- c) (- d) (L - e) (- f) (- g) (L - h) (- i) (L - j) = quartic' (tau1 Hx Hy Hz) (tau2 Hx Hy Hz) L /\
  min4 (L - a) (- b) (- c) (- d) (L - e) (- f) (- g) (L - h) (- i) (L - j) = quartic (tau1 Hx Hy Hz) (tau2 Hx Hy Hz) (tau3 Hx Hy Hz) L.
Proof.
  do 10 eexists. split; [reflexivity|]. intros L. rewrite <- charpoly. destruct Hx as [a1 a2 a3], Hy as [b1 b2 b3], Hz as [c1 c2 c3].
  unfold sum1, sum2, sum3, min4, min3, min2, quartic', tau1, tau2. m4unfold. vunfoldg. rnumg. repeat split; ring.
Qed.
Lemma form_SM a b c d e f g h i j p x : form (shift (SM a b c d e f g h i j) p) x = - form4 (p - a) (- b) (- c) (- d) (p - e) (- f) (- g) (p - h) (- i) (p - j) (qw x) (qx x) (qy x) (qz x).
Proof. destruct x as [x y z w]. unfold form, SM, form4, form3. m4unfold. vunfoldg. rnumg. ring. Qed.

(** ** Newton's iteration from the right of the largest root *)
Section Newton.
Context (L e1 e2 e3 : R) (F F' : R -> R).
Context (H1 : 0 <= e1) (H2 : 0 <= e2) (H3 : 0 <= e3).
Context (HF : forall t, F (L + t) = t * (t ^ 3 + e1 * t ^ 2 + e2 * t + e3)) (HF' : forall t, F' (L + t) = 4 * t ^ 3 + 3 * e1 * t ^ 2 + 2 * e2 * t + e3).
Lemma step_bounds t : 0 < t -> 0 < F (L + t) /\ 0 < F' (L + t) /\ exists t', L + t - F (L + t) / F' (L + t) = L + t' /\ 0 <= t' < t /\ t <= 4 * (t - t') /\ e3 * t' <= t ^ 2 * (3 * t ^ 2 + 2 * e1 * t + e2).
Proof.
  intros T. assert (A1 : 0 <= e1 * t ^ 2) by (apply Rmult_le_pos; [lra|apply pow_le; lra]). assert (A2 : 0 <= e2 * t) by nra. assert (A3 : 0 < t ^ 3) by (apply pow_lt, T).
  assert (P : 0 < F (L + t)) by (rewrite HF; apply Rmult_lt_0_compat; lra). assert (Q : 0 < F' (L + t)) by (rewrite HF'; lra). split; [exact P|]. split; [exact Q|].
  exists (t - F (L + t) / F' (L + t)). split; [ring|]. set (s := F (L + t) / F' (L + t)). assert (S0 : 0 < s) by (apply Rdiv_lt_0_compat; assumption).
  assert (SE : s * F' (L + t) = F (L + t)) by (unfold s; field; lra). rewrite HF, HF' in SE.
  assert (S1 : s <= t). { apply (Rmult_le_reg_r (4 * t ^ 3 + 3 * e1 * t ^ 2 + 2 * e2 * t + e3)); [lra|]. rewrite SE. apply Rmult_le_compat_l; lra. }
  split; [lra|]. split.
  - assert (t <= 4 * s); [|lra]. apply (Rmult_le_reg_r (4 * t ^ 3 + 3 * e1 * t ^ 2 + 2 * e2 * t + e3)); [lra|]. replace (4 * s * (4 * t ^ 3 + 3 * e1 * t ^ 2 + 2 * e2 * t + e3)) with (4 * (s * (4 * t ^ 3 + 3 * e1 * t ^ 2 + 2 * e2 * t + e3))) by ring. rewrite SE. replace (4 * (t * (t ^ 3 + e1 * t ^ 2 + e2 * t + e3))) with (t * (4 * t ^ 3 + 4 * (e1 * t ^ 2) + 4 * (e2 * t) + 4 * e3)) by ring. apply Rmult_le_compat_l; lra.
  - set (D := 4 * t ^ 3 + 3 * e1 * t ^ 2 + 2 * e2 * t + e3) in *. assert (E : (t - s) * D = t ^ 2 * (3 * t ^ 2 + 2 * e1 * t + e2)). { rewrite Rmult_minus_distr_r, SE. unfold D. ring. }
    rewrite <- E, (Rmult_comm e3). apply Rmult_le_compat_l; [lra|]. unfold D. lra.
Qed.
Context (rt tl : R) (Hrt : 0 <= rt) (Htl : 0 <= tl) (HL : 0 <= L).
Definition accepted (t' : R) : Prop := t' = 0 \/ exists t, 0 < t /\ L + t <= 1 /\ 0 <= t' < t /\ t <= 4 * (t - t') /\ e3 * t' <= t ^ 2 * (3 * t ^ 2 + 2 * e1 * t + e2) /\ t - t' <= tl + rt.
Lemma newton_result n : forall t p, 0 <= t -> L + t <= 1 -> newton F F' rt tl n (L + t) = Ok p -> exists t', p = L + t' /\ 0 <= t' <= t /\ accepted t'.
Proof.
  induction n as [|n IH]; intros t p T0 T1 H; [discriminate|]. revert H. cbn [newton]. rnumg. destruct (Reqb_spec (F (L + t)) 0) as [Z|Z]; intros H.
  - injection H as <-. exists t. destruct T0 as [T0| <-]; [destruct (step_bounds t T0) as (P & _); lra|]. split; [reflexivity|]. split; [lra|]. left. reflexivity.
  - destruct T0 as [T0| <-]; [|exfalso; apply Z; rewrite HF; ring]. destruct (step_bounds t T0) as (_ & Q & t' & E & B & C & D). destruct (Reqb_spec (F' (L + t)) 0) as [Z'|Z']; [lra|]. rewrite E in H.
    destruct (Rleb_spec (Rabs (L + t' - (L + t))) (tl + rt * Rabs (L + t))) as [A|A].
    + injection H as <-. exists t'. split; [reflexivity|]. split; [lra|]. right. exists t. split; [exact T0|]. split; [exact T1|]. split; [exact B|]. split; [exact C|]. split; [exact D|].
      replace (L + t' - (L + t)) with (- (t - t')) in A by ring. rewrite Rabs_Ropp, !Rabs_pos_eq in A by lra. nra.
    + destruct (IH t' p ltac:(lra) ltac:(lra) H) as (t2 & E2 & B2 & A2). exists t2. split; [exact E2|]. split; [lra|exact A2].
Qed.
(** the only failure is to run out of steps *)
Lemma newton_raises n : forall t x, 0 <= t -> L + t <= 1 -> newton F F' rt tl n (L + t) = Raise x -> exists t', 0 <= t' <= t /\ newton F F' rt tl n (L + t) = newton F F' rt tl 0 (L + t').
Proof.
  induction n as [|n IH]; intros t x T0 T1 H; [exists t; split; [lra|reflexivity]|]. revert H. cbn [newton]. rnumg. destruct (Reqb_spec (F (L + t)) 0) as [Z|Z]; intros H; [discriminate|].
  destruct T0 as [T0| <-]; [|exfalso; apply Z; rewrite HF; ring]. destruct (step_bounds t T0) as (_ & Q & t' & E & B & C & D). destruct (Reqb_spec (F' (L + t)) 0) as [Z'|Z']; [lra|]. rewrite E in H |- *.
  destruct (Rleb _ _); [discriminate|]. destruct (IH t' x ltac:(lra) ltac:(lra) H) as (t2 & B2 & E2). exists t2. split; [lra|exact E2].
Qed.
Lemma newton_next n t : 0 <= t -> L + t <= 1 -> (exists p, newton F F' rt tl (S n) (L + t) = Ok p) \/
  exists t', newton F F' rt tl (S n) (L + t) = newton F F' rt tl n (L + t') /\ 0 <= t' < t /\ e3 * t' <= t ^ 2 * (3 * t ^ 2 + 2 * e1 * t + e2) /\ tl + rt * (L + t) < t - t'.
Proof.
  intros T0 T1. cbn [newton]. rnumg. destruct (Reqb_spec (F (L + t)) 0) as [Z|Z]; [left; eexists; reflexivity|].
  destruct T0 as [T0| <-]; [|exfalso; apply Z; rewrite HF; ring]. destruct (step_bounds t T0) as (_ & Q & t' & E & B & C & D). destruct (Reqb_spec (F' (L + t)) 0) as [Z'|Z']; [lra|]. rewrite E.
  destruct (Rleb_spec (Rabs (L + t' - (L + t))) (tl + rt * Rabs (L + t))) as [A|A]; [left; eexists; reflexivity|].
  right. exists t'. split; [reflexivity|]. split; [exact B|]. split; [exact D|]. replace (L + t' - (L + t)) with (- (t - t')) in A by ring. rewrite Rabs_Ropp, !Rabs_pos_eq in A by lra. lra.
Qed.
End Newton.
Lemma newton_four L e1 e2 e3 F F' g t : 0 <= e1 <= 4 -> 0 <= e2 <= 6 -> 0 < g <= 2 -> g ^ 3 <= e3 -> 0 <= L -> 0 <= t -> L + t = 1 -> 40 * t <= g ^ 3 ->
  (forall t, F (L + t) = t * (t ^ 3 + e1 * t ^ 2 + e2 * t + e3)) -> (forall t, F' (L + t) = 4 * t ^ 3 + 3 * e1 * t ^ 2 + 2 * e2 * t + e3) ->
  exists p, newton F F' (1 / 100000) (148 / 10000000000) 4 (L + t) = Ok p.
Proof.
  intros [A1 A1'] [A2 A2'] [G0 G2] G3 HL T0 T1 TG HF HF'. assert (G3p : 0 < g ^ 3) by (apply pow_lt, G0). assert (G38 : g ^ 3 <= 8). { assert (Q := pow_incr g 2 3 ltac:(lra)). lra. }
  assert (E30 : 0 <= e3) by lra. set (k := g ^ 3) in *. clearbody k.
  assert (NX := newton_next L e1 e2 e3 F F' A1 A2 E30 HF HF' (1 / 100000) (148 / 10000000000) HL).
  assert (SQ : forall u u' c c', 0 <= u -> u <= 1 / 5 -> 0 <= u' -> u <= c * k -> 0 <= c -> 193 / 25 * c ^ 2 <= c' -> e3 * u' <= u ^ 2 * (3 * u ^ 2 + 2 * e1 * u + e2) -> u' <= c' * k).
  { intros u u' c c' U0 U1 U0' UC C0 CC H. apply (Rmult_le_reg_l k); [exact G3p|]. apply Rle_trans with (e3 * u'); [apply Rmult_le_compat_r; assumption|]. apply (Rle_trans _ _ _ H).
    apply Rle_trans with (u ^ 2 * (193 / 25)). { apply Rmult_le_compat_l; [apply pow2_ge_0|]. nra. }
    apply Rle_trans with ((c * k) ^ 2 * (193 / 25)). { apply Rmult_le_compat_r; [lra|]. apply pow_incr. lra. }
    replace ((c * k) ^ 2 * (193 / 25)) with (193 / 25 * c ^ 2 * (k * k)) by ring. replace (k * (c' * k)) with (c' * (k * k)) by ring. apply Rmult_le_compat_r; [nra|exact CC]. }
  destruct (NX 3%nat t T0 ltac:(lra)) as [H|(t1 & E1 & B1 & C1 & D1)]; [exact H|]. rewrite E1. assert (K1 := SQ t t1 (1 / 40) (483 / 100000) ltac:(lra) ltac:(lra) ltac:(lra) ltac:(lra) ltac:(lra) ltac:(lra) C1).
  destruct (NX 2%nat t1 ltac:(lra) ltac:(lra)) as [H|(t2 & E2 & B2 & C2 & D2)]; [exact H|]. rewrite E2. assert (K2 := SQ t1 t2 (483 / 100000) (181 / 1000000) ltac:(lra) ltac:(lra) ltac:(lra) ltac:(lra) ltac:(lra) ltac:(lra) C2).
  destruct (NX 1%nat t2 ltac:(lra) ltac:(lra)) as [H|(t3 & E3 & B3 & C3 & D3)]; [exact H|]. rewrite E3. assert (K3 := SQ t2 t3 (181 / 1000000) (254 / 1000000000) ltac:(lra) ltac:(lra) ltac:(lra) ltac:(lra) ltac:(lra) ltac:(lra) C3).
  destruct (NX 0%nat t3 ltac:(lra) ltac:(lra)) as [H|(t4 & E4 & B4 & C4 & D4)]; [exact H|]. exfalso. nra.
Qed.
Lemma accepted_small L e1 e2 e3 g t' : 0 <= e1 <= 4 -> 0 <= e2 <= 6 -> 0 < g -> g ^ 3 <= e3 -> accepted L e1 e2 e3 (1 / 100000) (148 / 10000000000) t' -> 0 <= t' -> g ^ 3 * t' <= 1 / 100000000.
Proof.
  intros A1 A2 G0 G3 [-> |(t & T0 & _ & B & C & D & E)] T'; [rewrite Rmult_0_r; lra|]. apply Rle_trans with (e3 * t'); [apply Rmult_le_compat_r; lra|]. apply (Rle_trans _ _ _ D).
  assert (T : t <= 401 / 10000000) by lra. apply Rle_trans with ((401 / 10000000) ^ 2 * (60004 / 10000)); [|lra]. apply Rmult_le_compat; [apply pow2_ge_0|nra|apply pow_incr; lra|nra].
Qed.
Lemma accepted_coarse L e1 e2 e3 t' : accepted L e1 e2 e3 (1 / 100000) (148 / 10000000000) t' -> 0 <= t' <= 30045 / 1000000000.
Proof. intros [-> |(t & T0 & _ & B & C & D & E)]; lra. Qed.

