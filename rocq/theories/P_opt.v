(** * A quadratic form in four variables attains its maximum on the unit sphere *)
From Coq Require Import Reals Lra Psatz Classical.
From Verif Require Import Num Vec M_quaternion M_att S_rot S_wahba P_quat P_flae P_wahba P_wahba2.
Local Open Scope R_scope.

Lemma low_step (Y : Type) (N G l : Y -> R) m L e : 0 < m -> 0 <= L -> 0 < e -> (forall y, 0 <= N y) -> (forall y, l y * l y <= L * N y) -> (forall y, e * N y <= G y) ->
  exists k, 0 < k /\ forall x y, k * (x * x + N y) <= m * (x + l y) ^ 2 + G y.
Proof.
  intros M HL E NP LL LG. set (k := Rmin (m / 2) (e / (2 * L + 1))). assert (K0 : 0 < k) by (unfold k; apply Rmin_glb_lt; [lra|apply Rdiv_lt_0_compat; lra]). exists k. split; [exact K0|]. intros x y.
  assert (K1 : k <= m / 2) by apply Rmin_l. assert (K2 : k * (2 * L + 1) <= e). { apply Rle_trans with (e / (2 * L + 1) * (2 * L + 1)); [apply Rmult_le_compat_r; [lra|apply Rmin_r]|right; field; lra]. }
  assert (A := LL y). assert (B := LG y). assert (C := NP y). set (s := x + l y). assert (X : x * x <= 2 * s ^ 2 + 2 * (L * N y)). { assert (0 <= (s + l y) ^ 2) by apply pow2_ge_0. replace x with (s - l y) by (unfold s; ring). nra. }
  assert (0 <= s ^ 2) by apply pow2_ge_0. apply Rle_trans with (k * (2 * s ^ 2 + (2 * L + 1) * N y)); [apply Rmult_le_compat_l; lra|].
  assert (k * s ^ 2 <= m / 2 * s ^ 2) by (apply Rmult_le_compat_r; assumption). assert (k * (2 * L + 1) * N y <= e * N y) by (apply Rmult_le_compat_r; assumption). lra.
Qed.
Lemma low2 h i j : (forall z w, ~ (z = 0 /\ w = 0) -> 0 < h * z * z + 2 * i * z * w + j * w * w) -> exists k, 0 < k /\ forall z w, k * (z * z + w * w) <= h * z * z + 2 * i * z * w + j * w * w.
Proof.
  intros P. assert (H0 : 0 < h) by (assert (Q := P 1 0 ltac:(lra)); lra). set (j' := j - i * i / h). assert (J0 : 0 < j') by (assert (Q := P (- i / h) 1 ltac:(lra)); unfold j'; replace (j - i * i / h) with (h * (- i / h) * (- i / h) + 2 * i * (- i / h) * 1 + j * 1 * 1) by (field; lra); exact Q).
  destruct (low_step R (fun w => w * w) (fun w => j' * (w * w)) (fun w => i / h * w) h ((i / h) * (i / h)) j') as (k & K & B); try assumption; intros; try (cbv beta; nra). exists k. split; [exact K|]. intros z w. assert (Q := B z w). cbv beta in Q. replace (h * z * z + 2 * i * z * w + j * w * w) with (h * (z + i / h * w) ^ 2 + j' * (w * w)) by (unfold j'; field; lra). exact Q.
Qed.
Lemma low3 e f g h i j : (forall y z w, ~ (y = 0 /\ z = 0 /\ w = 0) -> 0 < form3 e f g h i j y z w) -> exists k, 0 < k /\ forall y z w, k * (y * y + (z * z + w * w)) <= form3 e f g h i j y z w.
Proof.
  intros P. assert (E0 : 0 < e) by (assert (Q := P 1 0 0 ltac:(lra)); unfold form3 in Q; lra). set (h' := h - f * f / e). set (i' := i - f * g / e). set (j' := j - g * g / e).
  assert (SP : forall y z w, form3 e f g h i j y z w = e * (y + (f * z + g * w) / e) ^ 2 + (h' * z * z + 2 * i' * z * w + j' * w * w)) by (intros; unfold form3, h', i', j'; field; lra).
  destruct (low2 h' i' j') as (k & K & B).
  { intros z w N. assert (Q := P (- (f * z + g * w) / e) z w ltac:(lra)). rewrite SP in Q. replace (- (f * z + g * w) / e + (f * z + g * w) / e) with 0 in Q by (field; lra). lra. }
  destruct (low_step (R * R) (fun v => fst v * fst v + snd v * snd v) (fun v => h' * fst v * fst v + 2 * i' * fst v * snd v + j' * snd v * snd v) (fun v => (f * fst v + g * snd v) / e) e (2 * (f * f + g * g) / (e * e)) k) as (k' & K' & B'); try assumption.
  - apply Rmult_le_pos; [nra|left; apply Rinv_0_lt_compat; nra].
  - intros [z w]. cbn [fst snd]. nra.
  - intros [z w]. cbn [fst snd]. replace ((f * z + g * w) / e * ((f * z + g * w) / e)) with ((f * z + g * w) ^ 2 * / (e * e)) by (field; lra). replace (2 * (f * f + g * g) / (e * e) * (z * z + w * w)) with ((2 * (f * f + g * g) * (z * z + w * w)) * / (e * e)) by (field; lra). apply Rmult_le_compat_r; [left; apply Rinv_0_lt_compat; nra|]. assert (0 <= (f * z - g * w) ^ 2) by apply pow2_ge_0. assert (0 <= (f * w) ^ 2) by apply pow2_ge_0. assert (0 <= (g * z) ^ 2) by apply pow2_ge_0. nra.
  - intros [z w]. cbn [fst snd]. apply B.
  - exists k'. split; [exact K'|]. intros y z w. rewrite SP. apply (B' y (z, w)).
Qed.
Lemma low4 a b c d e f g h i j : (forall x y z w, ~ (x = 0 /\ y = 0 /\ z = 0 /\ w = 0) -> 0 < form4 a b c d e f g h i j x y z w) ->
  exists k, 0 < k /\ forall x y z w, k * (x * x + (y * y + (z * z + w * w))) <= form4 a b c d e f g h i j x y z w.
Proof.
  intros P. assert (A0 : 0 < a) by (assert (Q := P 1 0 0 0 ltac:(lra)); unfold form4, form3 in Q; lra).
  set (e' := e - b * b / a). set (f' := f - b * c / a). set (g' := g - b * d / a). set (h' := h - c * c / a). set (i' := i - c * d / a). set (j' := j - d * d / a).
  assert (SP : forall x y z w, form4 a b c d e f g h i j x y z w = a * (x + (b * y + c * z + d * w) / a) ^ 2 + form3 e' f' g' h' i' j' y z w) by (intros; unfold form4, form3, e', f', g', h', i', j'; field; lra).
  destruct (low3 e' f' g' h' i' j') as (k & K & B).
  { intros y z w N. assert (Q := P (- (b * y + c * z + d * w) / a) y z w ltac:(lra)). rewrite SP in Q. replace (- (b * y + c * z + d * w) / a + (b * y + c * z + d * w) / a) with 0 in Q by (field; lra). lra. }
  destruct (low_step (R * R * R) (fun v => fst (fst v) * fst (fst v) + (snd (fst v) * snd (fst v) + snd v * snd v)) (fun v => form3 e' f' g' h' i' j' (fst (fst v)) (snd (fst v)) (snd v)) (fun v => (b * fst (fst v) + c * snd (fst v) + d * snd v) / a) a (3 * (b * b + c * c + d * d) / (a * a)) k) as (k' & K' & B'); try assumption.
  - apply Rmult_le_pos; [nra|left; apply Rinv_0_lt_compat; nra].
  - intros [[y z] w]. cbn [fst snd]. nra.
  - intros [[y z] w]. cbn [fst snd]. replace ((b * y + c * z + d * w) / a * ((b * y + c * z + d * w) / a)) with ((b * y + c * z + d * w) ^ 2 * / (a * a)) by (field; lra). replace (3 * (b * b + c * c + d * d) / (a * a) * (y * y + (z * z + w * w))) with ((3 * (b * b + c * c + d * d) * (y * y + (z * z + w * w))) * / (a * a)) by (field; lra). apply Rmult_le_compat_r; [left; apply Rinv_0_lt_compat; nra|].
    set (by' := b * y). set (cz := c * z). set (dw := d * w). assert (0 <= (by' - cz) ^ 2) by apply pow2_ge_0. assert (0 <= (by' - dw) ^ 2) by apply pow2_ge_0. assert (0 <= (cz - dw) ^ 2) by apply pow2_ge_0.
    assert (0 <= (b * z) ^ 2 + (b * w) ^ 2 + (c * y) ^ 2 + (c * w) ^ 2 + (d * y) ^ 2 + (d * z) ^ 2) by (repeat apply Rplus_le_le_0_compat; apply pow2_ge_0). replace (3 * (b * b + c * c + d * d) * (y * y + (z * z + w * w))) with (3 * (by' ^ 2 + cz ^ 2 + dw ^ 2) + 3 * ((b * z) ^ 2 + (b * w) ^ 2 + (c * y) ^ 2 + (c * w) ^ 2 + (d * y) ^ 2 + (d * z) ^ 2)) by (unfold by', cz, dw; ring). nra.
  - intros [[y z] w]. cbn [fst snd]. apply B.
  - exists k'. split; [exact K'|]. intros x y z w. rewrite SP. apply (B' x (y, z, w)).
Qed.
Lemma attained a b c d e f g h i j : exists x y z w, ~ (x = 0 /\ y = 0 /\ z = 0 /\ w = 0) /\ exists p, form4 a b c d e f g h i j x y z w = p * (x * x + y * y + z * z + w * w) /\
  forall x' y' z' w', form4 a b c d e f g h i j x' y' z' w' <= p * (x' * x' + y' * y' + z' * z' + w' * w').
Proof.
  set (F := form4 a b c d e f g h i j). set (E := fun p => forall x y z w, F x y z w <= - p * (x * x + y * y + z * z + w * w)).
  assert (BD : bound E). { exists (- a). intros p Hp. assert (Q := Hp 1 0 0 0). unfold F, form4, form3 in Q. lra. }
  set (M := Rabs a + Rabs b + Rabs c + Rabs d + Rabs e + Rabs f + Rabs g + Rabs h + Rabs i + Rabs j).
  assert (NE : exists p, E p).
  { exists (- M). intros x y z w. rewrite Ropp_involutive. set (n := x * x + y * y + z * z + w * w).
    assert (T : forall k u v, u * u <= n -> v * v <= n -> k * u * v <= Rabs k * n). { intros k u v U V. assert (Rabs (u * v) <= n). { assert (0 <= (u - v) ^ 2) by apply pow2_ge_0. assert (0 <= (u + v) ^ 2) by apply pow2_ge_0. apply Rabs_le. split; nra. } apply Rle_trans with (Rabs (k * u * v)); [apply Rle_abs|]. rewrite Rmult_assoc, Rabs_mult. apply Rmult_le_compat_l; [apply Rabs_pos|assumption]. }
    assert (X : x * x <= n) by (unfold n; nra). assert (Y : y * y <= n) by (unfold n; nra). assert (Z : z * z <= n) by (unfold n; nra). assert (W : w * w <= n) by (unfold n; nra).
    assert (T2 : forall k u v, u * u + v * v <= n -> 2 * k * u * v <= Rabs k * n). { intros k u v U. assert (Rabs (2 * (u * v)) <= n). { assert (0 <= (u - v) ^ 2) by apply pow2_ge_0. assert (0 <= (u + v) ^ 2) by apply pow2_ge_0. apply Rabs_le. split; nra. } apply Rle_trans with (Rabs (k * (2 * (u * v)))); [replace (2 * k * u * v) with (k * (2 * (u * v))) by ring; apply Rle_abs|]. rewrite Rabs_mult. apply Rmult_le_compat_l; [apply Rabs_pos|assumption]. }
    unfold F, form4, form3, M. assert (A1 := T a x x X X). assert (A2 := T e y y Y Y). assert (A3 := T h z z Z Z). assert (A4 := T j w w W W).
    assert (B1 := T2 b x y ltac:(unfold n; nra)). assert (B2 := T2 c x z ltac:(unfold n; nra)). assert (B3 := T2 f y z ltac:(unfold n; nra)). assert (B4 := T2 d x w ltac:(unfold n; nra)). assert (B5 := T2 g y w ltac:(unfold n; nra)). assert (B6 := T2 i z w ltac:(unfold n; nra)). lra. }
  destruct (completeness E BD NE) as (s & UB & LUB). set (p := - s).
  assert (IN : forall x y z w, F x y z w <= p * (x * x + y * y + z * z + w * w)).
  { intros x y z w. set (n := x * x + y * y + z * z + w * w). assert (N0 : 0 <= n) by (unfold n; nra). destruct (Req_dec n 0) as [Z|NZ].
    - destruct NE as [q Q]. assert (K := Q x y z w). fold n in K. rewrite Z in *. lra.
    - destruct (Rle_lt_dec (F x y z w) (p * n)) as [L|L]; [exact L|]. exfalso. assert (s <= - (F x y z w / n)); [|assert (F x y z w <= p * n); [|lra]; replace (F x y z w) with (F x y z w / n * n) by (field; exact NZ); apply Rmult_le_compat_r; [exact N0|unfold p; lra]].
      apply LUB. intros q Q. assert (K := Q x y z w). fold n in K. assert (F x y z w / n <= - q); [|lra]. apply (Rmult_le_reg_r n); [lra|]. replace (F x y z w / n * n) with (F x y z w) by (field; exact NZ). exact K. }
  apply NNPP. intros NO.
  destruct (low4 (p - a) (- b) (- c) (- d) (p - e) (- f) (- g) (p - h) (- i) (p - j)) as (k & K & B).
  { intros x y z w N. assert (Q := IN x y z w). assert (EQ : form4 (p - a) (- b) (- c) (- d) (p - e) (- f) (- g) (p - h) (- i) (p - j) x y z w = p * (x * x + y * y + z * z + w * w) - F x y z w) by (unfold F, form4, form3; ring). rewrite EQ.
    destruct (Req_dec (F x y z w) (p * (x * x + y * y + z * z + w * w))) as [Z|]; [|lra]. exfalso. apply NO. exists x, y, z, w. split; [exact N|]. exists p. split; [exact Z|exact IN]. }
  assert (U : E (s + k)). { intros x y z w. assert (Q := B x y z w). assert (EQ : form4 (p - a) (- b) (- c) (- d) (p - e) (- f) (- g) (p - h) (- i) (p - j) x y z w = p * (x * x + y * y + z * z + w * w) - F x y z w) by (unfold F, form4, form3; ring). rewrite EQ in Q. unfold p in Q. lra. }
  assert (V := UB _ U). lra.
Qed.
Lemma optimum_exists l : weighted l -> exists v, optimum l v.
Proof.
  intros HW. destruct (W_entries (Hrow (normed l) x3) (Hrow (normed l) y3) (Hrow (normed l) z3)) as (a & b & c & d & e & f & g & h & i & j & EW & _). fold (Wof (normed l)) in EW.
  assert (FE : forall x, form (Wof (normed l)) x = form4 a b c d e f g h i j (qw x) (qx x) (qy x) (qz x)).
  { intros x. assert (Q := form_SM a b c d e f g h i j 0 x). rewrite shift_form in Q. rewrite EW. unfold form4, form3 in *. lra. }
  destruct (attained a b c d e f g h i j) as (x & y & z & w & NZ & p & EQ & LE). assert (N : mkq x y z w <> zeroq). { intros Z. injection Z. intros. apply NZ. auto. }
  destruct (unit_split _ N) as (u & s & U & S0 & SU & _). exists u. split; [exact U|]. intros x' U'. rewrite !wahba_gain by assumption. assert (form (Wof (normed l)) x' <= form (Wof (normed l)) u); [|lra].
  assert (D : forall q : quat, dotq q q = qw q * qw q + qx q * qx q + qy q * qy q + qz q * qz q) by (intros [? ? ? ?]; mring). unfold unitq in U, U'. apply Rle_trans with p.
  - rewrite FE. assert (Q := LE (qw x') (qx x') (qy x') (qz x')). rewrite <- D, U' in Q. lra.
  - right. apply (Rmult_eq_reg_l (s * s)); [|nra]. rewrite <- form_scale, <- SU, FE. cbn [qw qx qy qz]. rewrite EQ. assert (D2 := D (mkq x y z w)). cbn [qw qx qy qz] in D2. rewrite <- D2, SU. rewrite dotq_scale2, U. ring.
Qed.
