(** * ecef_to_lla: the correction step is a Newton step; its error *)
From Coq Require Import Reals Bool Lra Lia Psatz.
From Coquelicot Require Import Coquelicot.
From Verif Require Import Num Vec M_vector M_frame P_quat P_frame P_lla3.
Local Open Scope R_scope.

(** ** Taylor bounds on [0,1] *)
Lemma dominated (D D' B B' : R -> R) : D 0 = 0 -> B 0 = 0 ->
  (forall t, 0 <= t <= 1 -> is_derive D t (D' t)) -> (forall t, 0 <= t <= 1 -> is_derive B t (B' t)) ->
  (forall t, 0 <= t <= 1 -> Rabs (D' t) <= B' t) -> forall t, 0 <= t <= 1 -> Rabs (D t) <= B t.
Proof.
  intros D0 B0 HD HB H t Ht. destruct (Rle_lt_or_eq_dec 0 t) as [L|E]; [lra| |subst t; rewrite D0, B0, Rabs_R0; lra].
  assert (P : forall s, s = 1 \/ s = -1 -> s * D t <= B t).
  { intros s Hs. destruct (MVT_cor2 (fun u => B u - s * D u) (fun u => B' u - s * D' u) 0 t L) as (c & E & Hc).
    { intros c Hc. apply is_derive_Reals. apply (is_derive_minus B (fun u => s * D u)); [apply HB; lra|]. apply is_derive_scal, HD; lra. }
    rewrite D0, B0 in E. specialize (H c ltac:(lra)). apply Rabs_le_between in H.
    assert (0 <= B' c - s * D' c) by (destruct Hs; subst s; lra). assert (0 <= (B' c - s * D' c) * (t - 0)) by (apply Rmult_le_pos; lra). lra. }
  assert (P1 := P 1 (or_introl eq_refl)). assert (P2 := P (-1) (or_intror eq_refl)). apply Rabs_le. lra.
Qed.
Lemma taylor1 (G G1 : R -> R) K : (forall t, 0 <= t <= 1 -> is_derive G t (G1 t)) -> (forall t, 0 <= t <= 1 -> Rabs (G1 t) <= K) ->
  forall t, 0 <= t <= 1 -> Rabs (G t - G 0) <= K * t.
Proof.
  intros H HK. apply (dominated (fun t => G t - G 0) G1 (fun t => K * t) (fun _ => K)); [ring|ring| | |exact HK].
  - intros t Ht. replace (G1 t) with (G1 t - 0) by ring. apply (is_derive_minus G (fun _ => G 0)); [apply H, Ht|apply @is_derive_const].
  - intros t Ht. auto_derive; [trivial|ring].
Qed.
Lemma taylor2 (G G1 G2 : R -> R) K : (forall t, 0 <= t <= 1 -> is_derive G t (G1 t)) -> (forall t, 0 <= t <= 1 -> is_derive G1 t (G2 t)) ->
  (forall t, 0 <= t <= 1 -> Rabs (G2 t) <= K) -> forall t, 0 <= t <= 1 -> Rabs (G t - G 0 - G1 0 * t) <= K * t ^ 2 / 2.
Proof.
  intros H H1 HK. assert (T := taylor1 G1 G2 K H1 HK).
  apply (dominated (fun t => G t - G 0 - G1 0 * t) (fun t => G1 t - G1 0) (fun t => K * t ^ 2 / 2) (fun t => K * t)); [ring|field| | |exact T].
  - intros t Ht. replace (G1 t - G1 0) with ((G1 t - 0) - G1 0) by ring. apply (is_derive_minus (fun t => G t - G 0) (fun t => G1 0 * t)).
    + apply (is_derive_minus G (fun _ => G 0)); [apply H, Ht|apply @is_derive_const].
    + auto_derive; [trivial|ring].
  - intros t Ht. auto_derive; [trivial|field].
Qed.
Lemma taylor3 (G G1 G2 G3 : R -> R) K : (forall t, 0 <= t <= 1 -> is_derive G t (G1 t)) -> (forall t, 0 <= t <= 1 -> is_derive G1 t (G2 t)) ->
  (forall t, 0 <= t <= 1 -> is_derive G2 t (G3 t)) -> (forall t, 0 <= t <= 1 -> Rabs (G3 t) <= K) ->
  forall t, 0 <= t <= 1 -> Rabs (G t - G 0 - G1 0 * t - G2 0 * t ^ 2 / 2) <= K * t ^ 3 / 6.
Proof.
  intros H H1 H2 HK. assert (T := taylor2 G1 G2 G3 K H1 H2 HK).
  apply (dominated (fun t => G t - G 0 - G1 0 * t - G2 0 * t ^ 2 / 2) (fun t => G1 t - G1 0 - G2 0 * t) (fun t => K * t ^ 3 / 6) (fun t => K * t ^ 2 / 2)); [field|field| | |exact T].
  - intros t Ht. replace (G1 t - G1 0 - G2 0 * t) with ((G1 t - 0) - G1 0 - G2 0 * t) by ring.
    apply (is_derive_minus (fun t => G t - G 0 - G1 0 * t) (fun t => G2 0 * t ^ 2 / 2)); [apply (is_derive_minus (fun t => G t - G 0) (fun t => G1 0 * t))|].
    + apply (is_derive_minus G (fun _ => G 0)); [apply H, Ht|apply @is_derive_const].
    + auto_derive; [trivial|ring].
    + auto_derive; [trivial|field].
  - intros t Ht. auto_derive; [trivial|field].
Qed.

(** ** derivatives *)
Definition Mrad' (x : R) : R := 3 * wa * (1 - e2) * e2 * sin x * cos x / (sqrt (1 - e2 * (sin x) ^ 2)) ^ 5.
Lemma sg_pos x : 0 < sqrt (1 - e2 * (sin x) ^ 2).
Proof. apply sqrt_lt_R0, g_pos. Qed.
Lemma sg_sq x : sqrt (1 - e2 * (sin x) ^ 2) * sqrt (1 - e2 * (sin x) ^ 2) = 1 - e2 * (sin x) ^ 2.
Proof. apply sqrt_sqrt. left. apply g_pos. Qed.
Lemma sqrt_shape x : sqrt (1 + - (e2 * (sin x * (sin x * 1)))) = sqrt (1 - e2 * (sin x) ^ 2).
Proof. f_equal. Qed.
Lemma hN_deriv w z x : is_derive (hN w z) x (mN w z x).
Proof.
  assert (P := g_pos x). assert (Q := sg_pos x). unfold hN, mN. auto_derive; [cbn in *; nra|]. rewrite ?sqrt_shape. field. lra.
Qed.
Lemma mN_deriv w z x : is_derive (mN w z) x (- (Mrad x + hN w z x)).
Proof.
  assert (P := g_pos x). assert (Q := sg_pos x). assert (R2 := sg_sq x). unfold hN, mN, Mrad. auto_derive.
  { rewrite ?sqrt_shape. split; [cbn in *; nra|split; [lra|trivial]]. }
  rewrite ?sqrt_shape. set (q := sqrt (1 - e2 * sin x ^ 2)) in *. assert (SC := sc1 x). clearbody q.
  assert (C2 : cos x ^ 2 = 1 - sin x ^ 2) by lra.
  set (s := sin x) in *. set (c := cos x) in *. clearbody s c.
  apply (Rmult_eq_reg_r (q ^ 3)); [|apply pow_nonzero; lra].
  match goal with |- ?l = ?r => transitivity (- (w * c + z * s) * q ^ 3 + e2 * wa * ((c ^ 2 - s ^ 2) * (q * q) + e2 * s ^ 2 * c ^ 2)); [field; lra|] end.
  transitivity (- (w * c + z * s) * q ^ 3 - wa * (1 - e2) + wa * (q * q) * (q * q)); [|field; lra].
  rewrite R2, C2. ring.
Qed.
Lemma Mrad_deriv x : is_derive Mrad x (Mrad' x).
Proof.
  assert (P := g_pos x). assert (Q := sg_pos x). unfold Mrad, Mrad'. auto_derive.
  { rewrite ?sqrt_shape. split; [cbn in *; nra|split; [|trivial]]. apply (pow_nonzero _ 3). lra. }
  rewrite ?sqrt_shape. set (q := sqrt (1 - e2 * sin x ^ 2)) in *. field. lra.
Qed.
Lemma sg_bounds x : 99 / 100 <= sqrt (1 - e2 * (sin x) ^ 2) <= 1 /\ 1 - e2 <= sqrt (1 - e2 * (sin x) ^ 2) * sqrt (1 - e2 * (sin x) ^ 2).
Proof.
  assert (E := e2_range). assert (Q := sg_pos x). assert (R2 := sg_sq x). assert (SC := sc1 x). assert (0 <= cos x ^ 2) by apply pow2_ge_0. assert (0 <= sin x ^ 2) by apply pow2_ge_0.
  rewrite R2. set (q := sqrt _) in *. clearbody q. split; [split|]; nra.
Qed.
Lemma Mrad_minus x : - (wa * e2) <= Mrad x - wa * sqrt (1 - e2 * (sin x) ^ 2) <= 68 / 10000 * wa.
Proof.
  assert (E := e2_range). destruct (sg_bounds x) as [B1 B2]. unfold Mrad. set (q := sqrt _) in *. clearbody q.
  assert (A : 0 < wa) by (unfold wa; lra).
  assert (Q3 : 0 < q ^ 3) by (apply pow_lt; lra). assert (Q3' : q ^ 3 <= 1) by (cbn; nra).
  replace (wa * (1 - e2) / q ^ 3 - wa * q) with (wa * ((1 - e2) / q ^ 3 - q)) by (unfold Rdiv; ring).
  assert (U1 : 1 - e2 <= (1 - e2) / q ^ 3). { apply (Rmult_le_reg_r (q ^ 3)); [lra|]. replace ((1 - e2) / q ^ 3 * q ^ 3) with (1 - e2) by (field; lra). nra. }
  assert (U2 : (1 - e2) / q ^ 3 <= q + 68 / 10000).
  { apply (Rmult_le_reg_r (q ^ 3)); [lra|]. replace ((1 - e2) / q ^ 3 * q ^ 3) with (1 - e2) by (field; lra).
    replace ((q + 68 / 10000) * q ^ 3) with (q * q * (q * q) + 68 / 10000 * (q * q * q)) by ring.
    set (g := q * q) in *. assert (G : 0.9801 <= g <= 1) by (unfold g; nra). assert (g * q >= 99 / 100 * g) by nra. clearbody g. assert (g * (g + 6732 / 1000000) >= g * 1) by nra. lra. }
  split; nra.
Qed.
Lemma Mrad'_bound x : Rabs (Mrad' x) <= 1026 / 100000 * wa.
Proof.
  assert (E := e2_range). destruct (sg_bounds x) as [B1 B2]. unfold Mrad'. set (q := sqrt _) in *. clearbody q.
  assert (SC := sc1 x). assert (A : 0 < wa) by (unfold wa; lra).
  assert (Q5 : 0 < q ^ 5) by (apply pow_lt; lra).
  assert (Q5' : 98 / 100 * (1 - e2) <= q ^ 5).
  { replace (q ^ 5) with ((q * q) * ((q * q) * q)) by ring. set (g := q * q) in *.
    assert (G : 1 - e2 <= g) by exact B2. assert (0.9801 <= g) by (unfold g; nra). assert (G2 : g * q >= 98 / 100). { assert (0.9933 <= g) by lra. nra. } nra. }
  assert (P1 := pow2_ge_0 (sin x - cos x)). assert (P2 := pow2_ge_0 (sin x + cos x)).
  assert (S1 : Rabs (sin x * cos x) <= 1 / 2) by (apply Rabs_le; lra).
  replace (3 * wa * (1 - e2) * e2 * sin x * cos x / q ^ 5) with (3 * wa * e2 * ((1 - e2) / q ^ 5) * (sin x * cos x)) by (unfold Rdiv; ring).
  assert (F : 0 <= (1 - e2) / q ^ 5 <= 100 / 98).
  { split; [apply Rmult_le_pos; [lra|left; apply Rinv_0_lt_compat; lra]|]. apply (Rmult_le_reg_r (q ^ 5)); [lra|]. replace ((1 - e2) / q ^ 5 * q ^ 5) with (1 - e2) by (field; lra). lra. }
  set (f := (1 - e2) / q ^ 5) in *. clearbody f. rewrite Rabs_mult, (Rabs_pos_eq (3 * wa * e2 * f)).
  2:{ apply Rmult_le_pos; [|lra]. apply Rmult_le_pos; lra. }
  assert (0 <= 3 * wa * e2 * f <= 3 * wa * e2 * (100 / 98)) by (split; [apply Rmult_le_pos; [apply Rmult_le_pos|]; lra|apply Rmult_le_compat_l; [apply Rmult_le_pos|]; lra]).
  apply Rle_trans with (3 * wa * e2 * (100 / 98) * (1 / 2)); [|nra]. apply Rmult_le_compat; try apply Rabs_pos; lra.
Qed.

(** ** the Newton step from a guess x0 towards the true latitude phi *)
Lemma newton_step w z r phi x0 : 0 < r -> mN w z phi = 0 ->
  (forall t, 0 <= t <= 1 -> 973 / 1000 * r <= Mrad (x0 + t * (phi - x0)) + hN w z (x0 + t * (phi - x0)) <= 1007 / 1000 * r) ->
  wa <= 1006 / 1000 * r -> Rabs (mN w z x0) <= 226 / 10 ^ 9 * r ->
  let d := Mrad x0 + hN w z x0 in let p := mN w z x0 / d in
  Rabs (x0 + p - phi) <= 3 / 10 ^ 16 /\ Rabs (hN w z x0 + mN w z x0 * p / 2 - hN w z phi) <= 3 / 10 ^ 23 * r.
Proof.
  intros Hr Z B Ha HM d p. set (e := phi - x0) in *.
  set (G := fun t => hN w z (x0 + t * e)). set (G1 := fun t => e * mN w z (x0 + t * e)).
  set (G2 := fun t => - (e * e) * (Mrad (x0 + t * e) + hN w z (x0 + t * e))).
  set (G3 := fun t => - (e * e * e) * (Mrad' (x0 + t * e) + mN w z (x0 + t * e))).
  assert (L : forall t, is_derive (fun t => x0 + t * e) t e) by (intros t; auto_derive; [trivial|ring]).
  assert (D0 : forall t, is_derive G t (G1 t)).
  { intros t. unfold G, G1. apply (is_derive_comp (hN w z) (fun t => x0 + t * e)); [apply hN_deriv|apply L]. }
  assert (Dm : forall t, is_derive (fun t => mN w z (x0 + t * e)) t (e * - (Mrad (x0 + t * e) + hN w z (x0 + t * e)))).
  { intros t. apply (is_derive_comp (mN w z) (fun t => x0 + t * e)); [apply mN_deriv|apply L]. }
  assert (D1 : forall t, is_derive G1 t (G2 t)).
  { intros t. unfold G1, G2. replace (- (e * e) * (Mrad (x0 + t * e) + hN w z (x0 + t * e))) with (e * (e * - (Mrad (x0 + t * e) + hN w z (x0 + t * e)))) by ring.
    apply is_derive_scal, Dm. }
  assert (D2 : forall t, is_derive G2 t (G3 t)).
  { intros t. unfold G2, G3. replace (- (e * e * e) * (Mrad' (x0 + t * e) + mN w z (x0 + t * e))) with (- (e * e) * (e * Mrad' (x0 + t * e) + e * mN w z (x0 + t * e))) by ring.
    apply is_derive_scal. apply (is_derive_plus (fun t => Mrad (x0 + t * e)) (fun t => hN w z (x0 + t * e))).
    - apply (is_derive_comp Mrad (fun t => x0 + t * e)); [apply Mrad_deriv|apply L].
    - apply D0. }
  assert (X0 : x0 + 0 * e = x0) by ring. assert (X1 : x0 + 1 * e = phi) by (unfold e; ring).
  assert (B0 := B 0 ltac:(lra)). rewrite X0 in B0. fold d in B0.
  (* size of e *)
  assert (HE : Rabs e <= 2323 / 10 ^ 10).
  { destruct (MVT_cor2 (fun t => mN w z (x0 + t * e)) (fun t => e * - (Mrad (x0 + t * e) + hN w z (x0 + t * e))) 0 1 ltac:(lra)) as (c & Ec & Hc).
    { intros c _. apply is_derive_Reals, Dm. }
    rewrite X0, X1, Z in Ec. specialize (B c ltac:(lra)). set (k := Mrad (x0 + c * e) + hN w z (x0 + c * e)) in *.
    assert (Em : mN w z x0 = e * k) by lra. rewrite Em, Rabs_mult, (Rabs_pos_eq k) in HM by lra.
    assert (0 <= Rabs e) by apply Rabs_pos. apply (Rmult_le_reg_r (973 / 1000 * r)); [lra|]. apply Rle_trans with (Rabs e * k); [apply Rmult_le_compat_l; lra|]. lra. }
  set (ea := Rabs e) in *. assert (EA : 0 <= ea) by apply Rabs_pos.
  (* residual along the segment *)
  assert (HMt : forall t, 0 <= t <= 1 -> Rabs (mN w z (x0 + t * e)) <= 1 / 10 ^ 6 * r).
  { intros t Ht. assert (T := taylor1 (fun t => mN w z (x0 + t * e)) _ (ea * (1007 / 1000 * r)) (fun t _ => Dm t)).
    assert (Q : forall t, 0 <= t <= 1 -> Rabs (e * - (Mrad (x0 + t * e) + hN w z (x0 + t * e))) <= ea * (1007 / 1000 * r)).
    { intros u Hu. specialize (B u Hu). rewrite Rabs_mult, Rabs_Ropp. fold ea. apply Rmult_le_compat_l; [exact EA|]. rewrite Rabs_pos_eq; lra. }
    specialize (T Q t Ht). cbv beta in T. rewrite X0 in T.
    replace (mN w z (x0 + t * e)) with ((mN w z (x0 + t * e) - mN w z x0) + mN w z x0) by ring. eapply Rle_trans; [apply Rabs_triang|].
    assert (ea * (1007 / 1000 * r) * t <= ea * (1007 / 1000 * r) * 1) by (apply Rmult_le_compat_l; [apply Rmult_le_pos; lra|lra]).
    assert (ea * (1007 / 1000 * r) <= 2323 / 10 ^ 10 * (1007 / 1000 * r)) by (apply Rmult_le_compat_r; lra). lra. }
  set (K := ea * ea * ea * (1033 / 100000 * r)).
  assert (HK : forall t, 0 <= t <= 1 -> Rabs (G3 t) <= K).
  { intros t Ht. unfold G3, K. rewrite Rabs_mult, Rabs_Ropp, !Rabs_mult. fold ea. apply Rmult_le_compat_l; [apply Rmult_le_pos; [apply Rmult_le_pos|]; exact EA|].
    eapply Rle_trans; [apply Rabs_triang|]. specialize (HMt t Ht). assert (M := Mrad'_bound (x0 + t * e)). lra. }
  assert (T3 := taylor3 G G1 G2 G3 K (fun t _ => D0 t) (fun t _ => D1 t) (fun t _ => D2 t) HK 1 ltac:(lra)).
  assert (T2 := taylor2 G1 G2 G3 K (fun t _ => D1 t) (fun t _ => D2 t) HK 1 ltac:(lra)).
  unfold G, G1, G2 in T2, T3. rewrite !X0, ?X1 in T2, T3. rewrite Z in T2. fold d in T2, T3. set (m := mN w z x0) in *. set (h0 := hN w z x0) in *. set (h := hN w z phi) in *.
  (* latitude *)
  set (k := 1033 / 100000 * r) in *.
  assert (HQ : ea * Rabs (m - d * e) <= ea * (ea * ea * k / 2)).
  { unfold ea at 1. rewrite <- Rabs_mult. replace (e * (m - d * e)) with (- (e * 0 - e * m - - (e * e) * d * 1)) by ring. rewrite Rabs_Ropp.
    eapply Rle_trans; [exact T2|]. unfold K. right. field. }
  assert (HQ' : Rabs (m - d * e) <= ea * ea * k / 2).
  { destruct (Rle_lt_or_eq_dec 0 ea EA) as [P|P]; [apply (Rmult_le_reg_l ea); assumption|].
    assert (E0 : e = 0) by (apply Rabs_eq_0; unfold ea in P; lra).
    assert (PX : phi = x0) by (unfold e in E0; lra). assert (M0 : m = 0) by (unfold m; rewrite <- PX; exact Z).
    rewrite M0, E0, <- P. replace (0 - d * 0) with 0 by ring. rewrite Rabs_R0. lra. }
  assert (EE : ea * ea <= 5397 / 10 ^ 17) by nra.
  assert (EEE : 0 <= ea * ea * ea <= 1254 / 10 ^ 23). { split; [apply Rmult_le_pos; [apply Rmult_le_pos|]; exact EA|]. assert (0 <= ea * ea) by (apply Rmult_le_pos; exact EA). nra. }
  set (n := m - d * e) in *. assert (HN : Rabs n <= 28 / 10 ^ 17 * r). { unfold k in HQ'. nra. }
  assert (D : 0 < d) by lra.
  split.
  - replace (x0 + p - phi) with (n / d) by (unfold p, n, e; field; lra).
    unfold Rdiv at 1. rewrite Rabs_mult, Rabs_inv, (Rabs_pos_eq d) by lra. apply (Rmult_le_reg_r d); [lra|]. rewrite Rmult_assoc, Rinv_l, Rmult_1_r by lra. lra.
  - replace (h0 + m * p / 2 - h) with (- (h - h0 - e * m * 1 - - (e * e) * d * 1 ^ 2 / 2) + n * n / d / 2) by (unfold p, n; field; lra).
    eapply Rle_trans; [apply Rabs_triang|]. rewrite Rabs_Ropp.
    assert (K6 : K * 1 ^ 3 / 6 <= 22 / 10 ^ 24 * r). { unfold K, k. set (c := ea * ea * ea) in *. clearbody c. nra. }
    assert (NN : Rabs (n * n / d / 2) <= 1 / 10 ^ 24 * r).
    { replace (n * n / d / 2) with (n * n * (/ d) * (1 / 2)) by (field; lra). rewrite !Rabs_mult, Rabs_inv, (Rabs_pos_eq d), (Rabs_pos_eq (1 / 2)) by lra.
      set (na := Rabs n) in *. assert (NA : 0 <= na) by apply Rabs_pos. apply (Rmult_le_reg_r d); [lra|].
      replace (na * na * / d * (1 / 2) * d) with (na * na / 2) by (field; lra). assert (na * na <= (28 / 10 ^ 17 * r) * (28 / 10 ^ 17 * r)) by (apply Rmult_le_compat; lra).
      assert (1 / 10 ^ 24 * r * (973 / 1000 * r) <= 1 / 10 ^ 24 * r * d) by (apply Rmult_le_compat_l; lra). assert (0 < r * r) by nra. nra. }
    lra.
Qed.
