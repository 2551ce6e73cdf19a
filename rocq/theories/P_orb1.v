(** Uniform third-order expansions ("jets") in a small step, for the convergence of the simulated orbit (C96). *)
From Coq Require Import Reals Lra Psatz List.
From Verif Require Import Num Vec.
Local Open Scope R_scope.

Section Jet.
Context {T : Type} (D : T -> Prop).
(** a coefficient bounded on the set of parameters *)
Definition bd (c : T -> R) : Prop := exists K, 0 <= K /\ forall t, D t -> Rabs (c t) <= K.
(** F t h = a + b h + c h^2 + d h^3 + O(h^4), uniformly in the parameter *)
Definition jet (F : T -> R -> R) (a b c d : T -> R) : Prop := bd a /\ bd b /\ bd c /\ bd d /\
  exists K r, 0 <= K /\ 0 < r <= 1 /\ forall t h, D t -> 0 <= h <= r -> Rabs (F t h - (a t + b t * h + c t * h ^ 2 + d t * h ^ 3)) <= K * h ^ 4.

Lemma bd_const k : bd (fun _ => k).
Proof. exists (Rabs k). split; [apply Rabs_pos|]. intros. lra. Qed.
Lemma bd_add a b : bd a -> bd b -> bd (fun t => a t + b t).
Proof. intros (K & HK & A) (L & HL & B). exists (K + L). split; [lra|]. intros t Ht. assert (H := Rabs_triang (a t) (b t)). specialize (A t Ht). specialize (B t Ht). lra. Qed.
Lemma bd_mul a b : bd a -> bd b -> bd (fun t => a t * b t).
Proof. intros (K & HK & A) (L & HL & B). exists (K * L). split; [nra|]. intros t Ht. rewrite Rabs_mult. apply Rmult_le_compat; auto using Rabs_pos. Qed.
Lemma bd_ext a b : (forall t, D t -> a t = b t) -> bd a -> bd b.
Proof. intros E (K & HK & A). exists K. split; [exact HK|]. intros t Ht. rewrite <- (E t Ht). auto. Qed.
Lemma jet_ext F G a b c d a' b' c' d' : (forall t h, D t -> F t h = G t h) -> (forall t, D t -> a t = a' t) -> (forall t, D t -> b t = b' t) -> (forall t, D t -> c t = c' t) -> (forall t, D t -> d t = d' t) ->
  jet F a b c d -> jet G a' b' c' d'.
Proof.
  intros E Ea Eb Ec Ed (A & B & C & DD & K & r & HK & Hr & H). split; [eapply bd_ext; eassumption|]. split; [eapply bd_ext; eassumption|]. split; [eapply bd_ext; eassumption|]. split; [eapply bd_ext; eassumption|].
  exists K, r. split; [exact HK|]. split; [exact Hr|]. intros t h Ht Hh. rewrite <- (E t h Ht), <- (Ea t Ht), <- (Eb t Ht), <- (Ec t Ht), <- (Ed t Ht). auto.
Qed.
Lemma jet_const c : bd c -> jet (fun t _ => c t) c (fun _ => 0) (fun _ => 0) (fun _ => 0).
Proof.
  intros H. split; [exact H|]. split; [apply bd_const|]. split; [apply bd_const|]. split; [apply bd_const|]. exists 0, 1. split; [lra|]. split; [lra|]. intros t h Ht Hh.
  replace (c t - _) with 0 by ring. rewrite Rabs_R0. lra.
Qed.
Lemma jet_h : jet (fun _ h => h) (fun _ => 0) (fun _ => 1) (fun _ => 0) (fun _ => 0).
Proof.
  split; [apply bd_const|]. split; [apply bd_const|]. split; [apply bd_const|]. split; [apply bd_const|]. exists 0, 1. split; [lra|]. split; [lra|]. intros t h Ht Hh.
  replace (h - _) with 0 by ring. rewrite Rabs_R0. lra.
Qed.
Lemma jet_add F G a b c d a' b' c' d' : jet F a b c d -> jet G a' b' c' d' -> jet (fun t h => F t h + G t h) (fun t => a t + a' t) (fun t => b t + b' t) (fun t => c t + c' t) (fun t => d t + d' t).
Proof.
  intros (A & B & C & DD & K & r & HK & Hr & H) (A' & B' & C' & DD' & K' & r' & HK' & Hr' & H').
  split; [apply bd_add; assumption|]. split; [apply bd_add; assumption|]. split; [apply bd_add; assumption|]. split; [apply bd_add; assumption|].
  exists (K + K'), (Rmin r r'). split; [lra|]. split. { split; [apply Rmin_pos; lra|]. assert (X := Rmin_l r r'). lra. }
  intros t h Ht Hh. assert (X := Rmin_l r r'). assert (X' := Rmin_r r r'). specialize (H t h Ht ltac:(lra)). specialize (H' t h Ht ltac:(lra)).
  replace (_ - _) with ((F t h - (a t + b t * h + c t * h ^ 2 + d t * h ^ 3)) + (G t h - (a' t + b' t * h + c' t * h ^ 2 + d' t * h ^ 3))) by ring.
  eapply Rle_trans; [apply Rabs_triang|]. lra.
Qed.
Lemma pow_01 h n : 0 <= h <= 1 -> 0 <= h ^ n <= 1.
Proof. intros H. split; [apply pow_le; lra|]. rewrite <- (pow1 n). apply pow_incr; lra. Qed.
Lemma abs_mul_le a b p q : Rabs a <= p -> Rabs b <= q -> Rabs (a * b) <= p * q.
Proof. intros. rewrite Rabs_mult. apply Rmult_le_compat; auto using Rabs_pos. Qed.
Lemma abs_add_le a b p q : Rabs a <= p -> Rabs b <= q -> Rabs (a + b) <= p + q.
Proof. intros. eapply Rle_trans; [apply Rabs_triang|]. lra. Qed.
Lemma poly_le a b c d K h : Rabs a <= K -> Rabs b <= K -> Rabs c <= K -> Rabs d <= K -> 0 <= h <= 1 -> Rabs (a + b * h + c * h ^ 2 + d * h ^ 3) <= 4 * K.
Proof.
  intros A B C E Hh. assert (0 <= K) by (assert (X := Rabs_pos a); lra).
  assert (Q : forall x n, Rabs x <= K -> Rabs (x * h ^ n) <= K). { intros x n Hx. replace K with (K * 1) by ring. apply abs_mul_le; [exact Hx|]. destruct (pow_01 h n Hh). rewrite Rabs_pos_eq; lra. }
  assert (Q1 := Q b 1%nat B). rewrite pow_1 in Q1. assert (Q2 := Q c 2%nat C). assert (Q3 := Q d 3%nat E).
  replace (4 * K) with (K + K + K + K) by ring. apply abs_add_le; [|exact Q3]. apply abs_add_le; [|exact Q2]. apply abs_add_le; assumption.
Qed.
Lemma bd4 a b c d : bd a -> bd b -> bd c -> bd d -> exists K, 0 <= K /\ forall t, D t -> Rabs (a t) <= K /\ Rabs (b t) <= K /\ Rabs (c t) <= K /\ Rabs (d t) <= K.
Proof.
  intros (K1 & H1 & A) (K2 & H2 & B) (K3 & H3 & C) (K4 & H4 & E). exists (K1 + K2 + K3 + K4). split; [lra|]. intros t Ht.
  specialize (A t Ht). specialize (B t Ht). specialize (C t Ht). specialize (E t Ht). repeat split; lra.
Qed.
Lemma jet_mul F G a b c d a' b' c' d' : jet F a b c d -> jet G a' b' c' d' -> jet (fun t h => F t h * G t h) (fun t => a t * a' t) (fun t => a t * b' t + b t * a' t)
  (fun t => a t * c' t + b t * b' t + c t * a' t) (fun t => a t * d' t + b t * c' t + c t * b' t + d t * a' t).
Proof.
  intros (A & B & C & DD & K & r & HK & Hr & H) (A' & B' & C' & DD' & K' & r' & HK' & Hr' & H').
  split; [apply bd_mul; assumption|]. split; [repeat apply bd_add; apply bd_mul; assumption|]. split; [repeat apply bd_add; apply bd_mul; assumption|]. split; [repeat apply bd_add; apply bd_mul; assumption|].
  destruct (bd4 _ _ _ _ A B C DD) as (M & HM & HB). destruct (bd4 _ _ _ _ A' B' C' DD') as (M' & HM' & HB').
  exists (4 * M * K' + K * (4 * M') + K * K' + (3 + 2 + 1) * (M * M')), (Rmin r r'). split; [nra|]. split. { split; [apply Rmin_pos; lra|]. assert (X := Rmin_l r r'). lra. }
  intros t h Ht Hh. assert (X := Rmin_l r r'). assert (X' := Rmin_r r r'). specialize (H t h Ht ltac:(lra)). specialize (H' t h Ht ltac:(lra)).
  destruct (HB t Ht) as (Ba & Bb & Bc & Bd). destruct (HB' t Ht) as (Ba' & Bb' & Bc' & Bd').
  assert (P := poly_le _ _ _ _ _ h Ba Bb Bc Bd ltac:(lra)). assert (P' := poly_le _ _ _ _ _ h Ba' Bb' Bc' Bd' ltac:(lra)).
  set (p := a t + b t * h + c t * h ^ 2 + d t * h ^ 3) in *. set (p' := a' t + b' t * h + c' t * h ^ 2 + d' t * h ^ 3) in *.
  set (e := F t h - p) in *. set (e' := G t h - p') in *.
  assert (h4 := pow_01 h 4 ltac:(lra)). assert (h1 := pow_01 h 1 ltac:(lra)). assert (h2 := pow_01 h 2 ltac:(lra)).
  replace (F t h * G t h - _) with (p * e' + e * p' + e * e' + h ^ 4 * ((b t * d' t + c t * c' t + d t * b' t) + h ^ 1 * (c t * d' t + d t * c' t) + h ^ 2 * (d t * d' t))) by (unfold e, e', p, p'; ring).
  assert (Q : forall x y, Rabs x <= M -> Rabs y <= M' -> Rabs (x * y) <= M * M') by (intros; apply abs_mul_le; assumption).
  assert (E1 : Rabs (p * e') <= 4 * M * (K' * h ^ 4)) by (apply abs_mul_le; assumption).
  assert (E2 : Rabs (e * p') <= K * h ^ 4 * (4 * M')) by (apply abs_mul_le; assumption).
  assert (E3 : Rabs (e * e') <= K * K' * h ^ 4). { eapply Rle_trans; [apply abs_mul_le; eassumption|]. assert (0 <= K * K' * h ^ 4) by (apply Rmult_le_pos; [nra|lra]). nra. }
  assert (E4 : Rabs (h ^ 4 * ((b t * d' t + c t * c' t + d t * b' t) + h ^ 1 * (c t * d' t + d t * c' t) + h ^ 2 * (d t * d' t))) <= h ^ 4 * ((3 + 2 + 1) * (M * M'))).
  { apply abs_mul_le; [rewrite Rabs_pos_eq; lra|]. replace ((3 + 2 + 1) * (M * M')) with ((M * M' + M * M' + M * M') + 1 * (M * M' + M * M') + 1 * (M * M')) by ring.
    apply abs_add_le; [apply abs_add_le|].
    - apply abs_add_le; [apply abs_add_le|]; auto.
    - apply abs_mul_le; [rewrite Rabs_pos_eq; lra|]. apply abs_add_le; auto.
    - apply abs_mul_le; [rewrite Rabs_pos_eq; lra|]. auto. }
  eapply Rle_trans; [apply abs_add_le; [apply abs_add_le; [apply abs_add_le; eassumption|eassumption]|eassumption]|]. lra.
Qed.
Lemma jet_scal k F a b c d : jet F a b c d -> jet (fun t h => k * F t h) (fun t => k * a t) (fun t => k * b t) (fun t => k * c t) (fun t => k * d t).
Proof.
  intros H. assert (J := jet_mul _ _ _ _ _ _ _ _ _ _ (jet_const _ (bd_const k)) H). revert J. apply jet_ext; intros; ring.
Qed.

(** (1 + e)^(-3/2) *)
Definition cub (e : R) : R := / ((1 + e) * sqrt (1 + e)).
Lemma abs_split x k : Rabs x <= k -> - k <= x <= k.
Proof. intros H. assert (X := Rle_abs x). assert (Y := Rle_abs (- x)). rewrite Rabs_Ropp in Y. lra. Qed.
Lemma cub_taylor e : Rabs e <= 1 / 2 -> Rabs (cub e - (1 - 3 / 2 * e + 15 / 8 * e ^ 2 - 35 / 16 * e ^ 3)) <= 40 * e ^ 4.
Proof.
  intros He. assert (He' := abs_split _ _ He).
  set (y := sqrt (1 + e)). assert (Y : y * y = 1 + e) by (apply sqrt_sqrt; lra). assert (Y1 : 1 / 2 <= y). { unfold y. replace (1 / 2) with (sqrt (1 / 2 * (1 / 2))) by (apply sqrt_square; lra). apply sqrt_le_1_alt. lra. }
  assert (S2 : 0 <= e ^ 2 <= 1 / 4) by (split; nra).
  set (p := 1 - 3 / 2 * e + 15 / 8 * e ^ 2 - 35 / 16 * e ^ 3).
  assert (P : 0 < p). { unfold p. replace (e ^ 3) with (e * e ^ 2) by ring. set (z := e ^ 2) in *. nra. }
  set (g := (1 + e) * y * p). assert (G0 : 0 < g) by (unfold g; apply Rmult_lt_0_compat; [apply Rmult_lt_0_compat; lra|exact P]).
  set (q := - (315 / 64) - 63 / 32 * e + 105 / 256 * e ^ 2 - 45 / 256 * e ^ 3 + 1575 / 256 * e ^ 4 + 1225 / 256 * e ^ 5).
  assert (Q : g * g - 1 = e ^ 4 * q). { replace (g * g) with ((1 + e) ^ 2 * (y * y) * p ^ 2) by (unfold g; ring). rewrite Y. unfold p, q. field. }
  assert (Q1 : Rabs q <= 10).
  { assert (W : forall n, Rabs (e ^ n) <= 1). { intros n. rewrite <- RPow_abs, <- (pow1 n). apply pow_incr. split; [apply Rabs_pos|lra]. }
    assert (W2 := abs_split _ _ (W 2%nat)). assert (W3 : Rabs (e ^ 3) <= 1 / 8). { rewrite <- RPow_abs. replace (1 / 8) with ((1 / 2) ^ 3) by lra. apply pow_incr. split; [apply Rabs_pos|lra]. } apply abs_split in W3.
    assert (W4 : Rabs (e ^ 4) <= 1 / 16). { rewrite <- RPow_abs. replace (1 / 16) with ((1 / 2) ^ 4) by lra. apply pow_incr. split; [apply Rabs_pos|lra]. } apply abs_split in W4.
    assert (W5 : Rabs (e ^ 5) <= 1 / 32). { rewrite <- RPow_abs. replace (1 / 32) with ((1 / 2) ^ 5) by lra. apply pow_incr. split; [apply Rabs_pos|lra]. } apply abs_split in W5.
    apply Rabs_le. unfold q. split; lra. }
  assert (E4 : 0 <= e ^ 4) by (replace (e ^ 4) with (e ^ 2 * e ^ 2) by ring; nra).
  assert (G1 : Rabs (g - 1) <= e ^ 4 * 10).
  { assert (X : Rabs (g - 1) * (g + 1) <= e ^ 4 * 10). { replace (Rabs (g - 1) * (g + 1)) with (Rabs (e ^ 4 * q)). 2:{ rewrite <- Q. rewrite <- (Rabs_pos_eq (g + 1)) by lra. rewrite <- Rabs_mult. f_equal. ring. } apply abs_mul_le; [rewrite Rabs_pos_eq; lra|exact Q1]. }
    assert (A := Rabs_pos (g - 1)). nra. }
  assert (CB : 0 < cub e <= 4). { unfold cub. fold y. assert (1 / 4 <= (1 + e) * y) by nra. split; [apply Rinv_0_lt_compat; lra|]. replace 4 with (/ (1 / 4)) by lra. apply Rinv_le_contravar; lra. }
  replace (cub e - p) with (- (cub e) * (g - 1)) by (unfold cub, g; fold y; field; lra).
  eapply Rle_trans; [apply (abs_mul_le _ _ 4 (e ^ 4 * 10)); [rewrite Rabs_Ropp, Rabs_pos_eq; lra|exact G1]|]. lra.
Qed.
Lemma jet_small F b c d : jet F (fun _ => 0) b c d -> exists K r, 0 <= K /\ 0 < r <= 1 /\ forall t h, D t -> 0 <= h <= r -> Rabs (F t h) <= K * h /\ Rabs (F t h) <= 1 / 2.
Proof.
  intros (A & B & C & E & K & r & HK & Hr & H). destruct (bd4 _ _ _ _ A B C E) as (M & HM & HB).
  assert (Z : 0 < / (2 * (3 * M + K) + 1)) by (apply Rinv_0_lt_compat; lra).
  exists (3 * M + K), (Rmin r (/ (2 * (3 * M + K) + 1))). split; [lra|]. split. { split; [apply Rmin_pos; lra|]. assert (X := Rmin_l r (/ (2 * (3 * M + K) + 1))). lra. }
  intros t h Ht Hh. assert (X := Rmin_l r (/ (2 * (3 * M + K) + 1))). assert (X' := Rmin_r r (/ (2 * (3 * M + K) + 1))). specialize (H t h Ht ltac:(lra)). destruct (HB t Ht) as (_ & Bb & Bc & Bd).
  assert (P : Rabs (F t h) <= (3 * M + K) * h).
  { replace (F t h) with ((F t h - (0 + b t * h + c t * h ^ 2 + d t * h ^ 3)) + h * (b t + c t * h ^ 1 + d t * h ^ 2)) by ring.
    assert (h1 := pow_01 h 1 ltac:(lra)). assert (h2 := pow_01 h 2 ltac:(lra)). assert (h3 := pow_01 h 3 ltac:(lra)).
    eapply Rle_trans; [apply abs_add_le; [exact H|apply (abs_mul_le h _ h (M + M * 1 + M * 1))]|].
    - rewrite Rabs_pos_eq; lra.
    - apply abs_add_le; [apply abs_add_le; [exact Bb|]|]; apply abs_mul_le; try assumption; rewrite Rabs_pos_eq; lra.
    - replace (h ^ 4) with (h * h ^ 3) by ring. set (z := h ^ 3) in *. assert (0 <= K * h) by nra. nra. }
  split; [exact P|]. eapply Rle_trans; [exact P|]. apply Rle_trans with ((3 * M + K) * / (2 * (3 * M + K) + 1)); [apply Rmult_le_compat_l; lra|].
  apply Rmult_le_reg_r with (2 * (3 * M + K) + 1); [lra|]. rewrite Rmult_assoc, Rinv_l; lra.
Qed.
Lemma jet_err F G a b c d : jet F a b c d -> (exists K r, 0 <= K /\ 0 < r <= 1 /\ forall t h, D t -> 0 <= h <= r -> Rabs (G t h - F t h) <= K * h ^ 4) -> jet G a b c d.
Proof.
  intros (A & B & C & E & K & r & HK & Hr & H) (K' & r' & HK' & Hr' & H'). split; [exact A|]. split; [exact B|]. split; [exact C|]. split; [exact E|].
  exists (K' + K), (Rmin r r'). split; [lra|]. split. { split; [apply Rmin_pos; lra|]. assert (X := Rmin_l r r'). lra. }
  intros t h Ht Hh. assert (X := Rmin_l r r'). assert (X' := Rmin_r r r'). specialize (H t h Ht ltac:(lra)). specialize (H' t h Ht ltac:(lra)).
  replace (G t h - _) with ((G t h - F t h) + (F t h - (a t + b t * h + c t * h ^ 2 + d t * h ^ 3))) by ring. eapply Rle_trans; [apply abs_add_le; eassumption|]. lra.
Qed.
Lemma jet_cub F b c d : jet F (fun _ => 0) b c d -> jet (fun t h => cub (F t h)) (fun _ => 1) (fun t => - (3 / 2) * b t) (fun t => - (3 / 2) * c t + 15 / 8 * (b t * b t))
  (fun t => - (3 / 2) * d t + 15 / 4 * (b t * c t) - 35 / 16 * (b t * b t * b t)).
Proof.
  intros H. assert (J2 := jet_mul _ _ _ _ _ _ _ _ _ _ H H). assert (J3 := jet_mul _ _ _ _ _ _ _ _ _ _ J2 H).
  assert (J := jet_add _ _ _ _ _ _ _ _ _ _ (jet_add _ _ _ _ _ _ _ _ _ _ (jet_const _ (bd_const 1)) (jet_scal (- (3 / 2)) _ _ _ _ _ H)) (jet_add _ _ _ _ _ _ _ _ _ _ (jet_scal (15 / 8) _ _ _ _ _ J2) (jet_scal (- (35 / 16)) _ _ _ _ _ J3))).
  cbv beta in J. eapply jet_err; [eapply jet_ext; [..|exact J]; intros; cbv beta; [reflexivity|field|field|field|field]|]. cbv beta.
  destruct (jet_small _ _ _ _ H) as (K & r & HK & Hr & HS). exists (40 * K ^ 4), r. split; [assert (0 <= K ^ 4) by (apply pow_le; lra); lra|]. split; [exact Hr|].
  intros t h Ht Hh. destruct (HS t h Ht Hh) as [S1 S2]. assert (C := cub_taylor _ S2).
  replace (1 + - (3 / 2) * F t h + (15 / 8 * (F t h * F t h) + - (35 / 16) * (F t h * F t h * F t h))) with (1 - 3 / 2 * F t h + 15 / 8 * F t h ^ 2 - 35 / 16 * F t h ^ 3) by ring.
  eapply Rle_trans; [exact C|]. rewrite Rmult_assoc. apply Rmult_le_compat_l; [lra|]. rewrite <- Rpow_mult_distr.
  replace (F t h ^ 4) with (Rabs (F t h) ^ 4). 2:{ rewrite RPow_abs. apply Rabs_pos_eq. replace (F t h ^ 4) with ((F t h * F t h) * (F t h * F t h)) by ring. nra. }
  apply pow_incr. split; [apply Rabs_pos|exact S1].
Qed.
End Jet.
