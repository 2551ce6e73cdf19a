(** * Lemmas about vector.saturation and vector.normalize on arrays *)
From Coq Require Import Reals ZArith List Bool Lra Psatz Lia.
From Flocq Require Import Core BinarySingleNaN Relative.
From Verif Require Import Num Flt Vec M_vector.
Import ListNotations.
Local Open Scope R_scope.

(** [m] is a greatest element of [l]. *)
Definition greatest (l : list R) (m : R) : Prop := In m l /\ forall y, In y l -> y <= m.

Lemma npmax2_R a b : npmax2 a b = Rmax a b.
Proof.
  unfold npmax2; rnumg.
  destruct (Rleb_spec b a), (Reqb_spec a a); simpl; try congruence; unfold Rmax; destruct (Rle_dec a b); lra.
Qed.
Lemma fold_npmax2 l a : greatest (a :: l) (fold_left npmax2 l a).
Proof.
  revert a; induction l as [|b l IH]; intros a; cbn [fold_left].
  - split; [left; reflexivity|]. intros y [E|[]]; lra.
  - rewrite npmax2_R. destruct (IH (Rmax a b)) as [H1 H2]. split.
    + destruct H1 as [E|H1]; [|right; right; exact H1].
      rewrite <- E. unfold Rmax; destruct (Rle_dec a b); [right; left|left]; reflexivity.
    + intros y [E|[E|Hy]].
      * subst. apply Rle_trans with (Rmax y b); [apply Rmax_l|apply H2; left; reflexivity].
      * subst. apply Rle_trans with (Rmax a y); [apply Rmax_r|apply H2; left; reflexivity].
      * apply H2; right; exact Hy.
Qed.
Lemma npmax_greatest l : l <> [] -> exists m, npmax l = Ok m /\ greatest l m.
Proof. destruct l as [|a l]; [congruence|]. intros _. eexists; split; [reflexivity|apply fold_npmax2]. Qed.
Lemma greatest_unique l m m' : greatest l m -> greatest l m' -> m = m'.
Proof. intros [H1 H2] [H3 H4]. apply Rle_antisym; [apply H4, H1|apply H2, H3]. Qed.

Lemma saturation_eq (x : list R) (x_max L : R) : greatest (map Rabs x) L ->
  saturation x x_max = Ok (if Rltb x_max L then map (fun xi => x_max * xi / L) x else x).
Proof.
  intros G. unfold saturation.
  assert (N : map (@nabs R RNum) x <> []).
  { rnumg. destruct G as [G _]. intros E; rewrite E in G; destruct G. }
  destruct (npmax_greatest _ N) as [m [E G']]. rewrite E. cbn [rbind].
  replace m with L; [reflexivity|]. eapply greatest_unique; [exact G|exact G'].
Qed.

(** What saturation must compute. *)
Definition saturates (x : list R) (x_max : R) (y : list R) : Prop :=
  (forall yi, In yi y -> Rabs yi <= x_max) /\
  exists k, 0 <= k <= 1 /\ y = map (fun xi => k * xi) x /\
    ((forall xi, In xi x -> Rabs xi <= x_max) -> y = x) /\
    ((exists xi, In xi x /\ x_max < Rabs xi) -> exists yi, In yi y /\ Rabs yi = x_max).

Lemma map_id_ext (x : list R) f : (forall a, f a = a) -> map f x = x.
Proof. intros H; induction x; simpl; congruence. Qed.

Lemma greatest_exists (l : list R) : l <> [] -> exists m, greatest l m.
Proof. intros H. destruct (npmax_greatest l H) as [m [_ G]]. eauto. Qed.

Lemma saturation_ok (x : list R) (x_max : R) : x <> [] -> 0 <= x_max ->
  exists y, saturation x x_max = Ok y /\ saturates x x_max y.
Proof.
  intros Hx Hm.
  assert (Hne : map Rabs x <> []) by (destruct x; [congruence|discriminate]).
  destruct (greatest_exists _ Hne) as [L G]. rewrite (saturation_eq x x_max L G).
  eexists; split; [reflexivity|].
  assert (GL : forall xi, In xi x -> Rabs xi <= L) by (intros xi Hi; apply G, in_map, Hi).
  destruct (Rltb_spec x_max L) as [H|H].
  - assert (PL : 0 < L) by lra.
    split.
    + intros yi Hi. apply in_map_iff in Hi. destruct Hi as [xi [E Hi]]. subst yi.
      unfold Rdiv. rewrite !Rabs_mult, (Rabs_pos_eq x_max) by lra. rewrite (Rabs_pos_eq (/ L)) by (left; apply Rinv_0_lt_compat, PL).
      apply Rmult_le_reg_r with L; [exact PL|]. rewrite !Rmult_assoc, Rinv_l, Rmult_1_r by lra.
      apply Rmult_le_compat_l; auto.
    + exists (x_max / L). split; [|split; [|split]].
      * split; [apply Rmult_le_pos; [lra|left; apply Rinv_0_lt_compat, PL]|].
        apply Rmult_le_reg_r with L; [exact PL|]. unfold Rdiv. rewrite Rmult_assoc, Rinv_l by lra. lra.
      * apply map_ext. intros a. field. lra.
      * intros K. exfalso. destruct G as [G1 G2]. apply in_map_iff in G1. destruct G1 as [xi [E Hi]].
        specialize (K xi Hi). lra.
      * intros _. destruct G as [G1 G2]. apply in_map_iff in G1. destruct G1 as [xi [E Hi]].
        exists (x_max * xi / L). split; [apply in_map_iff; eauto|].
        unfold Rdiv. rewrite !Rabs_mult, E, (Rabs_pos_eq x_max) by lra.
        rewrite (Rabs_pos_eq (/ L)) by (left; apply Rinv_0_lt_compat, PL). field. lra.
  - split; [intros yi Hi; apply GL in Hi; lra|].
    exists 1. split; [lra|]. split; [|split].
    + symmetry. apply map_id_ext. intros; ring.
    + reflexivity.
    + intros [xi [Hi K]]. apply GL in Hi. lra.
Qed.

Lemma saturation_empty (x_max : R) : saturation [] x_max = Raise ValueError.
Proof. reflexivity. Qed.

Lemma saturation_idem (x y : list R) (x_max : R) : 0 <= x_max -> saturation x x_max = Ok y ->
  saturation y x_max = Ok y.
Proof.
  intros Hm E. assert (Hx : x <> []) by (intros ->; discriminate E).
  destruct (saturation_ok x x_max Hx Hm) as [y' [E' S]]. rewrite E in E'. injection E' as <-.
  destruct S as [B [k [K1 [K2 _]]]].
  assert (Hy : y <> []) by (rewrite K2; destruct x; [congruence|discriminate]).
  destruct (saturation_ok y x_max Hy Hm) as [z [Ez [_ [k' [_ [_ [U _]]]]]]].
  rewrite Ez. f_equal. apply U, B.
Qed.

(** ** normalize on arrays of any length *)
Definition sumsq (x : list R) : R := fold_right (fun a s => a * a + s) 0 x.
Lemma sumsq_nonneg x : 0 <= sumsq x.
Proof. induction x; simpl; nra. Qed.
Lemma fold_sumsq x a : fold_left (fun s xi => s + xi * xi) x a = a + sumsq x.
Proof. revert a; induction x; intros; simpl; [ring|]. rewrite IHx. ring. Qed.
Lemma norml_eq (x : list R) : norml x = sqrt (sumsq x).
Proof. unfold norml. rnumg. rewrite fold_sumsq. f_equal. ring. Qed.
Lemma sumsq_zero x : sumsq x = 0 -> Forall (fun a => a = 0) x.
Proof.
  induction x as [|a x IH]; simpl; intros H; constructor; generalize (sumsq_nonneg x); intros; [nra|apply IH; nra].
Qed.
Lemma sumsq_scale k x : sumsq (map (fun a => k * a) x) = k * k * sumsq x.
Proof. induction x; simpl; [ring|]. rewrite IHx. ring. Qed.
Lemma sumsq_allzero x : Forall (fun a => a = 0) x -> sumsq x = 0.
Proof. induction 1; simpl; subst; lra. Qed.

Lemma normalize_nonzero (x : list R) : ~ Forall (fun a => a = 0) x ->
  sumsq (normalize x) = 1 /\ exists k, 0 < k /\ normalize x = map (fun a => k * a) x.
Proof.
  intros H. unfold normalize; rnumg. rewrite norml_eq.
  assert (P : 0 < sumsq x).
  { destruct (sumsq_nonneg x) as [K|K]; [exact K|]. exfalso; apply H, sumsq_zero; auto. }
  assert (S := sqrt_lt_R0 _ P).
  destruct (Reqb_spec (sqrt (sumsq x)) 0); [lra|].
  assert (E : map (fun qi => qi / sqrt (sumsq x)) x = map (fun a => / sqrt (sumsq x) * a) x)
    by (apply map_ext; intros; field; lra).
  rewrite E. split.
  - rewrite sumsq_scale. rewrite <- (sqrt_sqrt (sumsq x)) at 3 by lra. field. lra.
  - exists (/ sqrt (sumsq x)). split; [apply Rinv_0_lt_compat, S|reflexivity].
Qed.
Lemma normalize_allzero (x : list R) : Forall (fun a => a = 0) x -> normalize x = x.
Proof.
  intros H. unfold normalize; rnumg. rewrite norml_eq, sumsq_allzero, sqrt_0 by assumption.
  destruct (Reqb_spec 0 0); [reflexivity|lra].
Qed.
Lemma normalize_idem (x : list R) : normalize (normalize x) = normalize x.
Proof.
  destruct (Req_EM_T (sumsq x) 0) as [E|E].
  - apply sumsq_zero in E. now rewrite !normalize_allzero by (try rewrite normalize_allzero; assumption).
  - assert (N : ~ Forall (fun a => a = 0) x) by (intros F; apply E, sumsq_allzero, F).
    destruct (normalize_nonzero x N) as [S _].
    unfold normalize at 1; rnumg. rewrite norml_eq, S, sqrt_1.
    destruct (Reqb_spec 1 0); [lra|]. apply map_id_ext; intros; field.
Qed.

(** ** saturation in binary64 *)
Notation rnd := (round radix2 (SpecFloat.fexp 53 1024) ZnearestE).
Notation fmt := (generic_format radix2 (SpecFloat.fexp 53 1024)).
#[global] Instance b64_prec_inst : Prec_gt_0 53 := b64_prec.
#[global] Instance fexp_valid : Valid_exp (SpecFloat.fexp 53 1024).
Proof. exact (fexp_correct 53 1024 b64_prec). Qed.
#[global] Instance fexp_mono : Monotone_exp (SpecFloat.fexp 53 1024).
Proof. exact (fexp_monotone 53 1024). Qed.
Lemma fexp_FLT : SpecFloat.fexp 53 1024 = FLT_exp (-1074) 53.
Proof. reflexivity. Qed.

Lemma fmul_ok x y : fin x = true -> fin y = true -> Rabs (rnd (fR x * fR y)) < bpow radix2 1024 ->
  fR (fmul x y) = rnd (fR x * fR y) /\ fin (fmul x y) = true.
Proof.
  intros Fx Fy H. generalize (Bmult_correct 53 1024 b64_prec b64_emax mode_NE x y).
  unfold fR in *. change (round_mode mode_NE) with ZnearestE. rewrite Rlt_bool_true by exact H.
  intros [H1 [H2 _]]. split; [exact H1|]. unfold fin, fmul in *. rewrite H2, Fx, Fy. reflexivity.
Qed.
Lemma fmul_fin_bound x y : fin x = true -> fin y = true -> fin (fmul x y) = true ->
  Rabs (rnd (fR x * fR y)) < bpow radix2 1024.
Proof.
  intros Fx Fy F. generalize (Bmult_correct 53 1024 b64_prec b64_emax mode_NE x y).
  unfold fR in *. change (round_mode mode_NE) with ZnearestE.
  destruct (Rlt_bool_spec (Rabs (rnd (B2R x * B2R y))) (bpow radix2 1024)) as [L|L]; [intros; exact L|].
  intros E. exfalso. unfold fin, fmul in F.
  assert (is_finite_SF (B2SF (Bmult (prec:=53) (emax:=1024) (prec_gt_0_:=b64_prec) (prec_lt_emax_:=b64_emax) mode_NE x y)) = true).
  { rewrite is_finite_SF_B2SF. exact F. }
  rewrite E in H. unfold binary_overflow in H. destruct (overflow_to_inf mode_NE _) eqn:O in H; discriminate.
Qed.
Lemma fdiv_ok x y : fin x = true -> fR y <> 0 -> Rabs (rnd (fR x / fR y)) < bpow radix2 1024 ->
  fR (fdiv x y) = rnd (fR x / fR y) /\ fin (fdiv x y) = true.
Proof.
  intros Fx Ny H. generalize (Bdiv_correct 53 1024 b64_prec b64_emax mode_NE x y Ny).
  unfold fR in *. change (round_mode mode_NE) with ZnearestE. rewrite Rlt_bool_true by exact H.
  intros [H1 [H2 _]]. split; [exact H1|]. unfold fin, fdiv in *. rewrite H2, Fx. reflexivity.
Qed.
Lemma fltb_ok x y : fin x = true -> fin y = true -> fltb x y = Rlt_bool (fR x) (fR y).
Proof. apply Bltb_correct. Qed.
Lemma fleb_ok x y : fin x = true -> fin y = true -> fleb x y = Rle_bool (fR x) (fR y).
Proof. apply Bleb_correct. Qed.
Lemma fabs_fin x : fin (fabs x) = fin x.
Proof. apply is_finite_Babs. Qed.
Lemma fabs_R x : fR (fabs x) = Rabs (fR x).
Proof. apply B2R_Babs. Qed.
Lemma feqb_refl x : feqb x x = negb (is_nan x).
Proof. apply Beqb_refl. Qed.

Lemma npmax2_nan_l (b : b64) : npmax2 B754_nan b = B754_nan.
Proof. unfold npmax2. cbn [neqb FNum]. rewrite feqb_refl. simpl. now rewrite orb_true_r. Qed.
Lemma npmax2_nan_r (a : b64) : npmax2 a B754_nan = B754_nan.
Proof.
  unfold npmax2. cbn [neqb nleb FNum]. rewrite feqb_refl.
  destruct a as [| | |]; reflexivity.
Qed.
Lemma fold_npmax_nan (l : list b64) a : In B754_nan (a :: l) -> fold_left npmax2 l a = B754_nan.
Proof.
  revert a; induction l as [|b l IH]; intros a H; cbn [fold_left].
  - destruct H as [H|[]]. exact H.
  - apply IH. destruct H as [H|[H|H]].
    + subst. left. apply npmax2_nan_l.
    + subst. left. apply npmax2_nan_r.
    + right. exact H.
Qed.
Lemma saturation_nan (x : list b64) x_max : In B754_nan x -> saturation x x_max = Ok x.
Proof.
  intros H. unfold saturation.
  assert (K : In (B754_nan : b64) (map (@nabs b64 FNum) x)).
  { change (B754_nan : b64) with (@nabs b64 FNum B754_nan). apply in_map, H. }
  destruct (map nabs x) as [|a l]; [destruct K|].
  cbn [npmax rbind]. rewrite fold_npmax_nan by exact K.
  assert (E : nltb x_max (B754_nan : b64) = false) by (destruct x_max; reflexivity).
  rewrite E. reflexivity.
Qed.

(** [m] is the float of greatest magnitude value among the finite floats [l]. *)
Definition fgreatest (l : list b64) (m : b64) : Prop := In m l /\ forall y, In y l -> fR y <= fR m.
Lemma fold_npmax_fin (l : list b64) a : (forall y, In y (a :: l) -> fin y = true) ->
  fgreatest (a :: l) (fold_left npmax2 l a).
Proof.
  revert a; induction l as [|b l IH]; intros a F; cbn [fold_left].
  - split; [left; reflexivity|]. intros y [E|[]]; subst; lra.
  - assert (Fa : fin a = true) by (apply F; left; reflexivity).
    assert (Fb : fin b = true) by (apply F; right; left; reflexivity).
    assert (E2 : npmax2 a b = if Rle_bool (fR b) (fR a) then a else b).
    { unfold npmax2. cbn [nleb neqb FNum]. rewrite fleb_ok, feqb_refl by assumption.
      replace (is_nan a) with false by (destruct a; try reflexivity; discriminate Fa).
      simpl. now rewrite orb_false_r. }
    assert (F2 : forall y, In y (npmax2 a b :: l) -> fin y = true).
    { intros y [E|H]; [subst y; rewrite E2; destruct (Rle_bool _ _); assumption|apply F; right; right; exact H]. }
    destruct (IH (npmax2 a b) F2) as [H1 H2]. split.
    + destruct H1 as [E|H1]; [|right; right; exact H1].
      rewrite <- E, E2. destruct (Rle_bool (fR b) (fR a)); [left|right; left]; reflexivity.
    + assert (D := H2 (npmax2 a b) (or_introl eq_refl)). rewrite E2 in D at 1.
      intros y [E|[E|Hy]].
      * subst y. destruct (Rle_bool_spec (fR b) (fR a)); lra.
      * subst y. destruct (Rle_bool_spec (fR b) (fR a)); lra.
      * apply H2; right; exact Hy.
Qed.

Lemma fin_bound x : Rabs (fR x) < bpow radix2 1024.
Proof. apply (abs_B2R_lt_emax 53 1024). Qed.
Lemma fmt_R x : fmt (fR x).
Proof. apply (generic_format_B2R 53 1024). Qed.

Lemma sat_component (x_max L xi : b64) :
  fin x_max = true -> fin L = true -> fin xi = true ->
  0 < fR x_max < fR L -> Rabs (fR xi) <= fR L ->
  fin (fmul x_max L) = true -> bpow radix2 (-1022) <= fR x_max * fR L ->
  fin (fdiv (fmul x_max xi) L) = true /\
  Rabs (fR (fdiv (fmul x_max xi) L)) <= succ radix2 (SpecFloat.fexp 53 1024) (fR x_max) /\
  0 <= fR (fdiv (fmul x_max xi) L) * fR xi.
Proof.
  intros Fm FL Fx [Hm HmL] Hx Fp Hn.
  set (m := fR x_max) in *. set (l := fR L) in *. set (x := fR xi) in *.
  assert (Bp := fmul_fin_bound x_max L Fm FL Fp). fold m l in Bp.
  assert (Pl : 0 < m * l) by nra.
  assert (Rp0 : 0 <= rnd (m * l)).
  { rewrite <- (round_0 radix2 (SpecFloat.fexp 53 1024) ZnearestE). apply round_le; auto with typeclass_instances; lra. }
  rewrite Rabs_pos_eq in Bp by exact Rp0.
  assert (Ax : Rabs (rnd (m * x)) <= rnd (m * l)).
  { rewrite <- round_NE_abs by auto with typeclass_instances.
    apply round_le; auto with typeclass_instances.
    rewrite Rabs_mult, (Rabs_pos_eq m) by lra. apply Rmult_le_compat_l; lra. }
  destruct (fmul_ok x_max xi Fm Fx) as [E1 F1]. { fold m x. lra. }
  fold m x in E1.
  (* relative error of the largest product *)
  assert (Re : rnd (m * l) <= m * l * (1 + bpow radix2 (-53))).
  { assert (K := relative_error_N_FLT radix2 (-1074) 53 b64_prec (fun z => negb (Z.even z)) (m * l)).
    rewrite <- fexp_FLT in K. change (Znearest (fun z => negb (Z.even z))) with ZnearestE in K.
    assert (K' : Rabs (rnd (m * l) - m * l) <= / 2 * bpow radix2 (-53 + 1) * Rabs (m * l)).
    { apply K. rewrite Rabs_pos_eq by lra. exact Hn. }
    rewrite (Rabs_pos_eq (m * l)) in K' by lra.
    replace (/ 2 * bpow radix2 (-53 + 1)) with (bpow radix2 (-53)) in K' by (rewrite bpow_plus; change (bpow radix2 1) with 2; field).
    apply Rabs_le_inv in K'. lra. }
  set (fe := SpecFloat.fexp 53 1024) in *.
  set (p := fR (fmul x_max xi)) in *.
  assert (Ap : Rabs p <= m * l * (1 + bpow radix2 (-53))) by (rewrite E1; lra).
  assert (Pl' : 0 < l) by lra.
  assert (Aq : Rabs (p / l) <= m * (1 + bpow radix2 (-53))).
  { unfold Rdiv. rewrite Rabs_mult, (Rabs_pos_eq (/ l)) by (left; apply Rinv_0_lt_compat, Pl').
    apply Rmult_le_reg_r with l; [exact Pl'|]. rewrite Rmult_assoc, Rinv_l, Rmult_1_r by lra. lra. }
  assert (Hs : m * (1 + bpow radix2 (-53)) <= succ radix2 fe m).
  { rewrite succ_eq_pos by lra.
    assert (U := ulp_FLT_gt radix2 (-1074) 53 m). rewrite <- fexp_FLT in U. fold fe in U.
    rewrite (Rabs_pos_eq m) in U by lra. change (-(53))%Z with (-53)%Z in U. lra. }
  assert (Fs : generic_format radix2 fe (succ radix2 fe m)).
  { apply generic_format_succ; [apply fexp_valid|apply fmt_R]. }
  assert (Ar : Rabs (rnd (p / l)) <= succ radix2 fe m).
  { apply abs_round_le_generic; [apply fexp_valid|auto with typeclass_instances|exact Fs|lra]. }
  assert (Hsl : succ radix2 fe m <= l).
  { apply succ_le_lt; [apply fexp_valid|apply fmt_R|apply fmt_R|exact HmL]. }
  assert (Bl := fin_bound L). fold l in Bl. rewrite Rabs_pos_eq in Bl by lra.
  destruct (fdiv_ok (fmul x_max xi) L F1) as [E2 F2].
  { fold l. lra. }
  { eapply Rle_lt_trans; [exact Ar|]. lra. }
  fold p l fe in E2. split; [exact F2|]. rewrite E2. split; [exact Ar|].
  (* sign *)
  destruct (Rle_lt_dec 0 x) as [Sx|Sx].
  - apply Rmult_le_pos; [|exact Sx].
    rewrite <- (round_0 radix2 fe ZnearestE). apply round_le; auto with typeclass_instances.
    apply Rmult_le_pos; [|left; apply Rinv_0_lt_compat, Pl'].
    rewrite E1. rewrite <- (round_0 radix2 fe ZnearestE). apply round_le; auto with typeclass_instances. nra.
  - enough (Hq : round radix2 fe ZnearestE (p / l) <= 0) by nra.
    rewrite <- (round_0 radix2 fe ZnearestE). apply round_le; auto with typeclass_instances.
    assert (p <= 0).
    { rewrite E1. rewrite <- (round_0 radix2 fe ZnearestE). apply round_le; auto with typeclass_instances. nra. }
    assert (0 < / l) by (apply Rinv_0_lt_compat, Pl'). unfold Rdiv. nra.
Qed.

Lemma saturation_b64 (x : list b64) (x_max L : b64) :
  (forall xi, In xi x -> fin xi = true) -> fin x_max = true ->
  In L (map fabs x) -> (forall xi, In xi x -> Rabs (fR xi) <= fR L) ->
  0 < fR x_max ->
  fin (fmul x_max L) = true -> bpow radix2 (-1022) <= fR x_max * fR L ->
  exists y, saturation x x_max = Ok y /\
    Forall2 (fun yi xi => fin yi = true /\
       Rabs (fR yi) <= succ radix2 (SpecFloat.fexp 53 1024) (fR x_max) /\ 0 <= fR yi * fR xi) y x.
Proof.
  intros Fx Fm HL GL Pm Fp Hn.
  assert (FL : fin L = true).
  { apply in_map_iff in HL. destruct HL as [xi [E Hi]]. subst L. rewrite fabs_fin. auto. }
  unfold saturation.
  change (map (@nabs b64 FNum) x) with (map fabs x).
  destruct (map fabs x) as [|a l] eqn:Em; [destruct HL|].
  cbn [npmax rbind]. set (L' := fold_left npmax2 l a).
  assert (Fl : forall y, In y (a :: l) -> fin y = true).
  { intros y Hy. rewrite <- Em in Hy. apply in_map_iff in Hy. destruct Hy as [xi [E Hi]]. subst y. rewrite fabs_fin. auto. }
  destruct (fold_npmax_fin l a Fl) as [G1 G2]. fold L' in G1, G2.
  assert (FL' : fin L' = true) by (apply Fl, G1).
  assert (GL' : forall xi, In xi x -> Rabs (fR xi) <= fR L').
  { intros xi Hi. rewrite <- fabs_R. apply G2. rewrite <- Em. apply in_map, Hi. }
  assert (EL : fR L' = fR L).
  { apply Rle_antisym.
    - rewrite <- Em in G1. apply in_map_iff in G1. destruct G1 as [xi [E Hi]].
      rewrite <- E, fabs_R. auto.
    - apply G2, HL. }
  assert (L'eq : L' = L).
  { assert (HL2 := HL). rewrite <- Em in HL2, G1. apply in_map_iff in HL2. apply in_map_iff in G1.
    destruct HL2 as [u [Eu Hu]], G1 as [w [Ew Hw]].
    apply B2R_Bsign_inj; [exact FL'|exact FL|exact EL|].
    rewrite <- Eu, <- Ew. unfold fabs. rewrite !Bsign_Babs. reflexivity. }
  change (nltb x_max L') with (fltb x_max L'). rewrite fltb_ok by assumption.
  destruct (Rlt_bool_spec (fR x_max) (fR L')) as [H|H].
  - eexists; split; [reflexivity|].
    clearbody L'. subst L'. clear Em Fl G1 G2 FL' GL' EL HL.
    induction x as [|xi x IH]; constructor.
    + change (@nmul b64 FNum) with fmul. change (@ndiv b64 FNum) with fdiv.
      apply sat_component; auto; [apply Fx; left; reflexivity|apply GL; left; reflexivity].
    + apply IH; intros; [apply Fx|apply GL]; right; assumption.
  - exists x. split; [reflexivity|].
    assert (Q : forall xi, In xi x -> Rabs (fR xi) <= fR x_max) by (intros xi Hi; apply GL' in Hi; lra).
    clear - Fx Q. induction x as [|xi x IH]; constructor.
    + split; [apply Fx; left; reflexivity|]. split; [|nra].
      apply Rle_trans with (fR x_max); [apply Q; left; reflexivity|].
      apply succ_ge_id.
    + apply IH; intros; [apply Fx|apply Q]; right; assumption.
Qed.

(** Witness: the limit can be exceeded. *)
Definition f33 := fdec 33 10.
Definition f121 := fdec 121 10.
Lemma saturation_b64_exceeds :
  exists y, saturation [f121; fofZ 0] f33 = Ok y /\ existsb (fltb f33) y = true.
Proof.
  assert (H : match saturation [f121; fofZ 0] f33 with Ok y => existsb (fltb f33) y | _ => false end = true)
    by (vm_compute; reflexivity).
  destruct (saturation [f121; fofZ 0] f33) as [y|e]; [|discriminate H].
  exists y; split; [reflexivity|exact H].
Qed.
