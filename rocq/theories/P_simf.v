(** * binary64 facts about the simulation *)
From Coq Require Import Reals ZArith List Bool Lra Lia.
From Flocq Require Import Core BinarySingleNaN.
From Verif Require Import Num Vec Flt M_struct M_sim P_sat.
Import ListNotations.
Local Open Scope R_scope.

Lemma fopp_fin x : fin (fopp x) = fin x. Proof. apply is_finite_Bopp. Qed.
Lemma fopp_R x : fR (fopp x) = - fR x. Proof. apply B2R_Bopp. Qed.
Lemma fltb_fin_cases (m x : b64) : fin m = true ->
  (fin x = true /\ fltb m x = Rlt_bool (fR m) (fR x) /\ fltb x m = Rlt_bool (fR x) (fR m)) \/
  (x = fnan /\ fltb m x = false /\ fltb x m = false) \/ (x = finf false /\ fltb m x = true /\ fltb x m = false) \/ (x = finf true /\ fltb m x = false /\ fltb x m = true).
Proof.
  intros F. destruct (fin x) eqn:E.
  - left. split; [reflexivity|]. split; apply fltb_ok; assumption.
  - right. destruct x as [sx|sx| |sx mx ex Hx]; try discriminate E; destruct m as [sm|sm| |sm mm em Hm]; try discriminate F; try destruct sx; try destruct sm; repeat split; auto 6.
Qed.
(** the clamp's result for every input: finite, within the bound; NaN becomes -m *)
Lemma clamp_f (m x : b64) : fin m = true -> 0 < fR m ->
  fin (clamp m x) = true /\ - fR m <= fR (clamp m x) <= fR m /\ (x = fnan -> clamp m x = fopp m) /\
  (fin x = true -> - fR m < fR x <= fR m -> clamp m x = x).
Proof.
  intros F P. unfold clamp, pymax2, pymin2. cbn [nltb nopp FNum].
  assert (FO : fin (fopp m) = true) by (rewrite fopp_fin; exact F). assert (RO := fopp_R m).
  assert (MM : fltb (fopp m) m = true). { rewrite fltb_ok by assumption. apply Rlt_bool_true. lra. }
  destruct (fltb_fin_cases m x F) as [(Fx & E1 & _)|[(-> & E1 & _)|[(-> & E1 & _)|(-> & E1 & _)]]]; rewrite E1.
  - assert (NX : x <> fnan) by (intros ->; discriminate Fx). destruct (Rlt_bool_spec (fR m) (fR x)) as [L|L].
    + rewrite MM. split; [exact F|]. split; [lra|]. split; [intros K; contradiction|intros; lra].
    + rewrite fltb_ok by assumption. destruct (Rlt_bool_spec (fR (fopp m)) (fR x)) as [L2|L2].
      * split; [exact Fx|]. split; [lra|]. split; [intros K; contradiction|intros; reflexivity].
      * split; [exact FO|]. split; [lra|]. split; [intros K; contradiction|intros; lra].
  - destruct (fltb_fin_cases (fopp m) fnan FO) as [(Fx & _)|[(_ & E & _)|[(E & _)|(E & _)]]]; try discriminate.
    rewrite E. split; [exact FO|]. split; [lra|]. split; [reflexivity|intros K; discriminate K].
  - rewrite MM. split; [exact F|]. split; [lra|]. split; [intros K; discriminate K|intros K; discriminate K].
  - destruct (fltb_fin_cases (fopp m) (finf true) FO) as [(Fx & _)|[(E & _)|[(E & _)|(_ & E & _)]]]; try discriminate. rewrite E.
    split; [exact FO|]. split; [lra|]. split; [intros K; discriminate K|intros K; discriminate K].
Qed.
Lemma wheel_clamp_f (p : Wheels b64) t s : fin (wh_maxT p) = true -> 0 < fR (wh_maxT p) ->
  fin (wheel_clamp p t s) = true /\ - fR (wh_maxT p) <= fR (wheel_clamp p t s) <= fR (wh_maxT p).
Proof.
  intros F P. unfold wheel_clamp. cbv zeta. destruct (nltb _ _); match goal with |- fin (clamp _ ?x) = true /\ _ => destruct (clamp_f (wh_maxT p) x F P) as (A & B & _) end; split; assumption.
Qed.
Lemma fadd_nan_l x : fadd B754_nan x = B754_nan. Proof. destruct x; reflexivity. Qed.
Lemma fadd_nan_r x : fadd x B754_nan = B754_nan. Proof. destruct x as [[]|[]| |]; reflexivity. Qed.
Lemma fsub_nan_l x : fsub B754_nan x = B754_nan. Proof. destruct x; reflexivity. Qed.
Lemma fmul_nan_l' x : fmul B754_nan x = B754_nan. Proof. destruct x; reflexivity. Qed.
Lemma fmul_nan_r' x : fmul x B754_nan = B754_nan. Proof. destruct x as [[]|[]| |]; reflexivity. Qed.
Lemma fdiv_nan_l x : fdiv B754_nan x = B754_nan. Proof. destruct x as [[]|[]| |]; reflexivity. Qed.
Lemma fdiv_nan_r x : fdiv x B754_nan = B754_nan. Proof. destruct x as [[]|[]| |]; reflexivity. Qed.
Lemma wheel_clamp_nan (p : Wheels b64) t s : fin (wh_maxT p) = true -> 0 < fR (wh_maxT p) -> t = fnan -> wheel_clamp p t s = fopp (wh_maxT p).
Proof.
  intros F P ->. unfold wheel_clamp. cbv zeta. cbn [nadd nmul ndiv nabs nltb FNum]. unfold fnan. rewrite fdiv_nan_l, fmul_nan_l', fadd_nan_r.
  replace (fltb (wh_maxS p) (fabs B754_nan)) with false by (destruct (wh_maxS p) as [[]|[]| |]; reflexivity).
  apply (clamp_f (wh_maxT p) fnan F P). reflexivity.
Qed.
Definition snan : S4 b64 := mks fnan fnan fnan fnan.
Lemma snorm_nan q : sx q = fnan \/ sy q = fnan \/ sz q = fnan \/ ss q = fnan -> snorm q = fnan.
Proof.
  unfold snorm, fnan. cbn [nsqrt nadd nmul FNum]. intros [->|[->|[->| ->]]]; rewrite ?fmul_nan_l', ?fadd_nan_l, ?fadd_nan_r, ?fadd_nan_l; try reflexivity.
  all: rewrite ?fadd_nan_l; reflexivity.
Qed.
Lemma snormalize_nan q : snorm q = fnan -> snormalize q = snan.
Proof. intros E. unfold snormalize. rewrite E. cbv zeta. cbn [ndiv FNum]. unfold fnan. rewrite !fdiv_nan_r. reflexivity. Qed.
Lemma quat_raw_nan_l b : quat_raw snan b = snan.
Proof. unfold quat_raw, snan, fnan. cbn [sx sy sz ss nadd nsub nmul FNum]. rewrite !fmul_nan_l', !fadd_nan_l, !fsub_nan_l. repeat rewrite ?fadd_nan_l, ?fsub_nan_l. reflexivity. Qed.
Lemma quat_raw_nan_r a : quat_raw a snan = snan.
Proof. unfold quat_raw, snan, fnan. cbn [sx sy sz ss nadd nsub nmul FNum]. rewrite !fmul_nan_r', !fadd_nan_l, !fsub_nan_l. repeat rewrite ?fadd_nan_l, ?fsub_nan_l. reflexivity. Qed.
Definition is_zero4 (q : S4 b64) : Prop := exists a b c d, q = mks (fzero a) (fzero b) (fzero c) (fzero d).
Definition has_nan (q : S4 b64) : Prop := sx q = fnan \/ sy q = fnan \/ sz q = fnan \/ ss q = fnan.
Lemma snormalize_bad q : is_zero4 q \/ has_nan q -> snormalize q = snan.
Proof.
  intros [(a & b & c & d & ->)|H]; [|apply snormalize_nan, snorm_nan, H]. destruct a, b, c, d; reflexivity.
Qed.
Lemma snorm_snan : snorm snan = fnan. Proof. reflexivity. Qed.
Lemma quat_mult_bad a b : (is_zero4 a \/ has_nan a) \/ (is_zero4 b \/ has_nan b) -> quat_mult a b = snan.
Proof.
  intros [H|H]; unfold quat_mult; rewrite (snormalize_bad _ H); rewrite ?quat_raw_nan_l, ?quat_raw_nan_r; apply snormalize_nan, snorm_snan.
Qed.
