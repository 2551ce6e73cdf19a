(** * Lemmas about the controllers: the hysteretic trigger *)
From Coq Require Import Reals ZArith List Bool Lra Psatz.
From Flocq Require Import Core BinarySingleNaN.
From Verif Require Import Num Flt Vec M_vector M_quaternion M_struct M_dyn P_sat P_struct M_ctrl S_ctrl.
Import ListNotations.
Local Open Scope R_scope.

Lemma sign_nz (x : R) : x <> 0 -> nsign x = (if Rlt_dec 0 x then 1 else -1).
Proof. intros H. destruct (Rlt_dec 0 x); [apply nsign_pos; lra|apply nsign_neg; lra]. Qed.
Lemma trig_new_eq (x hw : R) : trig_new x hw = mkTr (if Rlt_dec x 0 then -1 else 1) hw.
Proof.
  unfold trig_new; rnumg. f_equal. destruct (Rlt_dec x 0).
  - rewrite nsign_neg by lra. destruct (Reqb_spec (-1) 0); simpl; lra.
  - destruct (Rlt_dec 0 x).
    + rewrite nsign_pos by lra. destruct (Reqb_spec 1 0); simpl; lra.
    + replace x with 0 by lra. rewrite nsign_0. destruct (Reqb_spec 0 0); simpl; lra.
Qed.
Lemma trig_step_hw (x : R) t : tr_hw (trig_step x t) = tr_hw t.
Proof. unfold trig_step. destruct (nleb _ _); reflexivity. Qed.
Lemma trig_step_eq (x : R) t : tr_mem (trig_step x t) =
  if Rle_dec (x * tr_mem t) (- tr_hw t) then (if Rlt_dec 0 x then 1 else if Rlt_dec x 0 then -1 else tr_mem t) else tr_mem t.
Proof.
  unfold trig_step; rnumg. destruct (Rleb_spec (x * tr_mem t) (- tr_hw t)), (Rle_dec (x * tr_mem t) (- tr_hw t)); try contradiction; try reflexivity; try lra.
  cbn [tr_mem]. destruct (Rlt_dec 0 x); [|destruct (Rlt_dec x 0)].
  - rewrite nsign_pos by lra. destruct (Reqb_spec 1 0); simpl; lra.
  - rewrite nsign_neg by lra. destruct (Reqb_spec (-1) 0); simpl; lra.
  - replace x with 0 by lra. rewrite nsign_0. destruct (Reqb_spec 0 0); simpl; lra.
Qed.
Lemma trig_pm (x : R) t : pm1 (tr_mem t) -> pm1 (tr_mem (trig_step x t)).
Proof. intros H. rewrite trig_step_eq. unfold pm1. repeat destruct (Rle_dec _ _); repeat destruct (Rlt_dec _ _); auto. Qed.
Lemma run_pm (xs : list R) : forall t, pm1 (tr_mem t) -> pm1 (tr_mem (trig_run xs t)) /\ tr_hw (trig_run xs t) = tr_hw t.
Proof.
  induction xs as [|x xs IH]; intros t H; [split; auto|]. cbn [trig_run fold_left]. fold (trig_run xs (trig_step x t)).
  destruct (IH (trig_step x t) (trig_pm x t H)) as [A B]. rewrite B, trig_step_hw. auto.
Qed.
Lemma new_pm (x hw : R) : pm1 (tr_mem (trig_new x hw)).
Proof. rewrite trig_new_eq. unfold pm1. cbn. destruct (Rlt_dec x 0); auto. Qed.
Lemma trig_hyst (x : R) t : pm1 (tr_mem t) -> 0 <= tr_hw t -> hysteresis (tr_hw t) (tr_mem t) x (tr_mem (trig_step x t)).
Proof.
  intros P H. rewrite trig_step_eq. unfold hysteresis. destruct P as [-> | ->].
  - destruct (Rle_dec (x * 1) (- tr_hw t)); [destruct (Rlt_dec 0 x); [|destruct (Rlt_dec x 0)]|].
    + lra.
    + left. rewrite Rabs_left by lra. lra.
    + right. split; lra.
    + right. split; [|reflexivity]. destruct (Rle_dec 0 x); [left; lra|right; rewrite Rabs_left by lra; lra].
  - destruct (Rle_dec (x * -1) (- tr_hw t)); [destruct (Rlt_dec 0 x); [|destruct (Rlt_dec x 0)]|].
    + left. rewrite Rabs_right by lra. lra.
    + lra.
    + right. split; lra.
    + right. split; [|reflexivity]. destruct (Rle_dec x 0); [left; lra|right; rewrite Rabs_right by lra; lra].
Qed.
Lemma run_cons (x : R) xs t : trig_run (x :: xs) t = trig_run xs (trig_step x t). Proof. reflexivity. Qed.
Lemma run_app (xs ys : list R) t : trig_run (xs ++ ys) t = trig_run ys (trig_run xs t).
Proof. unfold trig_run. apply fold_left_app. Qed.
Lemma run_band (xs : list R) : forall t, pm1 (tr_mem t) -> Forall (fun x => Rabs x < tr_hw t) xs -> tr_mem (trig_run xs t) = tr_mem t.
Proof.
  induction xs as [|x xs IH]; intros t P F; [reflexivity|]. inversion F as [|? ? Hx F']; subst.
  assert (E : trig_step x t = t).
  { unfold trig_step; rnumg. destruct (Rleb_spec (x * tr_mem t) (- tr_hw t)) as [L|]; [|reflexivity]. exfalso.
    apply Rabs_def2 in Hx. destruct P as [E|E]; rewrite E in L; lra. }
  rewrite run_cons, E. apply IH; assumption.
Qed.
Lemma run_last (xs : list R) : forall t, pm1 (tr_mem t) -> tr_hw t = 0 -> tr_mem (trig_run xs t) = last_sign (tr_mem t) xs.
Proof.
  induction xs as [|x xs IH]; intros t P Z; [reflexivity|]. rewrite run_cons, IH.
  - cbn [last_sign]. f_equal. rewrite trig_step_eq, Z. destruct P as [-> | ->].
    + destruct (Rle_dec (x * 1) (- 0)), (Rlt_dec 0 x), (Rlt_dec x 0); lra.
    + destruct (Rle_dec (x * -1) (- 0)), (Rlt_dec 0 x), (Rlt_dec x 0); lra.
  - apply trig_pm, P.
  - rewrite trig_step_hw. exact Z.
Qed.

(** binary64 *)
Definition f1 : b64 := fofZ 1.
Definition fm1 : b64 := fopp f1.
Definition fpm1 (s : b64) : Prop := s = f1 \/ s = fm1.
Lemma f1_R : fR f1 = 1 /\ fin f1 = true. Proof. destruct (fofZ_R 1) as [A B]; [lia|]. split; [exact A|exact B]. Qed.
Lemma fm1_R : fR fm1 = -1 /\ fin fm1 = true.
Proof. destruct f1_R as [A B]. unfold fm1, fopp, fR, fin in *. rewrite B2R_Bopp, A. split; [lra|]. rewrite is_finite_Bopp. exact B. Qed.
Lemma f0_R : fR (fofZ 0) = 0 /\ fin (fofZ 0) = true. Proof. apply fofZ_R. lia. Qed.
Lemma fmul_1 (x : b64) : fin x = true -> fR (fmul x f1) = fR x /\ fin (fmul x f1) = true.
Proof.
  intros F. destruct f1_R as [A B].
  assert (E : rnd (fR x * fR f1) = fR x) by (rewrite A, Rmult_1_r; apply round_generic; [apply valid_rnd_N|apply fmt_R]).
  destruct (fmul_ok x f1 F B) as [C D]. { rewrite E. apply fin_bound. } rewrite C, E. auto.
Qed.
Lemma fmul_m1 (x : b64) : fin x = true -> fR (fmul x fm1) = - fR x /\ fin (fmul x fm1) = true.
Proof.
  intros F. destruct fm1_R as [A B].
  assert (E : rnd (fR x * fR fm1) = - fR x).
  { rewrite A. replace (fR x * -1) with (- fR x) by lra. apply round_generic; [apply valid_rnd_N|]. apply generic_format_opp. apply fmt_R. }
  destruct (fmul_ok x fm1 F B) as [C D]. { rewrite E, Rabs_Ropp. apply fin_bound. } rewrite C, E. auto.
Qed.
Lemma fmul_inf s (y : b64) : fin y = true -> 0 < fR y -> fmul (B754_infinity s) y = B754_infinity s.
Proof.
  destruct y as [b|b| |b m e H]; unfold fR, fin; cbn; try discriminate; try lra; intros _ P.
  destruct b; [|destruct s; reflexivity]. exfalso. assert (F2R (Float radix2 (cond_Zopp true (Zpos m)) e) < 0) by (apply F2R_lt_0; reflexivity). lra.
Qed.
Lemma fmul_inf_neg s (y : b64) : fin y = true -> fR y < 0 -> fmul (B754_infinity s) y = B754_infinity (negb s).
Proof.
  destruct y as [b|b| |b m e H]; unfold fR, fin; cbn; try discriminate; try lra; intros _ P.
  destruct b; [destruct s; reflexivity|]. exfalso. assert (0 < F2R (Float radix2 (cond_Zopp false (Zpos m)) e)) by (apply F2R_gt_0; reflexivity). lra.
Qed.
Lemma fle_mul1 (x y : b64) : fleb (fmul x f1) y = fleb x y.
Proof.
  destruct (fin x) eqn:F.
  - destruct (fmul_1 x F) as [A B]. destruct (fin y) eqn:G.
    + rewrite !fleb_ok by assumption. rewrite A. reflexivity.
    + clear A. destruct x as [[]|[]| |[] ? ? ?]; try discriminate F; destruct y as [|[]| |]; try discriminate G;
        destruct (fmul _ f1) as [|[]| |[]]; try discriminate B; reflexivity.
  - destruct x as [|s| |]; try discriminate F.
    + rewrite fmul_inf; [reflexivity|apply f1_R|]. rewrite (proj1 f1_R). lra.
    + rewrite fmul_nan_l. reflexivity.
Qed.
Lemma fle_mulm1 (x y : b64) : fleb (fmul x fm1) (fopp y) = fleb y x.
Proof.
  destruct (fin x) eqn:F.
  - destruct (fmul_m1 x F) as [A B]. destruct (fin y) eqn:G.
    + assert (G' : fin (fopp y) = true) by (unfold fin, fopp in *; rewrite is_finite_Bopp; exact G).
      rewrite !fleb_ok by assumption. rewrite A. unfold fopp, fR. rewrite B2R_Bopp.
      destruct (Rle_bool_spec (- B2R x) (- B2R y)), (Rle_bool_spec (B2R y) (B2R x)); try reflexivity; lra.
    + clear A. destruct x as [[]|[]| |[] ? ? ?]; try discriminate F; destruct y as [|[]| |]; try discriminate G;
        destruct (fmul _ fm1) as [|[]| |[]]; try discriminate B; reflexivity.
  - destruct x as [|s| |]; try discriminate F.
    + rewrite fmul_inf_neg; [|apply fm1_R|rewrite (proj1 fm1_R); lra]. destruct s, y as [[]|[]| |[]]; reflexivity.
    + rewrite fmul_nan_l. destruct y as [[]|[]| |[]]; reflexivity.
Qed.
Lemma fzero_eq : fofZ 0 = B754_zero false. Proof. reflexivity. Qed.
Lemma feq_f1_0 : feqb f1 (fofZ 0) = false.
Proof. destruct f1_R as [A B]. destruct f0_R as [C D]. unfold feqb. rewrite Beqb_correct by assumption. unfold fR in *. rewrite A, C. apply Req_bool_false. lra. Qed.
Lemma feq_fm1_0 : feqb fm1 (fofZ 0) = false.
Proof. destruct fm1_R as [A B]. destruct f0_R as [C D]. unfold feqb. rewrite Beqb_correct by assumption. unfold fR in *. rewrite A, C. apply Req_bool_false. lra. Qed.
Lemma fsign_cases (x : b64) : is_nan x = false ->
  (fltb x (fofZ 0) = true /\ nsign x = fm1) \/ (fltb x (fofZ 0) = false /\ fltb (fofZ 0) x = true /\ nsign x = f1) \/
  (fltb x (fofZ 0) = false /\ fltb (fofZ 0) x = false /\ nsign x = fofZ 0).
Proof.
  intros N. unfold nsign. cbn [nltb neqb n0 n1 nopp FNum]. rewrite fzero_eq. unfold fm1, f1. generalize (fofZ 1). intros o.
  destruct x as [[]|[]| |[]]; try discriminate N; cbn; auto 6.
Qed.
Lemma fstep_pos (x : b64) t : tr_mem t = f1 -> fleb (fofZ 0) (tr_hw t) = true ->
  tr_mem (trig_step x t) = if fltb x (fofZ 0) && fleb x (fopp (tr_hw t)) then fm1 else f1.
Proof.
  intros M H. unfold trig_step. cbn [nmul nleb nopp neqb n0 FNum]. rewrite M, fle_mul1.
  destruct (is_nan x) eqn:N.
  { destruct x; try discriminate N. cbn. rewrite M. destruct (tr_hw t) as [[]|[]| |[]]; reflexivity. }
  destruct (fsign_cases x N) as [[E S]|[[E [E' S]]|[E [E' S]]]]; rewrite S, E; cbn [andb].
  - destruct (fleb x (fopp (tr_hw t))); cbn [tr_mem]; [rewrite feq_fm1_0; reflexivity|exact M].
  - destruct (fleb x (fopp (tr_hw t))); cbn [tr_mem]; [rewrite feq_f1_0; reflexivity|exact M].
  - destruct (fleb x (fopp (tr_hw t))); cbn [tr_mem]; [|exact M]. reflexivity.
Qed.
Lemma fstep_neg (x : b64) t : tr_mem t = fm1 -> fleb (fofZ 0) (tr_hw t) = true ->
  tr_mem (trig_step x t) = if fltb (fofZ 0) x && fleb (tr_hw t) x then f1 else fm1.
Proof.
  intros M H. unfold trig_step. cbn [nmul nleb nopp neqb n0 FNum]. rewrite M, fle_mulm1.
  destruct (is_nan x) eqn:N.
  { destruct x; try discriminate N. cbn. destruct (tr_hw t) as [[]|[]| |[]]; exact M. }
  destruct (fsign_cases x N) as [[E S]|[[E [E' S]]|[E [E' S]]]]; rewrite S; try rewrite E'; cbn [andb].
  - replace (fltb (fofZ 0) x) with false; [|destruct x as [[]|[]| |[]]; try discriminate N; try reflexivity; discriminate E].
    cbn [andb]. destruct (fleb (tr_hw t) x); cbn [tr_mem]; [rewrite feq_fm1_0; reflexivity|exact M].
  - destruct (fleb (tr_hw t) x); cbn [tr_mem]; [rewrite feq_f1_0; reflexivity|exact M].
  - destruct (fleb (tr_hw t) x); cbn [tr_mem]; [|exact M]. reflexivity.
Qed.
Lemma fstep_pm (x : b64) t : fpm1 (tr_mem t) -> fpm1 (tr_mem (trig_step x t)).
Proof.
  intros P. unfold trig_step. cbn [nmul nleb nopp neqb n0 FNum].
  destruct (is_nan x) eqn:N.
  { destruct x; try discriminate N. rewrite fmul_nan_l. exact P. }
  destruct (fleb _ _); [|exact P]. cbn [tr_mem].
  destruct (fsign_cases x N) as [[E S]|[[E [E' S]]|[E [E' S]]]]; rewrite S.
  - rewrite feq_fm1_0. right; reflexivity.
  - rewrite feq_f1_0. left; reflexivity.
  - exact P.
Qed.
Lemma fstep_hw (x : b64) t : tr_hw (trig_step x t) = tr_hw t.
Proof. unfold trig_step. destruct (nleb _ _); reflexivity. Qed.
Lemma frun_pm (xs : list b64) : forall t, fpm1 (tr_mem t) -> fpm1 (tr_mem (trig_run xs t)) /\ tr_hw (trig_run xs t) = tr_hw t.
Proof.
  induction xs as [|x xs IH]; intros t H; [split; auto|]. cbn [trig_run fold_left]. fold (trig_run xs (trig_step x t)).
  destruct (IH (trig_step x t) (fstep_pm x t H)) as [A B]. rewrite B, fstep_hw. auto.
Qed.
Lemma fnew_pm (x hw : b64) : is_nan x = false -> fpm1 (tr_mem (trig_new x hw)).
Proof.
  intros N. unfold trig_new. cbn [tr_mem neqb n0 n1 FNum].
  destruct (fsign_cases x N) as [[E S]|[[E [E' S]]|[E [E' S]]]]; rewrite S.
  - rewrite feq_fm1_0. right; reflexivity.
  - rewrite feq_f1_0. left; reflexivity.
  - left; reflexivity.
Qed.
Lemma fstep_nan (x : b64) (t : Trigger b64) : tr_mem t = B754_nan -> trig_step x t = t.
Proof. intros E. unfold trig_step. cbn [nmul nleb nopp FNum]. rewrite E, fmul_nan_r. reflexivity. Qed.
Lemma frun_nan (xs : list b64) (t : Trigger b64) : tr_mem t = B754_nan -> trig_run xs t = t.
Proof. revert t. induction xs as [|x xs IH]; intros t E; [reflexivity|]. cbn [trig_run fold_left]. rewrite fstep_nan by exact E. apply IH, E. Qed.
