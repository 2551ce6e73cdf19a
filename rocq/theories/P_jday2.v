(** * Julian dates, sidereal time, JClock *)
From Coq Require Import Reals ZArith List Bool Lia Lra Psatz Permutation.
From Flocq Require Import Core.
From Verif Require Import Num Vec M_quaternion S_cal M_jday P_jday P_jdint.
Import ListNotations.


Local Open Scope R_scope.
(** ** C20 *)
(** A clock and a datetime (microseconds since 0001-01-01) that show the same instant. *)
Definition same_instant (c : Clock R) (us : Z) : Prop :=
  exists s : Z, (0 <= s < 60000000)%Z /\ second c = IZR s / 1000000 /\ us = (clock_minute c * 60000000 + s)%Z.
Lemma julian_int (c : Clock R) h mi s : leap_second c = false ->
  julian_date c h mi s = 1721013.5 + IZR (jd_int (year c) (month c) (day c)) + (60 * IZR h + IZR mi + s / 60) / 1440.
Proof.
  intros L. unfold julian_date, jd_int. rewrite L. rewrite plus_IZR, minus_IZR, plus_IZR, mult_IZR. lra.
Qed.
Lemma j_julian_int (y m d h mi s : Z) a :
  j_julian_date (mkJ (minute_number y m d h mi * 60000000 + s) a) =
  2451544.5 + IZR (day_number y m d - day_number 2000 1 1) + (60 * IZR h + IZR mi + IZR s / 1000000 / 60) / 1440.
Proof.
  unfold j_julian_date, ref_us, minute_number. cbn [j_us].
  replace (((day_number y m d * 24 + h) * 60 + mi) * 60000000 + s - ((day_number 2000 1 1 * 24 + 12) * 60 + 0) * 60 * 1000000)%Z
    with ((day_number y m d - day_number 2000 1 1) * 86400000000 + (60 * h + mi - 720) * 60000000 + s)%Z by ring.
  rewrite !plus_IZR, !mult_IZR, !minus_IZR, plus_IZR, mult_IZR. lra.
Qed.
Lemma C20_lemma (c : Clock R) us a : clock_ok c -> (1 <= year c)%Z -> same_instant c us ->
  (julian_date c (hour c) (minute c) (second c) = j_julian_date (mkJ us a) <-> jd_window (year c) (month c)).
Proof.
  intros [[[Hm Hd] [Hh Hmi]] [HL HS]] Hy (s & Hs & Es & ->).
  rewrite julian_int by exact HS. unfold clock_minute. rewrite j_julian_int, Es.
  assert (G := jd_int_exact (year c) (month c) (day c) Hy Hm).
  rewrite <- G. change (jd_int 2000 1 1) with 730531%Z.
  split; intros E.
  - assert (E' : IZR (jd_int (year c) (month c) (day c)) - 730531 = IZR (day_number (year c) (month c) (day c) - day_number 2000 1 1)) by lra.
    rewrite <- minus_IZR in E'. apply eq_IZR in E'. exact E'.
  - apply (f_equal IZR) in E. rewrite minus_IZR in E. lra.
Qed.

(** ** C21 *)
Lemma jtick_ok dt c c' : jtick dt c = Ok c' -> j_us c' = (j_us c + ZnearestE (dt * 1000000))%Z /\ j_absolute c' = j_absolute c.
Proof. unfold jtick. destruct (datetime_ok _); [|discriminate]. intros E; injection E as <-; cbn. auto. Qed.
Definition us_sum (l : list R) : Z := fold_right (fun dt s => ZnearestE (dt * 1000000) + s)%Z 0%Z l.
Lemma jticks_ok dts : forall c c', jticks dts c = Ok c' -> j_us c' = (j_us c + us_sum dts)%Z /\ j_absolute c' = j_absolute c.
Proof.
  induction dts as [|dt r IH]; intros c c' E; cbn [jticks us_sum fold_right] in *.
  - injection E as <-. split; [lia|reflexivity].
  - destruct (jtick dt c) as [c1|] eqn:E1; [|discriminate]. cbn [rbind] in E. destruct (jtick_ok _ _ _ E1) as [H1 H2].
    destruct (IH _ _ E) as [H3 H4]. rewrite H3, H4, H1, H2. fold (us_sum r). split; [lia|reflexivity].
Qed.
(** raises only OverflowError, and only when some intermediate instant leaves years 1..9999 *)
Lemma jticks_total dts : forall c, (forall k, (k <= length dts)%nat -> (0 <= j_us c + us_sum (firstn k dts) < datetime_end)%Z) ->
  exists c', jticks dts c = Ok c'.
Proof.
  induction dts as [|dt r IH]; intros c H; [eexists; reflexivity|]. cbn [jticks].
  unfold jtick. 
  assert (K := H 1%nat ltac:(cbn; lia)). cbn [firstn us_sum fold_right] in K.
  unfold datetime_ok at 1.
  replace ((0 <=? _) && (_ <? _))%Z with true.
  2:{ symmetry; apply andb_true_iff; split; [apply Z.leb_le|apply Z.ltb_lt]; lia. }
  cbn [rbind]. apply IH. intros k Hk. cbn [j_us].
  specialize (H (S k) ltac:(cbn; lia)). cbn [firstn us_sum fold_right] in H. fold (us_sum (firstn k r)) in H. lia.
Qed.
Lemma jticks_raise dts : forall c e, jticks dts c = Raise e -> e = OverflowError /\
  exists k, (k <= length dts)%nat /\ ~ (0 <= j_us c + us_sum (firstn k dts) < datetime_end)%Z.
Proof.
  induction dts as [|dt r IH]; intros c e E; [discriminate|]. cbn [jticks] in E.
  destruct (jtick dt c) as [c1|e1] eqn:E1; cbn [rbind] in E.
  - destruct (IH _ _ E) as [-> (k & Hk & N)]. split; [reflexivity|]. exists (S k). split; [cbn; lia|].
    destruct (jtick_ok _ _ _ E1) as [H1 _]. rewrite H1 in N. cbn [firstn us_sum fold_right]. fold (us_sum (firstn k r)). lia.
  - injection E as <-. unfold jtick in E1. destruct (datetime_ok _) eqn:D; [discriminate|]. injection E1 as <-. split; [reflexivity|].
    exists 1%nat. split; [cbn; lia|]. cbn [firstn us_sum fold_right]. unfold datetime_ok in D.
    apply andb_false_iff in D. destruct D as [D|D]; [apply Z.leb_gt in D|apply Z.ltb_ge in D]; lia.
Qed.
Lemma near_k x k : Rabs (x - IZR k) < / 2 -> ZnearestE x = k.
Proof. intros H. apply Znearest_imp. exact H. Qed.
Lemma tick_whole k : ZnearestE (IZR k / 1000000 * 1000000) = k.
Proof. apply near_k. replace (IZR k / 1000000 * 1000000 - IZR k) with 0 by field. rewrite Rabs_R0. lra. Qed.
Lemma us_sum_whole ks : us_sum (map (fun k => IZR k / 1000000) ks) = fold_right Z.add 0%Z ks.
Proof. induction ks as [|k r IH]; [reflexivity|]. cbn [map us_sum fold_right]. fold (us_sum (map (fun k => IZR k / 1000000) r)). rewrite IH, tick_whole. reflexivity. Qed.
Lemma us_sum_perm a b : Permutation a b -> us_sum a = us_sum b.
Proof.
  induction 1 as [|x l l' _ IH|x y l|l l' l'' _ IH1 _ IH2]; [reflexivity| | |congruence];
  unfold us_sum in *; cbn [fold_right]; lia.
Qed.
Lemma us_sum_lost dts : Forall (fun dt => Rabs dt < 5 / 10000000) dts -> us_sum dts = 0%Z.
Proof.
  induction 1 as [|dt r H _ IH]; [reflexivity|]. cbn [us_sum fold_right]. fold (us_sum r). rewrite IH.
  rewrite (near_k _ 0); [reflexivity|]. rewrite Rminus_0_r, Rabs_mult, (Rabs_pos_eq 1000000) by lra. lra.
Qed.
Lemma tick_close dt : Rabs (IZR (ZnearestE (dt * 1000000)) / 1000000 - dt) <= 5 / 10000000.
Proof.
  assert (H := Znearest_half (fun x => negb (Z.even x)) (dt * 1000000)).
  replace (IZR (ZnearestE (dt * 1000000)) / 1000000 - dt) with (- ((dt * 1000000 - IZR (ZnearestE (dt * 1000000))) / 1000000)) by field.
  rewrite Rabs_Ropp. unfold Rdiv. rewrite Rabs_mult, (Rabs_pos_eq (/1000000)) by lra. lra.
Qed.
Lemma us_sum_mono dts : Forall (fun dt => 0 <= dt) dts -> (0 <= us_sum dts)%Z.
Proof.
  induction 1 as [|dt r H _ IH]; cbn [us_sum fold_right]; [lia|]. fold (us_sum r).
  assert (0 <= ZnearestE (dt * 1000000))%Z; [|lia].
  assert (K := Znearest_half (fun x => negb (Z.even x)) (dt * 1000000)). 
  apply Rabs_le_inv in K. apply le_IZR. apply Rnot_lt_le. intros L.
  assert (L' := L). apply lt_IZR in L'. assert (ZnearestE (dt * 1000000) <= -1)%Z as L2 by lia.
  apply IZR_le in L2. lra.
Qed.

(** ** C22 *)
Lemma C22_lemma :
  (forall c t, j_is_after c t = true <-> (t < j_us c)%Z) /\
  (forall c t, minutes_away c t = (IZR t - IZR (j_us c)) / 60000000) /\
  (forall a b, minutes_away a (j_us b) = - minutes_away b (j_us a)) /\
  (forall a b c, minutes_away a (j_us b) + minutes_away b (j_us c) = minutes_away a (j_us c)) /\
  (forall c t, 0 < minutes_away c t <-> (j_us c < t)%Z) /\
  (forall a b, minutes_away a (j_us b) < 0 <-> j_is_after a (j_us b) = true) /\
  (forall c t m, j_is_minutes_away c t m = true <-> -1 < minutes_away c t - m < 1) /\
  (forall a b, (j_eq a b = true <-> minutes_away a (j_us b) = 0) /\
     (j_is_after a (j_us b) = true \/ j_eq a b = true \/ j_is_after b (j_us a) = true)).
Proof.
  assert (F : forall c t, minutes_away c t = (IZR t - IZR (j_us c)) / 60000000).
  { intros. unfold minutes_away. rewrite minus_IZR. field. }
  assert (P : forall c t, 0 < minutes_away c t <-> (j_us c < t)%Z).
  { intros. rewrite F. split; intros H. - apply lt_IZR. lra. - apply IZR_lt in H. lra. }
  assert (A : forall c t, j_is_after c t = true <-> (t < j_us c)%Z) by (intros; unfold j_is_after; apply Z.ltb_lt).
  assert (S : forall a b, minutes_away a (j_us b) = - minutes_away b (j_us a)) by (intros; rewrite !F; lra).
  repeat match goal with |- _ /\ _ => split end; try assumption.
  - intros. rewrite !F. lra.
  - intros. rewrite A, <- P, (S a b). lra.
  - intros. unfold j_is_minutes_away. fold (minutes_away c t). rewrite Rltb_true. split; intros H.
    + apply Rabs_def2 in H. lra. + apply Rabs_def1; lra.
  - intros a b. split.
    + unfold j_eq. rewrite Z.eqb_eq, F. split; [intros ->; lra|]. intros H. apply eq_IZR. lra.
    + rewrite !A. unfold j_eq. rewrite Z.eqb_eq. lia.
Qed.
(** shifting both by the same tick changes nothing *)
Lemma minutes_away_shift a b dt a' b' : jtick dt a = Ok a' -> jtick dt b = Ok b' ->
  minutes_away a' (j_us b') = minutes_away a (j_us b) /\ j_is_after a' (j_us b') = j_is_after a (j_us b).
Proof.
  intros H1 H2. destruct (jtick_ok _ _ _ H1) as [E1 _]. destruct (jtick_ok _ _ _ H2) as [E2 _].
  unfold minutes_away, j_is_after. rewrite E1, E2. split.
  - do 3 f_equal. lia.
  - apply Bool.eq_iff_eq_true. rewrite !Z.ltb_lt. lia.
Qed.

(** ** C23 *)
Lemma dt_fields y m d h mi s : (0 <= h <= 23)%Z -> (0 <= mi <= 59)%Z -> (0 <= s < 60000000)%Z ->
  let us := (minute_number y m d h mi * 60000000 + s)%Z in
  dt_hour us = h /\ dt_minute us = mi /\ dt_second us = (s / 1000000)%Z.
Proof.
  intros Hh Hm Hs us. unfold dt_hour, dt_minute, dt_second, us, minute_number. set (D := day_number y m d).
  assert (E1 : ((((D * 24 + h) * 60 + mi) * 60000000 + s) / 60000000 = (D * 24 + h) * 60 + mi)%Z)
    by (symmetry; apply (Z.div_unique _ _ _ s); lia).
  assert (E2 : ((((D * 24 + h) * 60 + mi) * 60000000 + s) / 3600000000 = D * 24 + h)%Z)
    by (symmetry; apply (Z.div_unique _ _ _ (mi * 60000000 + s)); lia).
  assert (E3 : ((((D * 24 + h) * 60 + mi) * 60000000 + s) / 1000000 = ((D * 24 + h) * 60 + mi) * 60 + s / 1000000)%Z).
  { rewrite <- Z.div_add_l by lia. f_equal. lia. }
  assert (0 <= s / 1000000 < 60)%Z by (split; [apply Z.div_pos; lia|apply Z.div_lt_upper_bound; lia]).
  rewrite E1, E2, E3. repeat split.
  - symmetry; apply (Z.mod_unique _ _ D); lia.
  - symmetry; apply (Z.mod_unique _ _ (D * 24 + h)); lia.
  - symmetry; apply (Z.mod_unique _ _ ((D * 24 + h) * 60 + mi)); lia.
Qed.
Lemma day_diff (c : Clock R) : clock_ok c -> (1 <= year c)%Z -> jd_window (year c) (month c) ->
  IZR (jd_int (year c) (month c) (day c)) = 730531 + IZR (day_number (year c) (month c) (day c) - day_number 2000 1 1).
Proof.
  intros [[[Hm _] _] _] Hy W. apply (jd_int_exact _ _ (day c) Hy Hm) in W. change (jd_int 2000 1 1) with 730531%Z in W.
  rewrite <- W, minus_IZR. lra.
Qed.
Lemma centuries_day (c : Clock R) : clock_ok c -> (1 <= year c)%Z -> jd_window (year c) (month c) ->
  centuries_elapsed c = (IZR (day_number (year c) (month c) (day c) - day_number 2000 1 1) - 0.5) / 36525.
Proof.
  intros O Hy W. unfold centuries_elapsed. rewrite julian_int by apply O. rewrite day_diff by assumption. lra.
Qed.
(** The JClock formula keeps the fraction of the current second. *)
Lemma j_centuries_day y m d h mi s a : (0 <= h <= 23)%Z -> (0 <= mi <= 59)%Z -> (0 <= s < 60000000)%Z ->
  j_centuries_elapsed (mkJ (minute_number y m d h mi * 60000000 + s) a) =
  (IZR (day_number y m d - day_number 2000 1 1) - 0.5 + IZR (s mod 1000000) / 1000000 / 86400) / 36525.
Proof.
  intros Hh Hm Hs. unfold j_centuries_elapsed. cbn [j_us]. destruct (dt_fields y m d h mi s Hh Hm Hs) as (E1 & E2 & E3).
  rewrite E1, E2, E3. unfold ref_us, minute_number.
  assert (DM := Z.div_mod s 1000000 ltac:(lia)).
  replace (((day_number y m d * 24 + h) * 60 + mi) * 60000000 + s - ((day_number 2000 1 1 * 24 + 12) * 60 + 0) * 60 * 1000000)%Z
    with ((day_number y m d - day_number 2000 1 1) * 86400000000 + (60 * h + mi - 720) * 60000000 + (1000000 * (s / 1000000) + s mod 1000000))%Z by lia.
  rewrite !plus_IZR, !mult_IZR, !minus_IZR, plus_IZR, mult_IZR. lra.
Qed.
Lemma C23_lemma (c : Clock R) us a : clock_ok c -> (1 <= year c)%Z -> jd_window (year c) (month c) ->
  same_instant c us -> (us mod 1000000 = 0)%Z ->
  centuries_elapsed c = j_centuries_elapsed (mkJ us a) /\ gmst_seconds c = j_gmst_seconds (mkJ us a) /\
  theta_gmst c = j_theta_gmst (mkJ us a).
Proof.
  intros O Hy W (s & Hs & Es & ->) M0. unfold clock_minute in *. assert (O' := O). destruct O' as [[_ [Hh Hmi]] _].
  assert (Ms : (s mod 1000000 = 0)%Z).
  { replace (minute_number (year c) (month c) (day c) (hour c) (minute c) * 60000000 + s)%Z
      with (s + minute_number (year c) (month c) (day c) (hour c) (minute c) * 60 * 1000000)%Z in M0 by ring.
    rewrite Z.mod_add in M0 by lia. exact M0. }
  assert (E1 : centuries_elapsed c = j_centuries_elapsed (mkJ (minute_number (year c) (month c) (day c) (hour c) (minute c) * 60000000 + s) a)).
  { rewrite centuries_day, j_centuries_day by assumption. rewrite Ms. lra. }
  assert (E2 : gmst_seconds c = j_gmst_seconds (mkJ (minute_number (year c) (month c) (day c) (hour c) (minute c) * 60000000 + s) a)).
  { unfold gmst_seconds, j_gmst_seconds. rewrite <- E1. cbn [j_us].
    destruct (dt_fields (year c) (month c) (day c) (hour c) (minute c) s Hh Hmi Hs) as (F1 & F2 & F3). rewrite F1, F2, F3, Es.
    assert (D := Z.div_mod s 1000000 ltac:(lia)). rewrite Ms in D. rewrite D at 1. rewrite plus_IZR, mult_IZR. field. }
  split; [exact E1|]. split; [exact E2|]. unfold theta_gmst, j_theta_gmst. rewrite E2. reflexivity.
Qed.
Lemma Rmod_range x y : 0 < y -> 0 <= Rmod x y < y.
Proof.
  intros Hy. unfold Rmod. assert (L := Zfloor_lb (x / y)). assert (U := Zfloor_ub (x / y)).
  assert (E : x = y * (x / y)) by (field; lra). set (k := IZR (Zfloor (x / y))) in *. set (q := x / y) in *. rewrite E. split; nra.
Qed.
Lemma theta_of x : 0 <= radians (Rmod x 86400 / 240) < 2 * PI.
Proof. assert (H := Rmod_range x 86400 ltac:(lra)). unfold radians. rnumg. assert (P := PI_RGT_0). split; nra. Qed.
Lemma theta_diff x y : exists k : Z, radians (Rmod y 86400 / 240) - radians (Rmod x 86400 / 240) = 2 * PI * (y - x) / 86400 + 2 * PI * IZR k.
Proof.
  exists (Zfloor (x / 86400) - Zfloor (y / 86400))%Z. unfold Rmod, radians. rewrite minus_IZR. field.
Qed.
Lemma theta_rate (c c' : Clock R) : year c' = year c -> month c' = month c -> day c' = day c -> leap_second c = leap_second c' ->
  exists k : Z, theta_gmst c' - theta_gmst c =
    2 * PI * 1.002737909350795 * ((3600 * IZR (hour c') + 60 * IZR (minute c') + second c') - (3600 * IZR (hour c) + 60 * IZR (minute c) + second c)) / 86400 + 2 * PI * IZR k.
Proof.
  intros E1 E2 E3 E4. destruct (theta_diff (gmst_seconds c) (gmst_seconds c')) as [k H]. exists k. unfold theta_gmst. rewrite H.
  unfold gmst_seconds. replace (centuries_elapsed c') with (centuries_elapsed c) by (unfold centuries_elapsed, julian_date; rewrite E1, E2, E3, E4; reflexivity).
  field.
Qed.
Lemma window_days y m d : valid_date y m d -> jd_window y m -> (-36525 <= day_number y m d - day_number 2000 1 1 <= 36585)%Z.
Proof.
  intros V [W1 W2]. split.
  - assert (D : (day_number 1900 3 1 <= day_number y m d)%Z).
    { assert (date_lt 1900 3 1 y m d \/ (y = 1900 /\ m = 3 /\ d = 1)%Z) as [L|(-> & -> & ->)] by (unfold date_lt; destruct V; lia).
      - apply day_number_lt in L; [lia| |exact V]. split; cbn; lia.
      - lia. }
    change (day_number 1900 3 1) with 693654%Z in D. change (day_number 2000 1 1) with 730119%Z. lia.
  - assert (D : (day_number y m d < day_number 2100 3 1)%Z).
    { apply day_number_lt; [exact V|split; cbn; lia|]. unfold date_lt. destruct V; lia. }
    change (day_number 2100 3 1) with 766703%Z in D. change (day_number 2000 1 1) with 730119%Z. lia.
Qed.
(** Across midnight the two formulas meet within 10 microseconds of sidereal time. *)
Lemma gmst_continuous (c c' : Clock R) : clock_ok c -> clock_ok c' -> (1 <= year c)%Z -> (1 <= year c')%Z ->
  jd_window (year c) (month c) -> jd_window (year c') (month c') ->
  day_number (year c') (month c') (day c') = (day_number (year c) (month c) (day c) + 1)%Z ->
  let tod c := 3600 * IZR (hour c) + 60 * IZR (minute c) + second c in
  Rabs (gmst_seconds c' - (gmst_seconds c + 1.002737909350795 * (86400 + tod c' - tod c)) + 86400) <= 1 / 100000.
Proof.
  intros O O' Hy Hy' W W' E tod. unfold gmst_seconds. rewrite !centuries_day by assumption. rewrite E.
  assert (B := window_days _ _ _ (proj1 (proj1 O)) W). set (n := (day_number (year c) (month c) (day c) - day_number 2000 1 1)%Z) in *.
  replace (day_number (year c) (month c) (day c) + 1 - day_number 2000 1 1)%Z with (n + 1)%Z by (unfold n; ring).
  rewrite plus_IZR. destruct B as [B1 B2]. apply IZR_le in B1, B2. unfold tod.
  set (T := (IZR n - 0.5) / 36525). replace ((IZR n + 1 - 0.5) / 36525) with (T + 1 / 36525) by (unfold T; field).
  assert (T1 : -1.01 <= T <= 1.01) by (unfold T; lra). clearbody T.
  assert (P : gmst_poly (T + 1 / 36525) - gmst_poly T = 8640184.812866 * (1 / 36525) + 0.093104 * ((2 * T + 1 / 36525) * (1 / 36525))
     - 6.2 / 10 ^ 6 * ((3 * T ^ 2 + 3 * T * (1 / 36525) + (1 / 36525) ^ 2) * (1 / 36525))).
  { unfold gmst_poly. generalize (1 / 36525) 8640184.812866 0.093104 (6.2 / 10 ^ 6). intros. ring. }
  assert (S2 : 0 <= T ^ 2 <= 1.1) by (split; nra). revert S2 P. generalize (T ^ 2). intros S S2 P.
  apply Rabs_le. split; lra.
Qed.

(** ** Steps that divide the minute keep time exactly, for ever. *)
Lemma divisor_step (k : nat) (c : Clock R) : (1 <= k)%nat -> INR k < 6000000 -> clock_ok c -> second c = 0 ->
  forall n, let c' := ticks (repeat (60 / INR k) n) c in
    clock_ok c' /\ chron c' = chron c + INR n * (60 / INR k) /\
    exists r, (r < k)%nat /\ second c' = INR r * (60 / INR k).
Proof.
  intros Hk K1 Hc Hs n. cbv zeta. assert (K0 : 1 <= INR k) by (change 1 with (INR 1); apply le_INR; lia).
  assert (DK : INR k * (60 / INR k) = 60) by (field; lra).
  assert (D1 : 1 / 100000 < 60 / INR k).
  { apply (Rmult_lt_reg_l (INR k)); [lra|]. rewrite DK. lra. }
  set (dt := 60 / INR k) in *. clearbody dt.
  induction n as [|n IH].
  - cbn [repeat ticks fold_left]. split; [exact Hc|]. split; [simpl; lra|]. exists 0%nat. split; [lia|]. rewrite Hs. simpl. lra.
  - destruct IH as (O & C & r & Hr & S).
    replace (repeat dt (Datatypes.S n)) with (repeat dt n ++ [dt]) by (rewrite <- repeat_cons; reflexivity).
    rewrite ticks_app. cbn [ticks fold_left]. change (fold_left (fun (c : Clock R) dt => tick dt c) (repeat dt n) c) with (ticks (repeat dt n) c).
    set (cn := ticks (repeat dt n) c) in *. destruct (tick_R dt cn O) as (O' & _ & St1 & St2).
    split; [exact O'|]. destruct (Nat.eq_dec (Datatypes.S r) k) as [E|E].
    + assert (E' : INR r + 1 = INR k) by (rewrite <- S_INR, E; reflexivity).
      assert (L : Rabs (second cn + dt - 60) < 1 / 100000).
      { rewrite S. replace (INR r * dt + dt - 60) with (INR k * dt - 60) by (rewrite <- E'; ring). rewrite DK.
        replace (60 - 60) with 0 by ring. rewrite Rabs_R0. lra. }
      destruct (St1 L) as [M Z0]. split.
      * unfold chron in *. rewrite M, Z0, plus_IZR, S_INR. rewrite S in C. rewrite <- E' in DK. lra.
      * exists 0%nat. split; [lia|]. rewrite Z0. simpl. lra.
    + assert (L : 1 / 100000 <= Rabs (second cn + dt - 60)).
      { rewrite S. assert (INR (Datatypes.S (Datatypes.S r)) <= INR k) as L by (apply le_INR; lia). rewrite !S_INR in L.
        assert ((INR r + 1 + 1) * dt <= INR k * dt) by (apply Rmult_le_compat_r; lra).
        rewrite Rabs_left1; lra. }
      destruct (St2 L) as [F S2]. split.
      * unfold chron, clock_minute in *. unfold fields in F. injection F; intros F1 F2 F3 F4 F5. rewrite F1, F2, F3, F4, F5, S2, S_INR. lra.
      * exists (Datatypes.S r). split; [lia|]. rewrite S2, S, S_INR. ring.
Qed.
Lemma ticks_minute_mono (dts : list R) : forall c, clock_ok c -> (clock_minute c <= clock_minute (ticks dts c) <= clock_minute c + Z.of_nat (length dts))%Z.
Proof.
  induction dts as [|dt r IH]; intros c Hc; [cbn; lia|].
  change (ticks (dt :: r) c) with (ticks r (tick dt c)). destruct (tick_R dt c Hc) as (O & _ & A & B).
  specialize (IH _ O). cbn [length]. destruct (Rlt_le_dec (Rabs (second c + dt - 60)) (1 / 100000)) as [H|H].
  - destruct (A H) as [A1 _]. lia.
  - destruct (B H) as [B1 _]. unfold fields in B1. injection B1; intros F1 F2 F3 F4 F5. unfold clock_minute in *.
    rewrite F1, F2, F3, F4, F5 in IH. lia.
Qed.
(** ** Errors of a tick history, both directions *)
Lemma jticks_errors dts : forall c,
  (forall e, jticks dts c = Raise e -> e = OverflowError) /\
  ((exists e, jticks dts c = Raise e) <->
   exists k, (k <= length dts)%nat /\ (1 <= k)%nat /\ ~ (0 <= j_us c + us_sum (firstn k dts) < day_number 10000 1 1 * 86400000000)%Z).
Proof.
  change (day_number 10000 1 1 * 86400000000)%Z with datetime_end.
  induction dts as [|dt r IH]; intros c.
  - split; [discriminate|]. split; [intros [e H]; discriminate|]. intros (k & H1 & H2 & _). cbn in H1. lia.
  - cbn [jticks]. unfold jtick. destruct (datetime_ok (j_us c + ZnearestE (dt * 1000000))) eqn:D; cbn [rbind].
    + destruct (IH (mkJ (j_us c + ZnearestE (dt * 1000000)) (j_absolute c))) as [I1 I2]. cbn [j_us] in I2.
      split; [exact I1|]. rewrite I2. apply andb_true_iff in D. destruct D as [D1 D2]. apply Z.leb_le in D1. apply Z.ltb_lt in D2.
      split.
      * intros (k & K1 & K2 & N). exists (S k). split; [cbn; lia|]. split; [lia|]. cbn [firstn]. unfold us_sum in *. cbn [fold_right]. lia.
      * intros ([|k] & K1 & K2 & N); [lia|]. cbn [length] in K1. cbn [firstn] in N. unfold us_sum in *. cbn [fold_right] in N.
        exists k. split; [lia|]. destruct k as [|k]; [cbn [firstn fold_right] in N; lia|]. split; [lia|]. lia.
    + split; [intros e H; congruence|]. split; [|intros _; eexists; reflexivity]. intros _. exists 1%nat. split; [cbn; lia|]. split; [lia|].
      cbn [firstn us_sum fold_right]. apply andb_false_iff in D. destruct D as [D|D]; [apply Z.leb_gt in D|apply Z.ltb_ge in D]; lia.
Qed.

(** ** sync histories *)
Fixpoint syncs (nows : list Z) (c : JClock) : JClock * list R :=
  match nows with
  | [] => (c, [])
  | n :: r => let '(c', d) := jsync n c in let '(c'', ds) := syncs r c' in (c'', d :: ds)
  end.
Lemma syncs_sum nows : forall c,
  fold_right Rplus 0 (snd (syncs nows c)) = IZR (j_us (fst (syncs nows c)) - j_us c) / 1000000 /\
  j_us (fst (syncs nows c)) = last nows (j_us c).
Proof.
  induction nows as [|n r IH]; intros c; cbn [syncs jsync].
  - cbn [fst snd fold_right last]. replace (j_us c - j_us c)%Z with 0%Z by lia. split; [lra|reflexivity].
  - destruct (IH (mkJ n (j_absolute c))) as [I1 I2]. destruct (syncs r (mkJ n (j_absolute c))) as [c2 ds]. cbn [fst snd fold_right j_us] in *.
    rewrite I1, !minus_IZR. split; [lra|]. rewrite I2. destruct r as [|a r]; [reflexivity|]. cbn [last].
    clear. revert a. induction r as [|b r IH]; intros; [reflexivity|]. cbn [last]. apply IH.
Qed.

Lemma microseconds_lost : exists j j', j_us j' = (j_us j + 500000)%Z /\ 
  0 <= j_gmst_seconds j' - j_gmst_seconds j < 1 / 500.
Proof.
  exists (mkJ (minute_number 2000 1 1 12 0 * 60000000 + 0) 0), (mkJ (minute_number 2000 1 1 12 0 * 60000000 + 500000) 0).
  split; [cbn [j_us]; lia|]. unfold j_gmst_seconds. rewrite !j_centuries_day by lia. cbn [j_us].
  destruct (dt_fields 2000 1 1 12 0 0 ltac:(lia) ltac:(lia) ltac:(lia)) as (E1 & E2 & E3).
  destruct (dt_fields 2000 1 1 12 0 500000 ltac:(lia) ltac:(lia) ltac:(lia)) as (F1 & F2 & F3).
  rewrite E1, E2, E3, F1, F2, F3. change (0 mod 1000000)%Z with 0%Z. change (500000 mod 1000000)%Z with 500000%Z.
  replace (day_number 2000 1 1 - day_number 2000 1 1)%Z with 0%Z by ring. change (0 / 1000000)%Z with 0%Z. change (500000 / 1000000)%Z with 0%Z.
  unfold gmst_poly. lra.
Qed.
